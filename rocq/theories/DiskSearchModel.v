(** The search on disk, without product quantization: disk_greedy_search
    (include/index/graph/diskann/beam_search.hpp:125-168, 184-465)
    with the scratch of a search thread
    (include/index/graph/diskann/search_scratch.hpp:40-325).

    A node is marked visited before it is read, and read at most once in a
    search, so its record is a function of its id: its neighbours [d_nbrs] and its
    distance to the query [d_dist].  That a page read
    from the node cache, from the page cache or from the file holds the node's
    record is the subject of C41-C43.  What is not under the control of the
    search is given by arbitrary functions: where each node is found ([src])
    and which reads have completed when ([events]).  Distances are integers
    ordered like the floats (NaN excluded).  Statistics, timing, prefetching,
    page versions and failed reads (they throw) are left out. *)
From Verif Require Export SearchModel.

(** ** ThreadData *)

(** search_scratch.hpp:69-109.  Offsets are (start, len).  [td_inflight] is
    indexed by page slot and holds the id being read; the record pointer of
    InFlightSlot points into that slot.  [td_sector] says of each page slot
    which node's page was read into it last.  [td_free], nbrs_free_offsets, is
    kept with its back first.  [td_exact], exact_dists, has None for NaN.
    nbrs_buf_next is never read and left out. *)
Record thread_data := {
  td_visited : visited_bitset;
  td_front : npq;
  td_exact : list (option Z);
  td_exact_dirty : list N;
  td_buf : list N;
  td_offsets : list (N * N);
  td_dirty : list N;
  td_slot_len : N;
  td_free : list N;
  td_inflight : list (option N);
  td_sector : list N;
}.
Definition with_visited (t : thread_data) v := {| td_visited := v; td_front := td_front t; td_exact := td_exact t; td_exact_dirty := td_exact_dirty t;
  td_buf := td_buf t; td_offsets := td_offsets t; td_dirty := td_dirty t; td_slot_len := td_slot_len t; td_free := td_free t;
  td_inflight := td_inflight t; td_sector := td_sector t |}.
Definition with_front (t : thread_data) q := {| td_visited := td_visited t; td_front := q; td_exact := td_exact t; td_exact_dirty := td_exact_dirty t;
  td_buf := td_buf t; td_offsets := td_offsets t; td_dirty := td_dirty t; td_slot_len := td_slot_len t; td_free := td_free t;
  td_inflight := td_inflight t; td_sector := td_sector t |}.
Definition with_exact (t : thread_data) e d := {| td_visited := td_visited t; td_front := td_front t; td_exact := e; td_exact_dirty := d;
  td_buf := td_buf t; td_offsets := td_offsets t; td_dirty := td_dirty t; td_slot_len := td_slot_len t; td_free := td_free t;
  td_inflight := td_inflight t; td_sector := td_sector t |}.
Definition with_lists (t : thread_data) buf off dirty free := {| td_visited := td_visited t; td_front := td_front t; td_exact := td_exact t;
  td_exact_dirty := td_exact_dirty t; td_buf := buf; td_offsets := off; td_dirty := dirty; td_slot_len := td_slot_len t; td_free := free;
  td_inflight := td_inflight t; td_sector := td_sector t |}.
Definition with_io (t : thread_data) infl sec := {| td_visited := td_visited t; td_front := td_front t; td_exact := td_exact t;
  td_exact_dirty := td_exact_dirty t; td_buf := td_buf t; td_offsets := td_offsets t; td_dirty := td_dirty t; td_slot_len := td_slot_len t;
  td_free := td_free t; td_inflight := infl; td_sector := sec |}.

(** The free list filled by reset_neighbors, 316-319: push_back of
    slot * nbrs_slot_len for each slot, so the last slot is the first taken.
    The products are 32-bit; the buffer is assumed to have less than 2^32
    entries. *)
Definition slot_starts (n_slots : nat) (slot_len : N) : list N :=
  rev (map (fun i => (N.of_nat i * slot_len)%N) (seq 0 n_slots)).
(** for (id : dirty) v[id] = x, 303-305 and 310-312 *)
Fixpoint put_all {A} (v : list A) (ids : list N) (x : A) : res (list A) :=
  match ids with [] => Ok v | id :: rest => let* v' := aput v id x in put_all v' rest x end.
(** reset_neighbors, 309-320 *)
Definition reset_neighbors (t : thread_data) : res thread_data :=
  let* off := put_all (td_offsets t) (td_dirty t) (0, 0)%N in
  Ok (with_lists t (td_buf t) off []
        (if N.eqb (td_slot_len t) 0 then []
         else slot_starts (N.to_nat (N.of_nat (length (td_buf t)) / td_slot_len t)) (td_slot_len t))).
(** reset_exact_dists, 302-307 *)
Definition reset_exact_dists (t : thread_data) : res thread_data :=
  let* e := put_all (td_exact t) (td_exact_dirty t) None in Ok (with_exact t e []).
(** clear_inflight, 322-326 *)
Definition clear_inflight (t : thread_data) : thread_data := with_io t (map (fun _ => None) (td_inflight t)) (td_sector t).
(** reset_query, 118-125 *)
Definition reset_query (t : thread_data) (search_list_size : nat) : res thread_data :=
  let* v := vb_clear (td_visited t) in
  let* t1 := reset_exact_dists (with_visited t v) in
  let* t2 := reset_neighbors t1 in
  let t3 := clear_inflight t2 in
  Ok (with_front t3 (npq_clear (npq_reserve (td_front t3) search_list_size))).
(** A thread data after alloc_scratch, 128-157 (the queue is a default one,
    robust_prune.hpp:46, 118-121).  What the sector buffer holds at first does
    not matter; 0 stands for it. *)
Definition alloc_scratch (n_page_slots max_slot_id max_degree search_list_size : N) : res thread_data :=
  if N.eqb n_page_slots 0 || N.eqb max_slot_id 0 then Throws
  else reset_neighbors
    {| td_visited := vb_resize max_slot_id;
       td_front := {| q_size := 0; q_cap := 0; q_cur := 0; q_data := [] |};
       td_exact := repeat None (N.to_nat max_slot_id); td_exact_dirty := [];
       td_buf := repeat 0%N (N.to_nat (search_list_size * max_degree));
       td_offsets := repeat (0, 0)%N (N.to_nat max_slot_id); td_dirty := []; td_slot_len := max_degree; td_free := [];
       td_inflight := repeat None (N.to_nat n_page_slots); td_sector := repeat 0%N (N.to_nat n_page_slots) |}.
(** resize_slot_capacity, 111-118: VisitedBitset::resize forgets the bits *)
Definition resize_slot_capacity (t : thread_data) (max_slot_id : N) : thread_data :=
  if N.leb max_slot_id (vb_bits (td_visited t)) then t
  else
    {| td_visited := vb_resize max_slot_id; td_front := td_front t;
       td_exact := td_exact t ++ repeat None (N.to_nat max_slot_id - length (td_exact t)); td_exact_dirty := td_exact_dirty t;
       td_buf := td_buf t; td_offsets := td_offsets t ++ repeat (0, 0)%N (N.to_nat max_slot_id - length (td_offsets t));
       td_dirty := td_dirty t; td_slot_len := td_slot_len t; td_free := td_free t;
       td_inflight := td_inflight t; td_sector := td_sector t |}.

(** set_exact_dist, 194-202 *)
Definition set_exact_dist (t : thread_data) (id : N) (d : Z) : res thread_data :=
  if N.leb (N.of_nat (length (td_exact t))) id then Throws
  else let* old := aget (td_exact t) id in
       let* e := aput (td_exact t) id (Some d) in
       Ok (with_exact t e (match old with None => td_exact_dirty t ++ [id] | Some _ => td_exact_dirty t end)).
(** exact_dist, 204-209 *)
Definition exact_dist (t : thread_data) (id : N) : res (option Z) :=
  if N.leb (N.of_nat (length (td_exact t))) id then Throws else aget (td_exact t) id.
(** copy_n into the buffer and a view of it *)
Definition copy_n (buf : list N) (start : N) (l : list N) : res (list N) :=
  if N.leb (start + N.of_nat (length l)) (N.of_nat (length buf))
  then Ok (firstn (N.to_nat start) buf ++ l ++ skipn (N.to_nat start + length l) buf) else OutOfBounds.
Definition view (buf : list N) (start len : N) : res (list N) :=
  if N.leb (start + len) (N.of_nat (length buf)) then Ok (firstn (N.to_nat len) (skipn (N.to_nat start) buf)) else OutOfBounds.
(** cache_neighbors, 219-239 *)
Definition cache_neighbors (t : thread_data) (id : N) (nbrs : list N) : res thread_data :=
  if N.leb (N.of_nat (length (td_offsets t))) id then Throws
  else if N.ltb (td_slot_len t) (N.of_nat (length nbrs)) then Throws
  else match nbrs with
       | [] => let* off := aput (td_offsets t) id (0, 0)%N in Ok (with_lists t (td_buf t) off (td_dirty t) (td_free t))
       | _ =>
           match td_free t with
           | [] => Throws
           | start :: free =>
               let* buf := copy_n (td_buf t) start nbrs in
               let* off := aput (td_offsets t) id (start, N.of_nat (length nbrs)) in
               Ok (with_lists t buf off (td_dirty t ++ [id]) free)
           end
       end.
(** cached_neighbors, 241-247 *)
Definition cached_neighbors (t : thread_data) (id : N) : res (list N) :=
  if N.leb (N.of_nat (length (td_offsets t))) id then Throws
  else let* o := aget (td_offsets t) id in
       if N.eqb (snd o) 0 then Ok [] else view (td_buf t) (fst o) (snd o).
(** release_cached_neighbors, 249-260 *)
Definition release_cached_neighbors (t : thread_data) (id : N) : res thread_data :=
  if N.leb (N.of_nat (length (td_offsets t))) id then Throws
  else let* o := aget (td_offsets t) id in
       if N.eqb (snd o) 0 then Ok t
       else let* off := aput (td_offsets t) id (0, 0)%N in
            Ok (with_lists t (td_buf t) off (td_dirty t) (fst o :: td_free t)).
(** set_inflight, 262-267, and the read of the node's page into the slot *)
Definition set_inflight (t : thread_data) (slot id : N) : res thread_data :=
  if N.leb (N.of_nat (length (td_inflight t))) slot then Throws
  else let* infl := aput (td_inflight t) slot (Some id) in
       let* sec := aput (td_sector t) slot id in
       Ok (with_io t infl sec).
(** has_inflight, 269-273 *)
Definition has_inflight (t : thread_data) : bool :=
  existsb (fun s => match s with Some _ => true | None => false end) (td_inflight t).
(** remove_inflight, 275-285: the first slot reading the id *)
Fixpoint find_inflight (infl : list (option N)) (slot id : N) : option N :=
  match infl with
  | [] => None
  | Some i :: rest => if N.eqb i id then Some slot else find_inflight rest (slot + 1)%N id
  | None :: rest => find_inflight rest (slot + 1)%N id
  end.
Definition remove_inflight (t : thread_data) (id : N) : res (option (N * thread_data)) :=
  match find_inflight (td_inflight t) 0%N id with
  | None => Ok None
  | Some slot => let* infl := aput (td_inflight t) slot None in Ok (Some (slot, with_io t infl (td_sector t)))
  end.

(** ** The index as a search sees it: SearchContext, 81-99, and the records *)
Record disk := {
  d_nbrs : N -> list N; d_dist : N -> Z;
  d_deleted : N -> bool;   (* tombstone != nullptr && tombstone->is_deleted *)
  d_points : N; d_medoid : N;
}.
(** Where a record is found: NodeCache::lookup_record, search_peek_page or a
    device read *)
Inductive source := Cached | Peeked | Device.

(** ** disk_greedy_search *)

(** absorb, 210-224: [rec] is the node whose record is parsed *)
Definition absorb (d : disk) (t : thread_data) (id rec : N) : res thread_data :=
  let* (r, q) := npq_insert (td_front t) {| n_id := id; n_dist := d_dist d rec; n_exp := false |} in
  let t1 := with_front t q in
  let* t2 := match r_evicted r with Some e => release_cached_neighbors t1 e | None => Ok t1 end in
  if r_inserted r then cache_neighbors t2 id (d_nbrs d rec) else Ok t2.
(** consider for all neighbours, 261-269, 293-298 and 363-368: the ids emitted *)
Fixpoint consider (d : disk) (t : thread_data) (nbrs : list N) : res (thread_data * list N) :=
  match nbrs with
  | [] => Ok (t, [])
  | m :: rest =>
      if N.leb (d_points d) m then consider d t rest
      else
        let* (fresh, v) := vb_test_and_set (td_visited t) m in
        let t1 := with_visited t v in
        if negb fresh || d_deleted d m then consider d t1 rest
        else let* (t2, out) := consider d t1 rest in Ok (t2, m :: out)
  end.
(** Taking the closest unexpanded node and considering its neighbours, 290-298
    and 361-368 *)
Definition expand (d : disk) (t : thread_data) : res (thread_data * N * list N) :=
  let* (n, q) := closest_unexpanded (td_front t) in
  let t1 := with_front t q in
  let* nbrs := cached_neighbors t1 (n_id n) in
  let* (t2, out) := consider d t1 nbrs in
  Ok (t2, n_id n, out).

(** Reading a chunk, 300-346: each node with the slot its page is read into
    (None: the record is in the cache); slots are taken in order.  The page
    peeked or read is put into the slot at once; all the slots differ. *)
Fixpoint read_chunk (src : N -> source) (sector : list N) (slot : N) (ids : list N) : res (list (N * option N) * list N) :=
  match ids with
  | [] => Ok ([], sector)
  | m :: rest =>
      match src m with
      | Cached => let* (recs, sec) := read_chunk src sector slot rest in Ok ((m, None) :: recs, sec)
      | _ => let* sec1 := aput sector slot m in
             let* (recs, sec) := read_chunk src sec1 (slot + 1)%N rest in Ok ((m, Some slot) :: recs, sec)
      end
  end.
(** The record parsed *)
Definition record_in (t : thread_data) (id : N) (slot : option N) : res N :=
  match slot with None => Ok id | Some s => aget (td_sector t) s end.
(** 347-349 *)
Fixpoint absorb_all (d : disk) (t : thread_data) (recs : list (N * option N)) : res thread_data :=
  match recs with
  | [] => Ok t
  | (id, slot) :: rest => let* r := record_in t id slot in let* t' := absorb d t id r in absorb_all d t' rest
  end.
Definition n_page_slots (t : thread_data) : nat := Nat.max 1 (length (td_sector t)).
(** The loop over the chunks, 299-350: at most one chunk per node *)
Fixpoint absorb_chunks (d : disk) (src : N -> source) (fuel : nat) (t : thread_data) (todo : list N) : res thread_data :=
  match fuel, todo with
  | O, _ => Ok t
  | _, [] => Ok t
  | S k, _ =>
      let* (recs, sec) := read_chunk src (td_sector t) 0%N (firstn (n_page_slots t) todo) in
      let* t' := absorb_all d (with_io t (td_inflight t) sec) recs in
      absorb_chunks d src k t' (skipn (n_page_slots t) todo)
  end.
(** The deterministic mode, 281-351 *)
Fixpoint barrier_loop (fuel : nat) (d : disk) (src : N -> source) (t : thread_data) (expanded : list N) : fuelled (thread_data * list N) :=
  if has_unexpanded_node (td_front t) then
    match fuel with
    | O => OutOfFuel
    | S k =>
        match (let* (t1, x, todo) := expand d t in
               let* t2 := absorb_chunks d src (length todo) t1 todo in Ok (t2, expanded ++ [x])) with
        | Ok (t', e') => barrier_loop k d src t' e'
        | OutOfBounds => Done OutOfBounds
        | InvalidBool => Done InvalidBool
        | Throws => Done Throws
        end
    end
  else Done (Ok (t, expanded)).

(** The asynchronous mode: the thread data, the free page slots (back first),
    the pending ids (front first) and the nodes expanded *)
Record pipe := { pp_td : thread_data; pp_free : list N; pp_pending : list N; pp_expanded : list N }.
(** refill_pending, 359-371 *)
Fixpoint refill_pending (fuel : nat) (d : disk) (p : pipe) : fuelled pipe :=
  if Nat.ltb (length (pp_pending p)) (length (pp_free p)) && has_unexpanded_node (td_front (pp_td p)) then
    match fuel with
    | O => OutOfFuel
    | S k =>
        match expand d (pp_td p) with
        | Ok (t, x, out) => refill_pending k d {| pp_td := t; pp_free := pp_free p; pp_pending := pp_pending p ++ out; pp_expanded := pp_expanded p ++ [x] |}
        | OutOfBounds => Done OutOfBounds
        | InvalidBool => Done InvalidBool
        | Throws => Done Throws
        end
    end
  else Done (Ok p).
(** submit_pending, 377-413 *)
Fixpoint submit (d : disk) (src : N -> source) (t : thread_data) (free pending : list N) : res (thread_data * list N * list N) :=
  match pending with
  | [] => Ok (t, free, [])
  | m :: rest =>
      match free with
      | [] => Ok (t, [], pending)
      | slot :: free' =>
          match src m with
          | Device => let* t' := set_inflight t slot m in submit d src t' free' rest
          | _ => let* t' := absorb d t m m in submit d src t' free rest
          end
      end
  end.
(** One event per completed read, 423-442 *)
Fixpoint complete (d : disk) (t : thread_data) (free : list N) (evts : list N) : res (thread_data * list N) :=
  match evts with
  | [] => Ok (t, free)
  | id :: rest =>
      let* r := remove_inflight t id in
      match r with
      | None => complete d t free rest
      | Some (slot, t1) =>
          let* rec := aget (td_sector t1) slot in
          let* t2 := absorb d t1 id rec in
          complete d t2 (slot :: free) rest
      end
  end.
Definition inflight_ids (t : thread_data) : list N :=
  flat_map (fun s => match s with Some i => [i] | None => [] end) (td_inflight t).
Definition is_nil {A} (l : list A) : bool := match l with [] => true | _ => false end.
(** refill and submit, 415-416 and 444-445 *)
Definition refill_and_submit (fuel : nat) (d : disk) (src : N -> source) (p : pipe) : fuelled pipe :=
  match refill_pending fuel d p with
  | Done (Ok p1) =>
      Done (let* (t, free, pending) := submit d src (pp_td p1) (pp_free p1) (pp_pending p1) in
            Ok {| pp_td := t; pp_free := free; pp_pending := pending; pp_expanded := pp_expanded p1 |})
  | other => other
  end.
(** The main loop, 420-446; [events i ids]: the completions get_events returns
    in round [i] when the reads of [ids] are in flight *)
Fixpoint pipe_loop (fuel : nat) (d : disk) (src : N -> source) (events : nat -> list N -> list N) (round : nat) (p : pipe) : fuelled pipe :=
  if has_inflight (pp_td p) || negb (is_nil (pp_pending p)) || has_unexpanded_node (td_front (pp_td p)) then
    match fuel with
    | O => OutOfFuel
    | S k =>
        match (if has_inflight (pp_td p) then complete d (pp_td p) (pp_free p) (events round (inflight_ids (pp_td p)))
               else Ok (pp_td p, pp_free p)) with
        | Ok (t, free) =>
            match refill_and_submit fuel d src {| pp_td := t; pp_free := free; pp_pending := pp_pending p; pp_expanded := pp_expanded p |} with
            | Done (Ok p') => pipe_loop k d src events (round + 1) p'
            | other => other
            end
        | OutOfBounds => Done OutOfBounds
        | InvalidBool => Done InvalidBool
        | Throws => Done Throws
        end
    end
  else Done (Ok p).
(** 352-357 and 415-446 *)
Definition pipe_search (fuel : nat) (d : disk) (src : N -> source) (events : nat -> list N -> list N) (t : thread_data) : fuelled (thread_data * list N) :=
  let free := rev (map N.of_nat (seq 0 (n_page_slots t))) in
  match refill_and_submit fuel d src {| pp_td := t; pp_free := free; pp_pending := []; pp_expanded := [] |} with
  | Done (Ok p) =>
      match pipe_loop fuel d src events 0 p with
      | Done (Ok p') => Done (Ok (pp_td p', pp_expanded p'))
      | OutOfFuel => OutOfFuel
      | Done OutOfBounds => Done OutOfBounds
      | Done InvalidBool => Done InvalidBool
      | Done Throws => Done Throws
      end
  | OutOfFuel => OutOfFuel
  | Done OutOfBounds => Done OutOfBounds
  | Done InvalidBool => Done InvalidBool
  | Done Throws => Done Throws
  end.
(** The results, 449-457 *)
Fixpoint take_live (deleted : N -> bool) (top_k : nat) (l : list (N * Z)) : list (N * Z) :=
  match top_k, l with
  | O, _ => []
  | _, [] => []
  | S k, (id, x) :: rest => if deleted id then take_live deleted top_k rest else (id, x) :: take_live deleted k rest
  end.
Definition front_list (t : thread_data) : list (N * Z) := npq_prefix (td_front t) (q_size (td_front t)).
(** disk_greedy_search, 184-459; the seed's record is its own in every case
    (226-258).  [deterministic] chooses the mode.  Beside the results the final
    scratch and the expanded nodes. *)
Definition disk_greedy_search (fuel : nat) (d : disk) (src : N -> source) (events : nat -> list N -> list N)
    (deterministic : bool) (t : thread_data) (top_k search_list_size : nat) : fuelled (list (N * Z) * thread_data * list N) :=
  let list_size := Nat.max search_list_size top_k in
  match (let* t0 := reset_query t list_size in
         let* v := vb_set (td_visited t0) (d_medoid d) in
         absorb d (with_visited t0 v) (d_medoid d) (d_medoid d)) with
  | Ok t1 =>
      match (if deterministic then barrier_loop fuel d src t1 [] else pipe_search fuel d src events t1) with
      | OutOfFuel => OutOfFuel
      | Done r => Done (let* (t2, e) := r in Ok (take_live (d_deleted d) top_k (front_list t2), t2, e))
      end
  | OutOfBounds => Done OutOfBounds
  | InvalidBool => Done InvalidBool
  | Throws => Done Throws
  end.
