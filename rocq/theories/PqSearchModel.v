(** The search on disk with product quantization: the PQ part of
    cached_beam_search (include/index/graph/diskann/beam_search.hpp:476-793)
    and scan_and_insert_neighbors (125-168).

    As in DiskSearchModel, a node's record is a function of its id, the sources
    of records and the order of completions are arbitrary functions, distances
    are integers ordered like the floats (NaN excluded), and statistics (but
    n_rerank_reads), timing, prefetching, page versions and failed reads are
    left out.  [pq id] is pq.pq_distance(id, pq_table) for the query at hand;
    pq_distance_batch computes the same sums (pq_table.hpp; C74 is about
    them). *)
From Verif Require Export DiskSearchModel.

(** SearchParams, 70-79 *)
Record pq_params := { pq_beam_width : N; pq_rerank : bool; pq_rerank_count : nat; pq_is_deterministic : bool }.

(** flush, 142-148: the tile's ids are inserted in order *)
Fixpoint insert_tile (pq : N -> Z) (q : npq) (ids : list N) : res npq :=
  match ids with
  | [] => Ok q
  | m :: rest => let* (r, q') := npq_insert q {| n_id := m; n_dist := pq m; n_exp := false |} in insert_tile pq q' rest
  end.
(** scan_and_insert_neighbors, 125-168; [tile] holds ids[0 .. cnt) *)
Definition kScanTile : nat := 128.
Fixpoint scan_neighbors (d : disk) (pq : N -> Z) (t : thread_data) (tile nbrs : list N) : res thread_data :=
  match nbrs with
  | [] => let* q := insert_tile pq (td_front t) tile in Ok (with_front t q)
  | m :: rest =>
      if N.leb (d_points d) m then scan_neighbors d pq t tile rest
      else if d_deleted d m then scan_neighbors d pq t tile rest
      else
        let* (fresh, v) := vb_test_and_set (td_visited t) m in
        let t1 := with_visited t v in
        if negb fresh then scan_neighbors d pq t1 tile rest
        else if Nat.eqb (length (tile ++ [m])) kScanTile then
          let* q := insert_tile pq (td_front t1) (tile ++ [m]) in scan_neighbors d pq (with_front t1 q) [] rest
        else scan_neighbors d pq t1 (tile ++ [m]) rest
  end.
(** process_node, 511-532: [rec] is the node whose record is parsed *)
Definition process_node (d : disk) (pq : N -> Z) (t : thread_data) (id rec : N) : res thread_data :=
  let* t1 := set_exact_dist t id (d_dist d rec) in scan_neighbors d pq t1 [] (d_nbrs d rec).

(** ** The deterministic mode, 545-613 *)

(** Popping a batch, 563-588.  [reqs] counts the device reads, [slot] the
    page slots used; each node comes with its slot (None: the record is in the
    node cache).  Peeked pages and pages read are put into their slots at once;
    all the slots differ. *)
Fixpoint pop_batch (fuel : nat) (src : N -> source) (beam n_slots : N) (t : thread_data) (reqs slot : N) : fuelled (thread_data * list (N * option N)) :=
  if has_unexpanded_node (td_front t) && N.ltb reqs beam && N.ltb slot n_slots then
    match fuel with
    | O => OutOfFuel
    | S k =>
        match closest_unexpanded (td_front t) with
        | Ok (n, q) =>
            let t1 := with_front t q in
            let id := n_id n in
            match src id with
            | Cached =>
                match pop_batch k src beam n_slots t1 reqs slot with
                | Done (Ok (t2, b)) => Done (Ok (t2, (id, None) :: b))
                | other => other
                end
            | s =>
                match aput (td_sector t1) slot id with
                | Ok sec =>
                    match pop_batch k src beam n_slots (with_io t1 (td_inflight t1) sec) (match s with Device => reqs + 1 | _ => reqs end)%N (slot + 1)%N with
                    | Done (Ok (t2, b)) => Done (Ok (t2, (id, Some slot) :: b))
                    | other => other
                    end
                | OutOfBounds => Done OutOfBounds
                | InvalidBool => Done InvalidBool
                | Throws => Done Throws
                end
            end
        | OutOfBounds => Done OutOfBounds
        | InvalidBool => Done InvalidBool
        | Throws => Done Throws
        end
    end
  else Done (Ok (t, [])).
(** 611-613 *)
Fixpoint process_batch (d : disk) (pq : N -> Z) (t : thread_data) (b : list (N * option N)) : res thread_data :=
  match b with
  | [] => Ok t
  | (id, slot) :: rest => let* r := record_in t id slot in let* t' := process_node d pq t id r in process_batch d pq t' rest
  end.
(** The loop, 555-614; beside the scratch the nodes in the order processed *)
Fixpoint beam_loop (fuel : nat) (d : disk) (pq : N -> Z) (src : N -> source) (beam : N) (t : thread_data) (seen : list N) : fuelled (thread_data * list N) :=
  if has_unexpanded_node (td_front t) then
    match fuel with
    | O => OutOfFuel
    | S k =>
        match pop_batch fuel src beam (N.of_nat (n_page_slots t)) t 0%N 0%N with
        | Done (Ok (t1, b)) =>
            match process_batch d pq t1 b with
            | Ok t2 => beam_loop k d pq src beam t2 (seen ++ map fst b)
            | OutOfBounds => Done OutOfBounds
            | InvalidBool => Done InvalidBool
            | Throws => Done Throws
            end
        | OutOfFuel => OutOfFuel
        | Done OutOfBounds => Done OutOfBounds
        | Done InvalidBool => Done InvalidBool
        | Done Throws => Done Throws
        end
    end
  else Done (Ok (t, seen)).

(** ** The asynchronous mode, 615-724 *)
Record beam_pipe := { bp_td : thread_data; bp_free : list N; bp_seen : list N }.
(** fill_pipe, 633-678: [bp_free] with its back first; pages peeked go to a
    buffer of their own *)
Fixpoint fill_pipe (fuel : nat) (d : disk) (pq : N -> Z) (src : N -> source) (p : beam_pipe) : fuelled beam_pipe :=
  match bp_free p with
  | [] => Done (Ok p)
  | slot :: free =>
      if has_unexpanded_node (td_front (bp_td p)) then
        match fuel with
        | O => OutOfFuel
        | S k =>
            match (let* (n, q) := closest_unexpanded (td_front (bp_td p)) in
                   let t1 := with_front (bp_td p) q in
                   let id := n_id n in
                   match src id with
                   | Device => let* t2 := set_inflight t1 slot id in Ok {| bp_td := t2; bp_free := free; bp_seen := bp_seen p |}
                   | _ => let* t2 := process_node d pq t1 id id in Ok {| bp_td := t2; bp_free := bp_free p; bp_seen := bp_seen p ++ [id] |}
                   end) with
            | Ok p' => fill_pipe k d pq src p'
            | OutOfBounds => Done OutOfBounds
            | InvalidBool => Done InvalidBool
            | Throws => Done Throws
            end
        end
      else Done (Ok p)
  end.
(** One event per completed read, 698-721 *)
Fixpoint process_events (d : disk) (pq : N -> Z) (p : beam_pipe) (evts : list N) : res beam_pipe :=
  match evts with
  | [] => Ok p
  | id :: rest =>
      let* r := remove_inflight (bp_td p) id in
      match r with
      | None => process_events d pq p rest
      | Some (slot, t1) =>
          let* rec := aget (td_sector t1) slot in
          let* t2 := process_node d pq t1 id rec in
          process_events d pq {| bp_td := t2; bp_free := slot :: bp_free p; bp_seen := bp_seen p ++ [id] |} rest
      end
  end.
(** The loop, 681-723 *)
Fixpoint flight_loop (fuel : nat) (d : disk) (pq : N -> Z) (src : N -> source) (events : nat -> list N -> list N) (round : nat) (p : beam_pipe) : fuelled beam_pipe :=
  if has_inflight (bp_td p) then
    match fuel with
    | O => OutOfFuel
    | S k =>
        match process_events d pq p (events round (inflight_ids (bp_td p))) with
        | Ok p1 =>
            match fill_pipe fuel d pq src p1 with
            | Done (Ok p2) => flight_loop k d pq src events (round + 1) p2
            | other => other
            end
        | OutOfBounds => Done OutOfBounds
        | InvalidBool => Done InvalidBool
        | Throws => Done Throws
        end
    end
  else Done (Ok p).
(** 622-723; free_slots holds 0 .. beam - 1, the last taken first *)
Definition flight_search (fuel : nat) (d : disk) (pq : N -> Z) (src : N -> source) (events : nat -> list N -> list N) (beam : N) (t : thread_data) : fuelled (thread_data * list N) :=
  match fill_pipe fuel d pq src {| bp_td := t; bp_free := rev (map N.of_nat (seq 0 (N.to_nat beam))); bp_seen := [] |} with
  | Done (Ok p) =>
      match flight_loop fuel d pq src events 0 p with
      | Done (Ok p') => Done (Ok (bp_td p', bp_seen p'))
      | OutOfFuel => OutOfFuel
      | Done OutOfBounds => Done OutOfBounds
      | Done InvalidBool => Done InvalidBool
      | Done Throws => Done Throws
      end
  | OutOfFuel => OutOfFuel
  | Done OutOfBounds => Done OutOfBounds
  | Done InvalidBool => Done InvalidBool
  | Done Throws => Done Throws
  end.

(** ** The results, 726-792 *)

(** read_exact_sync, 734-759: the distance, the scratch and the number of reads
    (from the page cache or the device, into the first page slot) *)
Definition read_exact_sync (d : disk) (t : thread_data) (id : N) : res (Z * thread_data * nat) :=
  let* known := exact_dist t id in
  match known with
  | Some z => Ok (z, t, 0)
  | None =>
      let* sec := aput (td_sector t) 0%N id in
      let* t1 := set_exact_dist (with_io t (td_inflight t) sec) id (d_dist d id) in
      Ok (d_dist d id, t1, 1)
  end.
(** With rerank, 761-773: the first [want] live entries *)
Fixpoint rerank (d : disk) (t : thread_data) (want : nat) (l : list (N * Z)) : res (list (N * Z) * thread_data * nat) :=
  match want, l with
  | O, _ => Ok ([], t, 0)
  | _, [] => Ok ([], t, 0)
  | S k, (id, _) :: rest =>
      if d_deleted d id then rerank d t want rest
      else let* (z, t1, n) := read_exact_sync d t id in
           let* (out, t2, n') := rerank d t1 k rest in
           Ok ((id, z) :: out, t2, n + n')
  end.
(** Without, 774-784 *)
Fixpoint no_rerank (d : disk) (t : thread_data) (top_k : nat) (l : list (N * Z)) : res (list (N * Z)) :=
  match top_k, l with
  | O, _ => Ok []
  | _, [] => Ok []
  | S k, (id, x) :: rest =>
      if d_deleted d id then no_rerank d t top_k rest
      else let* known := exact_dist t id in
           let* out := no_rerank d t k rest in
           Ok ((id, match known with Some z => z | None => x end) :: out)
  end.
(** The comparison of std::sort, 786-788.  The ids are distinct, so the order
    is total and any sort gives the same list. *)
Definition result_before (a b : N * Z) : bool := Z.ltb (snd a) (snd b) || (Z.eqb (snd a) (snd b) && N.ltb (fst a) (fst b)).
Fixpoint place_result (a : N * Z) (l : list (N * Z)) : list (N * Z) :=
  match l with
  | [] => [a]
  | b :: rest => if result_before b a then b :: place_result a rest else a :: l
  end.
Definition sort_results (l : list (N * Z)) : list (N * Z) := fold_right place_result [] l.
(** want, 763-764; top_k without rerank *)
Definition pool_size (p : pq_params) (top_k : nat) : nat :=
  if pq_rerank p then (if Nat.ltb 0 (pq_rerank_count p) then pq_rerank_count p else top_k * 3) else top_k.
Definition pq_results (d : disk) (p : pq_params) (top_k : nat) (t : thread_data) : res (list (N * Z) * thread_data * nat) :=
  let* (out, t', reads) :=
    (if pq_rerank p then rerank d t (pool_size p top_k) (front_list t)
     else let* out := no_rerank d t top_k (front_list t) in Ok (out, t, 0)) in
  Ok (firstn top_k (sort_results out), t', reads).

(** cached_beam_search with PQ, 476-793: the results, the scratch, the nodes in
    the order processed and n_rerank_reads.  beam = max(1, beam_width), 506. *)
Definition beam_of (p : pq_params) : N := N.max 1 (pq_beam_width p).
Definition pq_beam_search (fuel : nat) (d : disk) (pq : N -> Z) (src : N -> source) (events : nat -> list N -> list N)
    (p : pq_params) (t : thread_data) (top_k search_list_size : nat) : fuelled (list (N * Z) * thread_data * list N * nat) :=
  let list_size := Nat.max search_list_size top_k in
  match (let* t0 := reset_query t list_size in
         let* v := vb_set (td_visited t0) (d_medoid d) in
         let* q := insert_tile pq (td_front t0) [d_medoid d] in
         Ok (with_front (with_visited t0 v) q)) with
  | Ok t1 =>
      match (if pq_is_deterministic p then beam_loop fuel d pq src (beam_of p) t1 [] else flight_search fuel d pq src events (beam_of p) t1) with
      | OutOfFuel => OutOfFuel
      | Done r => Done (let* (t2, seen) := r in
                        let* (hits, t3, reads) := pq_results d p top_k t2 in
                        Ok (hits, t3, seen, reads))
      end
  | OutOfBounds => Done OutOfBounds
  | InvalidBool => Done InvalidBool
  | Throws => Done Throws
  end.
