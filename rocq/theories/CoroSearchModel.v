(** The coroutine searches of the update path: disk_greedy_search_async and
    pq_beam_search_async
    (include/index/graph/diskann/beam_search_async.hpp:71-243, 259-389).

    As in DiskSearchModel a node's record is a function of its id and the place
    it is found in is an arbitrary function; a coroutine owns its thread data,
    so what happens while it is suspended does not touch its state.  A read
    that fails throws; failed reads, statistics and page versions are left out. *)
From Verif Require Export PqSearchModel.

(** ensure_wave_scratch, search_scratch.hpp:174-187.  The wave buffer is a list
    that says of each page slot which node's page it holds; what a new buffer
    holds does not matter, 0 stands for it. *)
Definition ensure_wave (wave : list N) (slots : N) : list N :=
  if N.leb slots (N.of_nat (length wave)) then wave else repeat 0%N (N.to_nat slots).
(** reactor.read_batch, 214 and 349: each page is read into the slot of its
    request (all the slots differ) *)
Fixpoint read_wave (wave : list N) (misses : list (N * N)) : res (list N) :=
  match misses with
  | [] => Ok wave
  | (m, slot) :: rest => let* wave1 := aput wave slot m in read_wave wave1 rest
  end.

(** ** disk_greedy_search_async *)

(** The seed, 127-165 *)
Definition seed_record (src : N -> source) (wave : list N) (medoid : N) : res (N * list N) :=
  match src medoid with
  | Cached => Ok (medoid, wave)
  | _ => let* wave1 := aput wave 0%N medoid in let* r := aget wave1 0%N in Ok (r, wave1)
  end.
(** The loop over todo, 186-212: hits are absorbed at once, misses get a slot *)
Fixpoint absorb_hits (d : disk) (src : N -> source) (t : thread_data) (wave : list N) (slot : N) (todo : list N) : res (thread_data * list N * list (N * N)) :=
  match todo with
  | [] => Ok (t, wave, [])
  | m :: rest =>
      match src m with
      | Cached => let* t1 := absorb d t m m in absorb_hits d src t1 wave slot rest
      | Peeked =>
          let* wave1 := aput wave slot m in
          let* r := aget wave1 slot in
          let* t1 := absorb d t m r in
          absorb_hits d src t1 wave1 slot rest
      | Device => let* (t1, wave1, misses) := absorb_hits d src t wave (slot + 1)%N rest in Ok (t1, wave1, (m, slot) :: misses)
      end
  end.
(** 221-229 *)
Fixpoint absorb_wave (d : disk) (t : thread_data) (wave : list N) (misses : list (N * N)) : res thread_data :=
  match misses with
  | [] => Ok t
  | (m, slot) :: rest => let* r := aget wave slot in let* t1 := absorb d t m r in absorb_wave d t1 wave rest
  end.
(** One expansion, 175-230 *)
Definition coro_step (d : disk) (src : N -> source) (t : thread_data) (wave : list N) : res (thread_data * list N * N) :=
  let* (t1, x, todo) := expand d t in
  let* (t2, wave1, misses) := absorb_hits d src t1 wave 0%N todo in
  let* wave2 := read_wave wave1 misses in
  let* t3 := absorb_wave d t2 wave2 misses in
  Ok (t3, wave2, x).
(** 174-231 *)
Fixpoint coro_loop (fuel : nat) (d : disk) (src : N -> source) (t : thread_data) (wave : list N) (expanded : list N) : fuelled (thread_data * list N) :=
  if has_unexpanded_node (td_front t) then
    match fuel with
    | O => OutOfFuel
    | S k =>
        match coro_step d src t wave with
        | Ok (t', wave', x) => coro_loop k d src t' wave' (expanded ++ [x])
        | OutOfBounds => Done OutOfBounds
        | InvalidBool => Done InvalidBool
        | Throws => Done Throws
        end
    end
  else Done (Ok (t, expanded)).
(** disk_greedy_search_async, 71-243.  [max_degree] is geom.max_degree. *)
Definition coro_greedy_search (fuel : nat) (d : disk) (src : N -> source) (max_degree : N) (t : thread_data) (wave : list N)
    (top_k search_list_size : nat) : fuelled (list (N * Z) * thread_data * list N) :=
  let wave0 := ensure_wave wave (N.max 1 max_degree) in
  let list_size := Nat.max search_list_size top_k in
  match (let* t0 := reset_query t list_size in
         let* v := vb_set (td_visited t0) (d_medoid d) in
         let* (r, wave1) := seed_record src wave0 (d_medoid d) in
         let* t1 := absorb d (with_visited t0 v) (d_medoid d) r in Ok (t1, wave1)) with
  | Ok (t1, wave1) =>
      match coro_loop fuel d src t1 wave1 [] with
      | OutOfFuel => OutOfFuel
      | Done r => Done (let* (t2, e) := r in Ok (take_live (d_deleted d) top_k (front_list t2), t2, e))
      end
  | OutOfBounds => Done OutOfBounds
  | InvalidBool => Done InvalidBool
  | Throws => Done Throws
  end.

(** ** pq_beam_search_async *)

(** The inner loop, 320-347: hits are processed at once, misses get a slot;
    reqs.size() is the number of slots given.  Beside the thread data the wave,
    the misses and the nodes processed. *)
Fixpoint pop_wave (fuel : nat) (d : disk) (pq : N -> Z) (src : N -> source) (beam : N) (t : thread_data) (wave : list N) (slot : N)
    : fuelled (thread_data * list N * list (N * N) * list N) :=
  if has_unexpanded_node (td_front t) && N.ltb slot beam then
    match fuel with
    | O => OutOfFuel
    | S k =>
        match closest_unexpanded (td_front t) with
        | Ok (n, q) =>
            let t1 := with_front t q in
            let id := n_id n in
            match src id with
            | Device =>
                match pop_wave k d pq src beam t1 wave (slot + 1)%N with
                | Done (Ok (t2, wave2, misses, seen)) => Done (Ok (t2, wave2, (id, slot) :: misses, seen))
                | other => other
                end
            | s =>
                match (let* (r, wave1) := match s with
                                          | Cached => Ok (id, wave)
                                          | _ => let* wave1 := aput wave slot id in let* r := aget wave1 slot in Ok (r, wave1)
                                          end in
                       let* t2 := process_node d pq t1 id r in Ok (t2, wave1)) with
                | Ok (t2, wave1) =>
                    match pop_wave k d pq src beam t2 wave1 slot with
                    | Done (Ok (t3, wave3, misses, seen)) => Done (Ok (t3, wave3, misses, id :: seen))
                    | other => other
                    end
                | OutOfBounds => Done OutOfBounds
                | InvalidBool => Done InvalidBool
                | Throws => Done Throws
                end
            end
        | OutOfBounds => Done OutOfBounds
        | InvalidBool => Done InvalidBool
        | Throws => Done Throws
        end
    end
  else Done (Ok (t, wave, [], [])).
(** 356-364 *)
Fixpoint process_wave (d : disk) (pq : N -> Z) (t : thread_data) (wave : list N) (misses : list (N * N)) : res thread_data :=
  match misses with
  | [] => Ok t
  | (m, slot) :: rest => let* r := aget wave slot in let* t1 := process_node d pq t m r in process_wave d pq t1 wave rest
  end.
(** 316-366 *)
Fixpoint wave_loop (fuel : nat) (d : disk) (pq : N -> Z) (src : N -> source) (beam : N) (t : thread_data) (wave : list N) (seen : list N) : fuelled (thread_data * list N) :=
  if has_unexpanded_node (td_front t) then
    match fuel with
    | O => OutOfFuel
    | S k =>
        match pop_wave fuel d pq src beam t wave 0%N with
        | Done (Ok (t1, wave1, misses, hit)) =>
            match (let* wave2 := read_wave wave1 misses in let* t2 := process_wave d pq t1 wave2 misses in Ok (t2, wave2)) with
            | Ok (t2, wave2) => wave_loop k d pq src beam t2 wave2 (seen ++ hit ++ map fst misses)
            | OutOfBounds => Done OutOfBounds
            | InvalidBool => Done InvalidBool
            | Throws => Done Throws
            end
        | OutOfFuel => OutOfFuel
        | Done OutOfBounds => Done OutOfBounds
        | Done InvalidBool => Done InvalidBool
        | Done Throws => Done Throws
        end
    end
  else Done (Ok (t, seen)).
(** pq_beam_search_async, 259-389 *)
Definition coro_pq_search (fuel : nat) (d : disk) (pq : N -> Z) (src : N -> source) (p : pq_params) (t : thread_data) (wave : list N)
    (top_k search_list_size : nat) : fuelled (list (N * Z) * thread_data * list N) :=
  if pq_rerank p then Done Throws
  else
    let list_size := Nat.max search_list_size top_k in
    match (let* t0 := reset_query t list_size in
           let* v := vb_set (td_visited t0) (d_medoid d) in
           let* q := insert_tile pq (td_front t0) [d_medoid d] in
           Ok (with_front (with_visited t0 v) q)) with
    | Ok t1 =>
        match wave_loop fuel d pq src (beam_of p) t1 (ensure_wave wave (beam_of p)) [] with
        | OutOfFuel => OutOfFuel
        | Done r => Done (let* (t2, seen) := r in
                          let* out := no_rerank d t2 top_k (front_list t2) in
                          Ok (firstn top_k (sort_results out), t2, seen))
        end
    | OutOfBounds => Done OutOfBounds
    | InvalidBool => Done InvalidBool
    | Throws => Done Throws
    end.
