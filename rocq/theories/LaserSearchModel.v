(** The search of the LASER index on disk,
    include/index/graph/laser/qg/qg.hpp:400-720 (disk_search_qg and
    scan_neighbors), with its result buffer,
    include/index/graph/laser/utils/buffer.hpp:104-148.  The search buffer is
    that of PoolModel.v.

    The search is one thread; the reads it submits are completed by the kernel
    whenever the kernel likes.  What the kernel does is given to the model as a
    list of answers, one for each call of poll_events.  Distances are keys of
    floats as in PoolModel.v: the exact ones (l2_sqr) and the estimated ones
    (FastscanModel.v) are data of the records, for they depend on the query
    and on the record read only. *)
From Coq Require Import List Arith NArith ZArith Bool.
From Verif Require Export PoolModel.
Import ListNotations.

(** What a search has come to: the bound on the rounds of the model has been
    reached; it waits for a read (the given answers are used up); or it has
    ended, by returning or by an exception. *)
Inductive out (A : Type) : Type := Fuel_out | Waits | Ends (r : res A).
Arguments Fuel_out {A}.
Arguments Waits {A}.
Arguments Ends {A} r.
Definition obind {A B} (o : out A) (f : A -> out B) : out B :=
  match o with
  | Fuel_out => Fuel_out
  | Waits => Waits
  | Ends (Ok a) => f a
  | Ends OutOfBounds => Ends OutOfBounds
  | Ends InvalidBool => Ends InvalidBool
  | Ends Throws => Ends Throws
  end.
Notation "'let!' x := e 'in' k" := (obind e (fun x => k)) (at level 200, x pattern, right associativity).

(** A record of the index file as the query sees it: the exact distance of its
    vector to the query (704 and 511-516) and its neighbours with their
    estimated distances (709-722), in the order of the file. *)
Record lnode := { nd_dist : Z; nd_nbs : list (N * Z) }.

(** The members of QuantizedGraph the search reads, 86-130: the records, the
    entry point, the medoids with the distances of their vectors to the query
    (medoids_, medoids_vector_, 455-460), node_per_page_ and the ids whose
    records are in caches_.  A cached record is a copy of the one in the file
    (load_cache). *)
Record lgraph := { g_nodes : list lnode; g_entry : N; g_medoids : list (N * Z); g_npp : N; g_cached : list N }.

(** The state of one search, 448-551.  [l_pool]: search_pool_; [l_visited]:
    visited_, here a set (VisitedModel.v models the hash set); [l_res]:
    res_pool, here one array of pairs instead of two arrays; [l_free]:
    free_slots, by number; [l_ongoing]: ongoing_nodes; [l_ready]:
    prepared_nodes; [l_slots]: for each slot of sector_scratch_ the number of
    the page of the file it holds, None if it holds nothing of the file.
    [l_kernel]: the reads submitted and not yet reported, with their ids,
    pages and slots. *)
Record lstate := {
  l_pool : pool; l_visited : list N; l_res : pool;
  l_free : list nat; l_ongoing : list (N * nat); l_ready : list (N * nat);
  l_slots : list (option N); l_kernel : list (N * (N * nat));
}.
Definition with_pool (st : lstate) (p : pool) : lstate :=
  {| l_pool := p; l_visited := l_visited st; l_res := l_res st; l_free := l_free st; l_ongoing := l_ongoing st;
     l_ready := l_ready st; l_slots := l_slots st; l_kernel := l_kernel st |}.

(** visited_.get, VisitedModel.v *)
Definition member (id : N) (l : list N) : bool := existsb (N.eqb id) l.

(** ongoing_nodes as an unordered_map: [id] = slot (598), find (535), erase (542) *)
Definition erase_ongoing (id : N) (m : list (N * nat)) : list (N * nat) := filter (fun e => negb (N.eqb (fst e) id)) m.
Definition put_ongoing (id : N) (slot : nat) (m : list (N * nat)) : list (N * nat) := (id, slot) :: erase_ongoing id m.
Definition find_ongoing (id : N) (m : list (N * nat)) : option nat :=
  option_map snd (find (fun e => N.eqb (fst e) id) m).

(** get_page_offset, 165-167, as the number of the page after the first sector *)
Definition page_of (g : lgraph) (id : N) : N := (id / g_npp g)%N.
(** The record at offset_to_node (169-171) of [id] in a slot.  A page has
    the records of its node_per_page_ nodes.  A slot that holds nothing of the
    file holds the zeros of set_params (334), and a page may end after the last
    node; what would be read there is no record of the index and is not
    modelled (OutOfBounds). *)
Definition record_at (g : lgraph) (page : option N) (id : N) : res lnode :=
  match page with
  | None => OutOfBounds
  | Some p => get (g_nodes g) (N.to_nat (p * g_npp g + id mod g_npp g))
  end.

(** scan_neighbors, 698-725: the loop over the neighbours *)
Fixpoint scan (visited : list N) (nbs : list (N * Z)) (p : pool) : res pool :=
  match nbs with
  | [] => Ok p
  | (nb, d) :: rest =>
      let* full := laser_is_full p d in
      if full || member nb visited then scan visited rest p
      else let* r := laser_insert p nb d in scan visited rest (snd r)
  end.

(** ResultBuffer::insert, buffer.hpp:109-119 *)
Definition result_insert (p : pool) (id : N) (d : Z) : res pool :=
  let* full := laser_is_full p d in
  if full then Ok p else let* r := laser_insert p id d in Ok (snd r).

(** process_node, 500-519 *)
Definition process_node (st : lstate) (id : N) (nd : lnode) : res lstate :=
  let* p := scan (l_visited st) (nd_nbs nd) (l_pool st) in
  let* r := result_insert (l_res st) id (nd_dist nd) in
  Ok {| l_pool := p; l_visited := l_visited st; l_res := r; l_free := l_free st; l_ongoing := l_ongoing st;
        l_ready := l_ready st; l_slots := l_slots st; l_kernel := l_kernel st |}.

(** The inner loop that pops candidates, 574-603: the cached nodes and the
    requests (id, page, slot) it collects. *)
Fixpoint build (fuel : nat) (g : lgraph) (beam : nat) (st : lstate) (cached : list N) (reqs : list (N * (N * nat)))
  : out (lstate * list N * list (N * (N * nat))) :=
  match fuel with
  | O => Fuel_out
  | S f =>
      if has_next (l_pool st) && Nat.ltb (length reqs) beam then
        let! popped := Ends (sb_pop (l_pool st)) in
        let id := fst (fst popped) in
        if member id (l_visited st) then build f g beam (with_pool st (snd popped)) cached reqs
        else if member id (g_cached g) then
          build f g beam
            {| l_pool := snd popped; l_visited := id :: l_visited st; l_res := l_res st; l_free := l_free st;
               l_ongoing := l_ongoing st; l_ready := l_ready st; l_slots := l_slots st; l_kernel := l_kernel st |}
            (cached ++ [id]) reqs
        else match l_free st with
             | [] => Ends Throws
             | slot :: free =>
                 build f g beam
                   {| l_pool := snd popped; l_visited := id :: l_visited st; l_res := l_res st; l_free := free;
                      l_ongoing := put_ongoing id slot (l_ongoing st); l_ready := l_ready st; l_slots := l_slots st;
                      l_kernel := l_kernel st |}
                   cached (reqs ++ [(id, (page_of g id, slot))])
             end
      else Ends (Ok (st, cached, reqs))
  end.

(** submit_reqs, utils/aligned_file_reader.hpp:394-428 and the other readers:
    at most MAX_EVENTS requests.  Here io_submit takes them all. *)
Definition submit (st : lstate) (reqs : list (N * (N * nat))) : res lstate :=
  if Nat.ltb 1024 (length reqs) then Throws
  else Ok {| l_pool := l_pool st; l_visited := l_visited st; l_res := l_res st; l_free := l_free st;
             l_ongoing := l_ongoing st; l_ready := l_ready st; l_slots := l_slots st; l_kernel := l_kernel st ++ reqs |}.

(** The loop over the cached nodes, 617-620 *)
Fixpoint process_cached (g : lgraph) (ids : list N) (st : lstate) : res lstate :=
  match ids with
  | [] => Ok st
  | id :: rest =>
      let* nd := get (g_nodes g) (N.to_nat id) in
      let* st' := process_node st id nd in process_cached g rest st'
  end.

(** Processing what is prepared, 632-645 and 655-662, until [need] nodes are
    processed or nothing is prepared; returns how many are still needed. *)
Fixpoint take_ready (g : lgraph) (need : nat) (st : lstate) : res (nat * lstate) :=
  match need with
  | O => Ok (O, st)
  | S k =>
      match l_ready st with
      | [] => Ok (need, st)
      | (id, slot) :: rest =>
          let* page := get (l_slots st) slot in
          let* nd := record_at g page id in
          let* st' := process_node st id nd in
          take_ready g k
            {| l_pool := l_pool st'; l_visited := l_visited st'; l_res := l_res st'; l_free := l_free st' ++ [slot];
               l_ongoing := l_ongoing st'; l_ready := rest; l_slots := l_slots st'; l_kernel := l_kernel st' |}
      end
  end.

(** One completion: the kernel picks one of the reads in flight and has
    written its page to its slot, or the read has failed and the slot is as it
    was.  The event then goes through the loop of wait_for_nodes, 532-543,
    which does not look at the result of the read.  The page is written when
    the completion is reported; it may be written earlier, but between the
    submission and the report nobody looks at the slot. *)
Definition complete (st : lstate) (choice : nat * bool) : res lstate :=
  match l_kernel st with
  | [] => Ok st
  | _ :: _ =>
      let i := Nat.modulo (fst choice) (length (l_kernel st)) in
      let* rq := get (l_kernel st) i in
      let slots := if snd choice then upd (l_slots st) (snd (snd rq)) (Some (fst (snd rq))) else l_slots st in
      match find_ongoing (fst rq) (l_ongoing st) with
      | None => Throws
      | Some slot =>
          Ok {| l_pool := l_pool st; l_visited := l_visited st; l_res := l_res st; l_free := l_free st;
                l_ongoing := erase_ongoing (fst rq) (l_ongoing st); l_ready := l_ready st ++ [(fst rq, slot)];
                l_slots := slots; l_kernel := firstn i (l_kernel st) ++ skipn (S i) (l_kernel st) |}
      end
  end.
Fixpoint completes (st : lstate) (choices : list (nat * bool)) : res lstate :=
  match choices with [] => Ok st | c :: cs => let* st' := complete st c in completes st' cs end.

(** wait_for_nodes, 525-544: an answer of poll_events has at most cur_beam_size events. *)
Definition wait_for_nodes (beam : nat) (answer : list (nat * bool)) (st : lstate) : res lstate :=
  completes st (firstn beam answer).

(** The loops at 629-650 and 653-667: process [need] nodes, waiting for them. *)
Fixpoint work (g : lgraph) (beam : nat) (answers : list (list (nat * bool))) (need : nat) (st : lstate)
  : out (lstate * list (list (nat * bool))) :=
  let! r := Ends (take_ready g need st) in
  match fst r with
  | O => Ends (Ok (snd r, answers))
  | S _ =>
      match answers with
      | [] => Waits
      | a :: rest => let! st' := Ends (wait_for_nodes beam a (snd r)) in work g beam rest (fst r) st'
      end
  end.

(** The main loop, 558-651, and the rest, 653-667.  Doubling a beam width
    below 2^24 as a float is exact. *)
Fixpoint rounds (fuel : nat) (g : lgraph) (width beam remain : nat) (answers : list (list (nat * bool))) (st : lstate)
  : out lstate :=
  match fuel with
  | O => Fuel_out
  | S f =>
      if has_next (l_pool st) then
        let beam := Nat.min width (2 * beam) in
        let! (st, cached, reqs) := build (S (p_size (l_pool st))) g beam st [] [] in
        let! st := Ends (submit st reqs) in
        let! st := Ends (process_cached g cached st) in
        let n_ops := length reqs in
        let rest := Nat.div n_ops 2 in
        let! (st, answers) := work g beam answers (n_ops + remain - rest) st in
        rounds f g width beam rest answers st
      else
        let! (st, _) := work g beam answers remain st in Ends (Ok st)
  end.

(** The closest medoid, 450-464 *)
Definition best_medoid (ms : list (N * Z)) : N :=
  fst (fold_left (fun b m => if Z.ltb (snd m) (snd b) then m else b) ms (0%N, float_max)).

(** The first candidates, 448-470 *)
Definition first_pool (g : lgraph) (p : pool) : res pool :=
  let* p := match g_medoids g with
            | [] => Ok p
            | _ :: _ => let* r := laser_insert p (best_medoid (g_medoids g)) float_max in Ok (snd r)
            end in
  let* r := laser_insert p (g_entry g) float_max in Ok (snd r).

(** disk_search_qg, 400-690, with the parameters of set_params, 313-343: the
    beam width, ef_search, knn; [scratch] is what the slots hold from earlier
    searches.  What clear() leaves in the search buffer is not read again; a
    new buffer is used.  Waiting for a workspace, PCA and timing are left out. *)
Definition laser_search (fuel : nat) (g : lgraph) (width ef knn : nat) (scratch : list (option N))
    (answers : list (list (nat * bool))) : out (list N) :=
  let! p := Ends (first_pool g (pool_new ef)) in
  let! st := rounds fuel g width 1 0 answers
    {| l_pool := p; l_visited := []; l_res := pool_new knn; l_free := seq 0 (2 * width); l_ongoing := [];
       l_ready := []; l_slots := scratch; l_kernel := [] |} in
  Ends (Ok (map c_id (firstn knn (p_data (l_res st))))).
