(** Construction of a Vamana graph: VamanaBuilder,
    include/index/graph/vamana/vamana_builder.hpp:24-563, as run by any number
    of OpenMP threads.

    The vectors are seen through [dist], the squared L2 distances as single-
    precision floats (l2_dist, 119-121).  Every access to a neighbour list
    happens under that node's mutex (239-242, 302-315, 350-353, 460-463, 500-506,
    538-541), so an execution is a sequence of such accesses; a [step] of a thread
    is one access together with the thread's own work up to the next one, and a
    schedule is a list of thread numbers.  Node numbers are not wrapped to 32
    bits.  Progress output (358-438), timers and prefetching are left out. *)
From Verif Require Export SearchModel PruneModel.

(** VamanaBuildParams, 44-51: R, L, alpha, maxc.  num_threads is the length of
    the list of threads; seed is not used by the code. *)
Record bparams := { b_R : nat; b_L : nat; b_alpha : spec_float; b_maxc : nat }.

(** GRAPH_SLACK_FACTOR = 1.3f, 30 *)
Definition f1_3 : spec_float := S754_finite false 10905190 (-23).
(** static_cast<float>(uint32_t) and static_cast<size_t>(float) *)
Definition float_of_nat (n : nat) : spec_float := binary_normalize 24 128 (Z.of_nat n) 0 false.
Definition nat_of_float (f : spec_float) : nat :=
  match f with S754_finite false m e => Z.to_nat (Z.shiftl (Z.pos m) e) | _ => 0 end.
(** const size_t slack, 298 *)
Definition slack (R : nat) : nat := nat_of_float (fmul f1_3 (float_of_nat R)).

(** The queue orders its entries by float distance; NpqModel has integers, so
    the distance of an entry is an integer that orders like the float. *)
Definition order_key (f : spec_float) : Z :=
  match f with
  | S754_zero _ => 0
  | S754_finite s m e => let k := ((e + 149) * 2 ^ 24 + Z.pos m)%Z in if s then - k else k
  | S754_infinity s => if s then - 2 ^ 40 else 2 ^ 40
  | S754_nan => 2 ^ 41
  end%Z.

(** What a thread does next:
    [Idle]: fetch the next node (453-457);
    [Search node pool]: in the loop of iterate_to_fixed_point (231-266) for
      [node]; [pool] holds the ids of scratch.pool, in order;
    [Store node pruned]: graph_[node] = pruned_list (460-463);
    [Link node todo]: in the loop of inter_insert (299) with [todo] left;
    [Replace node des new todo]: graph_[des] = new_neighbors (350-353). *)
Inductive pc :=
| Idle
| Search (node : N) (pool : list N)
| Store (node : N) (pruned : list N)
| Link (node : N) (todo : list N)
| Replace (node des : N) (new todo : list N).
(** A thread: the rest of its chunk of nodes, its Scratch (129-137; SearchModel's
    record holds visited_bitset, visited_touched and best_l_nodes), and what it
    does next. *)
Record thread := { t_todo : list N; t_scratch : vamana_scratch; t_pc : pc }.
(** graph_ (558), the first node not handed out yet, and the threads *)
Record bstate := { v_rows : list (list N); v_next : N; v_threads : list thread }.

(** schedule(dynamic, 2048), 453 and 487: the next chunk of nodes of [n] *)
Definition kChunk : N := 2048.
Definition chunk_at (n next : N) : list N :=
  map (fun i => (next + N.of_nat i)%N) (seq 0 (N.to_nat (N.min kChunk (n - next)))).

(** The lambda visit, 218-225 *)
Definition mark (s : vamana_scratch) (id : N) : res (bool * vamana_scratch) :=
  let* v := aget (vs_visited s) id in
  if N.eqb v 0 then
    let* visited := aput (vs_visited s) id 1%N in
    Ok (true, {| vs_visited := visited; vs_touched := vs_touched s ++ [id]; vs_pool := vs_pool s |})
  else Ok (false, s).
(** best_l_nodes.insert(Neighbor(id, l2_dist(query_id, id))), 228 and 264 *)
Definition enqueue (dist : N -> N -> spec_float) (query : N) (s : vamana_scratch) (id : N) : res vamana_scratch :=
  let* (_, pool) := npq_insert (vs_pool s) {| n_id := id; n_dist := order_key (dist query id); n_exp := false |} in
  Ok {| vs_visited := vs_visited s; vs_touched := vs_touched s; vs_pool := pool |}.
(** for (m : nbrs) if (visit(m)) id_scratch.push_back(m), 254-258 *)
Fixpoint mark_new (s : vamana_scratch) (nbrs : list N) : res (list N * vamana_scratch) :=
  match nbrs with
  | [] => Ok ([], s)
  | m :: rest =>
      let* (b, s1) := mark s m in
      let* (fresh, s2) := mark_new s1 rest in
      Ok (if (b : bool) then m :: fresh else fresh, s2)
  end.
(** 259-265 *)
Fixpoint enqueue_all (dist : N -> N -> spec_float) (query : N) (s : vamana_scratch) (ids : list N) : res vamana_scratch :=
  match ids with [] => Ok s | id :: rest => let* s1 := enqueue dist query s id in enqueue_all dist query s1 rest end.
(** The start of iterate_to_fixed_point, 213-229, with clear_visited, 153-158 *)
Definition begin_search (p : bparams) (dist : N -> N -> spec_float) (medoid query : N) (s : vamana_scratch) : res vamana_scratch :=
  let* visited := untouch (vs_visited s) (vs_touched s) in
  let s0 := {| vs_visited := visited; vs_touched := []; vs_pool := npq_reserve (npq_clear (vs_pool s)) (b_L p) |} in
  let* (b, s1) := mark s0 medoid in
  if (b : bool) then enqueue dist query s1 medoid else Ok s1.
(** One round of the loop, 232-265: the expanded node and the new scratch *)
Definition expand (dist : N -> N -> spec_float) (rows : list (list N)) (query : N) (s : vamana_scratch) : res (N * vamana_scratch) :=
  let* (n, pool) := closest_unexpanded (vs_pool s) in
  let* nbrs := aget rows (n_id n) in
  let* (fresh, s1) := mark_new {| vs_visited := vs_visited s; vs_touched := vs_touched s; vs_pool := pool |} nbrs in
  let* s2 := enqueue_all dist query s1 fresh in
  Ok (n_id n, s2).

(** prune_neighbors on the candidates [ids] of [node], with the parameters of
    the build (280-289, 340-349, 528-537).  An entry's distance is the one to
    [node] (264, 336, 524). *)
Definition prune_ids (fuel : nat) (p : bparams) (dist : N -> N -> spec_float) (node : N) (ids : list N) : option (list N) :=
  prune_neighbors fuel dist node (map (fun i => {| c_id := i; c_dist := dist node i |}) ids) (b_alpha p) (b_R p) (b_maxc p).
(** The pool without the node itself and without repetitions, 321-338 and
    509-526: [pool] is what was collected so far *)
Fixpoint collect_pool (self : N) (pool l : list N) : list N :=
  match l with
  | [] => pool
  | x :: rest =>
      if N.eqb x self then collect_pool self pool rest
      else if existsb (N.eqb x) pool then collect_pool self pool rest
      else collect_pool self (pool ++ [x]) rest
  end.

(** How a step of a thread ends: the rows, the first node not handed out, and
    the thread afterwards.  [OutOfFuel]: pruning ran out of fuel. *)
Definition outcome : Type := fuelled (list (list N) * N * thread).
Definition lift_res {A B} (r : res A) (f : A -> fuelled B) : fuelled B :=
  match r with Ok a => f a | OutOfBounds => Done OutOfBounds | InvalidBool => Done InvalidBool | Throws => Done Throws end.
Definition lift_opt {A B} (r : option A) (f : A -> fuelled B) : fuelled B :=
  match r with Some a => f a | None => OutOfFuel end.

Definition thread_step (fuel : nat) (p : bparams) (dist : N -> N -> spec_float) (medoid : N)
    (rows : list (list N)) (next : N) (t : thread) : outcome :=
  let n := N.of_nat (length rows) in
  let s := t_scratch t in
  match t_pc t with
  | Idle =>
      match t_todo t with
      | [] => (* 453: fetch a chunk, or leave the loop *)
          if N.ltb next n
          then Done (Ok (rows, (next + kChunk)%N, {| t_todo := chunk_at n next; t_scratch := s; t_pc := Idle |}))
          else Done (Ok (rows, next, t))
      | node :: rest => (* 454-458 and 274 *)
          lift_res (begin_search p dist medoid node s) (fun s1 =>
            Done (Ok (rows, next, {| t_todo := rest; t_scratch := s1; t_pc := Search node [] |})))
      end
  | Search node pool =>
      if has_unexpanded_node (vs_pool s) then
        lift_res (expand dist rows node s) (fun '(x, s1) =>
          Done (Ok (rows, next, {| t_todo := t_todo t; t_scratch := s1; t_pc := Search node (pool ++ [x]) |})))
      else (* 276-289 *)
        lift_opt (prune_ids fuel p dist node (filter (fun x => negb (N.eqb x node)) pool)) (fun pruned =>
          Done (Ok (rows, next, {| t_todo := t_todo t; t_scratch := s; t_pc := Store node pruned |})))
  | Store node pruned =>
      lift_res (aput rows node pruned) (fun rows1 =>
        Done (Ok (rows1, next, {| t_todo := t_todo t; t_scratch := s; t_pc := Link node pruned |})))
  | Link node [] => Done (Ok (rows, next, {| t_todo := t_todo t; t_scratch := s; t_pc := Idle |}))
  | Link node (des :: todo) => (* 300-349 *)
      lift_res (aget rows des) (fun row =>
        if existsb (N.eqb node) row then
          Done (Ok (rows, next, {| t_todo := t_todo t; t_scratch := s; t_pc := Link node todo |}))
        else if Nat.ltb (length row) (slack (b_R p)) then
          lift_res (aput rows des (row ++ [node])) (fun rows1 =>
            Done (Ok (rows1, next, {| t_todo := t_todo t; t_scratch := s; t_pc := Link node todo |})))
        else
          lift_opt (prune_ids fuel p dist des (collect_pool des [] (row ++ [node]))) (fun new =>
            Done (Ok (rows, next, {| t_todo := t_todo t; t_scratch := s; t_pc := Replace node des new todo |}))))
  | Replace node des new todo => (* 350-353 *)
      lift_res (aput rows des new) (fun rows1 =>
        Done (Ok (rows1, next, {| t_todo := t_todo t; t_scratch := s; t_pc := Link node todo |})))
  end.

(** Thread [i] makes a step; a number that is no thread is skipped. *)
Definition step (fuel : nat) (p : bparams) (dist : N -> N -> spec_float) (medoid : N) (st : bstate) (i : nat) : fuelled bstate :=
  match nth_error (v_threads st) i with
  | None => Done (Ok st)
  | Some t =>
      match thread_step fuel p dist medoid (v_rows st) (v_next st) t with
      | Done (Ok (rows, next, t1)) => Done (Ok {| v_rows := rows; v_next := next; v_threads := upd (v_threads st) i t1 |})
      | Done OutOfBounds => Done OutOfBounds
      | Done InvalidBool => Done InvalidBool
      | Done Throws => Done Throws
      | OutOfFuel => OutOfFuel
      end
  end.
Fixpoint run (fuel : nat) (p : bparams) (dist : N -> N -> spec_float) (medoid : N) (st : bstate) (sched : list nat) : fuelled bstate :=
  match sched with
  | [] => Done (Ok st)
  | i :: rest =>
      match step fuel p dist medoid st i with
      | Done (Ok st1) => run fuel p dist medoid st1 rest
      | o => o
      end
  end.
(** The constructor, 68-82, and init_scratches, 139-151: [n] empty rows and
    [threads] threads *)
Definition new_thread (p : bparams) (n : nat) : thread :=
  {| t_todo := []; t_pc := Idle;
     t_scratch := {| vs_visited := repeat 0%N n; vs_touched := [];
                     vs_pool := npq_reserve {| q_size := 0; q_cap := 0; q_cur := 0; q_data := [] |} (b_L p) |} |}.
Definition link_start (p : bparams) (n threads : nat) : bstate :=
  {| v_rows := repeat [] n; v_next := 0; v_threads := repeat (new_thread p n) threads |}.
(** The end of the parallel loop, 472: every thread has left it *)
Definition link_done (st : bstate) : Prop :=
  (N.of_nat (length (v_rows st)) <= v_next st)%N /\ forall t, In t (v_threads st) -> t_todo t = [] /\ t_pc t = Idle.

(** ** Cleanup, 487-549 *)
(** Between two accesses a thread holds the new list of a node, or nothing. *)
Record cthread := { c_todo : list N; c_new : option (N * list N) }.
Record cstate := { c_rows : list (list N); c_next : N; c_threads : list cthread }.
Definition clean_thread_step (fuel : nat) (p : bparams) (dist : N -> N -> spec_float)
    (rows : list (list N)) (next : N) (t : cthread) : fuelled (list (list N) * N * cthread) :=
  let n := N.of_nat (length rows) in
  match c_new t with
  | Some (node, new) => (* 538-541 *)
      lift_res (aput rows node new) (fun rows1 => Done (Ok (rows1, next, {| c_todo := c_todo t; c_new := None |})))
  | None =>
      match c_todo t with
      | [] => if N.ltb next n
              then Done (Ok (rows, (next + kChunk)%N, {| c_todo := chunk_at n next; c_new := None |}))
              else Done (Ok (rows, next, t))
      | node :: rest => (* 498-537 *)
          lift_res (aget rows node) (fun row =>
            if Nat.ltb (b_R p) (length row) then
              lift_opt (prune_ids fuel p dist node (collect_pool node [] row)) (fun new =>
                Done (Ok (rows, next, {| c_todo := rest; c_new := Some (node, new) |})))
            else Done (Ok (rows, next, {| c_todo := rest; c_new := None |})))
      end
  end.
Definition clean_step (fuel : nat) (p : bparams) (dist : N -> N -> spec_float) (st : cstate) (i : nat) : fuelled cstate :=
  match nth_error (c_threads st) i with
  | None => Done (Ok st)
  | Some t =>
      match clean_thread_step fuel p dist (c_rows st) (c_next st) t with
      | Done (Ok (rows, next, t1)) => Done (Ok {| c_rows := rows; c_next := next; c_threads := upd (c_threads st) i t1 |})
      | Done OutOfBounds => Done OutOfBounds
      | Done InvalidBool => Done InvalidBool
      | Done Throws => Done Throws
      | OutOfFuel => OutOfFuel
      end
  end.
Fixpoint clean_run (fuel : nat) (p : bparams) (dist : N -> N -> spec_float) (st : cstate) (sched : list nat) : fuelled cstate :=
  match sched with
  | [] => Done (Ok st)
  | i :: rest =>
      match clean_step fuel p dist st i with
      | Done (Ok st1) => clean_run fuel p dist st1 rest
      | o => o
      end
  end.
Definition clean_start (rows : list (list N)) (threads : nat) : cstate :=
  {| c_rows := rows; c_next := 0; c_threads := repeat {| c_todo := []; c_new := None |} threads |}.
Definition clean_done (st : cstate) : Prop :=
  (N.of_nat (length (c_rows st)) <= c_next st)%N /\ forall t, In t (c_threads st) -> c_todo t = [] /\ c_new t = None.

(** ** The entry point, calculate_entry_point, 164-206 *)
(** The loop of one thread, 182-196, over its nodes with their distances to the
    centroid as integers ordered like the doubles; [None] is NaN.  [best] is
    local_best and local_id. *)
Fixpoint scan_best (best : Z * N) (l : list (N * option Z)) : Z * N :=
  match l with
  | [] => best
  | (i, d) :: rest =>
      scan_best (match d with Some v => if Z.ltb v (fst best) then (v, i) else best | None => best end) rest
  end.
(** schedule(static, 65536), 184: thread [t] of [T] gets the blocks t, t + T, ... *)
Definition kBlock : N := 65536.
Definition nodes_of (dists : list (option Z)) (T t : N) : list (N * option Z) :=
  filter (fun e => N.eqb ((fst e / kBlock) mod T)%N t) (combine (map N.of_nat (seq 0 (length dists))) dists).
(** The critical section, 197-203 *)
Definition merge_best (best local : Z * N) : Z * N := if Z.ltb (fst local) (fst best) then local else best.
(** medoid_ when the threads reach the critical section in the order [order];
    [huge] is std::numeric_limits<double>::max() *)
Definition entry_point (huge : Z) (dists : list (option Z)) (T : N) (order : list N) : N :=
  snd (fold_left merge_best (map (fun t => scan_best (huge, 0%N) (nodes_of dists T t)) order) (huge, 0%N)).
