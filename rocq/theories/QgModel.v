(** Building the quantized graph of RaBitQ: include/index/graph/qg/qg_builder.hpp.

    Distances are the keys of PoolModel (no NaN).  The estimates read from the
    codes, the cosine test and the random numbers are arbitrary inputs.  The
    graph in the space is the ids of new_neighbors_ at the last update_nei
    (rabitq_space.hpp:238-243; the degrees are their numbers); the codes beside
    them are C72's.  The set of visited nodes is an exact set (C24).  The
    vertices of a parallel loop are independent and taken in order, but for the
    reverse edges, which are taken in any interleaving. *)
From Verif Require Export PoolModel SearchModel.
Local Open Scope nat_scope.

Definition fbind {A B} (m : fuelled A) (k : A -> fuelled B) : fuelled B :=
  match m with
  | OutOfFuel => OutOfFuel
  | Done (Ok a) => k a
  | Done OutOfBounds => Done OutOfBounds
  | Done InvalidBool => Done InvalidBool
  | Done Throws => Done Throws
  end.
Notation "'let!' x := m 'in' k" := (fbind m (fun x => k)) (at level 200, x pattern, k at level 200).

(** Neighbor, neighbor.hpp:22-38: id and distance; the flag is not used *)
Notation nbr := (N * Z)%type.
Definition nbr_ltb (a b : nbr) : bool := (Z.ltb (snd a) (snd b) || (Z.eqb (snd a) (snd b) && N.ltb (fst a) (fst b)))%bool.
(** std::sort by operator<, neighbor.hpp:31-33, a total order on the pairs *)
Fixpoint nbr_insert (x : nbr) (l : list nbr) : list nbr :=
  match l with [] => [x] | y :: t => if nbr_ltb y x then y :: nbr_insert x t else x :: l end.
Fixpoint nbr_sort (l : list nbr) : list nbr := match l with [] => [] | x :: t => nbr_insert x (nbr_sort t) end.
Definition mem (x : N) (l : list N) : bool := existsb (N.eqb x) l.

(** kMaxCandidatePoolSize, kMaxPrunedSize, kMaxBsIter, 88-90 *)
Definition max_candidates : nat := 750.
Definition max_pruned : nat := 300.
Definition bs_iterations : nat := 5.
(** 1e10f *)
Definition far : Z := 1343554297.
Record qg_input := {
  qi_n : nat;                          (* num_nodes_ *)
  qi_bound : nat;                      (* degree_bound_, 32 *)
  qi_ef : nat;                         (* ef_build_ *)
  qi_ep : N;                           (* ep_ *)
  qi_dist : N -> N -> Z;               (* get_distance *)
  qi_est : nat -> N -> N -> nat -> Z;  (* the estimate, by iteration, query, centre and place *)
  qi_cos : Z -> Z -> Z -> nat -> bool; (* cosine above the threshold, in 64ths *)
  qi_draw : nat -> nat -> N;           (* rand_integer: first rows *)
  qi_fill : nat -> nat -> N;           (* rand_integer: supplement *)
  qi_sched : nat -> list nat;          (* interleaving of the reverse edges, by iteration *)
}.

(** ** random_init, 501-526: drawing until the set is full.  The order of an
    unordered_set is arbitrary, and so is that of the draws. *)
Fixpoint draw_set (fuel bound : nat) (draw : nat -> N) (self : N) (k : nat) (set : list N) : fuelled (list N) :=
  if length set <? bound then
    match fuel with
    | O => OutOfFuel
    | S f =>
        let r := draw k in
        draw_set f bound draw self (S k) (if N.eqb r self || mem r set then set else set ++ [r])
    end
  else Done (Ok set).
(** A loop over the vertices *)
Fixpoint each {A} (f : nat -> fuelled A) (i left : nat) : fuelled (list A) :=
  match left with
  | O => Done (Ok [])
  | S k => let! a := f i in let! rest := each f (S i) k in Done (Ok (a :: rest))
  end.
Definition random_init (fuel : nat) (q : qg_input) : fuelled (list (list nbr)) :=
  each (fun i =>
    let! ids := draw_set fuel (qi_bound q) (qi_draw q i) (N.of_nat i) 0 [] in
    Done (Ok (map (fun j => (j, qi_dist q (N.of_nat i) j)) ids))) 0 (qi_n q).

(** ** find_candidates, 292-329 *)
(** The neighbours of the popped node, 312-323 *)
Fixpoint scan (est : nat -> Z) (vis : list N) (i : nat) (nbrs : list N) (p : pool) : res pool :=
  match nbrs with
  | [] => Ok p
  | m :: rest =>
      let* top := top_dist p in
      if Z.ltb top (est i) || mem m vis then scan est vis (S i) rest p
      else let* (_, p1) := sb_insert p m (est i) in scan est vis (S i) rest p1
  end.
(** The loop, 300-328 *)
Fixpoint find_loop (fuel : nat) (edges : list (list N)) (est : N -> nat -> Z) (dist : N -> Z) (cur : N)
    (vis : list N) (results : list nbr) (p : pool) : fuelled (list N * list nbr) :=
  if has_next p then
    match fuel with
    | O => OutOfFuel
    | S k =>
        let! (top, p1) := Done (sb_pop p) in
        let x := fst top in
        if mem x vis then find_loop k edges est dist cur vis results p1
        else
          let! row := Done (aget edges x) in
          let! p2 := Done (scan (est x) (x :: vis) 0 row p1) in
          find_loop k edges est dist cur (x :: vis) (if N.eqb x cur then results else results ++ [(x, dist x)]) p2
    end
  else Done (Ok (vis, results)).
Definition find_candidates (fuel : nat) (q : qg_input) (it : nat) (edges : list (list N)) (cur : N) : fuelled (list N * list nbr) :=
  let! (_, p) := Done (sb_insert (pool_new (qi_ef q)) (qi_ep q) far) in
  find_loop fuel edges (qi_est q it cur) (qi_dist q cur) cur [] [] p.

(** ** heuristic_prune, 339-386 *)
(** The loop over the rest of the pool, 367-381; [rec] is pruned_neighbors_[cur_id] *)
Fixpoint mark (dist : N -> Z) (sup : bool) (rest : list (nbr * bool)) (rec : list nbr) : list (nbr * bool) * list nbr :=
  match rest with
  | [] => ([], rec)
  | (c, true) :: t => let (t1, r) := mark dist sup t rec in ((c, true) :: t1, r)
  | (c, false) :: t =>
      if Z.ltb (dist (fst c)) (snd c) then
        let (t1, r) := mark dist sup t (if sup && (length rec <? max_pruned) then rec ++ [c] else rec) in ((c, true) :: t1, r)
      else let (t1, r) := mark dist sup t rec in ((c, false) :: t1, r)
  end.
(** The outer loop, 355-384; [left] counts the rest of the pool *)
Fixpoint prune_loop (left bound : nat) (dist : N -> N -> Z) (sup : bool) (todo : list (nbr * bool)) (kept rec : list nbr) : list nbr * list nbr :=
  match left, todo with
  | S k, (c, flag) :: rest =>
      if length kept <? bound then
        if flag then prune_loop k bound dist sup rest kept rec
        else let (rest1, rec1) := mark (dist (fst c)) sup rest rec in prune_loop k bound dist sup rest1 (kept ++ [c]) rec1
      else (kept, rec)
  | _, _ => (kept, rec)
  end.
Definition heuristic_prune (bound : nat) (dist : N -> N -> Z) (sup : bool) (pool old rec : list nbr) : list nbr * list nbr :=
  match pool with
  | [] => (old, rec)
  | _ => if length pool <=? bound then (pool, rec) else prune_loop (length pool) bound dist sup (map (fun c => (c, false)) pool) [] rec
  end.

(** ** search_new_neighbors, 138-169, for one vertex: its new row and the
    candidates recorded as pruned *)
Definition search_one (fuel : nat) (q : qg_input) (it : nat) (sup : bool) (edges : list (list N)) (rows : list (list nbr)) (rec : list nbr) (i : nat) : fuelled (list nbr * list nbr) :=
  let cur := N.of_nat i in
  let! (vis, found) := find_candidates fuel q it edges cur in
  let! row := Done (aget rows cur) in
  let candidates := found ++ filter (fun c => negb (N.eqb (fst c) cur) && negb (mem (fst c) vis)) row in
  Done (Ok (heuristic_prune (qi_bound q) (qi_dist q) sup (firstn max_candidates (nbr_sort candidates)) row rec)).

(** ** add_reverse_edges, 171-219 *)
(** The rows, the buffers, and for each vertex what its loop has still to do *)
Record reverse := { rv_rows : list (list nbr); rv_buf : list (list nbr); rv_todo : list (option (list nbr)) }.
(** A step of the loop of vertex [i]: it reads the end of its row, 180; then
    each neighbour in turn under the lock of that neighbour, 181-200 *)
Definition reverse_step (bound : nat) (i : nat) (s : reverse) : res reverse :=
  let cur := N.of_nat i in
  let* t := aget (rv_todo s) cur in
  match t with
  | None =>
      let* row := aget (rv_rows s) cur in
      let* todo := aput (rv_todo s) cur (Some row) in
      Ok {| rv_rows := rv_rows s; rv_buf := rv_buf s; rv_todo := todo |}
  | Some [] => Ok s
  | Some ((dst, d) :: rest) =>
      let* todo := aput (rv_todo s) cur (Some rest) in
      let* row := aget (rv_rows s) dst in
      if mem cur (map fst row) then Ok {| rv_rows := rv_rows s; rv_buf := rv_buf s; rv_todo := todo |}
      else if length row <? bound then
        let* rows := aput (rv_rows s) dst (row ++ [(cur, d)]) in
        Ok {| rv_rows := rows; rv_buf := rv_buf s; rv_todo := todo |}
      else
        let* b := aget (rv_buf s) dst in
        if length b <? max_candidates then
          let* buf := aput (rv_buf s) dst (b ++ [(cur, d)]) in
          Ok {| rv_rows := rv_rows s; rv_buf := buf; rv_todo := todo |}
        else Ok {| rv_rows := rv_rows s; rv_buf := rv_buf s; rv_todo := todo |}
  end.
Fixpoint reverse_run (bound : nat) (sched : list nat) (s : reverse) : res reverse :=
  match sched with [] => Ok s | i :: rest => let* s1 := reverse_step bound i s in reverse_run bound rest s1 end.
Definition finished (s : reverse) : bool := forallb (fun t => match t with Some [] => true | _ => false end) (rv_todo s).
(** The interleaving has to let every vertex finish; then every row is pruned, 202-218 *)
Definition add_reverse_edges (q : qg_input) (it : nat) (sup : bool) (rows recs : list (list nbr)) : fuelled (list (list nbr * list nbr)) :=
  let! s := Done (reverse_run (qi_bound q) (qi_sched q it) {| rv_rows := rows; rv_buf := map (fun _ => []) rows; rv_todo := map (fun _ => None) rows |}) in
  if finished s then
    each (fun i =>
      let! row := Done (aget (rv_rows s) (N.of_nat i)) in
      let! b := Done (aget (rv_buf s) (N.of_nat i)) in
      let! rec := Done (aget recs (N.of_nat i)) in
      Done (Ok (heuristic_prune (qi_bound q) (qi_dist q) sup (nbr_sort (b ++ row)) row rec))) 0 (qi_n q)
  else OutOfFuel.

(** ** angle_based_supplement, 227-284, and add_pruned_edges, 396-449 *)
(** The loop over new_result, 426-439 *)
Fixpoint occluded (q : qg_input) (t : nat) (c : nbr) (new : list nbr) : bool :=
  match new with
  | [] => false
  | n :: rest =>
      if Z.ltb (snd c) (snd n) then false
      else if qi_cos q (snd c) (snd n) (qi_dist q (fst c) (fst n)) t then true else occluded q t c rest
  end.
(** The loop over pruned_list, 409-448; nei_set holds the ids of new_result *)
Fixpoint add_pruned (q : qg_input) (t : nat) (pruned new : list nbr) : list nbr :=
  match pruned with
  | [] => new
  | c :: rest =>
      if length new <? qi_bound q then
        if mem (fst c) (map fst new) then add_pruned q t rest new
        else if occluded q t c new then add_pruned q t rest new
        else add_pruned q t rest (nbr_sort (new ++ [c]))
      else new
  end.
(** The binary search, 247-259: thresholds in 64ths *)
Fixpoint threshold (k : nat) (q : qg_input) (pruned row : list nbr) (left right : nat) : nat :=
  match k with
  | O => right
  | S k1 =>
      let mid := (left + right) / 2 in
      if length (add_pruned q mid pruned row) <? qi_bound q then threshold k1 q pruned row mid right
      else threshold k1 q pruned row left mid
  end.
(** Random neighbours, 265-279 *)
Fixpoint fill (fuel : nat) (q : qg_input) (draw : nat -> N) (self : N) (k : nat) (new : list nbr) : fuelled (list nbr) :=
  if length new <? qi_bound q then
    match fuel with
    | O => OutOfFuel
    | S f =>
        let r := draw k in
        fill f q draw self (S k) (if N.eqb r self || mem r (map fst new) then new else new ++ [(r, qi_dist q r self)])
    end
  else Done (Ok new).
(** One vertex, 230-282 *)
Definition supplement_one (fuel : nat) (q : qg_input) (i : nat) (row rec : list nbr) : fuelled (list nbr) :=
  if qi_bound q <=? length row then Done (Ok row)
  else
    let pruned := nbr_sort rec in
    let t := threshold bs_iterations q pruned row 32 64 in
    fill fuel q (qi_fill q i) (N.of_nat i) 0 (add_pruned q t pruned row).

(** ** iter, 110-136, and build_graph, 76-82 *)
Definition iter (fuel : nat) (q : qg_input) (it : nat) (sup : bool) (rows : list (list nbr)) : fuelled (list (list nbr)) :=
  let edges := map (map fst) rows in
  let! found := each (search_one fuel q it sup edges rows []) 0 (qi_n q) in
  let! pruned := add_reverse_edges q it sup (map fst found) (map snd found) in
  if sup then
    each (fun i => let! (row, rec) := Done (aget pruned (N.of_nat i)) in supplement_one fuel q i row rec) 0 (qi_n q)
  else Done (Ok (map fst pruned)).
Definition build (fuel : nat) (q : qg_input) : fuelled (list (list nbr)) :=
  let! rows0 := random_init fuel q in
  let! rows1 := iter fuel q 0 false rows0 in
  let! rows2 := iter fuel q 1 false rows1 in
  iter fuel q 2 true rows2.
