(** What the search on disk should return. *)
From Verif Require Export DiskSearchModel SearchSpec.

(** A node leads to the nodes of its list that exist and are not deleted. *)
Definition disk_edge (d : disk) (x y : N) : Prop := In y (d_nbrs d x) /\ (y < d_points d)%N /\ d_deleted d y = false.
Definition disk_reachable (d : disk) : N -> Prop := reachable (disk_edge d) (eq (d_medoid d)).
(** The nodes a search may return.  (Only the medoid can be reached although
    it is deleted.) *)
Definition live (d : disk) (x : N) : Prop := disk_reachable d x /\ d_deleted d x = false.

(** A search: what it is asked, the index, where the nodes are found and when
    reads complete. *)
Record disk_query := { dq_disk : disk; dq_src : N -> source; dq_events : nat -> list N -> list N; dq_deterministic : bool;
                       dq_top_k : nat; dq_list_size : nat }.
Definition dq_capacity (q : disk_query) : nat := Nat.max (dq_list_size q) (dq_top_k q).
(** It fits the scratch: ids below [max], lists of at most [degree] ids, room
    for [lists] of them; the waits for completed reads are not in vain. *)
Record dq_ok (max degree lists : N) (q : disk_query) : Prop := {
  do_points : (d_points (dq_disk q) <= max)%N;
  do_medoid : (d_medoid (dq_disk q) < max)%N;
  do_degree : forall x, (N.of_nat (length (d_nbrs (dq_disk q) x)) <= degree)%N;
  do_room : (N.of_nat (dq_capacity q) <= lists)%N;
  do_some : 0 < dq_capacity q;
  do_events : forall round ids, ids <> [] -> exists x, In x ids /\ In x (dq_events q round ids);
}.
Definition dq_run (q : disk_query) (fuel : nat) (t : thread_data) :=
  disk_greedy_search fuel (dq_disk q) (dq_src q) (dq_events q) (dq_deterministic q) t (dq_top_k q) (dq_list_size q).
(** Enough fuel: no node is read or expanded twice. *)
Definition dq_fuel (q : disk_query) : nat := 3 * N.to_nat (d_points (dq_disk q)) + 4.
(** A thread's scratch after any searches and growths of the index. *)
Inductive td_history (degree lists : N) : N -> thread_data -> Prop :=
| td_new slots max t : alloc_scratch slots max degree lists = Ok t -> td_history degree lists max t
| td_grow max t max' : td_history degree lists max t -> td_history degree lists (N.max max max') (resize_slot_capacity t max')
| td_search max t q hits t' e : td_history degree lists max t -> dq_ok max degree lists q ->
    dq_run q (dq_fuel q) t = Done (Ok (hits, t', e)) -> td_history degree lists max t'.
(** The search may stop: the live nodes a returned node leads to, and the
    medoid, are returned or no closer than the returned ones. *)
Definition disk_settled (q : disk_query) (res : list (N * Z)) : Prop :=
  nearest (fun y => d_deleted (dq_disk q) y = false /\ (y = d_medoid (dq_disk q) \/ exists x z, In (x, z) res /\ disk_edge (dq_disk q) x y))
    (d_dist (dq_disk q)) (dq_top_k q) res.

(** ** The textbook search: expand the closest node found that is not expanded,
    as long as it is among the [cap] closest found.  Nodes at equal distances
    are ordered by their ids. *)
Fixpoint in_order (a : N * Z) (l : list (N * Z)) : list (N * Z) :=
  match l with
  | [] => [a]
  | b :: rest => if Z.ltb (snd a) (snd b) || (Z.eqb (snd a) (snd b) && N.ltb (fst a) (fst b)) then a :: l else b :: in_order a rest
  end.
Definition closest (d : disk) (cap : nat) (found : list N) : list (N * Z) :=
  firstn cap (fold_right in_order [] (map (fun x => (x, d_dist d x)) found)).
(** The nodes of a list that are not found yet, each once. *)
Fixpoint unfound (d : disk) (found l : list N) : list N :=
  match l with
  | [] => []
  | m :: rest => if N.ltb m (d_points d) && negb (d_deleted d m) && negb (existsb (N.eqb m) found) then m :: unfound d (m :: found) rest
                 else unfound d found rest
  end.
Definition next_to_expand (d : disk) (cap : nat) (found expanded : list N) : option N :=
  option_map fst (find (fun e => negb (existsb (N.eqb (fst e)) expanded)) (closest d cap found)).
(** From the nodes found and expanded to those found and expanded at the end. *)
Inductive best_first (d : disk) (cap : nat) : list N -> list N -> list N -> list N -> Prop :=
| bf_stop found expanded : next_to_expand d cap found expanded = None -> best_first d cap found expanded found expanded
| bf_step found expanded x found' expanded' : next_to_expand d cap found expanded = Some x ->
    best_first d cap (found ++ unfound d found (d_nbrs d x)) (expanded ++ [x]) found' expanded' ->
    best_first d cap found expanded found' expanded'.
(** The results and the nodes expanded, in order. *)
Definition textbook (d : disk) (cap top_k : nat) (hits : list (N * Z)) (expanded : list N) : Prop :=
  exists found, best_first d cap [d_medoid d] [] found expanded
    /\ hits = firstn top_k (List.filter (fun e => negb (d_deleted d (fst e))) (closest d cap found)).
