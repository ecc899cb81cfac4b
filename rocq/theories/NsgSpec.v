(** What the NSG builder promises, stated on plain edge tables. *)
From Coq Require Import Sorting.Permutation.
From Verif Require Export NsgModel.
Import ListNotations.

(** [v] is in one of the slots of [u]'s row. *)
Definition edge (g : graph) (u v : N) : Prop :=
  exists row, nth_error g (N.to_nat u) = Some row /\ In v row /\ v <> kEmptyId.
(** [v] can be reached by following edges from [ep]. *)
Inductive reach (g : graph) (ep : N) : N -> Prop :=
| reach_here : reach g ep ep
| reach_step u v : reach g ep u -> edge g u v -> reach g ep v.

(** A row of [r] slots: ids of stored vectors, then empty slots. *)
Definition row_ok (n : N) (r : nat) (row : list N) : Prop :=
  exists ids, Forall (fun x => (x < n)%N) ids /\ row = ids ++ repeat kEmptyId (r - length ids) /\ length ids <= r.
(** A graph over [n] vectors with at most [r] neighbours each. *)
Definition graph_ok (n : N) (r : nat) (g : graph) : Prop :=
  length g = N.to_nat n /\ Forall (row_ok n r) g.

(** What the builder is called with: some vectors, fewer than 2^32 - 1; the
    sorts only reorder; the nearest-neighbour graph has [K] slots per vector. *)
Definition input_ok (inp : input) : Prop :=
  (0 < in_n inp < kEmptyId)%N /\
  (forall l, Permutation (in_sort_nbr inp l) l) /\ (forall l, Permutation (in_sort_node inp l) l).
Definition table_ok (n : N) (K : nat) (knng : graph) : Prop :=
  length knng = N.to_nat n /\ Forall (fun row => length row = K) knng.
(** No vector occurs twice in one row of the nearest-neighbour graph. *)
Definition no_repeats (n : N) (knng : graph) : Prop :=
  Forall (fun row => NoDup (filter (fun x => N.ltb x n) row)) knng.

(** The claim: every stored vector can be reached from the entry point. *)
Definition all_reachable (n : N) (ep : N) (g : graph) : Prop :=
  forall v, (v < n)%N -> reach g ep v.

(** Entries in the order of their distances, each with its own distance. *)
Definition in_order (pool : list nbr) : Prop :=
  forall i j a b, i <= j -> nth_error pool i = Some a -> nth_error pool j = Some b -> (nb_dist a <= nb_dist b)%Z.
Definition own_dist (q : N -> Z) (pool : list nbr) : Prop := Forall (fun x => nb_dist x = q (nb_id x)) pool.
(** The sort of the pool sorts by distance. *)
Definition sorts (inp : input) : Prop := forall l, in_order (in_sort_nbr inp l).
(** No vector twice in a row. *)
Definition distinct_rows (g : graph) : Prop := Forall (fun row => NoDup (filter (fun x => negb (N.eqb x kEmptyId)) row)) g.
