(** What fusing two graphs promises, on plain edge tables. *)
From Verif Require Export NsgSpec FusionModel.
Import ListNotations.

(** [v] is a neighbour of [u]: in [u]'s row before the first empty slot. *)
Definition adj (g : graph) (u v : N) : Prop :=
  exists row pre post, nth_error g (N.to_nat u) = Some row /\ row = pre ++ v :: post /\ ~ In kEmptyId (pre ++ [v]).
(** A table of [n] rows of [r] slots, whatever they hold. *)
Definition table (n : N) (r : nat) (g : graph) : Prop :=
  length g = N.to_nat n /\ Forall (fun row => length row = r) g.
(** The neighbours of a row, before the first empty slot. *)
Fixpoint nbrs (row : list N) : list N :=
  match row with
  | [] => []
  | x :: row' => if N.eqb x kEmptyId then [] else x :: nbrs row'
  end.
(** No neighbour listed twice. *)
Definition distinct (g : graph) : Prop := Forall (fun row => NoDup (nbrs row)) g.
(** [v] can be reached from [u] by following neighbours. *)
Inductive linked (g : graph) (u : N) : N -> Prop :=
| linked_here : linked g u u
| linked_step v w : linked g u v -> adj g v w -> linked g u w.
