(** What deletion by filter must do. *)
From Verif Require Export StorageSpec DeleteModel.

(** [ids]: the rows that satisfy [P], each once *)
Definition rows_with (s : storage) (P : scalar_data -> Prop) (ids : list N) : Prop :=
  NoDup ids /\ forall id, In id ids <-> exists r, live s id r /\ P r.
(** Rows that satisfy the filter *)
Definition matching (f : filter) (r : scalar_data) : Prop := evaluate f (meta r) = true.
(** Rows that satisfy the filter and cannot be removed by item id *)
Definition stuck (updatable : bool) (f : filter) (r : scalar_data) : Prop := matching f r /\ (updatable = false \/ item_id r = []).
