(** Property C12: filter evaluation. *)
From Coq Require Import String.
From Verif Require Import FilterModel FilterSpec FilterProofs.

(** C12.  A filter accepts a record exactly when its meaning holds, for every
    tree, as long as no NaN is compared by >= or <= and every NOT has a single
    part.  (Full statement: the same without [well_formed]; refuted below.) *)
Theorem filter_evaluate_partial : forall f m,
  NoDup (map fst m) -> well_formed m f ->
  (evaluate f m = true <-> denotes f m).
Proof. intros f m ND W. now apply evaluate_lemma. Qed.
Print Assumptions filter_evaluate_partial.

(** C12, single conditions other than >= and <=: no hypothesis on NaN. *)
Theorem condition_evaluate : forall c m,
  NoDup (map fst m) -> cond_no_nan m c ->
  (evaluate_condition c m = true <-> exists v, In (field c, v) m /\ op_holds c v).
Proof. intros c m. apply condition_lemma. Qed.
Print Assumptions condition_evaluate.

Definition ex_meta : metadata :=
  [(str "price", VDouble 0x4024000000000000); (str "tag", VStr (str "alaya lite")); (str "n", VInt (-5))].
Definition ex_cond f o v := {| field := str f; op := o; operand := v; operands := [] |}.
Example filter_example :
  let f := Filter AND [ex_cond "price" GE (VDouble 0x4024000000000000)]
             [Filter OR [ex_cond "tag" CONTAINS (VStr (str "db")); ex_cond "n" LT (VInt 0)] [];
              Filter NOT [ex_cond "missing" EQ (VInt 1)] []] in
  NoDup (map fst ex_meta) /\ well_formed ex_meta f /\ evaluate f ex_meta = true /\ denotes f ex_meta.
Proof.
  cbv zeta.
  assert (ND : NoDup (map fst ex_meta)) by (cbn; repeat constructor; cbn; intuition discriminate).
  assert (W : well_formed ex_meta (Filter AND [ex_cond "price" GE (VDouble 0x4024000000000000)]
             [Filter OR [ex_cond "tag" CONTAINS (VStr (str "db")); ex_cond "n" LT (VInt 0)] [];
              Filter NOT [ex_cond "missing" EQ (VInt 1)] []])).
  { cbn [well_formed fold_right]. repeat split; try (intros H; discriminate H); try (cbn; lia).
    - constructor; [|constructor]. cbn. split; [reflexivity|].
      intros v [H|[H|[H|[]]]]; inversion H; subst; reflexivity.
    - repeat constructor.
    - repeat constructor. }
  split; [exact ND|]. split; [exact W|]. split; [vm_compute; reflexivity|].
  apply filter_evaluate_partial; try assumption. vm_compute. reflexivity.
Qed.

(** C12 is false for NaN: a stored NaN satisfies both ">= 1.0" and "<= 1.0"
    although it stands in neither relation. *)
Theorem filter_nan_refuted : exists m c1 c2,
  op c1 = GE /\ op c2 = LE /\ NoDup (map fst m)
  /\ evaluate (Filter AND [c1; c2] []) m = true
  /\ ~ denotes (Filter AND [c1; c2] []) m.
Proof.
  exists [(str "x", VDouble 0x7FF8000000000000)],
    (ex_cond "x" GE (VDouble 0x3FF0000000000000)), (ex_cond "x" LE (VDouble 0x3FF0000000000000)).
  split; [reflexivity|]. split; [reflexivity|]. split; [repeat constructor; cbn; tauto|]. split.
  - vm_compute. reflexivity.
  - intros [H|H]; [discriminate|]. apply Forall_inv in H. destruct H as (v & [HI|[]] & Ho).
    inversion HI; subst. destruct Ho as [Ho|Ho]; vm_compute in Ho; exact Ho.
Qed.
Print Assumptions filter_nan_refuted.

(** C12 is false for a NOT with several parts: only the first counts. *)
Theorem filter_not_many_refuted : exists m c1 c2,
  NoDup (map fst m)
  /\ evaluate (Filter NOT [c1; c2] []) m = false /\ denotes (Filter NOT [c1; c2] []) m.
Proof.
  exists [(str "x", VInt 1)], (ex_cond "x" EQ (VInt 1)), (ex_cond "x" EQ (VInt 2)).
  split; [repeat constructor; cbn; tauto|]. split; [vm_compute; reflexivity|].
  right. intros H. apply Forall_inv_tail in H. apply Forall_inv in H. destruct H as (v & [HI|[]] & Ho).
  inversion HI; subst. vm_compute in Ho. discriminate.
Qed.
Print Assumptions filter_not_many_refuted.
