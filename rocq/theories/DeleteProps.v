(** C56: deletion by filter. *)
From Coq Require Import String.
From Verif Require Import StorageProofs StorageQueryProofs DeleteProofs.

(** When the index supports removal and every row that satisfies the filter has an
    item id, deletion by filter ends, exactly the rows that do not satisfy the filter
    remain, unchanged, and the number returned is the number of rows deleted.
    Missing for the full property: rows without item id, indexes without removal. *)
Theorem delete_by_filter_partial fields ops s f batch : reached fields ops s -> 0 < batch -> (N.of_nat batch < 2 ^ 32)%N ->
  (forall id r, live s id r -> matching f r -> item_id r <> []) ->
  exists n s' total, (forall k, n <= k -> delete_by_filter k true s f batch = Done (Ok (s', total))) /\
    (forall id r, live s' id r <-> live s id r /\ ~ matching f r) /\
    exists m, rows_with s (matching f) m /\ total = length m.
Proof.
  intros RE B0 B1 H. destruct (reached_represents _ _ _ RE) as (t & R).
  assert (NS : forall id r, live s id r -> ~ stuck true f r) by (intros id r L [M [E|E]]; [discriminate E|exact (H id r L M E)]).
  destruct (ends_lemma fields ops s true f batch [] RE B0 B1) as (n & s' & total & E & ROW & CNT); [|cbn; lia|].
  { split; [constructor|]. intros id. split; [intros []|]. intros (r & L & S). exact (NS id r L S). }
  exists n, s', total. split; [exact E|]. split.
  - intros id r. rewrite ROW. split.
    + intros [L K]. split; [exact L|]. intros M. exact (NS id r L (K M)).
    + intros [L K]. split; [exact L|]. intros M. contradiction.
  - pose proof (matching_rows s t f R) as M. eexists. split; [exact M|]. now apply (CNT _ M).
Qed.

(** In general it ends when fewer rows than the batch size are stuck (they satisfy
    the filter but cannot be removed); exactly they remain. *)
Theorem delete_by_filter_ends fields ops s u f batch ids : reached fields ops s -> 0 < batch -> (N.of_nat batch < 2 ^ 32)%N ->
  rows_with s (stuck u f) ids -> length ids < batch ->
  exists n s' total, (forall k, n <= k -> delete_by_filter k u s f batch = Done (Ok (s', total))) /\
    (forall id r, live s' id r <-> live s id r /\ (matching f r -> stuck u f r)).
Proof. intros RE B0 B1 W LT. destruct (ends_lemma fields ops s u f batch ids RE B0 B1 W LT) as (n & s' & total & E & ROW & _). eauto. Qed.

(** It never ends when at least batch size rows are stuck. *)
Theorem delete_by_filter_runs fields ops s u f batch ids : reached fields ops s -> 0 < batch -> (N.of_nat batch < 2 ^ 32)%N ->
  rows_with s (stuck u f) ids -> batch <= length ids -> forall k, delete_by_filter k u s f batch = OutOfFuel.
Proof. exact (runs_lemma fields ops s u f batch ids). Qed.

Definition rec (item : bytes) (x : Z) : scalar_data := {| item_id := item; document := []; meta := [(str "x", VInt x)] |}.
Definition ex_ops : list StorageSpec.op :=
  [BatchInsert 10 [rec (str "a") 1; rec (str "b") 2; rec (str "c") 1; rec (str "d") 1]; Remove 12; Insert 3 (rec (str "e") 1)].
Definition ex_filter : filter := Filter AND [{| field := str "x"; FilterModel.op := EQ; operand := VInt 1; operands := [] |}] [].
Lemma ex_ok : Forall op_ok ex_ops.
Proof. apply op_okb_ok. vm_compute. reflexivity. Qed.

Ltac reach E OK := match goal with |- exists s, reached ?f ?o s /\ _ =>
  destruct (run (empty_storage f) o) as [[bs s]| | |] eqn:E; try (vm_compute in E; discriminate E);
  exists s; split; [split; [exact OK|now exists bs]|] end.

Example delete_by_filter_case : exists s, reached [str "x"] ex_ops s /\
  (forall id r, live s id r -> matching ex_filter r -> item_id r <> []) /\
  exists s', delete_by_filter 5 true s ex_filter 2 = Done (Ok (s', 3)) /\ is_valid s' 11 = true /\ is_valid s' 10 = false.
Proof.
  reach E ex_ok. split.
  - intros id r L _. destruct (history [str "x"] ex_ops ex_ok) as (s1 & E1 & R & _). assert (s1 = s) by congruence. subst s1.
    apply (live_row s _ R) in L. apply row_In in L; [|apply R]. vm_compute in L.
    repeat (destruct L as [L|L]; [injection L as <- <-; discriminate|]). contradiction.
  - vm_compute in E. injection E as <- <-. eexists. split; [vm_compute; reflexivity|]. vm_compute. auto.
Qed.

(** Two rows without item id: with batch size 2 the deletion never ends, with batch
    size 3 it returns 2 although no row was deleted. *)
Definition bad_ops : list StorageSpec.op := [Insert 1 (rec [] 1); Insert 2 (rec [] 1)].
Lemma bad_ok : Forall op_ok bad_ops.
Proof. apply op_okb_ok. vm_compute. reflexivity. Qed.

Theorem delete_by_filter_refuted : exists s, reached [] bad_ops s /\
  (forall k, delete_by_filter k true s ex_filter 2 = OutOfFuel) /\
  delete_by_filter 2 true s ex_filter 3 = Done (Ok (s, 2)).
Proof.
  reach E bad_ok. assert (RE : reached [] bad_ops s) by (split; [exact bad_ok|eauto]).
  destruct (history [] bad_ops bad_ok) as (s1 & E1 & R & _). assert (s1 = s) by congruence. subst s1. split.
  - apply (delete_by_filter_runs [] bad_ops s true ex_filter 2 [1; 2]%N RE); [lia|lia| |cbn; lia].
    split; [repeat constructor; cbn; intuition discriminate|]. intros id. split.
    + intros I. exists (rec [] 1). split; [apply (live_row s _ R); destruct I as [ <- |[ <- |[]]]; reflexivity|].
      split; [reflexivity|right; reflexivity].
    + intros (r & L & _). apply (live_row s _ R) in L. apply row_In in L; [|apply R]. vm_compute in L.
      destruct L as [L|[L|[]]]; injection L as <- <-; cbn; auto.
  - vm_compute in E. injection E as <- <-. vm_compute. reflexivity.
Qed.

(** On an index without removal the deletion never ends as soon as batch size rows
    satisfy the filter. *)
Theorem delete_not_updatable_refuted fields ops s f batch ids : reached fields ops s -> 0 < batch -> (N.of_nat batch < 2 ^ 32)%N ->
  rows_with s (matching f) ids -> batch <= length ids -> forall k, delete_by_filter k false s f batch = OutOfFuel.
Proof.
  intros RE B0 B1 [ND W] LE. apply (runs_lemma fields ops s false f batch ids RE B0 B1); [|exact LE].
  split; [exact ND|]. intros id. rewrite W. split; intros (r & L & M); exists r; (split; [exact L|]).
  - split; [exact M|now left].
  - apply M.
Qed.

Print Assumptions delete_by_filter_partial.
Print Assumptions delete_by_filter_ends.
Print Assumptions delete_by_filter_runs.
Print Assumptions delete_by_filter_refuted.
Print Assumptions delete_not_updatable_refuted.
