(** Proofs for ItemsModel.v. *)
From Coq Require Import Lia.
From Verif Require Import UpdateModel UpdateSpec UpdateProofs StorageModel StorageSpec ScalarDataSpec StorageProofs StorageQueryProofs ItemsModel ItemsSpec.
Import ListNotations.
Local Open Scope nat_scope.

Record items_inv (c : conf) (st : items) (t : table) : Prop := {
  ii_job : inv c (i_job st);
  ii_pending : pending_ok c (i_job st);
  ii_store : represents (i_store st) t;
  ii_rows : forall id r, row t id = Some r -> UpdateSpec.live (i_job st) id;
}.
Lemma holds_row c st t item v r : items_inv c st t ->
  holds st item v r <-> item <> [] /\ item_id r = item /\ exists id, row t id = Some r /\ nth_error (u_vecs (i_job st)) (N.to_nat id) = Some v.
Proof.
  intros I. unfold holds. pose proof (live_row _ _ (ii_store _ _ _ I)) as LR. split.
  - intros (A & B & id & L & _ & E). split; [exact A|]. split; [exact B|]. exists id. split; [now apply LR|exact E].
  - intros (A & B & id & L & E). split; [exact A|]. split; [exact B|]. exists id. split; [now apply LR|]. split; [exact (ii_rows _ _ _ I id r L)|exact E].
Qed.
Lemma has_vec c st t id r : items_inv c st t -> row t id = Some r -> exists v, nth_error (u_vecs (i_job st)) (N.to_nat id) = Some v.
Proof.
  intros I R. destruct (ii_rows _ _ _ I id r R) as [L _]. destruct (nth_error (u_vecs (i_job st)) (N.to_nat id)) eqn:E; [eauto|]. apply nth_error_None in E. unfold size in L. lia.
Qed.
Lemma holds_owns c st t item : items_inv c st t -> item <> [] -> (exists v r, holds st item v r) <-> exists id, owns t item id.
Proof.
  intros I NE. split.
  - intros (v & r & H). apply (holds_row _ _ _ _ _ _ I) in H. destruct H as (_ & B & id & L & _). exists id. now exists r.
  - intros (id & r & L & B). destruct (has_vec _ _ _ _ _ I L) as [v E]. exists v, r. apply (holds_row _ _ _ _ _ _ I). split; [exact NE|]. split; [exact B|]. now exists id.
Qed.
Lemma holds_unique c st t item v r v' r' : items_inv c st t -> holds st item v r -> holds st item v' r' -> v = v' /\ r = r'.
Proof.
  intros I H H'. apply (holds_row _ _ _ _ _ _ I) in H, H'. destruct H as (A & B & id & L & E). destruct H' as (_ & B' & id' & L' & E').
  assert (id = id') as <- by (apply (owns_unique _ _ item _ _ (ii_store _ _ _ I) A); [now exists r|now exists r']). split; congruence.
Qed.
Lemma same_lemma c st st' t : items_inv c st t -> items_inv c st' t ->
  (forall id v, nth_error (u_vecs (i_job st)) id = Some v -> nth_error (u_vecs (i_job st')) id = Some v) -> same st st'.
Proof.
  intros I I' K item v r. rewrite (holds_row _ _ _ _ _ _ I), (holds_row _ _ _ _ _ _ I'). split; intros (A & B & id & L & E); (split; [exact A|]; split; [exact B|]); exists id; (split; [exact L|]).
  - destruct (has_vec _ _ _ _ _ I L) as [v0 E0]. rewrite (K _ _ E0) in E. congruence.
  - now apply K.
Qed.
Lemma put_lemma c st st' t r v : items_inv c st t -> items_inv c st' (set_row (N.of_nat (size (i_job st))) r t) -> stored (i_job st) v (i_job st') ->
  (item_id r <> [] -> forall i, ~ owns t (item_id r) i) -> put (item_id r) v r st st'.
Proof.
  intros I I' ((K & _) & _ & EV & _) NO item v' r'. rewrite (holds_row _ _ _ _ _ _ I), (holds_row _ _ _ _ _ _ I'). split.
  - intros (A & B & id & L & E). rewrite row_set in L. destruct (N.eqb_spec (N.of_nat (size (i_job st))) id) as [Q|Q].
    + left. injection L as <-. subst id. rewrite Nat2N.id in E. split; [congruence|]. split; [congruence|]. split; congruence.
    + right. split. { intros ->. apply (NO A id). exists r'. auto. } split; [exact A|]. split; [exact B|]. exists id. split; [exact L|]. destruct (has_vec _ _ _ _ _ I L) as [v0 E0]. rewrite (K _ _ E0) in E. congruence.
  - intros [(-> & NE & -> & ->)|(NE & A & B & id & L & E)].
    + split; [exact NE|]. split; [reflexivity|]. exists (N.of_nat (size (i_job st))). rewrite row_set, N.eqb_refl. split; [reflexivity|]. now rewrite Nat2N.id.
    + split; [exact A|]. split; [exact B|]. exists id. split; [|now apply K]. rewrite row_set. destruct (N.eqb_spec (N.of_nat (size (i_job st))) id) as [Q|Q]; [|exact L].
      exfalso. destruct (ii_rows _ _ _ I id r' L) as [X _]. subst id. rewrite Nat2N.id in X. lia.
Qed.

Lemma available_none c st t item : items_inv c st t ->
  item_id_available (db (i_store st)) item None = true <-> (item <> [] -> forall i, ~ owns t item i).
Proof.
  intros I. unfold item_id_available. destruct item as [|b item]; [split; [intros _ H; now destruct H|reflexivity]|].
  destruct (find_by_item_id_spec _ _ (b :: item) (ii_store _ _ _ I)) as [[-> H]|(i & -> & NE & O)].
  - split; [|reflexivity]. intros _ _. destruct H as [H|H]; [discriminate|exact H].
  - split; [discriminate|]. intros H. exfalso. apply (H NE i O).
Qed.
Lemma fails_keeps fuel c h s v ef out s' : insert_and_update fuel c h s v ef Fails = Done (Ok (out, s')) -> u_removed s' = u_removed s /\ u_second s' = u_second s.
Proof.
  unfold insert_and_update. destruct (search_solo _ _ _ _ _ _ _) as [|[[res e]| | |]]; try discriminate; [|intros E; injection E as <- <-; auto].
  destruct (_ <=? _); [intros E; injection E as <- <-; auto|]. unfold space_insert. cbn [graph_insert u_vecs]. destruct (_ <=? _); intros E; injection E as <- <-; auto.
Qed.
Lemma removed_second_sink s s' : u_removed s' = u_removed s -> u_second s' = u_second s -> forall x, sink s' x <-> sink s x.
Proof. intros A B x. unfold sink. rewrite A, B. reflexivity. Qed.

Definition insert_effect (c : conf) (st : items) (v : vec) (ef : nat) (r : scalar_data) (broken : bool) (out : outcome) (st' : items) : Prop :=
  match out with
  | Inserted id => put (item_id r) v r st st' /\ size (i_job st) < k_cap c /\ broken = false /\ keeps_vectors (i_job st) (i_job st') /\ size (i_job st') = S (size (i_job st))
  | Full => st' = st /\ full c st
  | Raised =>
      (st' = st /\ ((item_id r <> [] /\ exists v0 r0, holds st (item_id r) v0 r0) \/ ef < k_max c))
      \/ (same st st' /\ broken = true /\ size (i_job st') = S (size (i_job st)) /\ (forall x, sink (i_job st') x <-> sink (i_job st) x))
      \/ (put (item_id r) v r st st' /\ size (i_job st') = S (size (i_job st)) /\ exists x, sink (i_job st) x)
  | Removed => False
  end.
Lemma insert_one_spec fuel c h st t v ef r broken : items_inv c st t -> storable r -> order_ok h -> enough c fuel ->
  exists out st' t', insert_one fuel c h st v ef r broken = Done (Ok (out, st')) /\ items_inv c st' t' /\ insert_effect c st v ef r broken out st'.
Proof.
  intros I SR OH F. unfold insert_one, scalar_answer. pose proof (available_none c st t (item_id r) I) as AV.
  destruct (item_id_available (db (i_store st)) (item_id r) None) eqn:EA; cbn [negb].
  2:{ destruct (insert_spec fuel c h (i_job st) v ef Duplicate (ii_job _ _ _ I) (ii_pending _ _ _ I) OH F) as (out & s' & E & I' & P' & An & _). rewrite E. cbn [bind].
      assert (DU : item_id r <> [] /\ exists v0 r0, holds st (item_id r) v0 r0).
      { unfold item_id_available in EA. destruct (item_id r) as [|b it] eqn:IT; [discriminate|]. destruct (find_by_item_id_spec _ _ (b :: it) (ii_store _ _ _ I)) as [[Q _]|(i & _ & NE & O)]; [rewrite Q in EA; discriminate|].
        split; [exact NE|]. apply (holds_owns c st t _ I NE). now exists i. }
      assert (Q : (out, s') = (Raised, i_job st)) by (cbn [insert_and_update] in E; congruence). injection Q as -> ->. unfold slots. rewrite Nat.ltb_irrefl.
      exists Raised, st, t. split; [destruct st; reflexivity|]. split; [exact I|]. left. split; [reflexivity|]. now left. }
  pose proof (proj1 AV eq_refl) as NO. pose proof (ii_store _ _ _ I) as RP.
  destruct broken.
  - cbn [bind]. destruct (insert_spec fuel c h (i_job st) v ef Fails (ii_job _ _ _ I) (ii_pending _ _ _ I) OH F) as (out & s' & E & I' & P' & An & _). pose proof (fails_keeps _ _ _ _ _ _ _ _ E) as [FR FS]. rewrite E. cbn [bind].
    match goal with |- context [if ?b then ?x else ?x] => replace (if b then x else x) with x by (destruct b; reflexivity) end.
    set (st' := {| i_job := s'; i_store := i_store st |}).
    destruct out as [id| | |]; cbn [insert_answer] in An.
    + exfalso. cbn [insert_and_update] in E. revert E. destruct (search_solo _ _ _ _ _ _ _) as [|[[res e]| | |]]; try discriminate. destruct (_ <=? _); [discriminate|]. unfold space_insert. cbn [graph_insert u_vecs]. destruct (_ <=? _); discriminate.
    + destruct An as [SZ ->]. exists Full, st, t. split; [unfold st'; destruct st; reflexivity|]. split; [exact I|]. split; [reflexivity|exact SZ].
    + destruct An.
    + destruct An as [(-> & [Q|EF])|(STO & _)]; [discriminate| |].
      * exists Raised, st, t. split; [unfold st'; destruct st; reflexivity|]. split; [exact I|]. left. split; [reflexivity|]. now right.
      * destruct STO as ((K & KF) & SZ & EV & LV). assert (I2 : items_inv c st' t).
        { constructor; [exact I'|exact P'|exact RP|]. intros id r0 L. destruct (ii_rows _ _ _ I id r0 L) as [X Y]. split; [cbn [i_job st']; lia|]. cbn [i_job st']. rewrite KF by exact X. exact Y. }
        exists Raised, st', t. split; [reflexivity|]. split; [exact I2|]. right. left. split; [exact (same_lemma c st st' t I I2 K)|]. split; [reflexivity|]. split; [cbn [i_job st']; lia|]. intros x. apply removed_second_sink; assumption.
  - destruct (StorageProofs.insert_step (i_store st) t (N.of_nat (size (i_job st))) r RP) as (sto & E1 & R1 & _); [|exact SR|].
    { pose proof (iv_cap _ _ (ii_job _ _ _ I)). pose proof (iv_width _ _ (ii_job _ _ _ I)) as W. change (2 ^ 31)%N with 2147483648%N in W. change (2 ^ 32)%N with 4294967296%N. lia. }
    cbn [spec_step] in E1, R1. assert (TK : taken_by_other t (N.of_nat (size (i_job st))) (item_id r) = false).
    { apply not_true_iff_false. intros X. apply taken_spec in X; [|apply RP]. destruct X as (NE & i & _ & O). exact (NO NE i O). }
    rewrite TK in E1, R1. cbn [fst snd] in E1, R1. unfold slots at 1. fold (size (i_job st)). rewrite E1. cbn [bind].
    destruct (insert_spec fuel c h (i_job st) v ef Accepts (ii_job _ _ _ I) (ii_pending _ _ _ I) OH F) as (out & s' & E & I' & P' & An & _). rewrite E. cbn [bind]. unfold slots. fold (size s'). fold (size (i_job st)).
    assert (ST : stored (i_job st) v s' -> exists t', items_inv c {| i_job := s'; i_store := if size (i_job st) <? size s' then sto else i_store st |} t' /\ put (item_id r) v r st {| i_job := s'; i_store := if size (i_job st) <? size s' then sto else i_store st |}).
    { intros STO. pose proof STO as ((K & KF) & SZ & EV & LV). rewrite (proj2 (Nat.ltb_lt _ _)) by lia. exists (set_row (N.of_nat (size (i_job st))) r t).
      assert (I2 : items_inv c {| i_job := s'; i_store := sto |} (set_row (N.of_nat (size (i_job st))) r t)).
      { constructor; [exact I'|exact P'|exact R1|]. cbn [i_job]. intros id r0 L. rewrite row_set in L. destruct (N.eqb_spec (N.of_nat (size (i_job st))) id) as [<-|Q]; [exact LV|].
        destruct (ii_rows _ _ _ I id r0 L) as [X Y]. split; [lia|]. rewrite KF by exact X. exact Y. }
      split; [exact I2|]. exact (put_lemma c st _ t r v I I2 STO NO). }
    destruct out as [id| | |]; cbn [insert_answer] in An.
    + destruct An as (RM & _ & STO). destruct (ST STO) as (t' & I2 & PU). eexists _, _, t'. split; [reflexivity|]. split; [exact I2|]. cbn [insert_effect i_job]. pose proof STO as (KE & SZ & _). split; [exact PU|]. split; [exact RM|]. split; [reflexivity|]. split; [exact KE|lia].
    + destruct An as [SZ ->]. rewrite Nat.ltb_irrefl. exists Full, st, t. split; [destruct st; reflexivity|]. split; [exact I|]. split; [reflexivity|exact SZ].
    + destruct An.
    + destruct An as [(-> & [Q|EF])|(STO & [Q|SK])]; try discriminate.
      * rewrite Nat.ltb_irrefl. exists Raised, st, t. split; [destruct st; reflexivity|]. split; [exact I|]. left. auto.
      * destruct (ST STO) as (t' & I2 & PU). eexists _, _, t'. split; [reflexivity|]. split; [exact I2|]. right. right. split; [exact PU|]. split; [cbn [i_job]; destruct STO as (_ & SZ & _); lia|exact SK].
Qed.

Lemma narrow_raises fuel c h st t v ef r broken : items_inv c st t -> storable r -> ef < k_max c -> insert_one fuel c h st v ef r broken = Done (Ok (Raised, st)).
Proof.
  intros I SR EF. unfold insert_one, scalar_answer. pose proof (ii_store _ _ _ I) as RP.
  assert (Q : forall sc s', match insert_and_update fuel c h (i_job st) v ef sc with
      | OutOfFuel => OutOfFuel
      | Done x => Done (let* (out, j) := x in Ok (out, {| i_job := j; i_store := if slots (i_job st) <? slots j then s' else i_store st |})) end = Done (Ok (Raised, st))).
  { intros sc s'. assert (E : insert_and_update fuel c h (i_job st) v ef sc = Done (Ok (Raised, i_job st))).
    { unfold insert_and_update, search_solo, solo_pool. rewrite (proj2 (Nat.ltb_lt _ _) EF). cbn [bind]. destruct sc; reflexivity. }
    rewrite E. cbn [bind]. rewrite Nat.ltb_irrefl. destruct st; reflexivity. }
  destruct (negb _); [apply Q|]. destruct broken; [apply Q|].
  destruct (StorageProofs.insert_step (i_store st) t (N.of_nat (size (i_job st))) r RP) as (sto & E1 & R1 & _); [|exact SR|].
  { pose proof (iv_cap _ _ (ii_job _ _ _ I)). pose proof (iv_width _ _ (ii_job _ _ _ I)) as W. change (2 ^ 31)%N with 2147483648%N in W. change (2 ^ 32)%N with 4294967296%N. lia. }
  unfold slots at 1. fold (size (i_job st)). rewrite E1. cbn [bind]. destruct (fst _); apply Q.
Qed.
Lemma full_fails fuel c h st t v ef r broken : items_inv c st t -> storable r -> order_ok h -> enough c fuel -> full c st -> k_max c <= ef ->
  (item_id r <> [] -> forall v0 r0, ~ holds st (item_id r) v0 r0) -> insert_one fuel c h st v ef r broken = Done (Ok (Full, st)).
Proof.
  intros I SR OH F FU EF NH. destruct (insert_one_spec fuel c h st t v ef r broken I SR OH F) as (out & st' & t' & E & I' & Ef). rewrite E. destruct out as [id| | |]; cbn [insert_effect] in Ef.
  - unfold full in FU. lia.
  - destruct Ef as [-> _]. reflexivity.
  - destruct Ef.
  - exfalso. destruct Ef as [(_ & [(NE & v0 & r0 & H)|X])|[(_ & _ & SZ & _)|(PU & SZ & _)]]; [exact (NH NE v0 r0 H)|lia| |].
    + pose proof (iv_cap _ _ (ii_job _ _ _ I')). unfold full in FU. lia.
    + pose proof (iv_cap _ _ (ii_job _ _ _ I')). unfold full in FU. lia.
Qed.

Lemma remove_item_spec c st t item : items_inv c st t ->
  exists out st' t', remove_item c st item = Ok (out, st') /\ items_inv c st' t' /\ gone item st st' /\ vector_gone item st st' /\ size (i_job st') = size (i_job st) /\
    ((out = Raised /\ st' = st /\ t' = t /\ (item <> [] -> forall i, ~ owns t item i)) \/ (out = Removed /\ item <> [] /\ exists id, owns t item id)).
Proof.
  intros I. unfold remove_item. destruct (find_by_item_id_spec _ _ item (ii_store _ _ _ I)) as [[-> H]|(id & -> & NE & O)].
  - exists Raised, st, t. split; [reflexivity|]. split; [exact I|]. split; [|split; [|split; [reflexivity|]]].
    + intros item' v' r'. split; [|tauto]. intros X. split; [|exact X]. intros ->. destruct H as [->|H]; [now destruct X|].
      assert (NE : item <> []) by apply X. destruct (proj1 (holds_owns c st t item I NE)) as [i O]; [eauto|]. exact (H i O).
    + intros id Hid. split; [|tauto]. intros X. split; [exact X|]. intros (NE & r & L & B). destruct H as [H|H]; [contradiction|]. apply (H id). exists r. split; [|exact B]. now apply (live_row _ _ (ii_store _ _ _ I)).
    + left. split; [reflexivity|]. split; [reflexivity|]. split; [reflexivity|]. intros NE. destruct H as [H|H]; [contradiction|exact H].
  - destruct O as (r & L & B). pose proof (ii_rows _ _ _ I id r L) as [X _].
    destruct (StorageProofs.remove_step (i_store st) t id (ii_store _ _ _ I)) as (sto & E1 & R1 & _).
    { apply (rp_rows _ _ (ii_store _ _ _ I) _ _ L). }
    cbn [spec_step] in E1, R1. rewrite L in E1, R1. cbn [fst snd] in E1, R1. rewrite E1. cbn [bind].
    destruct (remove_spec c (i_job st) id (ii_job _ _ _ I) (ii_pending _ _ _ I) X) as (j & E2 & I2 & P2 & _ & EV & ER & FL). rewrite E2. cbn [bind].
    exists Removed, {| i_job := j; i_store := sto |}, (del_row id t). split; [reflexivity|].
    assert (SZ : size j = size (i_job st)) by (unfold size; now rewrite EV).
    assert (I' : items_inv c {| i_job := j; i_store := sto |} (del_row id t)).
    { constructor; [exact I2|exact P2|exact R1|]. cbn [i_job]. intros i r0 L0. rewrite row_del in L0. destruct (N.eqb_spec id i) as [Q|Q]; [discriminate|]. destruct (ii_rows _ _ _ I i r0 L0) as [Y Z]. split; [lia|].
      rewrite FL. destruct (N.eqb_spec i id); [congruence|exact Z]. }
    split; [exact I'|]. split; [|split; [|split; [exact SZ|right; split; [reflexivity|]; split; [exact NE|]; exists id; now exists r]]].
    { intros item' v' r'. rewrite (holds_row _ _ _ _ _ _ I), (holds_row _ _ _ _ _ _ I'). cbn [i_job]. rewrite EV. split.
    + intros (A & B' & i & L0 & E0). rewrite row_del in L0. destruct (N.eqb_spec id i) as [Q|Q]; [discriminate|]. split; [|split; [exact A|]; split; [exact B'|]; now exists i].
      intros ->. apply Q. apply (owns_unique _ _ item id i (ii_store _ _ _ I) A); [now exists r|now exists r'].
    + intros (Q & A & B' & i & L0 & E0). split; [exact A|]. split; [exact B'|]. exists i. split; [|exact E0]. rewrite row_del. destruct (N.eqb_spec id i) as [<-|]; [|exact L0]. congruence. }
    intros i Hi. unfold UpdateSpec.live. cbn [i_job]. rewrite SZ, FL. destruct (N.eqb_spec i id) as [Q|Q].
    + split; [intros [_ X']; discriminate|]. intros [_ X']. exfalso. apply X'. split; [exact NE|]. exists r. split; [|exact B]. apply (live_row _ _ (ii_store _ _ _ I)). now rewrite Q.
    + split; [|tauto]. intros X'. split; [exact X'|]. intros (_ & r' & L' & B'). apply (live_row _ _ (ii_store _ _ _ I)) in L'. apply Q. apply (owns_unique _ _ item _ _ (ii_store _ _ _ I) NE); [now exists r'|now exists r].
Qed.

Definition upsert_effect (c : conf) (st : items) (v : vec) (ef : nat) (r : scalar_data) (broken broken2 : bool) (out : outcome) (st' : items) : Prop :=
  match out with
  | Inserted _ => put (item_id r) v r st st' /\ broken = false /\ vector_gone (item_id r) st st'
  | Full => full c st /\ gone (item_id r) st st'
  | Raised => (same st st' /\ (broken = true \/ ef < k_max c))
      \/ (put (item_id r) v r st st' /\ exists o st1 x, remove_item c st (item_id r) = Ok (o, st1) /\ sink (i_job st1) x)
      \/ (gone (item_id r) st st' /\ ~ same st st'
          /\ (ef < k_max c \/ broken2 = true \/ size (i_job st) + 1 = k_cap c))
  | Removed => False
  end.
Lemma read_row_some c st t id r : items_inv c st t -> row t id = Some r -> read_row (i_store st) id = Ok r.
Proof. intros I L. apply (live_row _ _ (ii_store _ _ _ I)) in L. apply L. Qed.
Lemma gone_put item v r st st1 st2 : gone item st st1 -> put item v r st1 st2 -> put item v r st st2.
Proof.
  intros G P item' v' r'. rewrite (P item' v' r'), (G item' v' r'). tauto.
Qed.
Lemma gone_back c t st st1 st2 st3 item v r : items_inv c st t -> holds st item v r -> gone item st st1 -> same st1 st2 -> put item v r st2 st3 -> same st st3.
Proof.
  intros I H G S P item' v' r'. rewrite (P item' v' r'), (S item' v' r'), (G item' v' r'). split.
  - intros [(-> & _ & -> & ->)|X]; [exact H|tauto].
  - intros X. destruct (list_eq_dec N.eq_dec item' item) as [->|NE]; [|tauto]. left. split; [reflexivity|]. split; [apply H|].
    destruct (holds_unique _ _ _ _ _ _ _ _ I H X) as [-> ->]. auto.
Qed.
Lemma kept_gone item st st1 st2 : vector_gone item st st1 -> size (i_job st1) = size (i_job st) -> keeps_vectors (i_job st1) (i_job st2) -> size (i_job st2) = S (size (i_job st1)) -> vector_gone item st st2.
Proof.
  intros VG SZ [_ KF] SZ2 id Hid. rewrite <- (VG id Hid). unfold UpdateSpec.live. rewrite KF by lia. split; intros [_ X]; (split; [lia|exact X]).
Qed.
Lemma upsert_spec fuel c h h2 st t v ef r broken broken2 : items_inv c st t -> storable r -> order_ok h -> order_ok h2 -> enough c fuel ->
  exists out st' t', upsert fuel c h h2 st v ef r broken broken2 = Done (Ok (out, st')) /\ items_inv c st' t' /\ upsert_effect c st v ef r broken broken2 out st'.
Proof.
  intros I SR OH OH2 F. unfold upsert. destruct (remove_item_spec c st t (item_id r) I) as (o1 & st1 & t1 & E1 & I1 & G & VG & SZ & CA).
  destruct (find_by_item_id_spec _ _ (item_id r) (ii_store _ _ _ I)) as [[Q H]|(id & Q & NE & O)]; rewrite Q.
  - assert (st1 = st /\ t1 = t) as [-> ->]. { destruct CA as [(_ & -> & -> & _)|(_ & NE & id & O)]; [auto|]. exfalso. destruct H as [H|H]; [contradiction|exact (H id O)]. }
    destruct (insert_one_spec fuel c h st t v ef r broken I SR OH F) as (out & st' & t' & E & I' & Ef). rewrite E. exists out, st', t'. split; [reflexivity|]. split; [exact I'|].
    destruct out as [i| | |]; cbn [insert_effect upsert_effect] in *.
    + destruct Ef as (PU & _ & BR & KE & SZ2). split; [exact PU|]. split; [exact BR|]. exact (kept_gone _ _ _ _ VG eq_refl KE SZ2).
    + destruct Ef as [-> FU]. auto.
    + exact Ef.
    + destruct Ef as [(-> & [(NE & X)|EF])|[(SA & BR & _)|(PU & _ & x & SK)]]; [|left; split; [intros a b d; reflexivity|auto]|left; auto|].
      { exfalso. destruct H as [H|H]; [contradiction|]. apply (holds_owns c st t _ I NE) in X. destruct X as [i X]. exact (H i X). }
      right. left. split; [exact PU|]. exists o1, st, x. auto.
  - destruct CA as [(_ & _ & _ & NO)|(-> & _ & _)]; [exfalso; exact (NO NE id O)|].
    destruct O as (old & L & B). destruct (has_vec _ _ _ _ _ I L) as [ov EV]. rewrite (read_row_some _ _ _ _ _ I L). cbn [bind]. unfold aget. rewrite EV. cbn [bind]. rewrite E1. cbn [bind].
    assert (HO : holds st (item_id r) ov old). { apply (holds_row _ _ _ _ _ _ I). split; [exact NE|]. split; [exact B|]. now exists id. }
    assert (SO : storable old) by apply (rp_rows _ _ (ii_store _ _ _ I) _ _ L).
    assert (NH1 : forall v0 r0, ~ holds st1 (item_id r) v0 r0) by (intros v0 r0 X; apply G in X; destruct X; congruence).
    assert (NS : forall st', (forall v0 r0, ~ holds st' (item_id r) v0 r0) -> ~ same st st') by (intros st' X Y; apply (X ov old); apply Y; exact HO).
    destruct (insert_one_spec fuel c h st1 t1 v ef r broken I1 SR OH F) as (out & st2 & t2 & E2 & I2 & Ef). rewrite E2.
    destruct out as [i| | |]; cbn [insert_effect] in Ef.
    + eexists _, st2, t2. split; [reflexivity|]. split; [exact I2|]. cbn [upsert_effect]. destruct Ef as (PU & _ & BR & KE & SZ2). split; [exact (gone_put _ _ _ _ _ _ G PU)|]. split; [exact BR|]. exact (kept_gone _ _ _ _ VG SZ KE SZ2).
    + destruct Ef as [-> FU]. eexists _, st1, t1. split; [reflexivity|]. split; [exact I1|]. cbn [upsert_effect]. split; [|exact G]. unfold full in *. lia.
    + destruct Ef.
    + destruct Ef as [(-> & [(_ & v0 & r0 & X)|EF])|[(SA & BR & SZ2 & SKS)|(PU & SZ2 & x & SK)]]; [exfalso; exact (NH1 v0 r0 X)| | |].
      * rewrite (narrow_raises fuel c h2 st1 t1 ov ef old broken2 I1 SO EF). exists Raised, st1, t1. split; [reflexivity|]. split; [exact I1|]. cbn [upsert_effect]. right. right. split; [exact G|]. split; [exact (NS _ NH1)|auto].
      * destruct (insert_one_spec fuel c h2 st2 t2 ov ef old broken2 I2 SO OH2 F) as (out & st3 & t3 & E3 & I3 & Ef). rewrite E3. exists Raised, st3, t3. split; [reflexivity|]. split; [exact I3|]. cbn [upsert_effect].
        assert (GS : same st2 st3 -> gone (item_id r) st st3) by (intros X a b d; rewrite (X a b d), (SA a b d); apply G).
        assert (NHG : gone (item_id r) st st3 -> ~ same st st3) by (intros X; apply NS; intros v0 r0 Y; apply X in Y; destruct Y; congruence).
        destruct out as [i| | |]; cbn [insert_effect] in Ef.
        -- rewrite B in Ef. left. split; [exact (gone_back c t st st1 st2 st3 _ _ _ I HO G SA (proj1 Ef))|auto].
        -- destruct Ef as [-> FU]. right. right. assert (gone (item_id r) st st2) by (apply GS; intros a b d; reflexivity). split; [assumption|]. split; [auto|]. right. right. unfold full in FU. lia.
        -- destruct Ef.
        -- rewrite B in Ef. destruct Ef as [(-> & [(_ & v0 & r0 & X)|EF])|[(SA3 & BR2 & _)|(PU & _)]].
           ++ exfalso. apply SA in X. exact (NH1 v0 r0 X).
           ++ right. right. assert (gone (item_id r) st st2) by (apply GS; intros a b d; reflexivity). split; [assumption|]. auto.
           ++ right. right. pose proof (GS SA3). auto.
           ++ left. split; [exact (gone_back c t st st1 st2 st3 _ _ _ I HO G SA PU)|auto].
      * destruct (insert_one_spec fuel c h2 st2 t2 ov ef old broken2 I2 SO OH2 F) as (out & st3 & t3 & E3 & I3 & Ef).
        assert (X3 : out = Raised /\ st3 = st2).
        { revert E3. unfold insert_one, scalar_answer. rewrite B.
          assert (NA : item_id_available (db (i_store st2)) (item_id r) None = false).
          { apply not_true_iff_false. intros X. pose proof (proj1 (available_none c st2 t2 (item_id r) I2) X NE) as X'.
            assert (H2 : holds st2 (item_id r) v r) by (apply PU; left; auto). destruct (proj1 (holds_owns c st2 t2 _ I2 NE)) as [i0 O0]; [eauto|]. exact (X' i0 O0). }
          rewrite NA. cbn [negb]. unfold insert_and_update. cbn [bind]. rewrite Nat.ltb_irrefl. intros X. injection X as <- <-. split; [reflexivity|destruct st2; reflexivity]. }
        destruct X3 as [-> ->]. rewrite E3. exists Raised, st2, t2. split; [reflexivity|]. split; [exact I2|]. cbn [upsert_effect]. right. left.
        split; [exact (gone_put _ _ _ _ _ _ G PU)|]. exists Removed, st1, x. auto.
Qed.

Lemma start_inv c fields st : good_start c fields st -> exists t, items_inv c st t.
Proof.
  intros (B & (ops & R) & L). destruct (reached_represents _ _ _ R) as [RP _]. exists (snd (spec_run [] ops)). constructor.
  - now apply built_inv.
  - left. apply (bu_context _ _ B).
  - exact RP.
  - intros id r H. apply (L id r). now apply (live_row _ _ RP).
Qed.
Lemma perform_spec fuel c st t e : enough c fuel -> items_inv c st t -> event_ok e -> exists out st' t', perform fuel c st e = Done (Ok (out, st')) /\ items_inv c st' t'.
Proof.
  intros F I OK. destruct e as [v ef r h br|v ef r h h2 br br2|item]; cbn [perform event_ok] in *.
  - destruct (insert_one_spec fuel c h st t v ef r br I) as (o & s' & t' & E & I' & _); [tauto|tauto|exact F|]. eauto.
  - destruct (upsert_spec fuel c h h2 st t v ef r br br2 I) as (o & s' & t' & E & I' & _); try tauto. eauto.
  - destruct (remove_item_spec c st t item I) as (o & s' & t' & E & I' & _). rewrite E. eauto.
Qed.
Lemma after_inv fuel c fields st : enough c fuel -> after fuel c fields st -> exists t, items_inv c st t.
Proof.
  intros F A. induction A as [st G|st e out st' A IH OK E]; [exact (start_inv _ _ _ G)|]. destruct IH as [t I]. destruct (perform_spec fuel c st t e F I OK) as (o & s' & t' & E' & I'). rewrite E in E'. injection E' as <- <-. eauto.
Qed.

(** ** Rebuilding *)
Lemma row_set_rows rs : forall start t id, row (set_rows (rows_from start rs) t) id =
  if (start <=? id)%N && (id <? start + N.of_nat (length rs))%N then nth_error rs (N.to_nat (id - start)) else row t id.
Proof.
  induction rs as [|r rs IH]; intros start t id; cbn [rows_from length].
  - unfold set_rows. cbn [fold_left]. destruct (N.leb_spec start id), (N.ltb_spec id (start + N.of_nat 0)); try reflexivity. lia.
  - change (set_rows ((start, r) :: rows_from (start + 1) rs) t) with (set_rows (rows_from (start + 1) rs) (set_row start r t)). rewrite IH, row_set.
    destruct (N.leb_spec (start + 1) id), (N.ltb_spec id (start + 1 + N.of_nat (length rs))), (N.leb_spec start id), (N.ltb_spec id (start + N.of_nat (S (length rs)))); try lia; cbn [andb];
      destruct (N.eqb_spec start id); try lia; try reflexivity.
    + replace (N.to_nat (id - start)) with (S (N.to_nat (id - (start + 1)))) by lia. reflexivity.
    + subst. now rewrite N.sub_diag.
Qed.
Lemma distinct_nodup l : NoDup l -> distinct l = true.
Proof.
  induction 1 as [|x l NI ND IH]; cbn; [reflexivity|]. rewrite IH, andb_true_r. apply negb_true_iff, not_true_iff_false. intros X. apply existsb_exists in X as (y & Iy & Ey).
  destruct (bytes_eqb_spec x y); [subst; contradiction|discriminate].
Qed.
Lemma collect_spec c st t : items_inv c st t -> forall left id, exists rows, collect st id left = Ok rows /\ length rows <= left
  /\ (forall v r, In (v, r) rows <-> exists i, (id <= i < id + N.of_nat left)%N /\ row t i = Some r /\ item_id r <> [] /\ nth_error (u_vecs (i_job st)) (N.to_nat i) = Some v)
  /\ NoDup (map item_id (map snd rows)).
Proof.
  intros I. induction left as [|k IH]; intros id; cbn [collect].
  { exists []. split; [reflexivity|]. split; [cbn; lia|]. split; [|constructor]. intros v r. split; [intros []|]. intros (i & X & _). lia. }
  destruct (IH (id + 1)%N) as (rows & E & LE & IN & ND). rewrite E.
  assert (SK : (forall r, row t id = Some r -> item_id r = []) -> exists rows0, Ok rows = Ok rows0 /\ length rows0 <= S k
    /\ (forall v r, In (v, r) rows0 <-> exists i, (id <= i < id + N.of_nat (S k))%N /\ row t i = Some r /\ item_id r <> [] /\ nth_error (u_vecs (i_job st)) (N.to_nat i) = Some v)
    /\ NoDup (map item_id (map snd rows0))).
  { intros X. exists rows. split; [reflexivity|]. split; [lia|]. split; [|exact ND]. intros v r. rewrite IN. split; intros (i & Y & L & NE & EV); exists i; (split; [|auto]); [lia|]. destruct (N.eq_dec i id) as [->|]; [|lia]. destruct NE. now apply X. }
  destruct (row t id) as [r0|] eqn:L0.
  - rewrite (read_row_some _ _ _ _ _ I L0). cbn [bind]. destruct (item_id r0) as [|b it] eqn:IT; [apply SK; congruence|].
    destruct (has_vec _ _ _ _ _ I L0) as [v0 E0]. unfold aget. rewrite E0. cbn [bind]. exists ((v0, r0) :: rows). split; [reflexivity|]. split; [cbn [length]; lia|]. split.
    + intros v r. cbn [In]. rewrite IN. split.
      * intros [Q|(i & Y & X)]; [|exists i; split; [lia|exact X]]. injection Q as <- <-. exists id. split; [lia|]. split; [exact L0|]. split; [now rewrite IT|exact E0].
      * intros (i & Y & L & NE & EV). destruct (N.eq_dec i id) as [->|]; [left; congruence|]. right. exists i. split; [lia|auto].
    + cbn [map snd]. constructor; [|exact ND]. intros X. apply in_map_iff in X as (r & EQ & X). apply in_map_iff in X as ((v & r') & <- & X). cbn [snd] in EQ. apply IN in X as (i & Y & L & NE & _).
      assert (i = id); [|lia]. apply (owns_unique _ _ (item_id r') _ _ (ii_store _ _ _ I) NE); [now exists r'|exists r0; auto].
  - assert (ER : read_row (i_store st) id = Ok empty_record) by (unfold read_row; now rewrite (get_data_none _ _ _ (ii_store _ _ _ I) L0)). rewrite ER. cbn [bind item_id empty_record]. apply SK. discriminate.
Qed.
Lemma collect_all c st t : items_inv c st t -> exists rows, collect st 0 (N.to_nat (u_items (i_job st))) = Ok rows /\ length rows <= size (i_job st)
  /\ (forall v r, In (v, r) rows <-> holds st (item_id r) v r) /\ (forall v r, In (v, r) rows -> item_id r <> [] /\ storable r) /\ NoDup (map item_id (map snd rows)).
Proof.
  intros I. destruct (collect_spec c st t I (N.to_nat (u_items (i_job st))) 0) as (rows & E & LE & IN & ND). rewrite (iv_items _ _ (ii_job _ _ _ I)) in *. rewrite Nat2N.id in *. exists rows. split; [exact E|]. split; [exact LE|]. split; [|split; [|exact ND]].
  - intros v r. rewrite IN, (holds_row _ _ _ _ _ _ I). split.
    + intros (i & _ & L & NE & EV). eauto.
    + intros (NE & _ & i & L & EV). exists i. split; [|auto]. destruct (ii_rows _ _ _ I i r L). lia.
  - intros v r X. apply IN in X as (i & _ & L & NE & _). split; [exact NE|]. apply (rp_rows _ _ (ii_store _ _ _ I) _ _ L).
Qed.
Lemma nth_error_pair {A B} (l : list (A * B)) i a b : nth_error l i = Some (a, b) <-> nth_error (map fst l) i = Some a /\ nth_error (map snd l) i = Some b.
Proof.
  rewrite !nth_error_map. destruct (nth_error l i) as [[x y]|]; cbn; split; try easy; [intros E; injection E as -> ->; auto|]. intros [E1 E2]. congruence.
Qed.
Lemma reindex_spec c st t c' fields (build : list vec -> state) : items_inv c st t ->
  (forall vs, vs <> [] -> length vs <= k_cap c -> built c' (build vs) /\ u_vecs (build vs) = vs /\ forall id, N.to_nat id < length vs -> flag (u_live (build vs)) id = true) ->
  (reindex fields build st = Ok None /\ forall item v r, ~ holds st item v r)
  \/ exists st' t', reindex fields build st = Ok (Some st') /\ good_start c' fields st' /\ items_inv c' st' t' /\ same st st'
     /\ (forall id, N.to_nat id < size (i_job st') -> exists r, row t' id = Some r) /\ (forall id r, row t' id = Some r -> item_id r <> []).
Proof.
  intros I BU. destruct (collect_all c st t I) as (rows & E & LE & IN & OK & ND). unfold reindex. rewrite E. cbn [bind].
  destruct rows as [|row0 rows0] eqn:ER.
  { left. split; [reflexivity|]. intros item v r H. assert (item_id r = item) as <- by apply H. now apply IN in H. }
  rewrite <- ER in *. assert (NN : rows <> []) by (rewrite ER; discriminate). clear ER row0 rows0. right.
  pose proof (iv_cap _ _ (ii_job _ _ _ I)) as CAP. pose proof (iv_width _ _ (ii_job _ _ _ I)) as W. change (2 ^ 31)%N with 2147483648%N in W.
  assert (OPS : op_ok (BatchInsert 0 (map snd rows))).
  { split; [rewrite map_length; change (2 ^ 32)%N with 4294967296%N; lia|]. apply Forall_forall. intros r X. apply in_map_iff in X as ((v & r') & <- & X). apply (OK _ _ X). }
  destruct (batch_step (empty_storage fields) [] 0 (map snd rows) (empty_represents fields) OPS) as (sto & EB & RB & _).
  assert (DI : distinct (nonempty_ids (map snd rows)) = true) by (apply distinct_nodup; unfold nonempty_ids; now apply NoDup_filter).
  assert (TA : forallb (fun e => negb (taken_by_other [] (fst e) (item_id (snd e)))) (rows_from 0 (map snd rows)) = true).
  { apply forallb_forall. intros e _. apply negb_true_iff, not_true_iff_false. intros X. apply taken_spec in X; [|constructor]. destruct X as (_ & i & _ & r & X & _). discriminate. }
  cbn [spec_step] in EB, RB. rewrite DI, TA in EB, RB. cbn [andb fst snd] in EB, RB.
  unfold empty_storage in EB. rewrite EB. cbn [bind].
  destruct (BU (map fst rows)) as (BT & BV & BL); [destruct rows; [contradiction|discriminate]|rewrite map_length; lia|]. rewrite map_length in BL.
  set (st' := {| i_job := build (map fst rows); i_store := sto |}). set (t' := set_rows (rows_from 0 (map snd rows)) []) in *.
  assert (RO : forall id, row t' id = nth_error (map snd rows) (N.to_nat id)).
  { intros id. unfold t'. rewrite row_set_rows. rewrite N.sub_0_r, map_length. destruct (N.leb_spec 0 id); [|lia]. destruct (N.ltb_spec id (0 + N.of_nat (length rows))); cbn [andb]; [reflexivity|]. cbn [row]. symmetry. apply nth_error_None. rewrite map_length. lia. }
  assert (SZ : size (build (map fst rows)) = length rows) by (unfold size; now rewrite BV, map_length).
  assert (LI : forall id r, row t' id = Some r -> UpdateSpec.live (build (map fst rows)) id).
  { intros id r L. rewrite RO in L. assert (N.to_nat id < length rows) by (rewrite <- (map_length snd); apply nth_error_Some; congruence). split; [now rewrite SZ|now apply BL]. }
  assert (I' : items_inv c' st' t').
  { constructor; [now apply built_inv|left; apply (bu_context _ _ BT)|exact RB|exact LI]. }
  exists st', t'. split; [reflexivity|]. split; [|split; [exact I'|split; [|split]]].
  - split; [exact BT|]. split; [|intros id r L; apply (LI id r); now apply (live_row _ _ RB)]. exists [BatchInsert 0 (map snd rows)]. split; [now constructor|]. exists [true]. cbn [run StorageSpec.step]. unfold empty_storage. rewrite EB. reflexivity.
  - intros item v r. rewrite (holds_row _ _ _ _ _ _ I'). cbn [i_job st']. rewrite BV. split.
    + intros (NE & <- & id & L & EV). rewrite RO in L. apply IN. apply nth_error_In with (N.to_nat id). now apply nth_error_pair.
    + intros H. assert (item_id r = item) as <- by apply H. pose proof H as X. apply IN in X. apply In_nth_error in X as (i & X). apply nth_error_pair in X as [X1 X2]. split; [apply H|]. split; [reflexivity|]. exists (N.of_nat i). rewrite RO, Nat2N.id. auto.
  - intros id X. rewrite RO. cbn [i_job st'] in X. rewrite SZ in X. destruct (nth_error (map snd rows) (N.to_nat id)) eqn:Q; [eauto|]. apply nth_error_None in Q. rewrite map_length in Q. lia.
  - intros id r L. rewrite RO in L. apply nth_error_In in L. apply in_map_iff in L as ((v & r') & <- & X). apply (OK _ _ X).
Qed.
