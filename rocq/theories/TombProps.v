(** Properties C35 and C36: the tombstone bitmap and the slot allocator. *)
From Verif Require Import BitsetModel BitsetSpec BitsetProofs TombModel TombSpec TombProofs.
Local Open Scope N_scope.

(** The bitmap answers exactly the set, its count is the cardinality, and a
    snapshot answers the same. *)
Theorem tombstones_are_set : forall init ops, init <= 2 ^ 32 -> Forall tomb_op_ok ops ->
  exists t0 t, tb_new init = Ok t0 /\ run_ops tomb_step t0 ops = Ok t
    /\ (forall p, tb_is_deleted t p = Ok (member ops p))
    /\ cardinality (member ops) (tb_count t)
    /\ exists s, snapshot t = Ok s /\ forall p, sn_is_deleted s p = Ok (member ops p).
Proof.
  intros init ops Hi F. destruct (tomb_history init ops Hi F) as (t0 & t & E0 & E & I). exists t0, t. split; [assumption|]. split; [assumption|].
  split; [intros p; now apply tb_is_deleted_ok|]. split.
  - rewrite (ti_count _ _ I). apply card_cardinality. intros p. apply (inv_below _ _ _ I).
  - now apply snapshot_ok.
Qed.
Print Assumptions tombstones_are_set.

(** Saving and loading, into a bitmap in any state and with anything following
    in the stream, preserves the set and the count. *)
Theorem tombstones_round_trip : forall init ops t0 t u rest, init <= 2 ^ 32 -> Forall tomb_op_ok ops ->
  tb_new init = Ok t0 -> run_ops tomb_step t0 ops = Ok t ->
  exists file t', tb_serialize t = Ok file /\ tb_deserialize u (file ++ rest) = Ok (t', rest)
    /\ (forall p, tb_is_deleted t' p = Ok (member ops p)) /\ tb_count t' = tb_count t /\ cardinality (member ops) (tb_count t').
Proof.
  intros init ops t0 t u rest Hi F E0 E. destruct (tomb_history init ops Hi F) as (t0' & t'' & E0' & E' & I).
  rewrite E0 in E0'. injection E0' as <-. rewrite E in E'. injection E' as <-.
  destruct (reload_ok t _ u rest I) as (file & t' & Es & Ed & I' & B). exists file, t'. split; [assumption|]. split; [assumption|].
  split; [intros p; now apply tb_is_deleted_ok|]. split.
  - now rewrite (ti_count _ _ I'), (ti_count _ _ I), B.
  - rewrite (ti_count _ _ I'). apply card_cardinality. intros p. apply (inv_below _ _ _ I').
Qed.
Print Assumptions tombstones_round_trip.
(** Ids in two chunks, one set twice, one cleared, one cleared in a chunk that
    does not exist. *)
Definition ex_tomb_ops : list set_op :=
  [BitsetSpec.Add 5; BitsetSpec.Add 70000; BitsetSpec.Add 5; BitsetSpec.Add 63; BitsetSpec.Del 63; BitsetSpec.Del 200000; BitsetSpec.Add 64].
Example tombstone_example : Forall tomb_op_ok ex_tomb_ops
  /\ match tb_new 100 with Ok t0 => match run_ops tomb_step t0 ex_tomb_ops with
       | Ok t => tb_count t = 3 /\ tb_bits t = 131072 /\ tb_is_deleted t 70000 = Ok true /\ tb_is_deleted t 63 = Ok false
       | _ => False end | _ => False end.
Proof. split; [repeat constructor|vm_compute; repeat split]. Qed.

(** An id of 2^32 or more is refused by set. *)
Theorem tombstone_set_beyond : forall t id, 2 ^ 32 <= id -> tb_set t id = Throws.
Proof.
  intros t id H. unfold tb_set, chunk_grow. rewrite chunk_of. destruct (N.leb_spec kMaxChunks (id / 65536)) as [_|L]; [reflexivity|].
  change kMaxChunks with 65536 in L. change (2 ^ 32) with 4294967296 in H. lia.
Qed.
Print Assumptions tombstone_set_beyond.

(** A damaged word count makes deserialize write through a null pointer: the
    number of bits wraps to zero, so no chunk is allocated. *)
Theorem tombstone_damaged_file_refuted : exists inp, tb_deserialize tb_empty inp = OutOfBounds.
Proof.
  exists (le_enc 8 kTombMagic ++ le_enc 8 (2 ^ 58) ++ repeat 0 (N.to_nat 8192)). vm_compute. reflexivity.
Qed.
Print Assumptions tombstone_damaged_file_refuted.

(** ** The allocator *)
(** A slot handed out is not in use, and it is invisible. *)
Theorem slot_alloc_not_in_use : forall n0 s h, n0 < 2 ^ 32 -> reach n0 s h -> fits n0 h ->
  exists id s', sl_alloc s = Ok (id, s') /\ in_use (status n0 h id) = false /\ sl_is_deleted s' id = Ok true.
Proof.
  intros n0 s h H0 R F. pose proof (reach_inv n0 s h H0 R F) as I. destruct (slots_alloc_ok n0 s h I) as (id & s' & E & C & It & _).
  exists id, s'. split; [assumption|]. split.
  - destruct C as [(_ & -> & _)|(l & Ef & _)].
    + destruct (status n0 h (sl_next s)) eqn:St; auto; exfalso; assert (X : sl_next s < sl_next s) by (apply (si_used _ _ _ I); congruence); lia.
    + assert (X : status n0 h id = Freed) by (apply (si_free _ _ _ I); rewrite Ef; apply in_or_app; right; now left). now rewrite X.
  - unfold sl_is_deleted. rewrite (tb_is_deleted_ok _ _ _ It). now rewrite N.eqb_refl.
Qed.
Print Assumptions slot_alloc_not_in_use.

(** In every reachable state exactly the published slots are visible: the
    first [n0] and those published, and none freed or still dark. *)
Theorem slot_visibility : forall n0 s h id, n0 < 2 ^ 32 -> reach n0 s h -> fits n0 h ->
  sl_is_deleted s id = Ok (match status n0 h id with Dark | Freed => true | Visible | Unused => false end).
Proof.
  intros n0 s h id H0 R F. pose proof (reach_inv n0 s h H0 R F) as I. unfold sl_is_deleted. rewrite (tb_is_deleted_ok _ _ _ (si_tomb _ _ _ I)).
  now destruct (status n0 h id).
Qed.
Print Assumptions slot_visibility.

(** Freed slots are reused: while one is free, alloc returns the most recently
    freed one, and appends only when none is. *)
Theorem slot_reuse : forall n0 s h id s', n0 < 2 ^ 32 -> reach n0 s h -> fits n0 h -> sl_alloc s = Ok (id, s') ->
  latest_freed n0 h id \/ ((forall j, status n0 h j <> Freed) /\ status n0 h id = Unused /\ forall j, j < id -> status n0 h j <> Unused).
Proof.
  intros n0 s h id s' H0 R F E. pose proof (reach_inv n0 s h H0 R F) as I. destruct (slots_alloc_ok n0 s h I) as (id' & s'' & E' & C & _).
  rewrite E in E'. injection E' as <- <-. destruct C as [(Ef & -> & _)|(l & Ef & _)].
  - right. split; [|split].
    + intros j Hj. apply (si_free _ _ _ I) in Hj. rewrite Ef in Hj. destruct Hj.
    + destruct (status n0 h (sl_next s)) eqn:St; auto; exfalso; assert (X : sl_next s < sl_next s) by (apply (si_used _ _ _ I); congruence); lia.
    + intros j Hj. now apply (si_used _ _ _ I).
  - left. split; [apply (si_free _ _ _ I); rewrite Ef; apply in_or_app; right; now left|].
    destruct (si_order _ _ _ I l id [] Ef) as (h1 & h2 & Eh & H2). exists h1, h2. split; [assumption|]. intros j Hj Sj. destruct (H2 j Hj Sj).
Qed.
Print Assumptions slot_reuse.

(** Save and load preserve which slots are free, in which order they will be
    reused, the next fresh id and which slots are visible. *)
Theorem slot_save_load : forall n0 s h s0, n0 < 2 ^ 32 -> reach n0 s h -> fits n0 h ->
  exists file s', sl_save s = Ok file /\ sl_load s0 file = Ok s' /\ reach n0 s' h
    /\ sl_free s' = sl_free s /\ sl_next s' = sl_next s /\ forall id, sl_is_deleted s' id = sl_is_deleted s id.
Proof.
  intros n0 s h s0 H0 R F. pose proof (reach_inv n0 s h H0 R F) as I. destruct (slots_reload n0 s h s0 I) as (file & s' & Es & El & I' & Ef & En).
  exists file, s'. split; [assumption|]. split; [assumption|]. split; [eapply reach_load; eauto|]. split; [assumption|]. split; [assumption|].
  intros id. unfold sl_is_deleted. now rewrite (tb_is_deleted_ok _ _ _ (si_tomb _ _ _ I)), (tb_is_deleted_ok _ _ _ (si_tomb _ _ _ I')).
Qed.
Print Assumptions slot_save_load.

(** A history with reuse: slots 3 and 1 are freed, 1 is handed out again. *)
Example slot_history_example : exists s h id s', reach 3 s h /\ fits 3 h /\ sl_alloc s = Ok (id, s')
  /\ h = [EAlloc 3; EPublish 3; EFree 3; EFree 1] /\ id = 1.
Proof.
  destruct (slots_new_ok 3 eq_refl) as (s0 & E0 & I0). assert (R0 : reach 3 s0 []) by now constructor.
  destruct (slots_alloc_ok _ _ _ I0) as (i1 & s1 & E1 & C1 & _).
  assert (N0 : sl_free s0 = [] /\ sl_next s0 = 3) by (unfold sl_new in E0; destruct (tb_new 3); try discriminate; injection E0 as <-; auto).
  destruct N0 as [Fr Nx]. assert (i1 = 3) by (destruct C1 as [(_ & -> & _)|(l & Ef & _)]; [assumption|rewrite Fr in Ef; destruct l; discriminate]). subst i1.
  pose proof (reach_alloc 3 s0 [] 3 s1 R0 E1) as R1. cbn [app] in R1.
  assert (I1 : slots_inv 3 s1 [EAlloc 3]) by (apply reach_inv; [reflexivity|assumption|reflexivity]).
  destruct (tb_clear_ok (sl_tomb s1) _ 3 (si_tomb _ _ _ I1)) as (t2 & E2 & _).
  assert (P2 : sl_publish s1 3 = Ok {| sl_free := sl_free s1; sl_next := sl_next s1; sl_tomb := t2 |}) by (unfold sl_publish; now rewrite E2).
  pose proof (reach_publish 3 s1 _ 3 _ R1 eq_refl P2) as R2. cbn [app] in R2. set (s2 := {| sl_free := _ |}) in R2.
  assert (I2 : slots_inv 3 s2 [EAlloc 3; EPublish 3]) by (apply reach_inv; [reflexivity|assumption|reflexivity]).
  destruct (tb_set_ok (sl_tomb s2) _ 3 (si_tomb _ _ _ I2) eq_refl) as (t3 & E3 & _).
  assert (P3 : sl_free_slot s2 3 = Ok {| sl_free := sl_free s2 ++ [3]; sl_next := sl_next s2; sl_tomb := t3 |}) by (unfold sl_free_slot; now rewrite E3).
  pose proof (reach_free 3 s2 _ 3 _ R2 eq_refl P3) as R3. cbn [app] in R3. set (s3 := {| sl_free := _ |}) in R3.
  assert (I3 : slots_inv 3 s3 [EAlloc 3; EPublish 3; EFree 3]) by (apply reach_inv; [reflexivity|assumption|reflexivity]).
  destruct (tb_set_ok (sl_tomb s3) _ 1 (si_tomb _ _ _ I3) eq_refl) as (t4 & E4 & _).
  assert (P4 : sl_free_slot s3 1 = Ok {| sl_free := sl_free s3 ++ [1]; sl_next := sl_next s3; sl_tomb := t4 |}) by (unfold sl_free_slot; now rewrite E4).
  pose proof (reach_free 3 s3 _ 1 _ R3 eq_refl P4) as R4. cbn [app] in R4. set (s4 := {| sl_free := _ |}) in R4.
  assert (F4 : fits 3 [EAlloc 3; EPublish 3; EFree 3; EFree 1]) by (reflexivity).
  destruct (slots_alloc_ok 3 s4 _ (reach_inv 3 s4 _ eq_refl R4 F4)) as (id & s5 & E5 & C & _).
  exists s4, [EAlloc 3; EPublish 3; EFree 3; EFree 1], id, s5. split; [assumption|]. split; [assumption|]. split; [assumption|]. split; [reflexivity|].
  destruct C as [(Ef & _)|(l & Ef & _)]; cbn [sl_free s4] in Ef; [destruct (sl_free s3); discriminate|]. apply app_inj_tail in Ef. symmetry. tauto.
Qed.

(** Beyond 2^32 slots the next id wraps and a live slot is handed out: the
    bound in [fits] is necessary. *)
Lemma slot_wraparound n0 : n0 + 1 = 2 ^ 32 -> exists s h id s', reach n0 s h /\ sl_alloc s = Ok (id, s') /\ status n0 h id = Visible.
Proof.
  intros Hn. destruct (slots_new_ok n0) as (s0 & E0 & I0); [lia|].
  destruct (slots_alloc_ok _ _ _ I0) as (id & s1 & E1 & C & It & _).
  assert (Free : sl_free s0 = [] /\ sl_next s0 = n0) by (unfold sl_new in E0; destruct (tb_new n0); try discriminate; injection E0 as <-; auto).
  destruct Free as [Fr Nx]. destruct C as [(_ & Ei & Ef & En)|(l & Ef & _)]; [|rewrite Fr in Ef; destruct l; discriminate].
  rewrite Nx, Hn in En. rewrite Nx in Ei. rewrite N.mod_same in En by discriminate.
  destruct (tb_set_ok (sl_tomb s1) _ 0 It) as (t2 & E2 & _); [lia|].
  exists s1, [EAlloc id], 0. eexists. split; [apply (reach_alloc _ s0 [] id s1); [now constructor|assumption]|].
  split; [unfold sl_alloc; rewrite Ef, En, E2; reflexivity|]. unfold status. cbn [fold_left].
  destruct (N.eqb_spec id 0) as [|_]; [lia|]. destruct (N.ltb_spec 0 n0); [reflexivity|lia].
Qed.
Theorem slot_wraparound_refuted : exists n0 s h id s', n0 < 2 ^ 32 /\ reach n0 s h /\ sl_alloc s = Ok (id, s') /\ status n0 h id = Visible.
Proof.
  destruct (slot_wraparound (2 ^ 32 - 1) eq_refl) as (s & h & id & s' & R & E & St). exists (2 ^ 32 - 1), s, h, id, s'. split; [reflexivity|auto].
Qed.
Print Assumptions slot_wraparound_refuted.
