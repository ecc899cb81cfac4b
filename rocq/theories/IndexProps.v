(** C37-C40: the updatable disk index. *)
From Verif Require Import IndexSpec TombSpec TombProofs IndexProofs.
Local Open Scope N_scope.

Lemma opens_inv c labels vecs ix : opens c labels vecs ix -> N.of_nat (length labels) < 2 ^ 32 ->
  conf_ok c /\ 0 < N.of_nat (length labels) /\ index_inv (N.of_nat (length labels)) ix [] (built_entries labels vecs) [].
Proof.
  intros (F & M & S64 & d & old & EB & EL) B. assert (C : conf_ok c) by now split.
  destruct (built_ok c labels vecs d old C S64 B EB) as (P & ix' & EL' & I). rewrite EL in EL'. injection EL' as <-. auto.
Qed.
Lemma reached_inv c labels vecs ops ix outs : reached c labels vecs ops ix outs ->
  conf_ok c /\ 0 < N.of_nat (length labels) /\ ix_max ix <= N.of_nat (length labels) + total_offered ops
  /\ exists h dark, index_inv (N.of_nat (length labels)) ix h (history (built_entries labels vecs) ops outs) dark /\ N.of_nat (length dark) = leaks ops outs.
Proof.
  intros (ix0 & O & B & OK & E & NU). destruct (opens_inv _ _ _ _ O ltac:(lia)) as (C & P & I).
  assert (M : ix_max ix0 = N.of_nat (length labels)).
  { destruct O as (_ & _ & _ & d & old & EB & EL). unfold build in EB. destruct (N.eqb _ _); [discriminate|]. destruct (unique_labels [] labels); [|discriminate]. cbn [negb] in EB.
    destruct (compute (c_dim c) (c_degree c)) as [g| | |] eqn:Eg; try discriminate. cbn [bind] in EB. injection EB as <-.
    rewrite (iv_max _ _ _ _ _ I). apply N.le_antisymm.
    - destruct (N.le_gt_cases (sl_next (ix_alloc ix0)) (N.of_nat (length labels))) as [|X]; [assumption|].
      assert (U : status (N.of_nat (length labels)) [] (N.of_nat (length labels)) <> Unused) by now apply (si_used _ _ _ (iv_slots _ _ _ _ _ I)).
      unfold status in U. cbn [fold_left] in U. rewrite N.ltb_irrefl in U. now destruct U.
    - destruct (N.le_gt_cases (N.of_nat (length labels)) (sl_next (ix_alloc ix0))) as [|X]; [assumption|].
      assert (U : status (N.of_nat (length labels)) [] (sl_next (ix_alloc ix0)) <> Unused) by now apply first_used.
      apply (si_used _ _ _ (iv_slots _ _ _ _ _ I)) in U. lia. }
  destruct (run_ok _ _ P C ops ix0 [] _ [] I OK ltac:(lia) ix outs E NU) as (h & dark & I' & L & Mx & _).
  split; [exact C|]. split; [exact P|]. split; [lia|]. exists h, dark. split; [exact I'|]. cbn in L. lia.
Qed.

(** A running example: two rows, labels 10 and 20. *)
Definition ex_conf : conf := {| c_dim := 2; c_degree := 4; c_medoid := 0 |}.
Definition ex_vecs (s : N) : vec := [s; 7].
Definition ex_index : res index :=
  let* d := build ex_conf [10; 20] ex_vecs in let* a := sl_new 0 in let* (_, ix) := load a d in Ok ix.
Lemma ex_conf_ok : layout_fits (c_dim ex_conf) (c_degree ex_conf) 1 /\ c_medoid ex_conf < 2 ^ 32.
Proof. split; [split; [|split]|]; cbn; reflexivity. Qed.
Lemma ex_opens ix : ex_index = Ok ix -> opens ex_conf [10; 20] ex_vecs ix.
Proof.
  intros E. destruct ex_conf_ok as [F M]. split; [exact F|]. split; [exact M|]. split; [repeat constructor|].
  unfold ex_index in E. destruct (build ex_conf [10; 20] ex_vecs) as [d| | |] eqn:E1; cbn [bind] in E; try discriminate.
  destruct (sl_new 0) as [a| | |]; cbn [bind] in E; try discriminate. exists d, a. split; [reflexivity|].
  destruct (load a d) as [[c' ix']| | |] eqn:E2; cbn [bind] in E; try discriminate. injection E as <-. do 2 f_equal.
  destruct ex_conf_ok as [F' M']. destruct (built_ok ex_conf [10; 20] ex_vecs d a (conj F' M') ltac:(repeat constructor) ltac:(reflexivity) E1) as (_ & ix2 & E3 & _). congruence.
Qed.
Local Opaque ex_index.
Definition ex_run (ops : list ix_op) : res (index * list outcome) := let* ix := ex_index in run ex_conf ix ops.
Lemma ex_reached ops ix outs : ex_run ops = Ok (ix, outs) -> 2 + total_offered ops < 2 ^ 32 -> Forall op_ok ops -> ~ In Unfinished outs -> reached ex_conf [10; 20] ex_vecs ops ix outs.
Proof.
  unfold ex_run. intros E B OK NU. destruct ex_index as [ix0| | |] eqn:E0; cbn [bind] in E; try discriminate E.
  exists ix0. split; [now apply ex_opens|]. split; [exact B|]. auto.
Qed.

(** C37: an index can be built exactly from labels that are distinct and are
    not the reserved one. *)
Theorem build_labels c labels vecs : layout_fits (c_dim c) (c_degree c) 1 -> c_medoid c < 2 ^ 32 -> Forall (fun l => l < 2 ^ 64) labels -> N.of_nat (length labels) < 2 ^ 32 ->
  (exists ix, opens c labels vecs ix) <-> labels <> [] /\ NoDup labels /\ ~ In kNoLabel labels.
Proof.
  intros F M S64 B. assert (C : conf_ok c) by now split. split.
  - intros (ix & _ & _ & _ & d & old & EB & _). unfold build in EB. destruct (N.eqb_spec (N.of_nat (length labels)) 0) as [|NZ]; [discriminate|].
    destruct (unique_labels [] labels) eqn:U; [|discriminate]. apply unique_labels_iff in U as (ND & _ & NK).
    split; [|split; [exact ND|exact NK]]. intros ->. now apply NZ.
  - intros (NE & ND & NK). destruct (conf_geo c C) as (g & Eg & _).
    assert (EB : exists d, build c labels vecs = Ok d).
    { unfold build. destruct (N.eqb_spec (N.of_nat (length labels)) 0) as [Z|NZ]; [destruct labels; [congruence|discriminate]|].
      assert (U : unique_labels [] labels = true) by (apply unique_labels_iff; split; [exact ND|]; split; [intros x _ []|exact NK]).
      rewrite U, Eg. cbn. eauto. }
    destruct EB as (d & EB). destruct (slots_new_ok 0 ltac:(reflexivity)) as (old & _ & _).
    destruct (built_ok c labels vecs d old C S64 B EB) as (_ & ix & EL & _). exists ix. split; [exact F|]. split; [exact M|]. split; [exact S64|]. exists d, old. auto.
Qed.
Print Assumptions build_labels.

(** C37: after any history the labels are a map.  [db] below is what the
    history says should be there: an insertion adds its row, a removal takes
    its rows out, everything else changes nothing.  Live labels are distinct
    and have distinct slots; the lookup of a label gives its slot; the slots
    that are not tombstoned are those of the live rows, and hold their labels
    and vectors.  The live count is the number of live rows plus the slots
    that failed inserts have left behind. *)
Theorem labels_are_a_map_partial c labels vecs ops ix outs : reached c labels vecs ops ix outs ->
  let db := history (built_entries labels vecs) ops outs in
  NoDup (map e_label db) /\ NoDup (map e_slot db)
  /\ (forall l s, ix_map ix l = Some s <-> exists v, In (l, s, v) db)
  /\ (forall s, (s < ix_max ix /\ sl_is_deleted (ix_alloc ix) s = Ok false) <-> In s (map e_slot db))
  /\ (forall l s v, In (l, s, v) db -> aget (ix_labels ix) s = Ok l /\ ix_data ix s = v /\ l <> kNoLabel)
  /\ ix_live ix = N.of_nat (length db) + leaks ops outs.
Proof.
  intros R db. destruct (reached_inv _ _ _ _ _ _ R) as (C & P & Mx & h & dark & I & L). fold db in I.
  split; [apply I|]. split; [apply I|]. split; [apply I|]. split; [|split].
  - intros s. rewrite (inv_deleted _ _ _ _ _ s I), (iv_max _ _ _ _ _ I), <- (iv_vis _ _ _ _ _ I), (si_used _ _ _ (iv_slots _ _ _ _ _ I)).
    destruct (status (N.of_nat (length labels)) h s); cbn [hidden]; split; try discriminate; try (now intros [_ X]); try (intros [X _]; now destruct X); auto.
    intros _. split; [discriminate|reflexivity].
  - intros l s v H. destruct (iv_entry _ _ _ _ _ I _ H) as (E1 & E2 & E3). cbn in E1, E2, E3. unfold aget. rewrite E1. auto.
  - rewrite <- L. apply I.
Qed.
Print Assumptions labels_are_a_map_partial.
Example labels_are_a_map_ex :
  let ops := [OInsert [1] 30 NoFault; ORemoveLabel 10 NoFault; OInsert [5] 20 NoFault; OInsert [2] 40 NoFault; OBatchInsert [([3], 50); ([4], 60)] [(1, true); (0, true); (0, true); (1, true); (1, true); (0, true)]%nat; OReopen; OBatchRemove [1; 2] FailLate] in
  match ex_run ops with
  | Ok (ix, outs) => reached ex_conf [10; 20] ex_vecs ops ix outs
      /\ outs = [Inserted 2; Removed; Rejected; Inserted 0; InsertedAll [4; 3] [InPlace; InPlace]; Reopened; RemovedThenFailed]
      /\ history (built_entries [10; 20] ex_vecs) ops outs = [(50, 4, [3]); (60, 3, [4]); (40, 0, [2])]
      /\ ix_map ix 50 = Some 4 /\ ix_map ix 20 = None /\ ix_live ix = 3
  | _ => False
  end.
Proof.
  intros ops. destruct (ex_run ops) as [[ix outs]| | |] eqn:E; try (exfalso; revert E; vm_compute; discriminate).
  assert (Eo : (let* (ix, outs) := ex_run ops in Ok (outs, ix_map ix 50, ix_map ix 20, ix_live ix))
    = Ok ([Inserted 2; Removed; Rejected; Inserted 0; InsertedAll [4; 3] [InPlace; InPlace]; Reopened; RemovedThenFailed], Some 4, None, 3)) by (vm_compute; reflexivity).
  rewrite E in Eo. cbn [bind] in Eo. injection Eo as -> E1 E2 E3. split; [|auto].
  apply ex_reached; [exact E|reflexivity| |cbn; intuition discriminate]. repeat constructor.
Qed.

(** C37: without I/O failures nothing is left behind, so the live count is the
    number of live labels. *)
Theorem live_count_is_labels c labels vecs ops ix outs : reached c labels vecs ops ix outs -> Forall faultless ops ->
  ix_live ix = N.of_nat (length (history (built_entries labels vecs) ops outs)).
Proof.
  intros R F. destruct (labels_are_a_map_partial _ _ _ _ _ _ R) as (_ & _ & _ & _ & _ & ->). destruct R as (ix0 & _ & _ & _ & E & _).
  destruct (faultless_leaks _ _ _ _ _ F E) as [-> _]. lia.
Qed.
Print Assumptions live_count_is_labels.
Example live_count_is_labels_ex :
  let ops := [OInsert [1] 30 NoFault; ORemove 0 NoFault] in
  Forall faultless ops /\ exists ix, ex_run ops = Ok (ix, [Inserted 2; Removed]) /\ reached ex_conf [10; 20] ex_vecs ops ix [Inserted 2; Removed] /\ ix_live ix = 2.
Proof.
  intros ops. split; [repeat constructor|]. destruct (ex_run ops) as [[ix outs]| | |] eqn:E; try (exfalso; revert E; vm_compute; discriminate).
  assert (Eo : (let* (ix, outs) := ex_run ops in Ok (outs, ix_live ix)) = Ok ([Inserted 2; Removed], 2)) by (vm_compute; reflexivity).
  rewrite E in Eo. cbn [bind] in Eo. injection Eo as -> E3. exists ix. split; [reflexivity|]. split; [|exact E3].
  apply ex_reached; [exact E|reflexivity| |cbn; intuition discriminate]. repeat constructor.
Qed.

(** C37: every further operation gives an answer.  It is rejected exactly when
    it must be (a label that is taken or reserved, a label or slot that is not
    live, a repetition in the batch), and then nothing has changed.  If it is
    not rejected and no I/O fails, it takes full effect. *)
Theorem operations_answer c labels vecs ops ix outs o : reached c labels vecs ops ix outs ->
  op_ok o -> N.of_nat (length labels) + total_offered ops + offered o < 2 ^ 32 ->
  let db := history (built_entries labels vecs) ops outs in
  exists ix' out, run_op c ix o = Ok (ix', out)
    /\ (out = Rejected <-> must_reject db o) /\ (out = Rejected -> ix' = ix)
    /\ (faultless o -> ~ must_reject db o -> out <> Unfinished ->
        match o with
        | OInsert _ _ _ => exists s, out = Inserted s
        | OBatchInsert rows _ => exists ids, out = InsertedAll ids (repeat InPlace (length rows)) /\ length ids = length rows
        | OReopen => out = Reopened
        | _ => out = Removed
        end).
Proof.
  intros R OK B db. destruct (reached_inv _ _ _ _ _ _ R) as (C & P & Mx & h & dark & I & L). fold db in I.
  destruct (run_op_ok _ c ix h db dark o P C I OK ltac:(lia)) as (ix' & out & E & _ & V & U). exists ix', out. split; [exact E|]. split; [exact V|]. split; [exact U|].
  intros F NR NU. destruct (faultless_well _ _ _ _ _ F E) as [W _]. assert (NRj : out <> Rejected) by tauto. clear - F E W NU NRj.
  destruct o; cbn [run_op faultless] in E, F.
  - subst f. unfold insert in E. destruct (insert_label_ok ix label); cbn [negb] in E; [|congruence].
    destruct (allocate ix label) as [[slot ix1]| | |]; cbn [bind] in E; try discriminate.
    destruct (publish _ _); cbn [bind] in E; try discriminate. injection E as <- <-. eauto.
  - unfold batch_insert in E. destruct (insert_labels_ok ix (map snd rows)); cbn [negb] in E; [|congruence].
    destruct (run_tasks ix _ sched) as [[ix1 tasks]| | |] eqn:Et; cbn [bind] in E; try discriminate.
    apply run_tasks_length in Et. rewrite map_length in Et.
    destruct (forallb _ tasks); [|congruence]. injection E as <- <-. cbn [well] in W. eexists. split; [f_equal|now rewrite map_length].
    rewrite <- Et. clear - W. induction tasks as [|rt tasks IH]; [reflexivity|]. cbn in W. inversion W; subst. cbn. f_equal; auto.
  - subst f. unfold remove_id in E. destruct (removable ix id) as [[|]| | |]; cbn [bind negb] in E; try discriminate; [|congruence].
    destruct (remove_slot ix id); cbn [bind] in E; try discriminate. congruence.
  - subst f. unfold remove_by_label, remove_id in E. destruct (ix_map ix label) as [id|]; [|congruence]. destruct (removable ix id) as [[|]| | |]; cbn [bind negb] in E; try discriminate; [|congruence].
    destruct (remove_slot ix id); cbn [bind] in E; try discriminate. congruence.
  - subst f. unfold batch_remove in E. destruct (removable_batch ix [] ids) as [[|]| | |]; cbn [bind negb] in E; try discriminate; [|congruence].
    destruct (remove_slots ix ids); cbn [bind] in E; try discriminate. congruence.
  - subst f. unfold batch_remove_by_labels, batch_remove in E. destruct (lookup_all ix [] labels) as [ids|]; [|congruence].
    destruct (removable_batch ix [] ids) as [[|]| | |]; cbn [bind negb] in E; try discriminate; [|congruence].
    destruct (remove_slots ix ids); cbn [bind] in E; try discriminate. congruence.
  - destruct (flush c ix); cbn [bind] in E; try discriminate. destruct (load _ _) as [[? ?]| | |]; cbn [bind] in E; try discriminate. congruence.
Qed.
Print Assumptions operations_answer.
Example operations_answer_ex : (let* (ix, _) := ex_run [ORemoveLabel 10 NoFault] in let* (_, out) := run_op ex_conf ix (OInsert [9] 20 NoFault) in let* (_, out') := run_op ex_conf ix (OInsert [9] 10 NoFault) in Ok (out, out'))
  = Ok (Rejected, Inserted 0).
Proof. vm_compute. reflexivity. Qed.

(** C37 does not hold in full.  An insert whose page write fails leaves its
    slot allocated: the live count is one too high from then on. *)
Theorem live_count_refuted : exists c labels vecs ops ix outs, reached c labels vecs ops ix outs
  /\ ix_live ix <> N.of_nat (length (history (built_entries labels vecs) ops outs)).
Proof.
  exists ex_conf, [10; 20], ex_vecs, [OInsert [1] 30 FailMiddle].
  destruct (ex_run [OInsert [1] 30 FailMiddle]) as [[ix outs]| | |] eqn:E; try (exfalso; revert E; vm_compute; discriminate).
  assert (Eo : (let* (ix, outs) := ex_run [OInsert [1] 30 FailMiddle] in Ok (outs, ix_live ix)) = Ok ([Failed], 3)) by (vm_compute; reflexivity).
  rewrite E in Eo. cbn [bind] in Eo. injection Eo as -> E3. exists ix, [Failed]. split; [|rewrite E3; vm_compute; discriminate].
  apply ex_reached; [exact E|reflexivity| |cbn; intuition discriminate]. repeat constructor.
Qed.
Print Assumptions live_count_refuted.
(** Nor does every operation that raises an exception change nothing: when
    reconnecting the neighbours fails, the row is in place already. *)
Theorem failed_insert_in_place_refuted : exists c labels vecs ops ix outs s, reached c labels vecs ops ix outs
  /\ ops = [OInsert [1] 30 FailLate] /\ outs = [InsertedThenFailed s] /\ ix_map ix 30 = Some s.
Proof.
  exists ex_conf, [10; 20], ex_vecs, [OInsert [1] 30 FailLate].
  destruct (ex_run [OInsert [1] 30 FailLate]) as [[ix outs]| | |] eqn:E; try (exfalso; revert E; vm_compute; discriminate).
  assert (Eo : (let* (ix, outs) := ex_run [OInsert [1] 30 FailLate] in Ok (outs, ix_map ix 30)) = Ok ([InsertedThenFailed 2], Some 2)) by (vm_compute; reflexivity).
  rewrite E in Eo. cbn [bind] in Eo. injection Eo as -> E3. exists ix, [InsertedThenFailed 2], 2. split; [|auto].
  apply ex_reached; [exact E|reflexivity| |cbn; intuition discriminate]. repeat constructor.
Qed.
Print Assumptions failed_insert_in_place_refuted.
(** A batch insert returns normally although rows are missing: the exception of
    a task is dropped, and the id returned for its row is 0, the slot of
    another row. *)
Theorem batch_insert_silent_refuted : exists c labels vecs ops ix outs ids fates, reached c labels vecs ops ix outs
  /\ ops = [OBatchInsert [([1], 30)] [(0%nat, false)]] /\ outs = [InsertedAll ids fates] /\ ids = [0]
  /\ ix_map ix 30 = None /\ ix_map ix 10 = Some 0.
Proof.
  exists ex_conf, [10; 20], ex_vecs, [OBatchInsert [([1], 30)] [(0%nat, false)]].
  destruct (ex_run [OBatchInsert [([1], 30)] [(0%nat, false)]]) as [[ix outs]| | |] eqn:E; try (exfalso; revert E; vm_compute; discriminate).
  assert (Eo : (let* (ix, outs) := ex_run [OBatchInsert [([1], 30)] [(0%nat, false)]] in Ok (outs, ix_map ix 30, ix_map ix 10)) = Ok ([InsertedAll [0] [Skipped]], None, Some 0)) by (vm_compute; reflexivity).
  rewrite E in Eo. cbn [bind] in Eo. injection Eo as -> E3 E4. exists ix, [InsertedAll [0] [Skipped]], [0], [Skipped]. split; [|auto 6].
  apply ex_reached; [exact E|reflexivity| |cbn; intuition discriminate]. repeat constructor.
Qed.
Print Assumptions batch_insert_silent_refuted.

(** C38: flushing and loading again restores labels, lookup, vectors,
    tombstones, free slots and counts, whatever object does the loading. *)
Theorem flush_load c labels vecs ops ix outs : reached c labels vecs ops ix outs ->
  exists d, flush c ix = Ok d /\ forall old, exists ix', load old d = Ok (c, ix') /\ same_rows ix' ix /\ ix_live ix' = ix_live ix.
Proof.
  intros R. destruct (reached_inv _ _ _ _ _ _ R) as (C & P & Mx & h & dark & I & L).
  destruct (reopen_ok _ c ix h _ dark (ix_alloc ix) P C I) as (d & ix' & E1 & _). exists d. split; [exact E1|]. intros old.
  destruct (reopen_ok _ c ix h _ dark old P C I) as (d2 & ix2 & E2 & E3 & _ & SR & EL). rewrite E1 in E2. injection E2 as <-. eauto.
Qed.
Print Assumptions flush_load.
Example flush_load_ex :
  (let* (ix, _) := ex_run [OInsert [1] 30 NoFault; ORemoveLabel 10 NoFault; ORemoveLabel 30 NoFault; OInsert [2] 40 NoFault] in let* d := flush ex_conf ix in let* (_, ix') := load (ix_alloc ix) d in
   Ok (ix_labels ix', map (ix_map ix') [10; 20; 30; 40], sl_free (ix_alloc ix'), sl_next (ix_alloc ix'), ix_live ix'))
  = Ok ([10; 20; 40], [None; Some 1; None; Some 2], [0], 3, 2).
Proof. vm_compute. reflexivity. Qed.

(** C39 in part: if only removals have happened since the last flush, a crash
    anywhere in the flush leaves a directory that loads to the rows before or
    after it.  The live count may already be the one after. *)
Theorem flush_crash_removals_partial c labels vecs ops ix outs removals ix2 outs2 d d2 :
  reached c labels vecs ops ix outs -> flush c ix = Ok d ->
  Forall removal removals -> run c ix removals = Ok (ix2, outs2) -> flush c ix2 = Ok d2 ->
  forall k old, exists ix', load old (crash d d2 k) = Ok (c, ix')
    /\ same_rows ix' (if Nat.ltb k 4 then ix else ix2) /\ ix_live ix' = ix_live (if Nat.ltb k 2 then ix else ix2).
Proof.
  intros R E1 RM ER E2 k old. destruct (reached_inv _ _ _ _ _ _ R) as (C & P & Mx & h & dark & I & L).
  destruct (removals_kept c removals ix ix2 outs2 RM ER) as [(K1 & K2 & K3) NU]. destruct (removals_op_ok _ RM) as [OK T0].
  pose proof (inv_max_small _ _ _ _ _ I) as MS.
  destruct (run_ok _ c P C removals ix h _ dark I OK ltac:(lia) ix2 outs2 ER NU) as (h2 & dark2 & I2 & _).
  destruct (conf_geo c C) as (g & Eg & _). unfold flush in E1, E2. rewrite Eg in E1, E2. cbn [bind] in E1, E2.
  destruct (reload_live _ c g ix h _ dark (ix_live ix) old P C Eg I (inv_live_small _ _ _ _ _ I)) as (s1 & a & S1 & L1 & SR1 & V1 & _).
  destruct (reload_live _ c g ix h _ dark (ix_live ix2) old P C Eg I (inv_live_small _ _ _ _ _ I2)) as (s1' & b & S1' & L2 & SR2 & V2 & _).
  destruct (reload_live _ c g ix2 h2 _ dark2 (ix_live ix2) old P C Eg I2 (inv_live_small _ _ _ _ _ I2)) as (s2 & e & S2 & L3 & SR3 & V3 & _).
  rewrite S1 in S1'. injection S1' as <-. rewrite S1 in E1. rewrite S2 in E2. cbn [bind] in E1, E2. injection E1 as <-. injection E2 as <-.
  unfold crash. cbn [d_meta d_ids d_slots d_data]. rewrite K1, K2, K3 in *.
  destruct k as [|[|[|[|k]]]]; cbn [Nat.ltb Nat.leb].
  - exists a. auto.
  - exists a. auto.
  - exists b. auto.
  - exists b. auto.
  - exists e. auto.
Qed.
Print Assumptions flush_crash_removals_partial.
Example flush_crash_removals_ex :
  (let* (ix, _) := ex_run [OInsert [1] 30 NoFault] in let* d := flush ex_conf ix in let* (ix2, _) := run ex_conf ix [ORemoveLabel 10 NoFault; OBatchRemove [2] NoFault] in let* d2 := flush ex_conf ix2 in
   let* (_, a) := load (ix_alloc ix) (crash d d2 3) in let* (_, b) := load (ix_alloc ix) (crash d d2 4) in
   Ok (map (ix_map a) [10; 20; 30], ix_live a, map (ix_map b) [10; 20; 30], ix_live b)) = Ok ([Some 0; Some 1; Some 2], 1, [None; Some 1; None], 1).
Proof. vm_compute. reflexivity. Qed.

(** C39 fails in general.  After a plain insert into a new slot, a crash between
    meta.bin and ids.bin leaves a directory that cannot be loaded at all. *)
Theorem flush_crash_refuted : exists c labels vecs ix d o ix2 out d2 k old,
  opens c labels vecs ix /\ flush c ix = Ok d /\ run_op c ix o = Ok (ix2, out) /\ o = OInsert [1] 30 NoFault /\ out = Inserted 2
  /\ flush c ix2 = Ok d2 /\ load old (crash d d2 k) = Throws.
Proof.
  assert (W : (let* ix := ex_index in let* d := flush ex_conf ix in let* (ix2, out) := run_op ex_conf ix (OInsert [1] 30 NoFault) in let* d2 := flush ex_conf ix2 in
     Ok (out, match load (ix_alloc ix) (crash d d2 2) with Throws => true | _ => false end)) = Ok (Inserted 2, true)) by (vm_compute; reflexivity).
  destruct ex_index as [ix| | |] eqn:E0; try discriminate W. cbn [bind] in W. destruct (flush ex_conf ix) as [d| | |] eqn:E1; try discriminate W. cbn [bind] in W.
  destruct (run_op ex_conf ix (OInsert [1] 30 NoFault)) as [[ix2 out]| | |] eqn:E2; try discriminate W. cbn [bind] in W.
  destruct (flush ex_conf ix2) as [d2| | |] eqn:E3; try discriminate W. cbn [bind] in W. injection W as -> W.
  exists ex_conf, [10; 20], ex_vecs, ix, d, (OInsert [1] 30 NoFault), ix2, (Inserted 2), d2, 2%nat, (ix_alloc ix).
  split; [now apply ex_opens|]. split; [exact E1|]. split; [exact E2|]. split; [reflexivity|]. split; [reflexivity|]. split; [exact E3|].
  destruct (load (ix_alloc ix) (crash d d2 2)); try discriminate W. reflexivity.
Qed.
Print Assumptions flush_crash_refuted.
(** And when a slot has been reused, a crash after the pages and before ids.bin
    leaves the old label with the vector of the new row: label 10 never had the
    vector [1]. *)
Theorem flush_crash_mixed_refuted : exists c labels vecs ix d ops ix2 outs d2 k old ix',
  opens c labels vecs ix /\ flush c ix = Ok d /\ run c ix ops = Ok (ix2, outs) /\ ops = [ORemoveLabel 10 NoFault; OInsert [1] 30 NoFault]
  /\ flush c ix2 = Ok d2 /\ load old (crash d d2 k) = Ok (c, ix') /\ ix_map ix' 10 = Some 0 /\ ix_data ix' 0 = [1] /\ vecs 0 <> [1].
Proof.
  set (ops := [ORemoveLabel 10 NoFault; OInsert [1] 30 NoFault]).
  assert (W : (let* ix := ex_index in let* d := flush ex_conf ix in let* (ix2, outs) := run ex_conf ix ops in let* d2 := flush ex_conf ix2 in
     let* (c', ix') := load (ix_alloc ix) (crash d d2 1) in Ok (c', ix_map ix' 10, ix_data ix' 0)) = Ok (ex_conf, Some 0, [1])) by (vm_compute; reflexivity).
  destruct ex_index as [ix| | |] eqn:E0; try discriminate W. cbn [bind] in W. destruct (flush ex_conf ix) as [d| | |] eqn:E1; try discriminate W. cbn [bind] in W.
  destruct (run ex_conf ix ops) as [[ix2 outs]| | |] eqn:E2; try discriminate W. cbn [bind] in W.
  destruct (flush ex_conf ix2) as [d2| | |] eqn:E3; try discriminate W. cbn [bind] in W.
  destruct (load (ix_alloc ix) (crash d d2 1)) as [[c' ix']| | |] eqn:E4; try discriminate W. cbn [bind] in W. injection W as -> W1 W2.
  exists ex_conf, [10; 20], ex_vecs, ix, d, ops, ix2, outs, d2, 1%nat, (ix_alloc ix), ix'.
  split; [now apply ex_opens|]. split; [exact E1|]. split; [exact E2|]. split; [reflexivity|]. split; [exact E3|]. split; [exact E4|]. split; [exact W1|]. split; [exact W2|]. vm_compute. discriminate.
Qed.
Print Assumptions flush_crash_mixed_refuted.

(** C40 in part: a search runs beside updates that pass the states [states].
    It takes its snapshot at the [i]-th, reads the vector of slot [id] at the
    [j]-th and the label at the [k]-th.  If the slot is not handed out again in
    the meantime, the pair it returns was stored in the index at the snapshot. *)
Theorem search_pair_partial c labels vecs ix0 sts states i j k a b d id l v :
  opens c labels vecs ix0 -> N.of_nat (length labels) < 2 ^ 32 -> exec ix0 sts = Some states -> (i <= j <= k)%nat ->
  nth_error states i = Some a -> nth_error states j = Some b -> nth_error states k = Some d ->
  search_pair a b d id = Some (l, v) ->
  (forall m x, (i <= m <= k)%nat -> nth_error states m = Some x -> in_flight x id = false) ->
  ix_map a l = Some id /\ ix_data a id = v.
Proof.
  intros O B E Ijk Ha Hb Hd SP NF. destruct (opens_inv _ _ _ _ O B) as (C & P & I0).
  destruct (exec_inv _ _ _ _ _ _ _ I0 E i a Ha) as (h & db & dark & I). destruct (exec_suffix _ _ _ _ _ E Ha) as (sts' & E').
  assert (Sk : forall m, nth_error (skipn i states) m = nth_error states (i + m)).
  { clear. revert states. induction i as [|i IH]; intros states m; [reflexivity|]. destruct states as [|x states]; [now destruct m|]. apply IH. }
  unfold search_pair in SP. destruct (N.ltb_spec id (ix_max a)) as [Lt|]; [|discriminate]. rewrite (inv_deleted _ _ _ _ _ id I) in SP.
  assert (V : In id (map e_slot db)).
  { apply (iv_vis _ _ _ _ _ I). pose proof Lt as U. rewrite (iv_max _ _ _ _ _ I) in U. apply (si_used _ _ _ (iv_slots _ _ _ _ _ I)) in U.
    destruct (status _ h id); cbn [hidden] in SP; try discriminate; [now destruct U|reflexivity]. }
  destruct (hidden _); [discriminate|]. injection SP as <- <-.
  assert (K : forall q x, (i <= q <= k)%nat -> nth_error states q = Some x -> nth_error (ix_labels x) (N.to_nat id) = nth_error (ix_labels a) (N.to_nat id) /\ ix_data x id = ix_data a id).
  { intros q x Hq Hx. apply (exec_keeps _ id sts' a h db dark (skipn i states) I E' Lt (q - i)).
    - rewrite Sk. now replace (i + (q - i))%nat with q by lia.
    - intros m y Hm Hy. rewrite Sk in Hy. apply (NF (i + m)%nat y); [lia|exact Hy]. }
  destruct (K j b ltac:(lia) Hb) as [_ Kb]. destruct (K k d ltac:(lia) Hd) as [Kd _].
  apply slot_entry in V as (l & w & He). destruct (iv_entry _ _ _ _ _ I _ He) as (E1 & E2 & _). cbn in E1, E2.
  unfold label_of, aget. rewrite Kd, E1. split; [apply (iv_map _ _ _ _ _ I); eauto|symmetry; exact Kb].
Qed.
Print Assumptions search_pair_partial.
(** The search sees slot 1 while label 10 is removed and label 30 takes its slot. *)
Example search_pair_ex :
  match (let* ix := ex_index in match exec ix [StRemove 0; StAlloc 30; StWrite 0 [1]; StPublish 0; StRemove 1] with Some states => Ok states | None => Throws end) with
  | Ok states => match nth_error states 0, nth_error states 2, nth_error states 5 with
                 | Some a, Some b, Some d => search_pair a b d 1 = Some (20, [1; 7]) /\ map (fun x => in_flight x 1) states = [false; false; false; false; false; false]
                 | _, _, _ => False
                 end
  | _ => False
  end.
Proof. vm_compute. split; reflexivity. Qed.

(** C40 fails in general: slot 0 is scored with the vector of label 10, then
    freed and reused for label 30 before the labels are looked up.  The search
    returns label 30 with a vector that was never stored under it. *)
Theorem search_pair_refuted : exists c labels vecs ix sts states i j k a b d id l v,
  opens c labels vecs ix /\ N.of_nat (length labels) < 2 ^ 32 /\ exec ix sts = Some states /\ (i <= j <= k)%nat
  /\ nth_error states i = Some a /\ nth_error states j = Some b /\ nth_error states k = Some d
  /\ search_pair a b d id = Some (l, v)
  /\ forall x, In x states -> forall s, ix_map x l = Some s -> ix_data x s <> v.
Proof.
  set (sts := [StRemove 0; StAlloc 30; StWrite 0 [1]; StPublish 0]).
  destruct ex_index as [ix| | |] eqn:E0; try (exfalso; revert E0; vm_compute; discriminate).
  assert (W : exists states, exec ix sts = Some states /\ exists a d, nth_error states 0 = Some a /\ nth_error states 4 = Some d
     /\ search_pair a a d 0 = Some (30, [0; 7]) /\ map (fun x => match ix_map x 30 with Some s => Some (ix_data x s) | None => None end) states = [None; None; None; None; Some [1]]).
  { vm_compute in E0. injection E0 as <-. vm_compute. eexists. split; [reflexivity|]. eexists _, _. repeat (split; [reflexivity|]). reflexivity. }
  destruct W as (states & E & a & d & Ha & Hd & SP & Hm).
  exists ex_conf, [10; 20], ex_vecs, ix, sts, states, 0%nat, 0%nat, 4%nat, a, a, d, 0, 30, [0; 7].
  split; [now apply ex_opens|]. split; [reflexivity|]. split; [exact E|]. split; [lia|]. split; [exact Ha|]. split; [exact Ha|]. split; [exact Hd|]. split; [exact SP|].
  intros x Hx s Hs Hv. apply (in_map (fun x => match ix_map x 30 with Some s => Some (ix_data x s) | None => None end)) in Hx. rewrite Hm, Hs, Hv in Hx. cbn in Hx. intuition discriminate.
Qed.
Print Assumptions search_pair_refuted.
