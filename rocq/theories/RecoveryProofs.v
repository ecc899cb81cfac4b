(** Proofs about crash recovery. *)
From Verif Require Import WalModel WalSpec WalProofs RecoveryModel RecoverySpec.
From Coq Require Import Sorting.Sorted Sorting.Permutation.

(** ** Logs written by a sequence of operations *)

Definition entry := (wal_record * bool)%type.  (* operation, committed? *)
Definition entry_calls (e : entry) : list call :=
  Prepare (fst e) :: (if snd e then [Commit (op_id (fst e)) (mut (fst e))] else []).
Definition calls_of (es : list entry) : list call := flat_map entry_calls es.
Definition committed_of (es : list entry) : list wal_record := map fst (filter snd es).
Definition entry_lt (a b : entry) : Prop := (op_id (fst a) < op_id (fst b))%N.

Lemma durable_calls_of es : forall hist, durable_from hist (calls_of es) = committed_of es.
Proof.
  induction es as [|[r c] es IH]; intros hist; [reflexivity|].
  unfold calls_of, committed_of. cbn [flat_map filter snd].
  unfold entry_calls at 1. cbn [fst snd].
  destruct c; cbn [app durable_from map fst].
  - cbn [made_durable]. rewrite last_call_snoc. cbn [call_id]. rewrite N.eqb_refl.
    replace (mutation_eqb (mut r) (mut r)) with true by (symmetry; now apply mutation_eqb_eq).
    cbn [app]. f_equal. apply IH.
  - apply IH.
Qed.

Definition op_lt (a b : wal_record) : Prop := (op_id a < op_id b)%N.

Lemma StronglySorted_filter {A} (R : A -> A -> Prop) f l :
  StronglySorted R l -> StronglySorted R (filter f l).
Proof.
  induction 1 as [|x l Hs IH Hall]; cbn; [constructor|].
  destruct (f x); [|exact IH]. constructor; [exact IH|].
  rewrite Forall_forall in *. intros y Hy. apply filter_In in Hy as [Hy _]. auto.
Qed.

Lemma StronglySorted_map {A B} (R : A -> A -> Prop) (Q : B -> B -> Prop) (f : A -> B) l :
  (forall x y, R x y -> Q (f x) (f y)) -> StronglySorted R l -> StronglySorted Q (map f l).
Proof.
  intros HRQ. induction 1 as [|x l Hs IH Hall]; cbn; [constructor|].
  constructor; [exact IH|]. rewrite Forall_forall in *. intros y Hy.
  apply in_map_iff in Hy as (z & <- & Hz). auto.
Qed.

Lemma committed_sorted es : StronglySorted entry_lt es -> StronglySorted op_lt (committed_of es).
Proof.
  intros H. unfold committed_of. apply StronglySorted_map with (R := entry_lt); [auto|].
  now apply StronglySorted_filter.
Qed.

(** A sorted permutation of a strictly sorted list is that list. *)
Lemma sorted_perm_unique l1 : forall l2,
  Permutation l1 l2 -> Sorted op_le l1 -> StronglySorted op_lt l2 -> l1 = l2.
Proof.
  induction l1 as [|x l1 IH]; intros l2 Hp Hs1 Hs2.
  - apply Permutation_nil in Hp. now subst.
  - assert (Hss1 : StronglySorted op_le (x :: l1)).
    { apply Sorted_StronglySorted; [|exact Hs1]. intros a b c H1 H2. unfold op_le in *. lia. }
    destruct l2 as [|y l2]; [apply Permutation_sym, Permutation_nil in Hp; discriminate|].
    inversion Hss1 as [|? ? Hss1' Hall1]; subst. inversion Hs2 as [|? ? Hss2' Hall2]; subst.
    rewrite Forall_forall in Hall1, Hall2.
    assert (x = y) as ->.
    { assert (Hx : In x (y :: l2)) by (apply (Permutation_in _ Hp); now left).
      assert (Hy : In y (x :: l1)) by (apply (Permutation_in _ (Permutation_sym Hp)); now left).
      destruct Hx as [->|Hx]; [reflexivity|]. destruct Hy as [->|Hy]; [reflexivity|].
      apply Hall2 in Hx. apply Hall1 in Hy. unfold op_lt, op_le in *. lia. }
    f_equal. apply IH; auto.
    + now apply Permutation_cons_inv in Hp.
    + inversion Hs1; assumption.
Qed.

Definition wal_is (w : wal_file) (es : list entry) : Prop :=
  file_bytes w = calls_bytes (calls_of es)
  /\ Forall call_ok (calls_of es)
  /\ StronglySorted entry_lt es.

Definition newer (a : N) (es : list entry) : list wal_record :=
  filter (newer_than a) (committed_of es).

Lemma in_calls_of c es : In c (calls_of es) -> exists e, In e es /\ call_id c = op_id (fst e).
Proof.
  unfold calls_of. intros H. apply in_flat_map in H as (e & He & H). exists e. split; [exact He|].
  unfold entry_calls in H. destruct H as [<-|H]; [reflexivity|].
  destruct (snd e); [|destruct H]. destruct H as [<-|[]]. reflexivity.
Qed.
Lemma prepare_in_calls_of e es : In e es -> In (Prepare (fst e)) (calls_of es).
Proof. intros H. apply in_flat_map. exists e. split; [exact H|now left]. Qed.

(** What a scan of such a log returns. *)
Lemma replay_wal_is w es a : wal_is w es ->
  exists mx, replayable_records w a = Some (newer a es, mx)
    /\ (a <= mx)%N
    /\ (forall e, In e es -> (op_id (fst e) <= mx)%N)
    /\ (mx = a \/ exists e, In e es /\ op_id (fst e) = mx).
Proof.
  intros (Hb & Hok & Hs).
  assert (Hrep : exists recs mx, replayable_records w a = Some (recs, mx)
     /\ replay_of a (calls_of es) recs /\ largest_id a (calls_of es) mx).
  { destruct w as [b|]; cbn [file_bytes] in Hb.
    - subst b. destruct (replay_calls_tail a (calls_of es) [] Hok read_frame_nil) as (r & mx & H).
      rewrite app_nil_r in H. eauto.
    - assert (calls_of es = []) as ->.
      { destruct (calls_of es) as [|c cs] eqn:E; [reflexivity|]. rewrite calls_bytes_cons in Hb.
        pose proof (call_bytes_pos c). apply (f_equal (@length N)) in Hb.
        rewrite app_length in Hb. cbn in Hb. lia. }
      exists [], a. split; [reflexivity|]. split; [split; constructor|].
      split; [lia|]. split; [intros ? []|now left]. }
  destruct Hrep as (recs & mx & Hr & [Hp Hsr] & Hm1 & Hm2 & Hm3).
  unfold durable_ops in Hp. rewrite durable_calls_of in Hp.
  assert (recs = newer a es) as ->.
  { apply sorted_perm_unique; auto. apply StronglySorted_filter. now apply committed_sorted. }
  exists mx. split; [exact Hr|]. split; [exact Hm1|]. split.
  - intros e He. apply (Hm2 (Prepare (fst e))). now apply prepare_in_calls_of.
  - destruct Hm3 as [->|(c & Hc & <-)]; [now left|right].
    apply in_calls_of in Hc as (e & He & Heq). exists e. auto.
Qed.

Lemma in_newer r a es : In r (newer a es) -> (a < op_id r)%N /\ exists c, In (r, c) es.
Proof.
  unfold newer, committed_of. intros H. apply filter_In in H as [H Hn].
  apply in_map_iff in H as ([r' c] & Heq & H). cbn in Heq. subst r'.
  apply filter_In in H as [H _]. split; [now apply N.ltb_lt|eauto].
Qed.

Lemma newer_app a es1 es2 : newer a (es1 ++ es2) = newer a es1 ++ newer a es2.
Proof. unfold newer, committed_of. now rewrite filter_app, map_app, filter_app. Qed.

Lemma newer_nil L es : (forall r, In r (committed_of es) -> (op_id r <= L)%N) -> newer L es = [].
Proof.
  unfold newer. induction (committed_of es) as [|r l IH]; intros H; [reflexivity|].
  cbn. unfold newer_than at 1. destruct (N.ltb_spec L (op_id r)).
  - specialize (H r (or_introl eq_refl)). lia.
  - apply IH. intros; apply H; now right.
Qed.

Section Proofs.
Context {S : Type} (apply : S -> mutation -> bytes -> option S).

Fixpoint contents (s : S) (rs : list wal_record) : option S :=
  match rs with
  | [] => Some s
  | r :: rs' => match apply s (mut r) (payload r) with None => None | Some s' => contents s' rs' end
  end.

Lemma contents_app s rs1 rs2 :
  contents s (rs1 ++ rs2) = match contents s rs1 with None => None | Some s' => contents s' rs2 end.
Proof.
  revert s; induction rs1 as [|r rs IH]; intros s; cbn; [reflexivity|].
  destruct (apply s (mut r) (payload r)); [apply IH|reflexivity].
Qed.

Lemma replay_all_spec rs : forall s c s',
  contents s rs = Some s' ->
  exists c', replay_all apply s c rs = Some (s', c')
    /\ (c <= c')%N /\ (forall r, In r rs -> (op_id r <= c')%N)
    /\ (c' = c \/ exists r, In r rs /\ op_id r = c').
Proof.
  induction rs as [|r rs IH]; intros s c s' H; cbn [contents replay_all] in *.
  - inversion H; subst. exists c. repeat split; auto; try lia. intros ? [].
  - destruct (apply s (mut r) (payload r)) as [s1|]; [|discriminate].
    destruct (IH s1 (N.max c (op_id r)) s' H) as (c' & H1 & H2 & H3 & H4).
    exists c'. split; [exact H1|]. split; [lia|]. split.
    + intros r' [<-|Hr]; [lia|auto].
    + destruct H4 as [->|(r' & Hr & H4)].
      * destruct (N.max_spec c (op_id r)) as [[_ ->]|[_ ->]].
        -- right. exists r. split; [now left|reflexivity].
        -- now left.
      * right. exists r'. split; [now right|exact H4].
Qed.

(** ** Invariants *)

(** The contents and applied-through id a restart begins with. *)
Definition start (d : disk S) : option (S * N) :=
  match d_current d with
  | None => Some (d_base d, 0%N)
  | Some id => match snap_get id (d_snaps d) with
               | Some {| sn_data := Some c; sn_manifest := Some a |} => Some (c, a)
               | _ => None
               end
  end.

Record Disk (B : N) (d : disk S) (es : list entry) (c : S) (a : N) (s : S) : Prop := {
  D_wal : wal_is (d_wal d) es;
  D_start : start d = Some (c, a);
  D_contents : contents c (newer a es) = Some s;
  D_ids : forall e, In e es -> (op_id (fst e) < B)%N;
  D_app : (a < B)%N;
}.

Record Proc (B : N) (p : process S) (d : disk S) es c a s : Prop := {
  P_disk : Disk (p_next p) d es c a s;
  P_mem : p_mem p = s;
  P_bound : (p_next p <= B)%N;
  P_a : (a <= p_committed p)%N;
  P_com : forall r, In r (committed_of es) -> (op_id r <= p_committed p)%N;
  P_lt : (p_committed p < p_next p)%N;
}.

Lemma Disk_mono B B' d es c a s : (B <= B')%N -> Disk B d es c a s -> Disk B' d es c a s.
Proof.
  intros Hle [H1 H2 H3 H4 H5]. split; auto; [|lia].
  intros e He. specialize (H4 e He). lia.
Qed.

(** *** Snapshot tables *)
Lemma snap_get_del_same id l : snap_get (S:=S) id (snap_del id l) = None.
Proof.
  induction l as [|[k v] l IH]; [reflexivity|]. unfold snap_del. cbn [filter fst].
  destruct (N.eqb_spec k id); cbn [negb]; [exact IH|]. cbn [snap_get].
  destruct (N.eqb_spec k id); [contradiction|exact IH].
Qed.
Lemma snap_get_del_other id id' l : id <> id' -> snap_get (S:=S) id (snap_del id' l) = snap_get id l.
Proof.
  intros Hne. induction l as [|[k v] l IH]; [reflexivity|]. unfold snap_del. cbn [filter fst snap_get].
  destruct (N.eqb_spec k id'); cbn [negb].
  - destruct (N.eqb_spec k id); [congruence|exact IH].
  - cbn [snap_get]. destruct (N.eqb_spec k id); [reflexivity|exact IH].
Qed.
Lemma snap_get_set_same id v l : snap_get (S:=S) id (snap_set id v l) = Some v.
Proof. unfold snap_set. cbn [snap_get]. now rewrite N.eqb_refl. Qed.
Lemma snap_get_set_other id id' v l : id <> id' -> snap_get (S:=S) id (snap_set id' v l) = snap_get id l.
Proof.
  intros Hne. unfold snap_set. cbn [snap_get]. destruct (N.eqb_spec id' id); [congruence|].
  now apply snap_get_del_other.
Qed.

#[local] Arguments snap_set : simpl never.
#[local] Arguments snap_del : simpl never.
#[local] Arguments snap_get : simpl never.

Lemma snap_id_dec (x y : N) : {x = y} + {x <> y}.
Proof. decide equality. decide equality. Qed.

(** *** Checkpoint steps *)

(** Before CURRENT is switched only the new directory has changed. *)
Record Before (d0 d : disk S) (id : N) : Prop := {
  b_cur : d_current d = d_current d0;
  b_wal : d_wal d = d_wal d0;
  b_base : d_base d = d_base d0;
  b_snaps : forall i, i <> id -> snap_get i (d_snaps d) = snap_get i (d_snaps d0);
}.

(** After it has been switched the new snapshot is complete. *)
Record After (d0 d : disk S) (id : N) (m : S) (L : N) : Prop := {
  a_cur : d_current d = Some id;
  a_wal : d_wal d = d_wal d0 \/ d_wal d = None;
  a_snap : snap_get id (d_snaps d) = Some {| sn_data := Some m; sn_manifest := Some L |};
}.

Lemma Before_start d0 d id : d_current d0 <> Some id -> Before d0 d id -> start d = start d0.
Proof.
  intros Hne [H1 H2 H3 H4]. unfold start. rewrite H1, H3.
  destruct (d_current d0) as [i|] eqn:E; [|reflexivity].
  rewrite H4 by congruence. reflexivity.
Qed.

Lemma wal_is_nil : wal_is None [].
Proof. split; [reflexivity|]. split; constructor. Qed.

Lemma Before_Disk B d0 d id es c a s :
  d_current d0 <> Some id -> Disk B d0 es c a s -> Before d0 d id -> Disk B d es c a s.
Proof.
  intros Hne [H1 H2 H3 H4 H5] HB. split; auto.
  - now rewrite (b_wal _ _ _ HB).
  - now rewrite (Before_start d0 d id).
Qed.

Lemma After_Disk B p d0 d id es c a s :
  Proc B p d0 es c a s -> After d0 d id (p_mem p) (p_committed p) ->
  exists es', Disk (p_next p) d es' s (p_committed p) s
    /\ (forall r, In r (committed_of es') -> (op_id r <= p_committed p)%N).
Proof.
  intros [[H1 H2 H3 H4 H5] Hm Hb Ha Hc Hl] [A1 A2 A3].
  assert (Hst : start d = Some (s, p_committed p)).
  { unfold start. rewrite A1, A3, Hm. reflexivity. }
  destruct A2 as [A2|A2].
  - exists es. split; [|exact Hc]. split; auto.
    + now rewrite A2.
    + now rewrite newer_nil.
  - exists []. split; [|intros ? []]. split; auto.
    + rewrite A2. apply wal_is_nil.
    + intros ? [].
Qed.

Lemma run_steps_cons (f : step S) l d : run_steps (f :: l) d = run_steps l (f d).
Proof. reflexivity. Qed.

Lemma run_steps_pres (P : disk S -> Prop) (l : list (step S)) :
  Forall (fun f => forall d, P d -> P (f d)) l ->
  forall k d, P d -> P (run_steps (firstn k l) d).
Proof.
  induction 1 as [|f l Hf Hl IH]; intros k d Hd.
  - now rewrite firstn_nil.
  - destruct k as [|k]; [exact Hd|]. cbn [firstn]. rewrite run_steps_cons. apply IH, Hf, Hd.
Qed.

Lemma remove_steps_pres d0 id m L ids :
  Forall (fun f : step S => forall d, After d0 d id m L -> After d0 (f d) id m L)
         (remove_old_steps (S:=S) id ids).
Proof.
  unfold remove_old_steps. induction ids as [|i ids IH]; [constructor|].
  cbn [flat_map]. destruct (N.eqb_spec i id) as [->|Hne]; [exact IH|].
  cbn [app]. constructor; [|constructor; [|exact IH]].
  - intros d [A1 A2 A3]. unfold step_wipe. destruct (snap_get i (d_snaps d)) eqn:E; [|now split].
    split; cbn; auto. rewrite snap_get_set_other by congruence. exact A3.
  - intros d [A1 A2 A3]. unfold step_rmdir. split; cbn; auto.
    rewrite snap_get_del_other by congruence. exact A3.
Qed.

(** Every prefix of the checkpoint leaves the directory before or after the switch. *)
Lemma checkpoint_prefix d0 id m L k :
  let d := run_steps (firstn k (checkpoint_steps d0 id m L)) d0 in
  (k < 5 /\ Before d0 d id) \/ (5 <= k /\ After d0 d id m L).
Proof.
  cbv zeta. unfold checkpoint_steps.
  set (d1 := step_create_dir id d0).
  assert (B1 : Before d0 d1 id /\ snap_get id (d_snaps d1) <> None).
  { unfold d1, step_create_dir. destruct (snap_get id (d_snaps d0)) eqn:E.
    - split; [split; auto|congruence].
    - split; [split; cbn; auto|]. + intros i Hi. now apply snap_get_set_other.
      + cbn [d_snaps with_snaps]. rewrite snap_get_set_same. discriminate. }
  set (d2 := step_begin_components id d1).
  assert (B2 : Before d0 d2 id /\ snap_get id (d_snaps d2) <> None).
  { destruct B1 as [[X1 X2 X3 X4] X5]. unfold d2, step_begin_components.
    destruct (snap_get id (d_snaps d1)) as [s|] eqn:E; [|contradiction].
    split; [split; cbn; auto|]. - intros i Hi. rewrite snap_get_set_other by exact Hi. auto.
    - cbn [d_snaps with_snaps]. rewrite snap_get_set_same. discriminate. }
  set (d3 := step_end_components id m d2).
  assert (B3 : Before d0 d3 id /\ exists mf, snap_get id (d_snaps d3) = Some {| sn_data := Some m; sn_manifest := mf |}).
  { destruct B2 as [[X1 X2 X3 X4] X5]. unfold d3, step_end_components.
    destruct (snap_get id (d_snaps d2)) as [s|] eqn:E; [|contradiction].
    split; [split; cbn; auto|]. - intros i Hi. rewrite snap_get_set_other by exact Hi. auto.
    - cbn [d_snaps with_snaps]. rewrite snap_get_set_same. eauto. }
  set (d4 := step_manifest id L d3).
  assert (B4 : Before d0 d4 id /\ snap_get id (d_snaps d4) = Some {| sn_data := Some m; sn_manifest := Some L |}).
  { destruct B3 as [[X1 X2 X3 X4] [mf X5]]. unfold d4, step_manifest. rewrite X5.
    split; [split; cbn; auto|]. - intros i Hi. rewrite snap_get_set_other by exact Hi. auto.
    - cbn [d_snaps with_snaps sn_data]. apply snap_get_set_same. }
  assert (A5 : After d0 (step_current id d4) id m L).
  { destruct B4 as [[X1 X2 X3 X4] X5]. split; cbn; auto. }
  assert (A6 : After d0 (step_truncate (step_current id d4)) id m L).
  { destruct A5 as [X1 X2 X3]. split; cbn; auto. }
  destruct k as [|[|[|[|[|[|k]]]]]]; cbn [firstn app]; rewrite ?run_steps_cons.
  - left. split; [lia|]. split; auto.
  - left. split; [lia|]. apply B1.
  - left. split; [lia|]. apply B2.
  - left. split; [lia|]. apply B3.
  - left. split; [lia|]. apply B4.
  - right. split; [lia|]. exact A5.
  - right. split; [lia|]. apply (run_steps_pres (fun d => After d0 d id m L)); [apply remove_steps_pres|exact A6].
Qed.

Lemma start_current d c a : start d = Some (c, a) ->
  (exists id, current_snapshot d = Some (id, a)
     /\ exists sn, snap_get id (d_snaps d) = Some sn /\ sn_data sn = Some c /\ d_current d = Some id)
  \/ (current_snapshot d = None /\ d_current d = None /\ c = d_base d /\ a = 0%N).
Proof.
  unfold start, current_snapshot. destruct (d_current d) as [id|].
  - destruct (snap_get id (d_snaps d)) as [sn|] eqn:E; [|discriminate].
    destruct sn as [[x|] [y|]]; try discriminate.
    intros H; inversion H; subst. left. exists id. cbn. split; [reflexivity|].
    exists {| sn_data := Some c; sn_manifest := Some a |}. auto.
  - intros H; inversion H; subst. right. auto.
Qed.

(** Restarting from a good directory gives a good process. *)
Lemma open_Proc B d es c a s :
  Disk B d es c a s ->
  exists p n f, open_and_replay apply d = Some (p, n, f) /\ Proc B p d es c a s
    /\ (f = false -> d_current d = None).
Proof.
  intros HD. destruct HD as [H1 H2 H3 H4 H5].
  destruct (replay_wal_is (d_wal d) es 0 H1) as (m0 & R0 & M01 & M02 & M03).
  destruct (replay_wal_is (d_wal d) es a H1) as (m1 & R1 & M11 & M12 & M13).
  destruct (replay_all_spec (newer a es) c a s H3) as (c' & RA & C1 & C2 & C3).
  assert (Hm0 : (m0 < B)%N).
  { destruct M03 as [->|(e & He & <-)]; [lia|]. auto. }
  assert (Hm1 : (m1 < B)%N).
  { destruct M13 as [->|(e & He & <-)]; [lia|]. auto. }
  set (p := {| p_mem := s; p_next := N.max (N.max m0 a + 1) (m1 + 1); p_committed := c' |}).
  assert (HP : Proc B p d es c a s).
  { split; cbn [p p_next p_mem p_committed]; auto.
    - split; auto; [|lia]. intros e He. specialize (M12 e He). lia.
    - lia.
    - intros r Hr. destruct (N.le_gt_cases (op_id r) a) as [Hle|Hgt]; [lia|].
      apply C2. unfold newer. apply filter_In. split; [exact Hr|]. now apply N.ltb_lt.
    - destruct C3 as [->|(r & Hr & <-)]; [lia|].
      apply in_newer in Hr as (_ & cc & He). specialize (M12 _ He). cbn in M12. lia. }
  unfold open_and_replay, initialize_recovery. rewrite R0.
  apply start_current in H2 as [(id & Hc & sn & Hsn & Hdt & Hcur)|(Hc & Hcur & Hb & Ha)].
  - rewrite Hc, Hsn, Hdt, R1, RA. exists p, (length (newer a es)), true.
    split; [reflexivity|]. split; [exact HP|discriminate].
  - rewrite Hc. subst c a. rewrite R1, RA. exists p, (length (newer 0 es)), false.
    split; [reflexivity|]. split; [exact HP|auto].
Qed.

Definition GoodDisk (B : N) (d : disk S) (s : S) : Prop := exists es c a, Disk B d es c a s.
Definition GoodProc (B : N) (p : process S) (d : disk S) (s : S) : Prop :=
  exists es c a, Proc B p d es c a s.

Lemma GoodProc_disk B p d s : GoodProc B p d s -> GoodDisk B d s.
Proof.
  intros (es & c & a & H). exists es, c, a. destruct H as [H _ Hb _ _ _].
  now apply Disk_mono with (B := p_next p).
Qed.

Lemma checkpoint_good B p d s id k :
  GoodProc B p d s -> d_current d <> Some id ->
  let d' := run_steps (firstn k (checkpoint_steps d id (p_mem p) (p_committed p))) d in
  GoodDisk B d' s /\ (d_current d' = d_current d \/ d_current d' = Some id)
  /\ (5 <= k -> GoodProc B p d' s).
Proof.
  intros (es & c & a & HP) Hne. cbv zeta.
  pose proof (checkpoint_prefix d id (p_mem p) (p_committed p) k) as Hk. cbv zeta in Hk.
  set (d' := run_steps _ d) in *.
  destruct Hk as [[Hlt HB]|[Hge HA]].
  - split; [|split; [left; apply HB|lia]].
    exists es, c, a. apply (Before_Disk _ d d' id); auto.
    destruct HP as [HD _ Hb _ _ _]. now apply Disk_mono with (B := p_next p).
  - destruct (After_Disk B p d d' id es c a s HP HA) as (es' & HD' & Hcom').
    assert (Proc B p d' es' s (p_committed p) s) as HP'.
    { destruct HP as [HD Hm Hb Ha Hc Hl]. split; auto. lia. }
    split; [|split; [right; apply HA|]].
    + apply (GoodProc_disk B p). exists es', s, (p_committed p). exact HP'.
    + intros _. exists es', s, (p_committed p). exact HP'.
Qed.

Lemma checkpoint_full_good B p d s id :
  GoodProc B p d s -> d_current d <> Some id ->
  let d' := run_steps (checkpoint_steps d id (p_mem p) (p_committed p)) d in
  GoodProc B p d' s /\ (d_current d' = d_current d \/ d_current d' = Some id).
Proof.
  intros H Hne. cbv zeta.
  pose proof (checkpoint_good B p d s id
    (length (checkpoint_steps d id (p_mem p) (p_committed p))) H Hne) as Hk.
  cbv zeta in Hk. rewrite firstn_all in Hk. destruct Hk as (H1 & H2 & H3).
  split; [|exact H2]. apply H3. unfold checkpoint_steps. rewrite app_length. cbn. lia.
Qed.

(** *** Operations *)

Lemma wal_is_snoc w es r (b : bool) :
  wal_is w es -> frame_ok r -> (forall e, In e es -> (op_id (fst e) < op_id r)%N) ->
  wal_is (Some (file_bytes w ++ calls_bytes (entry_calls (r, b)))) (es ++ [(r, b)]).
Proof.
  intros (Hb & Hok & Hs) Hr Hlt. split; [|split].
  - cbn [file_bytes]. rewrite Hb. unfold calls_of. rewrite flat_map_app, calls_bytes_app.
    cbn [flat_map]. now rewrite app_nil_r.
  - unfold calls_of. rewrite flat_map_app. apply Forall_app. split; [exact Hok|].
    cbn [flat_map]. rewrite app_nil_r. unfold entry_calls. cbn [fst snd]. constructor; [exact Hr|].
    destruct b; constructor; [|constructor]. destruct Hr as [Hr1 Hr2]. split; cbn; [exact Hr1|lia].
  - clear Hb Hok. induction es as [|e es IH]; [repeat constructor|].
    inversion Hs as [|? ? Hs' Hall]; subst. cbn [app]. constructor.
    + apply IH; [exact Hs'|]. intros e' He'. apply Hlt. now right.
    + apply Forall_app. split; [exact Hall|]. constructor; [|constructor].
      unfold entry_lt. cbn [fst]. apply Hlt. now left.
Qed.

Lemma newer_snoc a es r b :
  newer a (es ++ [(r, b)]) = newer a es ++ (if (b && newer_than a r)%bool then [r] else []).
Proof.
  rewrite newer_app. f_equal. unfold newer, committed_of. cbn [filter snd].
  destruct b; cbn [map fst filter andb]; [|reflexivity].
  destruct (newer_than a r); reflexivity.
Qed.

Lemma too_big_append w r :
  append_frame w kPrepare r = if too_big (payload r) then Throw
                              else Ret (Some (file_bytes w ++ encode_frame kPrepare r)).
Proof. reflexivity. Qed.

(** The log after an operation has been prepared, or prepared and committed. *)
Lemma Disk_log B p d es c a s m pl (b : bool) s' :
  Proc B p d es c a s -> too_big pl = false -> (p_next p < 2 ^ 64)%N ->
  (if b then apply s m pl = Some s' else s' = s) ->
  let r := {| op_id := p_next p; mut := m; payload := pl |} in
  Disk (p_next p + 1)
    (with_wal d (Some (file_bytes (d_wal d) ++ calls_bytes (entry_calls (r, b))))) (es ++ [(r, b)]) c a s'.
Proof.
  intros HP Hsz Hnx Hap. cbv zeta.
  set (r := {| op_id := p_next p; mut := m; payload := pl |}).
  destruct HP as [[H1 H2 H3 H4 H5] Hm Hb Ha Hc Hl]. split.
  - cbn [d_wal with_wal]. apply wal_is_snoc; auto.
    split; cbn; [exact Hnx|]. unfold too_big in Hsz. apply N.ltb_ge in Hsz. exact Hsz.
  - exact H2.
  - rewrite newer_snoc. rewrite contents_app, H3.
    assert (newer_than a r = true) as Hn by (apply N.ltb_lt; cbn; lia).
    rewrite Hn. destruct b; cbn [andb].
    + cbn [contents mut payload r]. rewrite Hap. reflexivity.
    + cbn [contents]. now subst.
  - intros e He. apply in_app_iff in He as [He|[<-|[]]].
    + specialize (H4 e He). lia.
    + cbn. lia.
  - lia.
Qed.

Lemma append_commit_eq w id m :
  append_commit w id m = Ret (Some (file_bytes w ++ call_bytes (Commit id m))).
Proof. reflexivity. Qed.

Lemma entry_bytes_true r :
  calls_bytes (entry_calls (r, true)) = call_bytes (Prepare r) ++ call_bytes (Commit (op_id r) (mut r)).
Proof. unfold calls_bytes, entry_calls. cbn [fst snd map concat]. now rewrite app_nil_r. Qed.
Lemma entry_bytes_false r : calls_bytes (entry_calls (r, false)) = call_bytes (Prepare r).
Proof. unfold calls_bytes, entry_calls. cbn [fst snd map concat]. now rewrite app_nil_r. Qed.

(** What a call does to the log and the process. *)
Lemma mutate_cases p d m pl :
  let r := {| op_id := p_next p; mut := m; payload := pl |} in
  (too_big pl = true /\
   mutate apply p d m pl = ({| p_mem := p_mem p; p_next := p_next p + 1; p_committed := p_committed p |}%N, d))
  \/ (too_big pl = false /\ apply (p_mem p) m pl = None /\
   mutate apply p d m pl = ({| p_mem := p_mem p; p_next := p_next p + 1; p_committed := p_committed p |}%N,
     with_wal d (Some (file_bytes (d_wal d) ++ calls_bytes (entry_calls (r, false))))))
  \/ (exists s', too_big pl = false /\ apply (p_mem p) m pl = Some s' /\
   mutate apply p d m pl = ({| p_mem := s'; p_next := p_next p + 1; p_committed := p_next p |}%N,
     with_wal d (Some (file_bytes (d_wal d) ++ calls_bytes (entry_calls (r, true)))))).
Proof.
  cbv zeta. unfold mutate, append_prepare. rewrite too_big_append. cbn [payload].
  destruct (too_big pl) eqn:Et; [left; auto|right].
  destruct (apply (p_mem p) m pl) as [s'|] eqn:Ea.
  - right. exists s'. rewrite append_commit_eq. cbn [file_bytes].
    rewrite entry_bytes_true. rewrite <- app_assoc. auto.
  - left. rewrite entry_bytes_false. auto.
Qed.

Lemma mutate_good B p d s m pl :
  GoodProc B p d s -> (p_next p < 2 ^ 64)%N ->
  let w := mutate apply p d m pl in
  GoodProc (B + 1) (fst w) (snd w) (effect apply s m pl) /\ d_current (snd w) = d_current d.
Proof.
  intros (es & c & a & HP) Hnx. cbv zeta.
  destruct (mutate_cases p d m pl) as [[Et Hm]|[(Et & Ea & Hm)|(s' & Et & Ea & Hm)]];
    rewrite Hm; cbn [fst snd]; unfold effect; rewrite Et; (split; [|reflexivity]).
  - exists es, c, a. destruct HP as [HD Hmem Hb Ha Hc Hl].
    split; cbn [p_next p_mem p_committed]; auto; try lia.
    apply Disk_mono with (B := p_next p); [lia|exact HD].
  - pose proof (P_mem _ _ _ _ _ _ _ HP) as Hmem. rewrite <- Hmem, Ea, Hmem.
    eexists _, c, a. split; cbn [p_next p_mem p_committed].
    + apply (Disk_log B p d es c a s m pl false s); auto.
    + reflexivity.
    + pose proof (P_bound _ _ _ _ _ _ _ HP). lia.
    + apply HP.
    + intros r Hr. apply HP. unfold committed_of in Hr. rewrite filter_app, map_app in Hr.
      cbn in Hr. now rewrite app_nil_r in Hr.
    + pose proof (P_lt _ _ _ _ _ _ _ HP). lia.
  - pose proof (P_mem _ _ _ _ _ _ _ HP) as Hmem. rewrite <- Hmem, Ea.
    eexists _, c, a. split; cbn [p_next p_mem p_committed].
    + apply (Disk_log B p d es c a s m pl true s'); auto. now rewrite <- Hmem.
    + reflexivity.
    + pose proof (P_bound _ _ _ _ _ _ _ HP). lia.
    + pose proof (P_a _ _ _ _ _ _ _ HP). pose proof (P_lt _ _ _ _ _ _ _ HP). lia.
    + intros r Hr. unfold committed_of in Hr. rewrite filter_app, map_app in Hr.
      apply in_app_iff in Hr as [Hr|Hr].
      * apply (P_com _ _ _ _ _ _ _ HP) in Hr. pose proof (P_lt _ _ _ _ _ _ _ HP). lia.
      * cbn in Hr. destruct Hr as [<-|[]]. cbn. lia.
    + lia.
Qed.

Lemma call_prepare_length r : length (call_bytes (Prepare r)) = 28 + length (payload r).
Proof. unfold call_bytes. cbn [frame_of_call fst snd]. apply encode_frame_length. Qed.
Lemma call_commit_length id m : length (call_bytes (Commit id m)) = 28.
Proof. unfold call_bytes. cbn [frame_of_call fst snd]. apply encode_frame_length. Qed.

Lemma firstn_add {A} (l r : list A) n : firstn (length l + n) (l ++ r) = l ++ firstn n r.
Proof. rewrite firstn_app. replace (length l + n - length l) with n by lia.
  rewrite firstn_all2 by lia. reflexivity. Qed.

(** The log left behind by a crash, when [t] is what the call appends. *)
Lemma mutate_crash_wal p d m pl n t :
  snd (mutate apply p d m pl) = with_wal d (Some (file_bytes (d_wal d) ++ t)) ->
  file_bytes (d_wal (mutate_crash apply p d m pl n)) = file_bytes (d_wal d) ++ firstn n t.
Proof.
  intros H. unfold mutate_crash. rewrite H. cbn [d_wal with_wal file_bytes].
  destruct (d_wal d) as [b|]; cbn [file_bytes app].
  - apply firstn_add.
  - destruct (Nat.eqb_spec n 0) as [->|]; reflexivity.
Qed.

Lemma Disk_wal_eq B d w es c a s :
  Disk B (with_wal d w) es c a s -> forall d', d_current d' = d_current d -> d_snaps d' = d_snaps d ->
  d_base d' = d_base d -> file_bytes (d_wal d') = file_bytes w -> Disk B d' es c a s.
Proof.
  intros [[X1 X2] H2 H3 H4 H5] d' E1 E2 E3 E4. split; auto.
  - split; [|exact X2]. rewrite E4. exact X1.
  - rewrite <- H2. unfold start. cbn. rewrite E1, E2, E3. reflexivity.
Qed.

Lemma mutate_crash_good B p d s m pl n :
  GoodProc B p d s -> (p_next p < 2 ^ 64)%N -> frame_atomic (EOpCrash m pl n) ->
  GoodDisk (B + 1) (mutate_crash apply p d m pl n)
           (if Nat.leb (op_bytes pl) n then effect apply s m pl else s)
  /\ d_current (mutate_crash apply p d m pl n) = d_current d.
Proof.
  intros HG Hnx Hat. split; [|reflexivity].
  destruct HG as (es & c & a & HP).
  pose proof (P_mem _ _ _ _ _ _ _ HP) as Hmem.
  pose proof (P_bound _ _ _ _ _ _ _ HP) as Hb.
  assert (HD0 : Disk (p_next p) d es c a s) by apply HP.
  cbn [frame_atomic] in Hat.
  destruct (mutate_cases p d m pl) as [[Et Hm]|[(Et & Ea & Hm)|(s' & Et & Ea & Hm)]].
  - exists es, c, a. apply Disk_mono with (B := p_next p); [lia|].
    unfold effect. rewrite Et.
    replace (if op_bytes pl <=? n then s else s) with s by (destruct (op_bytes pl <=? n); reflexivity).
    apply (Disk_wal_eq (p_next p) d (d_wal d)); auto.
    { destruct d; exact HD0. }
    unfold mutate_crash. rewrite Hm. cbn [snd with_wal d_wal]. destruct (d_wal d) as [b|]; cbn [file_bytes].
    + rewrite firstn_all2 by lia. reflexivity.
    + destruct (Nat.eqb n 0); [reflexivity|]. now rewrite firstn_nil.
  - assert (Hw := mutate_crash_wal p d m pl n _ (f_equal snd Hm)).
    rewrite entry_bytes_false in Hw.
    unfold effect. rewrite Et, <- Hmem, Ea, Hmem.
    replace (if op_bytes pl <=? n then s else s) with s by (destruct (op_bytes pl <=? n); reflexivity).
    assert (Hpl := call_prepare_length {| op_id := p_next p; mut := m; payload := pl |}). cbn [payload] in Hpl.
    destruct Hat as [->|Hat].
    + exists es, c, a. apply Disk_mono with (B := p_next p); [lia|].
      apply (Disk_wal_eq (p_next p) d (d_wal d)); auto. { destruct d; exact HD0. }
      rewrite Hw. cbn [firstn]. apply app_nil_r.
    + eexists _, c, a. apply Disk_mono with (B := (p_next p + 1)%N); [lia|].
      eapply Disk_wal_eq; [apply (Disk_log B p d es c a s m pl false s); auto|..]; try reflexivity.
      rewrite Hw, entry_bytes_false. cbn [file_bytes]. f_equal. apply firstn_all2.
      unfold op_bytes in Hat. lia.
  - assert (Hw := mutate_crash_wal p d m pl n _ (f_equal snd Hm)).
    rewrite entry_bytes_true in Hw. cbn [op_id mut] in Hw.
    assert (Hpl := call_prepare_length {| op_id := p_next p; mut := m; payload := pl |}). cbn [payload] in Hpl.
    assert (Hcl := call_commit_length (p_next p) m).
    unfold effect. rewrite Et, <- Hmem, Ea, Hmem. unfold op_bytes in *.
    destruct Hat as [->|[Hat|Hat]].
    + exists es, c, a. apply Disk_mono with (B := p_next p); [lia|].
      apply (Disk_wal_eq (p_next p) d (d_wal d)); auto. { destruct d; exact HD0. }
      rewrite Hw. cbn [firstn]. apply app_nil_r.
    + destruct (Nat.leb_spec (28 + length pl + 28) n); [lia|].
      eexists _, c, a. apply Disk_mono with (B := (p_next p + 1)%N); [lia|].
      eapply Disk_wal_eq; [apply (Disk_log B p d es c a s m pl false s); auto|..]; try reflexivity.
      rewrite Hw, entry_bytes_false. cbn [file_bytes]. f_equal.
      rewrite firstn_app, Hpl. replace (n - (28 + length pl)) with 0 by lia.
      rewrite firstn_all2 by lia. cbn [firstn]. apply app_nil_r.
    + destruct (Nat.leb_spec (28 + length pl + 28) n); [|lia].
      eexists _, c, a. apply Disk_mono with (B := (p_next p + 1)%N); [lia|].
      eapply Disk_wal_eq; [apply (Disk_log B p d es c a s m pl true s'); auto|..]; try reflexivity.
      * now rewrite <- Hmem.
      * rewrite Hw, entry_bytes_true. cbn [file_bytes op_id mut]. f_equal. apply firstn_all2.
        rewrite app_length, Hpl, Hcl. lia.
Qed.

(** *** Restart *)
Lemma load_good B d s id :
  GoodDisk B d s -> d_current d <> Some id ->
  exists p d', load apply d id None = (Some (Some p), d') /\ GoodProc B p d' s
    /\ (d_current d' = d_current d \/ d_current d' = Some id).
Proof.
  intros (es & c & a & HD) Hne. destruct (open_Proc B d es c a s HD) as (p & n & f & Ho & HP & Hf).
  unfold load. rewrite Ho.
  destruct (negb (Nat.eqb n 0) || negb f)%bool.
  - eexists _, _. split; [reflexivity|]. apply checkpoint_full_good; [|exact Hne].
    exists es, c, a. exact HP.
  - eexists _, _. split; [reflexivity|]. cbn [run_steps fold_left]. split; [|now left].
    exists es, c, a. exact HP.
Qed.

Lemma load_crash_good B d s id k :
  GoodDisk B d s -> d_current d <> Some id ->
  let d' := snd (load apply d id (Some k)) in
  GoodDisk B d' s /\ (d_current d' = d_current d \/ d_current d' = Some id).
Proof.
  intros HG Hne. cbv zeta.
  destruct HG as (es & c & a & HD). destruct (open_Proc B d es c a s HD) as (p & n & f & Ho & HP & Hf).
  unfold load. rewrite Ho.
  destruct (negb (Nat.eqb n 0) || negb f)%bool; cbn [snd].
  - assert (HG : GoodProc B p d s) by (exists es, c, a; exact HP).
    destruct (checkpoint_good B p d s id k HG Hne) as (H1 & H2 & _). auto.
  - rewrite firstn_nil. cbn [run_steps fold_left]. split; [|now left]. exists es, c, a. exact HD.
Qed.

(** *** Histories *)

Definition Good (B : N) (w : world S) (sw : bool * S) : Prop :=
  match fst w with
  | Some p => fst sw = true /\ GoodProc B p (snd w) (snd sw)
  | None => fst sw = false /\ GoodDisk B (snd w) (snd sw)
  end.

Lemma GoodDisk_mono B B' d s : (B <= B')%N -> GoodDisk B d s -> GoodDisk B' d s.
Proof. intros H (es & c & a & HD). exists es, c, a. now apply Disk_mono with (B := B). Qed.
Lemma GoodProc_mono B B' p d s : (B <= B')%N -> GoodProc B p d s -> GoodProc B' p d s.
Proof.
  intros H (es & c & a & [X1 X2 X3 X4 X5 X6]). exists es, c, a. split; auto. lia.
Qed.

Lemma GoodProc_next B p d s : GoodProc B p d s -> (p_next p <= B)%N.
Proof. intros (es & c & a & HP). apply HP. Qed.

Lemma step_good B w sw e :
  Good B w sw -> (B < 2 ^ 64)%N -> frame_atomic e ->
  (forall id, In id (snap_id_of e) -> d_current (snd w) <> Some id) ->
  Good (B + 1) (world_step apply w e) (spec_step apply sw e)
  /\ (d_current (snd (world_step apply w e)) = d_current (snd w)
      \/ exists id, In id (snap_id_of e) /\ d_current (snd (world_step apply w e)) = Some id).
Proof.
  destruct w as [[p|] d], sw as [al s]; unfold Good; cbn [fst snd]; intros [Hal HG] HB Hat Hfr; subst al.
  - assert (Hn : (p_next p < 2 ^ 64)%N) by (apply GoodProc_next in HG; lia).
    destruct e as [m pl|m pl n|id|id k| |id|id k]; cbn [world_step spec_step].
    + destruct (mutate_good B p d s m pl HG Hn) as [H1 H2].
      destruct (mutate apply p d m pl) as [p' d']. cbn [fst snd] in *.
      split; [split; [reflexivity|exact H1]|left; exact H2].
    + destruct (mutate_crash_good B p d s m pl n HG Hn Hat) as [H1 H2]. cbn [fst snd].
      split; [split; [reflexivity|exact H1]|left; exact H2].
    + destruct (checkpoint_full_good B p d s id HG) as [H1 H2]; [apply Hfr; now left|].
      cbn [fst snd snap_id_of]. split.
      * split; [reflexivity|]. eapply GoodProc_mono; [|exact H1]. lia.
      * destruct H2 as [H2|H2]; [left; exact H2|right; exists id; split; [now left|exact H2]].
    + destruct (checkpoint_good B p d s id k HG) as (H1 & H2 & _); [apply Hfr; now left|].
      cbn [fst snd snap_id_of]. split.
      * split; [reflexivity|]. eapply GoodDisk_mono; [|exact H1]. lia.
      * destruct H2 as [H2|H2]; [left; exact H2|right; exists id; split; [now left|exact H2]].
    + cbn [fst snd]. split; [|now left]. split; [reflexivity|].
      apply GoodProc_disk in HG. eapply GoodDisk_mono; [|exact HG]. lia.
    + cbn [fst snd]. split; [|now left]. split; [reflexivity|]. eapply GoodProc_mono; [|exact HG]. lia.
    + cbn [fst snd]. split; [|now left]. split; [reflexivity|]. eapply GoodProc_mono; [|exact HG]. lia.
  - destruct e as [m pl|m pl n|id|id k| |id|id k]; cbn [world_step spec_step];
      try (cbn [fst snd]; split; [split; [reflexivity|eapply GoodDisk_mono; [|exact HG]; lia]|now left]).
    + destruct (load_good B d s id HG) as (p & d' & Hl & H1 & H2); [apply Hfr; now left|].
      rewrite Hl. cbn [fst snd snap_id_of]. split.
      * split; [reflexivity|]. eapply GoodProc_mono; [|exact H1]. lia.
      * destruct H2 as [H2|H2]; [left; exact H2|right; exists id; split; [now left|exact H2]].
    + destruct (load_crash_good B d s id k HG) as (H1 & H2); [apply Hfr; now left|].
      cbn [fst snd snap_id_of]. split.
      * split; [reflexivity|]. eapply GoodDisk_mono; [|exact H1]. lia.
      * destruct H2 as [H2|H2]; [left; exact H2|right; exists id; split; [now left|exact H2]].
Qed.

Lemma run_good h : forall B w sw used,
  Good B w sw -> (B + N.of_nat (length h) <= 2 ^ 64)%N ->
  Forall frame_atomic h ->
  NoDup (used ++ flat_map snap_id_of h) ->
  (forall id, d_current (snd w) = Some id -> In id used) ->
  Good (B + N.of_nat (length h)) (run apply w h) (fold_left (spec_step apply) h sw).
Proof.
  induction h as [|e h IH]; intros B w sw used HG HB Hat Hnd Hcur.
  - cbn [length run fold_left]. now rewrite N.add_0_r.
  - inversion Hat as [|? ? Hat1 Hat2]; subst.
    cbn [run fold_left]. fold (run apply (world_step apply w e) h).
    destruct (step_good B w sw e HG) as [H1 H2]; auto.
    { cbn [length] in HB. lia. }
    { intros id Hin Hc. apply Hcur in Hc. cbn [flat_map] in Hnd.
      clear - Hnd Hin Hc. revert Hnd. induction used as [|u used IHu]; [destruct Hc|].
      cbn [app]. intros Hnd. inversion Hnd as [|? ? Hni Hnd']; subst.
      destruct Hc as [->|Hc]; [|auto].
      apply Hni. apply in_or_app. right. apply in_or_app. now left. }
    replace (B + N.of_nat (length (e :: h)))%N with (B + 1 + N.of_nat (length h))%N
      by (cbn [length]; lia).
    apply IH with (used := used ++ snap_id_of e); auto.
    + cbn [length] in HB. lia.
    + rewrite <- app_assoc. exact Hnd.
    + intros id Hc. apply in_or_app. destruct H2 as [H2|(id' & Hin & H2)].
      * left. apply Hcur. congruence.
      * right. congruence.
Qed.

Lemma fresh_good c id0 : Good 1 (fresh_world c id0) (true, c).
Proof.
  unfold Good, fresh_world. cbn [fst snd]. split; [reflexivity|].
  exists [], c, 0%N. split; cbn [p_next p_mem p_committed]; auto; try lia; try (intros ? []; fail).
  split; cbn [d_wal d_current fresh_disk]; auto; try lia; try (intros ? []; fail).
  - apply wal_is_nil.
  - unfold start, snap_get. cbn. rewrite N.eqb_refl. reflexivity.
Qed.

Lemma recovery_lemma c id0 h :
  (N.of_nat (length h) < 2 ^ 64)%N ->
  Forall frame_atomic h ->
  NoDup (id0 :: flat_map snap_id_of h) ->
  Good (1 + N.of_nat (length h)) (run apply (fresh_world c id0) h) (spec_run apply c h).
Proof.
  intros Hlen Hat Hnd. apply run_good with (used := [id0]); auto.
  - apply fresh_good.
  - lia.
  - intros id H. cbn in H. inversion H. now left.
Qed.

(** ** Publishing a snapshot, for an arbitrary directory *)

Lemma open_ext (d d' : disk S) :
  d_current d' = d_current d -> d_wal d' = d_wal d -> d_base d' = d_base d ->
  (forall id, d_current d = Some id -> snap_get id (d_snaps d') = snap_get id (d_snaps d)) ->
  open_and_replay apply d' = open_and_replay apply d.
Proof.
  intros H1 H2 H3 H4. unfold open_and_replay, initialize_recovery, current_snapshot.
  rewrite H1, H2, H3. destruct (d_current d) as [id|]; [|reflexivity].
  rewrite (H4 id) by reflexivity. destruct (snap_get id (d_snaps d)) as [sn|] eqn:E; [|reflexivity].
  destruct (sn_manifest sn) as [a|]; [|reflexivity]. rewrite (H4 id) by reflexivity. now rewrite E.
Qed.

Lemma publish_crash_lemma (d : disk S) p p0 n f id k recs mx :
  open_and_replay apply d = Some (p0, n, f) -> p_mem p0 = p_mem p ->
  replayable_records (d_wal d) 0 = Some (recs, mx) ->
  (forall r, In r recs -> (op_id r <= p_committed p)%N) ->
  d_current d <> Some id ->
  exists p' n' f',
    open_and_replay apply
      (run_steps (firstn k (checkpoint_steps d id (p_mem p) (p_committed p))) d) = Some (p', n', f')
    /\ p_mem p' = p_mem p.
Proof.
  intros Ho Hmem Hr Hle Hne.
  pose proof (checkpoint_prefix d id (p_mem p) (p_committed p) k) as Hk. cbv zeta in Hk.
  set (d' := run_steps _ d) in *.
  destruct Hk as [[_ [B1 B2 B3 B4]]|[_ [A1 A2 A3]]].
  - exists p0, n, f. split; [|exact Hmem]. rewrite <- Ho. apply open_ext; auto.
    intros i Hi. apply B4. congruence.
  - assert (Hcur : current_snapshot d' = Some (id, p_committed p)).
    { unfold current_snapshot. now rewrite A1, A3. }
    unfold open_and_replay, initialize_recovery.
    destruct (replay_total (d_wal d') 0) as (r0 & m0 & E0). rewrite E0.
    rewrite Hcur, A3. cbn [sn_data].
    destruct (replay_total (d_wal d') (p_committed p)) as (r1 & m1 & E1). rewrite E1.
    assert (r1 = []) as ->.
    { destruct A2 as [A2|A2].
      - rewrite A2 in E1. destruct r1 as [|r r1]; [reflexivity|].
        assert (Hin : In r (r :: r1)) by now left.
        apply (replay_subset _ _ _ _ _ _ r Hr E1) in Hin as [Hin Hgt]. apply Hle in Hin. lia.
      - rewrite A2 in E1. now inversion E1. }
    cbn [replay_all]. eexists _, _, _. split; [reflexivity|]. reflexivity.
Qed.

(** ** Operation ids *)
Lemma next_id_lemma (d : disk S) cs p n f :
  Forall op_id_ok cs -> do_calls None cs = Ret (d_wal d) ->
  open_and_replay apply d = Some (p, n, f) ->
  (forall c, In c cs -> (call_id c < p_next p)%N)
  /\ (forall id a, current_snapshot d = Some (id, a) -> (a < p_next p)%N).
Proof.
  intros Hok Hdo Ho.
  destruct (wal_replay_exact_lemma cs 0 (d_wal d) Hok Hdo) as (r0 & m0 & E0 & _ & (L1 & L2 & _)).
  unfold open_and_replay, initialize_recovery in Ho. rewrite E0 in Ho.
  match type of Ho with context [match ?x with Some _ => _ | None => _ end] =>
    match x with match _ with _ => _ end => destruct x as [[[c a] fd]|]; [|discriminate] end end.
  destruct (replayable_records (d_wal d) a) as [[recs ls]|]; [|discriminate].
  destruct (replay_all apply c _ recs) as [[m cc]|]; [|discriminate].
  inversion Ho; subst; cbn [p_next]. split.
  - intros c' Hc. specialize (L2 c' Hc). lia.
  - intros id a' Hcur. rewrite Hcur. lia.
Qed.

End Proofs.
