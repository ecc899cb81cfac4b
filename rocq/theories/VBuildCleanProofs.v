(** Proofs about the cleanup after the construction of a Vamana graph. *)
From Coq Require Import Permutation Sorting.Sorted.
From Verif Require Import PoolProofs NpqProofs BitsetProofs FrontierProofs SearchProofs PruneModel PruneProofs PruneProps VBuildSpec VBuildProofs.

Section Clean.
  Variables (n fuel : nat) (p : bparams) (dist : N -> N -> spec_float) (cap : nat).
  Hypothesis HA : alpha_ok (b_alpha p).
  Hypothesis HD : comparable dist.
  Hypothesis HF : 489 <= fuel.
  Hypothesis Hcap : b_R p <= cap.

  Definition cthread_ok (t : cthread) : Prop :=
    (forall x, In x (c_todo t) -> (x < N.of_nat n)%N)
    /\ match c_new t with Some (node, new) => (node < N.of_nat n)%N /\ ids_ok n node new /\ length new <= b_R p | None => True end.
  Definition cleft (t : cthread) : nat := 2 * length (c_todo t) + match c_new t with Some _ => 1 | None => 0 end.
  Definition cunclaimed (next : N) : nat := 3 * (n - N.to_nat next).
  Definition cresting (next : N) (t : cthread) : Prop := (N.of_nat n <= next)%N /\ c_todo t = [] /\ c_new t = None.
  (** Node [x] is still to be visited, by [t]. *)
  Definition owes (t : cthread) (x : N) : Prop := In x (c_todo t) \/ exists new, c_new t = Some (x, new).
  Definition short (rows : list (list N)) (x : N) : Prop := forall row, nth_error rows (N.to_nat x) = Some row -> length row <= b_R p.

  Lemma chunk_in next x : (next < N.of_nat n)%N -> (next <= x < N.of_nat n)%N -> (x < next + kChunk)%N -> In x (chunk_at (N.of_nat n) next).
  Proof.
    intros H [A B] C. unfold chunk_at. apply in_map_iff. exists (N.to_nat (x - next)). split; [lia|]. apply in_seq. unfold kChunk in *. lia.
  Qed.
  Lemma clean_thread_ok rows next t : well_formed n cap rows -> cthread_ok t ->
    exists rows' next' t', clean_thread_step fuel p dist rows next t = Done (Ok (rows', next', t'))
      /\ well_formed n cap rows' /\ cthread_ok t' /\ (next <= next')%N
      /\ (forall x, short rows x -> short rows' x)
      /\ (forall x, (x < N.of_nat n)%N -> (next <= x)%N \/ owes t x \/ short rows x -> (next' <= x)%N \/ owes t' x \/ short rows' x)
      /\ ((forall x, (x < N.of_nat n)%N -> short rows x) -> c_new t = None -> rows' = rows /\ c_new t' = None)
      /\ ((cresting next t /\ rows' = rows /\ next' = next /\ t' = t) \/ cunclaimed next' + cleft t' < cunclaimed next + cleft t).
  Proof.
    intros W [Todo T]. pose proof W as [Ln Wr]. unfold clean_thread_step. destruct t as [todo new]. cbn [c_todo c_new] in *. rewrite Ln.
    destruct new as [[node new]|].
    - destruct T as (Hn & P & HR). rewrite aput_ok by lia. cbn [lift_res]. eexists _, _, _. split; [reflexivity|].
      assert (Up : forall x row, nth_error (upd rows (N.to_nat node) new) (N.to_nat x) = Some row -> (x = node /\ row = new) \/ (x <> node /\ nth_error rows (N.to_nat x) = Some row)).
      { intros x row. rewrite nth_error_upd by lia. destruct (Nat.eqb_spec (N.to_nat node) (N.to_nat x)); [left|right]; split; try congruence; lia. }
      assert (Sh : forall x, short rows x -> short (upd rows (N.to_nat node) new) x).
      { intros x S row E. apply Up in E as [[_ ->]|[_ E]]; [assumption|now apply S]. }
      split; [apply (wf_upd n cap); auto; lia|]. split; [split; cbn; auto|]. split; [lia|]. split; [assumption|]. split; [|split].
      + intros x Hx [K|[[K|[nw K]]|K]]; auto.
        * right. left. now left.
        * cbn [c_new] in K. injection K as -> ->. right. right. intros row E. apply Up in E as [[_ ->]|[E _]]; [assumption|congruence].
      + discriminate.
      + right. unfold cleft. cbn [c_todo c_new]. lia.
    - destruct todo as [|node rest].
      + destruct (N.ltb_spec next (N.of_nat n)) as [Lt|Ge].
        * destruct (chunk_spec n next Lt) as (A & B & C). eexists _, _, _. split; [reflexivity|]. split; [assumption|].
          split; [split; cbn; auto|]. split; [lia|]. split; [auto|]. split; [|split].
          -- intros x Hx [K|[[K|[nw K]]|K]]; auto; try (now destruct K); try discriminate.
             destruct (N.lt_ge_cases x (next + kChunk)); [right; left; left; now apply chunk_in|now left].
          -- auto.
          -- right. unfold cleft, cunclaimed. cbn [c_todo c_new length]. lia.
        * eexists _, _, _. split; [reflexivity|]. split; [assumption|]. split; [split; cbn; auto|]. split; [lia|]. split; [auto|]. split; [auto|]. split; [auto|].
          left. repeat split; auto.
      + assert (Bn : (node < N.of_nat n)%N) by (apply Todo; now left).
        assert (Todo' : forall x, In x rest -> (x < N.of_nat n)%N) by (intros x Hx; apply Todo; now right).
        destruct (nth_error rows (N.to_nat node)) as [row|] eqn:Er; [|apply nth_error_None in Er; lia].
        assert (Ga : aget rows node = Ok row) by (unfold aget; now rewrite Er). rewrite Ga. cbn [lift_res].
        destruct (Wr _ _ Er) as (RN & RS & RB & RL).
        destruct (Nat.ltb_spec (b_R p) (length row)) as [Lt|Ge].
        * destruct (collect_ok n p dist node row [] (NoDup_nil _) (fun x => x)) as (C1 & C2 & C3) || destruct (collect_ok node row [] (NoDup_nil _) (fun x => x)) as (C1 & C2 & C3).
          destruct (prune_ids_ok fuel p dist HA HD HF node (collect_pool node [] row) C1) as (r & -> & A & B' & C & D).
          cbn [lift_opt]. eexists _, _, _. split; [reflexivity|]. split; [assumption|]. split; [|split; [lia|split; [auto|split; [|split]]]].
          -- split; cbn [c_todo c_new]; auto. split; [assumption|]. split; [|assumption]. split; [assumption|]. split; [assumption|].
             intros y Hy. apply C, C3 in Hy as [[]|[Hy _]]. auto.
          -- intros x Hx [K|[[[K|K]|[nw K]]|K]]; auto; try discriminate.
             ++ subst x. right. left. right. eexists. reflexivity.
             ++ right. left. now left.
          -- intros All _. exfalso. specialize (All node Bn row Er). lia.
          -- right. unfold cleft. cbn [c_todo c_new length]. lia.
        * eexists _, _, _. split; [reflexivity|]. split; [assumption|]. split; [|split; [lia|split; [auto|split; [|split]]]].
          -- split; cbn; auto.
          -- intros x Hx [K|[[[K|K]|[nw K]]|K]]; auto; try discriminate.
             ++ subst x. right. right. intros r E. assert (r = row) by congruence. subst r. assumption.
             ++ right. left. now left.
          -- auto.
          -- right. unfold cleft. cbn [c_todo c_new length]. lia.
  Qed.

  Definition cstate_ok (st : cstate) : Prop :=
    well_formed n cap (c_rows st) /\ (forall t, In t (c_threads st) -> cthread_ok t)
    /\ forall x, (x < N.of_nat n)%N -> (c_next st <= x)%N \/ (exists t, In t (c_threads st) /\ owes t x) \/ short (c_rows st) x.
  Definition untouched (rows : list (list N)) (st : cstate) : Prop :=
    (forall x, (x < N.of_nat n)%N -> short rows x) -> c_rows st = rows /\ forall t, In t (c_threads st) -> c_new t = None.
  Fixpoint csum (l : list cthread) : nat := match l with [] => 0 | t :: r => cleft t + csum r end.
  Definition cwork (st : cstate) : nat := cunclaimed (c_next st) + csum (c_threads st).
  Lemma csum_upd l : forall i t t', nth_error l i = Some t -> csum (upd l i t') + cleft t = csum l + cleft t'.
  Proof.
    induction l as [|x l IH]; intros [|i] t t' E; cbn [nth_error] in E; try discriminate; cbn [upd csum].
    - injection E as ->. lia.
    - specialize (IH i t t' E). lia.
  Qed.
  Lemma clean_step_ok rows0 st i : cstate_ok st -> untouched rows0 st -> exists st', clean_step fuel p dist st i = Done (Ok st') /\ cstate_ok st' /\ untouched rows0 st'
    /\ length (c_threads st') = length (c_threads st) /\ (c_next st <= c_next st')%N
    /\ ((st' = st /\ forall t, nth_error (c_threads st) i = Some t -> cresting (c_next st) t) \/ cwork st' < cwork st)
    /\ (forall j, j <> i -> nth_error (c_threads st') j = nth_error (c_threads st) j).
  Proof.
    intros (W & T & O) Un. unfold clean_step. destruct (nth_error (c_threads st) i) as [t|] eqn:E.
    2:{ exists st. split; [reflexivity|]. split; [split; auto|]. split; [assumption|]. split; [reflexivity|]. split; [lia|]. split; [|auto]. left. split; [reflexivity|discriminate]. }
    destruct (clean_thread_ok (c_rows st) (c_next st) t W (T t (nth_error_In _ _ E))) as (rows' & next' & t' & -> & W' & T' & Le & Sh & Ow & Same & M).
    assert (Li : i < length (c_threads st)) by (apply nth_error_Some; congruence).
    assert (Hit : nth_error (upd (c_threads st) i t') i = Some t') by (rewrite nth_error_upd by assumption; now rewrite Nat.eqb_refl).
    assert (Oth : forall j, j <> i -> nth_error (upd (c_threads st) i t') j = nth_error (c_threads st) j).
    { intros j Hj. rewrite nth_error_upd by assumption. destruct (Nat.eqb_spec i j); [congruence|reflexivity]. }
    eexists. split; [reflexivity|]. split; [|split; [|split; [|split; [|split]]]]; cbn [c_rows c_next c_threads].
    - split; [assumption|]. cbn [c_rows c_next c_threads]. split.
      + intros x Hx. apply In_nth_error in Hx as [j Hj]. destruct (Nat.eq_dec j i) as [->|Nj]; [congruence|]. rewrite Oth in Hj by assumption. eapply T, nth_error_In; eauto.
      + intros x Hx. assert (D : (c_next st <= x)%N \/ owes t x \/ short (c_rows st) x \/ exists t1 j, j <> i /\ nth_error (c_threads st) j = Some t1 /\ owes t1 x).
        { destruct (O x Hx) as [K|[(t1 & I1 & K)|K]]; auto. apply In_nth_error in I1 as [j Hj]. destruct (Nat.eq_dec j i) as [->|Nj].
          - assert (t1 = t) by congruence. subst. auto.
          - right. right. right. eauto. }
        assert (Tail : (c_next st <= x)%N \/ owes t x \/ short (c_rows st) x -> (next' <= x)%N \/ (exists t1, In t1 (upd (c_threads st) i t') /\ owes t1 x) \/ short rows' x).
        { intros K. destruct (Ow x Hx K) as [K1|[K1|K1]]; auto. right. left. exists t'. split; [eapply nth_error_In; eauto|assumption]. }
        destruct D as [K|[K|[K|(t1 & j & Nj & Hj & K)]]]; auto.
        right. left. exists t1. split; [|assumption]. rewrite <- Oth in Hj by assumption. eapply nth_error_In; eauto.
    - intros All. destruct (Un All) as [R1 R2]. cbn [c_rows c_threads]. rewrite <- R1 in All.
      destruct (Same All (R2 t (nth_error_In _ _ E))) as [S1 S2]. split; [congruence|].
      intros x Hx. apply In_nth_error in Hx as [j Hj]. destruct (Nat.eq_dec j i) as [->|Nj]; [congruence|]. rewrite Oth in Hj by assumption. eapply R2, nth_error_In; eauto.
    - apply upd_length.
    - assumption.
    - destruct M as [(R & -> & -> & ->)|M].
      + left. rewrite (upd_id _ _ _ E). split; [now destruct st|]. intros x Hx. injection Hx as <-. assumption.
      + right. unfold cwork. cbn [c_next c_threads]. pose proof (csum_upd (c_threads st) i t t' E). lia.
    - exact Oth.
  Qed.
  Lemma clean_run_ok rows0 : forall sched st, cstate_ok st -> untouched rows0 st -> exists st', clean_run fuel p dist st sched = Done (Ok st') /\ cstate_ok st' /\ untouched rows0 st'
    /\ length (c_threads st') = length (c_threads st) /\ (c_next st <= c_next st')%N /\ cwork st' <= cwork st
    /\ (forall i, i < length (c_threads st) -> cwork st < turns i sched -> forall t, nth_error (c_threads st') i = Some t -> cresting (c_next st') t)
    /\ (forall i t, nth_error (c_threads st) i = Some t -> cresting (c_next st) t -> nth_error (c_threads st') i = Some t).
  Proof.
    induction sched as [|i rest IH]; intros st I Un; cbn [clean_run].
    { exists st. split; [reflexivity|]. split; [assumption|]. split; [assumption|]. split; [reflexivity|]. split; [lia|]. split; [lia|]. split; [|auto].
      intros i _ H. cbn in H. lia. }
    destruct (clean_step_ok rows0 st i I Un) as (st1 & Es & I1 & Un1 & L1 & N1 & M1 & O1). rewrite Es.
    destruct (IH st1 I1 Un1) as (st2 & R2 & I2 & Un2 & L2 & N2 & W2 & Turns & Keep). rewrite R2.
    assert (Rest1 : forall j t, nth_error (c_threads st) j = Some t -> cresting (c_next st) t -> nth_error (c_threads st1) j = Some t /\ cresting (c_next st1) t).
    { intros j t Hj R. split; [|destruct R; split; [lia|assumption]]. destruct (Nat.eq_dec j i) as [->|Nj]; [|now rewrite O1].
      revert Es. unfold clean_step. rewrite Hj. destruct R as (Rn & Rt & Rp). unfold clean_thread_step. rewrite Rp, Rt.
      destruct I as [[Ln _] _]. rewrite Ln. destruct (N.ltb_spec (c_next st) (N.of_nat n)); [lia|]. intros Es. injection Es as <-. cbn [c_threads].
      rewrite nth_error_upd by (apply nth_error_Some; congruence). now rewrite Nat.eqb_refl. }
    exists st2. split; [reflexivity|]. split; [assumption|]. split; [assumption|]. split; [congruence|]. split; [lia|].
    split; [destruct M1 as [[-> _]|M1]; lia|]. split.
    - intros j Hj Ht t Hjt. unfold turns in Ht. cbn [count_occ] in Ht. destruct (Nat.eq_dec i j) as [->|Nj].
      + destruct M1 as [[Est M1]|M1].
        * subst st1. destruct (nth_error (c_threads st) j) as [t0|] eqn:E0; [|apply nth_error_None in E0; lia].
          specialize (M1 t0 eq_refl). rewrite (Keep j t0 E0 M1) in Hjt. injection Hjt as <-. destruct M1. split; [lia|assumption].
        * apply (Turns j); [lia| |assumption]. unfold turns. lia.
      + apply (Turns j); [lia| |assumption]. unfold turns. destruct M1 as [[-> _]|M1]; lia.
    - intros j t Hj R. destruct (Rest1 j t Hj R) as [A B]. exact (Keep j t A B).
  Qed.
  Lemma clean_start_ok rows threads : well_formed n cap rows -> cstate_ok (clean_start rows threads) /\ untouched rows (clean_start rows threads)
    /\ cwork (clean_start rows threads) = 3 * n.
  Proof.
    intros W. split; [|split].
    - split; [assumption|]. split; cbn [clean_start c_threads c_next].
      + intros t Ht. apply repeat_spec in Ht. subst t. split; cbn; auto. intros x [].
      + intros x _. left. lia.
    - intros _. split; [reflexivity|]. cbn [clean_start c_threads]. intros t Ht. apply repeat_spec in Ht. now subst t.
    - unfold cwork, cunclaimed, clean_start. cbn [c_next c_threads].
      assert (E : csum (repeat {| c_todo := []; c_new := None |} threads) = 0) by (induction threads as [|k IH]; [reflexivity|]; cbn [repeat csum]; rewrite IH; reflexivity).
      rewrite E. cbn [N.to_nat]. lia.
  Qed.
  (** When all threads have left, no list is longer than R. *)
  Lemma clean_done_ok st : cstate_ok st -> clean_done st -> well_formed n (b_R p) (c_rows st).
  Proof.
    intros ((Ln & W) & T & O) [Nx D]. split; [assumption|]. intros i row E. destruct (W i row E) as (A & B & C & _).
    split; [assumption|]. split; [assumption|]. split; [assumption|].
    assert (Hi : i < n) by (rewrite <- Ln; apply nth_error_Some; congruence).
    destruct (O (N.of_nat i) ltac:(lia)) as [K|[(t & It & K)|K]]; [lia| |].
    - destruct (D t It) as [D1 D2]. destruct K as [K|[nw K]]; [rewrite D1 in K; destruct K|congruence].
    - apply K. now rewrite Nat2N.id.
  Qed.
End Clean.
