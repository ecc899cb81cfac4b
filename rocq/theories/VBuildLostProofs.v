(** A node that nothing leads to stays lost. *)
From Coq Require Import Permutation.
From Verif Require Import PoolProofs NpqProofs FrontierProofs SearchProofs PruneModel PruneProofs PruneProps VBuildSpec VBuildProofs VBuildCleanProofs.

Section Lost.
  Variables (n fuel : nat) (p : bparams) (dist : N -> N -> spec_float) (medoid x : N).
  Hypothesis Hmed : (medoid < N.of_nat n)%N.
  Hypothesis HL : 0 < b_L p.
  Hypothesis HA : alpha_ok (b_alpha p).
  Hypothesis HD : comparable dist.
  Hypothesis HF : 489 <= fuel.
  Hypothesis Hx : x <> medoid.

  Definition forgets (t : thread) : Prop :=
    ~ In x (t_todo t)
    /\ match t_pc t with
       | Idle => True
       | Search node pool => node <> x /\ ~ In x (vs_touched (t_scratch t))
       | Store node pruned => node <> x /\ ~ In x pruned
       | Link node _ => node <> x
       | Replace node _ new _ => node <> x /\ ~ In x new
       end.
  Definition unlisted (rows : list (list N)) : Prop := forall row, In row rows -> ~ In x row.
  Definition lost (st : bstate) : Prop :=
    unlisted (v_rows st) /\ (x < v_next st)%N /\ forall t, In t (v_threads st) -> forgets t.
  Lemma unlisted_upd rows i row : unlisted rows -> ~ In x row -> unlisted (upd rows i row).
  Proof using.
    clear. intros U R r Hr. apply In_nth_error in Hr as [j Hj]. destruct (Nat.lt_ge_cases i (length rows)) as [L|L].
    - rewrite nth_error_upd in Hj by assumption. destruct (Nat.eqb_spec i j); [congruence|]. eapply U, nth_error_In; eauto.
    - rewrite upd_out in Hj by assumption. eapply U, nth_error_In; eauto.
  Qed.
  Lemma forgets_step cap rows next t rows' next' t' : well_formed n cap rows -> thread_ok n p t -> unlisted rows -> (x < next)%N -> forgets t ->
    thread_step fuel p dist medoid rows next t = Done (Ok (rows', next', t')) -> unlisted rows' /\ (x < next')%N /\ forgets t'.
  Proof.
    intros W [Todo T] U Nx [F1 F2]. pose proof W as [Ln Wr]. unfold thread_step. destruct t as [todo s c]. cbn [t_todo t_scratch t_pc] in *. rewrite Ln.
    destruct c as [|node pool|node pruned|node todo'|node des new todo'].
    - destruct todo as [|node rest].
      + destruct (N.ltb_spec next (N.of_nat n)) as [Lt|Ge]; intros E; injection E as <- <- <-; (split; [assumption|]); (split; [lia|]); (split; [|exact I]); cbn [t_todo].
        * unfold chunk_at. intros K. apply in_map_iff in K as (i & K & _). lia.
        * intros [].
      + destruct (begin_ok n p dist medoid Hmed HL node s T) as (s1 & -> & _ & T1). cbn [lift_res].
        intros E. injection E as <- <- <-. split; [assumption|]. split; [assumption|]. split; cbn [t_todo t_pc t_scratch]; [intros K; apply F1; now right|].
        split; [intros ->; apply F1; now left|]. rewrite T1. intros [K|[]]. congruence.
    - destruct F2 as [F2 F3]. destruct T as [Hn I]. destruct (has_unexpanded_node (vs_pool s)) eqn:Un.
      + destruct (expand_ok n (b_L p) dist node HL rows s pool I Un Ln) as (y & s1 & row & -> & I1 & _ & _ & Er & T1).
        { intros row y Hr Hy. apply In_nth_error in Hr as [j Hj]. apply (Wr j row Hj). assumption. }
        cbn [lift_res]. intros E. injection E as <- <- <-. split; [assumption|]. split; [assumption|]. split; cbn [t_todo t_pc t_scratch]; [assumption|].
        split; [assumption|]. intros K. apply T1 in K as [K|K]; [contradiction|]. eapply U; eauto. eapply nth_error_In; eauto.
      + destruct (prune_ids_ok fuel p dist HA HD HF node (filter (fun x => negb (N.eqb x node)) pool)) as (r & -> & _ & _ & C & _).
        { apply NoDup_filter, I. }
        cbn [lift_opt]. intros E. injection E as <- <- <-. split; [assumption|]. split; [assumption|]. split; cbn [t_todo t_pc t_scratch]; [assumption|].
        split; [assumption|]. intros K. apply C, filter_In in K as [K _]. apply F3. now apply (so_pt _ _ _ _ _ I).
    - destruct F2 as [F2 F3]. destruct T as (Hn & _). rewrite aput_ok by lia. cbn [lift_res]. intros E. injection E as <- <- <-.
      split; [now apply unlisted_upd|]. split; [assumption|]. split; cbn [t_todo t_pc]; assumption.
    - destruct todo' as [|des rest].
      + intros E. injection E as <- <- <-. split; [assumption|]. split; [assumption|]. split; cbn [t_todo t_pc]; auto.
      + destruct T as (Hn & _ & _ & B & _). assert (Bd : (des < N.of_nat n)%N) by (apply B; now left).
        destruct (nth_error rows (N.to_nat des)) as [row|] eqn:Er; [|apply nth_error_None in Er; lia].
        assert (Ga : aget rows des = Ok row) by (unfold aget; now rewrite Er). rewrite Ga. cbn [lift_res].
        assert (Ur : ~ In x row) by (eapply U, nth_error_In; eauto).
        assert (Ur2 : ~ In x (row ++ [node])) by (intros K; apply in_app_or in K as [K|[K|[]]]; congruence).
        destruct (existsb (N.eqb node) row); [|destruct (Nat.ltb (length row) (slack (b_R p)))].
        * intros E. injection E as <- <- <-. split; [assumption|]. split; [assumption|]. split; cbn [t_todo t_pc]; auto.
        * rewrite aput_ok by lia. cbn [lift_res]. intros E. injection E as <- <- <-. split; [now apply unlisted_upd|]. split; [assumption|]. split; cbn [t_todo t_pc]; auto.
        * destruct (collect_ok des (row ++ [node]) [] (NoDup_nil _) (fun x => x)) as (C1 & C2 & C3).
          destruct (prune_ids_ok fuel p dist HA HD HF des (collect_pool des [] (row ++ [node])) C1) as (r & -> & _ & _ & C & _).
          cbn [lift_opt]. intros E. injection E as <- <- <-. split; [assumption|]. split; [assumption|]. split; cbn [t_todo t_pc]; [assumption|].
          split; [assumption|]. intros K. apply C, C3 in K as [[]|[K _]]. contradiction.
    - destruct F2 as [F2 F3]. destruct T as (_ & Hd & _). rewrite aput_ok by lia. cbn [lift_res]. intros E. injection E as <- <- <-.
      split; [now apply unlisted_upd|]. split; [assumption|]. split; cbn [t_todo t_pc]; auto.
  Qed.
  Lemma lost_run : forall sched st st', state_ok n p st -> lost st -> run fuel p dist medoid st sched = Done (Ok st') -> lost st'.
  Proof.
    induction sched as [|i rest IH]; intros st st' S Lo; cbn [run]; [intros E; injection E as <-; auto|].
    destruct (step_ok n fuel p dist medoid Hmed HL HA HD HF st i S) as (st1 & Es & S1 & _). rewrite Es.
    apply IH; [assumption|]. clear IH S1 rest st'. destruct S as [W T]. destruct Lo as (U & Nx & F). revert Es. unfold step.
    destruct (nth_error (v_threads st) i) as [t|] eqn:Ei; [|intros E; injection E as <-; split; auto].
    pose proof (nth_error_In _ _ Ei) as It.
    destruct (thread_step fuel p dist medoid (v_rows st) (v_next st) t) as [|[[[rows' next'] t']| | |]] eqn:Es; try discriminate.
    intros E. injection E as <-. destruct (forgets_step _ _ _ _ _ _ _ W (T t It) U Nx (F t It) Es) as (U' & N' & F').
    split; [assumption|]. split; [assumption|]. cbn [v_threads]. intros t1 H1. apply In_nth_error in H1 as [j Hj].
    rewrite nth_error_upd in Hj by (apply nth_error_Some; congruence). destruct (Nat.eqb_spec i j); [congruence|]. eapply F, nth_error_In; eauto.
  Qed.

  Definition clean_lost (st : cstate) : Prop :=
    unlisted (c_rows st) /\ forall t node new, In t (c_threads st) -> c_new t = Some (node, new) -> ~ In x new.
  Lemma clean_lost_run : forall sched st st', clean_lost st -> clean_run fuel p dist st sched = Done (Ok st') -> clean_lost st'.
  Proof.
    induction sched as [|i rest IH]; intros st st' Lo; cbn [clean_run]; [intros E; injection E as <-; auto|].
    destruct (clean_step fuel p dist st i) as [|[st1| | |]] eqn:Es; try discriminate. apply IH. clear IH rest st'.
    destruct Lo as [U F]. revert Es. unfold clean_step. destruct (nth_error (c_threads st) i) as [t|] eqn:Ei; [|intros E; injection E as <-; split; auto].
    pose proof (nth_error_In _ _ Ei) as It.
    assert (G : forall rows' next' t', clean_thread_step fuel p dist (c_rows st) (c_next st) t = Done (Ok (rows', next', t')) ->
      unlisted rows' /\ forall node new, c_new t' = Some (node, new) -> ~ In x new).
    { intros rows' next' t'. unfold clean_thread_step. destruct (c_new t) as [[node new]|] eqn:En.
      - unfold aput. destruct (N.ltb _ _); cbn [lift_res]; [|discriminate]. intros E. injection E as <- <- <-. split; [|discriminate]. apply unlisted_upd; [assumption|]. eapply F; eauto.
      - destruct (c_todo t) as [|node rest].
        + destruct (N.ltb (c_next st) _); intros E; injection E as <- <- <-; (split; [assumption|]); [discriminate|]. rewrite En. discriminate.
        + destruct (aget (c_rows st) node) as [row| | |] eqn:Ga; cbn [lift_res]; try discriminate.
          assert (Ur : ~ In x row). { unfold aget in Ga. destruct (nth_error (c_rows st) (N.to_nat node)) as [r|] eqn:Er; [|discriminate Ga]. injection Ga as ->. eapply U, nth_error_In; eauto. }
          destruct (Nat.ltb (b_R p) (length row)).
          * destruct (collect_ok node row [] (NoDup_nil _) (fun x => x)) as (C1 & C2 & C3).
            destruct (prune_ids_ok fuel p dist HA HD HF node (collect_pool node [] row) C1) as (r & -> & _ & _ & C & _). cbn [lift_opt].
            intros E. injection E as <- <- <-. split; [assumption|]. cbn [c_new]. intros nd nw E. injection E as <- <-. intros K. apply C, C3 in K as [[]|[K _]]. contradiction.
          * intros E. injection E as <- <- <-. split; [assumption|]. discriminate. }
    destruct (clean_thread_step fuel p dist (c_rows st) (c_next st) t) as [|[[[rows' next'] t']| | |]]; try discriminate.
    intros E. injection E as <-. destruct (G _ _ _ eq_refl) as [G1 G2]. split; [assumption|]. cbn [c_threads].
    intros t1 node new H1. apply In_nth_error in H1 as [j Hj]. rewrite nth_error_upd in Hj by (apply nth_error_Some; congruence).
    destruct (Nat.eqb_spec i j); [assert (t1 = t') by congruence; subst; eauto|]. eapply F, nth_error_In; eauto.
  Qed.
  Lemma unlisted_unreachable rows : unlisted rows -> ~ reachable (adjacent rows) (eq medoid) x.
  Proof. intros U R. inversion R as [y E Ey|y z R' (row & Er & Hz) Ez]; [congruence|]. apply (U row); [eapply nth_error_In; eauto|assumption]. Qed.

  (** From a state that lost the node, all builds end without it. *)
  Lemma lost_builds threads sched st : 0 < threads -> run fuel p dist medoid (link_start p n threads) sched = Done (Ok st) -> lost st ->
    exists rows, builds p dist medoid n threads rows /\ ~ reachable (adjacent rows) (eq medoid) x.
  Proof.
    intros Ht E Lo.
    set (fair := fun k => concat (repeat (seq 0 threads) k)).
    assert (F : forall k i, i < threads -> turns i (fair k) = k).
    { intros k i Hi. unfold turns, fair. induction k as [|k IH]; [reflexivity|]. cbn [repeat concat]. rewrite count_occ_app, IH.
      assert (C : count_occ Nat.eq_dec (seq 0 threads) i = 1) by (apply (NoDup_count_occ' Nat.eq_dec); [apply seq_NoDup|apply in_seq; lia]). lia. }
    destruct (run_ok n fuel p dist medoid Hmed HL HA HD HF sched _ (start_ok n p threads)) as (st0 & E0 & SK & Lt & _).
    assert (st0 = st) by congruence. subst st0. assert (LT : length (v_threads (link_start p n threads)) = threads) by apply repeat_length. rewrite LT in Lt.
    set (s1 := fair (S (work_left n p st))).
    destruct (run_ok n fuel p dist medoid Hmed HL HA HD HF s1 _ SK) as (st1 & E1 & S1 & Lt1 & _ & _ & Rest & _).
    pose proof (lost_run s1 st st1 SK Lo E1) as Lo1.
    assert (E2 : run fuel p dist medoid (link_start p n threads) (sched ++ s1) = Done (Ok st1)).
    { revert E E1. clear. generalize (link_start p n threads). induction sched as [|i r IH]; intros s E E1; cbn [run app] in *; [now injection E as ->|].
      destruct (step fuel p dist medoid s i) as [|[s2| | |]]; try discriminate. eauto. }
    assert (R : forall t, In t (v_threads st1) -> resting n (v_next st1) t).
    { intros t Hi. apply In_nth_error in Hi as [i Hi]. assert (Li : i < threads) by (rewrite <- Lt, <- Lt1; apply nth_error_Some; congruence).
      apply (Rest i ltac:(lia)); [|assumption]. subst s1. rewrite (F _ i Li). apply Nat.lt_succ_diag_r. }
    assert (D1 : link_done st1).
    { destruct S1 as [[Ln _] _]. split.
      - destruct (v_threads st1) as [|t l] eqn:El; [cbn in Lt1; lia|]. rewrite Ln. apply (R t). now left.
      - intros t Hi. apply R in Hi as (_ & A & B). auto. }
    destruct S1 as [W1 _]. set (cap := Nat.max (b_R p) (slack (b_R p))) in *.
    destruct (clean_start_ok n fuel p cap HF (Nat.le_max_l _ _) (v_rows st1) threads W1) as (S0 & U0 & W0).
    set (s2 := fair (S (3 * n))).
    destruct (clean_run_ok n fuel p dist cap HA HD HF (Nat.le_max_l _ _) (v_rows st1) s2 _ S0 U0) as (st2 & E3 & S2 & _ & Lt2 & _ & _ & Rest2 & _).
    assert (LT2 : length (c_threads (clean_start (v_rows st1) threads)) = threads) by apply repeat_length. rewrite LT2 in Lt2, Rest2. rewrite W0 in Rest2.
    assert (R2 : forall t, In t (c_threads st2) -> cresting n (c_next st2) t).
    { intros t Hi. apply In_nth_error in Hi as [i Hi]. assert (Li : i < threads) by (rewrite <- Lt2; apply nth_error_Some; congruence).
      apply (Rest2 i Li); [|assumption]. subst s2. rewrite (F _ i Li). apply Nat.lt_succ_diag_r. }
    exists (c_rows st2). split.
    - exists fuel, (sched ++ s1), st1, s2, st2. split; [assumption|]. split; [assumption|]. split; [assumption|]. split; [|reflexivity].
      destruct S2 as [[Ln _] _]. split.
      + destruct (c_threads st2) as [|t l] eqn:El; [cbn in Lt2; lia|]. rewrite Ln. apply (R2 t). now left.
      + intros t Hi. apply R2 in Hi as (_ & A & B). auto.
    - apply unlisted_unreachable. refine (proj1 (clean_lost_run s2 _ st2 _ E3)). split; [apply Lo1|].
      cbn [clean_start c_threads]. intros t node new Hi. apply repeat_spec in Hi. subst t. discriminate.
  Qed.
End Lost.
