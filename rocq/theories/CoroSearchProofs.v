(** Proofs about the coroutine searches. *)
From Verif Require Import CoroSearchModel CoroSearchSpec PoolProofs NpqProofs BitsetProofs FrontierProofs SearchProofs DiskSearchProofs PqSearchProofs.

(** The slots given to misses: consecutive from [slot]. *)
Definition slots_from (slot : N) (misses : list (N * N)) : Prop :=
  forall i p, nth_error misses i = Some p -> snd p = (slot + N.of_nat i)%N.
Lemma slots_nil slot : slots_from slot [].
Proof. intros [|i] p H; discriminate. Qed.
Lemma slots_cons slot m misses : slots_from (slot + 1)%N misses -> slots_from slot ((m, slot) :: misses).
Proof. intros H [|i] p Hp; cbn in Hp; [injection Hp as <-; cbn; lia|]. rewrite (H i p Hp). lia. Qed.
Lemma slots_tail slot p misses : slots_from slot (p :: misses) -> slots_from (slot + 1)%N misses.
Proof. intros H i x Hx. rewrite (H (S i) x Hx). lia. Qed.
Lemma ensure_wave_length wave slots : (slots <= N.of_nat (length (ensure_wave wave slots)))%N.
Proof. unfold ensure_wave. destruct (N.leb_spec slots (N.of_nat (length wave))); [assumption|]. rewrite repeat_length. lia. Qed.
Lemma read_wave_spec : forall misses wave slot, slots_from slot misses -> N.to_nat slot + length misses <= length wave ->
  exists wave', read_wave wave misses = Ok wave' /\ length wave' = length wave
    /\ (forall j, j < N.to_nat slot -> nth_error wave' j = nth_error wave j)
    /\ forall m s, In (m, s) misses -> nth_error wave' (N.to_nat s) = Some m.
Proof.
  induction misses as [|(m & s) misses IH]; intros wave slot Sl H; cbn [read_wave].
  - exists wave. split; [reflexivity|]. split; [reflexivity|]. split; [reflexivity|]. intros m s [].
  - pose proof (Sl 0 (m, s) eq_refl) as Es. cbn in Es. rewrite N.add_0_r in Es. subst s. cbn [length] in H. rewrite aput_ok by lia. cbn [bind].
    destruct (IH (upd wave (N.to_nat slot) m) (slot + 1)%N) as (w & -> & L & Old & New); [eapply slots_tail; eauto|rewrite upd_length; lia|].
    exists w. rewrite upd_length in L. split; [reflexivity|]. split; [assumption|]. split.
    + intros j Hj. rewrite Old by lia. rewrite nth_error_upd by lia. destruct (Nat.eqb_spec (N.to_nat slot) j); [lia|reflexivity].
    + intros m' s' [E|H']; [|auto]. injection E as <- <-. rewrite Old by lia. rewrite nth_error_upd by lia. now rewrite Nat.eqb_refl.
Qed.

(** ** Without quantization *)
Section Greedy.
  Variables (d : disk) (max degree : N) (lists cap : nat).
  Hypothesis Hpoints : (d_points d <= max)%N.
  Hypothesis Hmedoid : (d_medoid d < max)%N.
  Hypothesis Hdegree : forall x, (N.of_nat (length (d_nbrs d x)) <= degree)%N.
  Hypothesis Hroom : cap <= lists.
  Hypothesis Hcap : 0 < cap.
  Notation M := (S (N.to_nat (d_points d))).
  Notation inv := (dinv d max degree lists cap).
  Lemma absorb_step t I P1 m P2 E X : inv t I (P1 ++ m :: P2) E X -> exists t', absorb d t m m = Ok t' /\ inv t' (I ++ [m]) (P1 ++ P2) E X /\ frame t t'.
  Proof. now apply absorb_spec. Qed.
  Lemma absorb_hits_spec src E X : forall todo t wave slot I Q, inv t I (Q ++ todo) E X -> N.to_nat slot + length todo <= length wave ->
    exists t' wave' misses I', absorb_hits d src t wave slot todo = Ok (t', wave', misses) /\ inv t' I' (Q ++ map fst misses) E X /\ frame t t'
      /\ length wave' = length wave /\ slots_from slot misses /\ length misses <= length todo
      /\ Permutation (I' ++ map fst misses) (I ++ todo) /\ incl I I'.
  Proof.
    induction todo as [|m todo IH]; intros t wave slot I Q H Hs; cbn [absorb_hits].
    { exists t, wave, [], I. split; [reflexivity|]. split; [exact H|]. split; [apply frame_refl|]. split; [reflexivity|]. split; [apply slots_nil|].
      split; [cbn; lia|]. split; [reflexivity|apply incl_refl]. }
    cbn [length] in Hs.
    assert (Hit : forall w, length w = length wave -> exists t1, absorb d t m m = Ok t1 /\ exists t' wave' misses I', absorb_hits d src t1 w slot todo = Ok (t', wave', misses)
      /\ inv t' I' (Q ++ map fst misses) E X /\ frame t t' /\ length wave' = length wave /\ slots_from slot misses /\ length misses <= S (length todo)
      /\ Permutation (I' ++ map fst misses) (I ++ m :: todo) /\ incl I I').
    { intros w Lw. destruct (absorb_step t I Q m todo E X H) as (t1 & -> & H1 & Fr1). exists t1. split; [reflexivity|].
      destruct (IH t1 w slot (I ++ [m]) Q H1 ltac:(lia)) as (t' & w' & misses & I' & -> & H' & Fr & Lw' & Sl & Lm & Pm & In').
      exists t', w', misses, I'. split; [reflexivity|]. split; [assumption|]. split; [eapply frame_trans; eauto|]. split; [congruence|]. split; [assumption|].
      split; [lia|]. split; [now rewrite <- app_assoc in Pm|]. intros x Hx. apply In'. apply in_or_app. now left. }
    destruct (src m).
    - destruct (Hit wave eq_refl) as (t1 & -> & R). cbn [bind]. exact R.
    - rewrite aput_ok by lia. cbn [bind]. unfold aget. rewrite nth_error_upd by lia. rewrite Nat.eqb_refl. cbn [bind].
      destruct (Hit (upd wave (N.to_nat slot) m) ltac:(apply upd_length)) as (t1 & -> & R). cbn [bind]. exact R.
    - destruct (IH t wave (slot + 1)%N I (Q ++ [m])) as (t' & w' & misses & I' & -> & H' & Fr & Lw' & Sl & Lm & Pm & In').
      { rewrite <- app_assoc. exact H. } { lia. }
      cbn [bind]. exists t', w', ((m, slot) :: misses), I'. split; [reflexivity|]. cbn [map fst]. rewrite <- app_assoc in H'. split; [exact H'|]. split; [exact Fr|].
      split; [assumption|]. split; [now apply slots_cons|]. split; [cbn; lia|]. split; [|assumption].
      rewrite <- !Permutation_middle. now constructor.
  Qed.
  Lemma absorb_wave_spec E X P : forall misses t wave I, inv t I (map fst misses ++ P) E X ->
    (forall m s, In (m, s) misses -> nth_error wave (N.to_nat s) = Some m) ->
    exists t', absorb_wave d t wave misses = Ok t' /\ inv t' (I ++ map fst misses) P E X /\ frame t t'.
  Proof.
    induction misses as [|(m & s) misses IH]; intros t wave I H W; cbn [absorb_wave].
    { exists t. split; [reflexivity|]. cbn [map]. rewrite app_nil_r. split; [assumption|apply frame_refl]. }
    unfold aget. rewrite (W m s (or_introl eq_refl)). cbn [bind]. cbn [map fst] in H.
    destruct (absorb_step t I [] m (map fst misses ++ P) E X H) as (t1 & -> & H1 & Fr1). cbn [bind]. cbn [app] in H1.
    destruct (IH t1 wave (I ++ [m]) H1) as (t2 & -> & H2 & Fr2); [intros m' s' K; apply W; now right|].
    exists t2. split; [reflexivity|]. split; [cbn [map fst]; now rewrite <- app_assoc in H2|]. eapply frame_trans; eauto.
  Qed.
  Lemma unfound_length l : forall f, length (unfound d f l) <= length l.
  Proof. induction l as [|m l IH]; intros f; cbn [unfound length]; [lia|]. destruct (_ && _); cbn [length]; [specialize (IH (m :: f))|specialize (IH f)]; lia. Qed.
  Lemma coro_loop_spec src : forall fuel t wave I F E, inv t I [] E [] -> (degree <= N.of_nat (length wave))%N -> M < fuel + length E -> In (d_medoid d) I -> Permutation I F ->
    exists t' I' F' E', coro_loop fuel d src t wave E = Done (Ok (t', E')) /\ inv t' I' [] E' [] /\ frame t t' /\ In (d_medoid d) I'
      /\ has_unexpanded_node (td_front t') = false /\ Permutation I' F' /\ best_first d cap F E F' E'.
  Proof.
    induction fuel as [|k IH]; intros t wave I F E H Hw Hf Hm Pm; cbn [coro_loop].
    { destruct (dinv_count d max degree lists cap Hpoints Hmedoid Hdegree Hroom Hcap _ _ _ _ _ H) as [A B]. lia. }
    assert (ND : NoDup I) by (eapply nodup_app_l; apply (si_nodup _ _ _ _ _ _ _ _ _ (dv_inv _ _ _ _ _ _ _ _ _ _ H))).
    assert (Nx : next_to_expand d cap F E = next_to_expand d cap I E) by (unfold next_to_expand; now rewrite (closest_perm d cap I F Pm ND)).
    destruct (has_unexpanded_node (td_front t)) eqn:Un.
    2:{ exists t, I, F, E. split; [reflexivity|]. split; [assumption|]. split; [apply frame_refl|]. split; [assumption|]. split; [assumption|]. split; [assumption|].
        apply bf_stop. rewrite Nx. eapply next_none; eauto. }
    unfold coro_step. destruct (expand_spec d max degree lists cap Hpoints Hmedoid Hdegree Hroom Hcap t I [] E H Un) as (t1 & x & todo & -> & H1 & Fr1 & Nx1 & Eo). rewrite app_nil_r in Eo. cbn [bind].
    assert (Lt : length todo <= length wave) by (rewrite Eo; pose proof (unfound_length (d_nbrs d x) I); specialize (Hdegree x); lia).
    cbn [app] in H1.
    destruct (absorb_hits_spec src (E ++ [x]) [] todo t1 wave 0%N I [] H1) as (t2 & w1 & misses & I2 & -> & H2 & Fr2 & Lw1 & Sl & Lm & Pm2 & In2); [cbn; lia|]. cbn [bind].
    destruct (read_wave_spec misses w1 0%N Sl ltac:(cbn; lia)) as (w2 & -> & Lw2 & _ & New). cbn [bind]. cbn [app] in H2.
    rewrite <- (app_nil_r (map fst misses)) in H2.
    destruct (absorb_wave_spec (E ++ [x]) [] [] misses t2 w2 I2 H2 New) as (t3 & -> & H3 & Fr3). cbn [bind].
    assert (Pm3 : Permutation (I2 ++ map fst misses) (F ++ unfound d F (d_nbrs d x))).
    { rewrite Pm2, Eo. rewrite (unfound_ext d (d_nbrs d x) I F); [now apply Permutation_app_tail|].
      intros y; split; apply Permutation_in; [assumption|now symmetry]. }
    destruct (IH t3 w2 (I2 ++ map fst misses) (F ++ unfound d F (d_nbrs d x)) (E ++ [x]) H3) as (t4 & I4 & F4 & E4 & -> & H4 & Fr4 & Im & Un4 & Pm4 & B); auto.
    { rewrite Lw2, Lw1. assumption. } { rewrite app_length. cbn. lia. } { apply in_or_app. left. now apply In2. }
    exists t4, I4, F4, E4. split; [reflexivity|]. split; [assumption|]. split; [eapply frame_trans; [exact Fr1|]; eapply frame_trans; [exact Fr2|]; eapply frame_trans; eauto|].
    split; [assumption|]. split; [assumption|]. split; [assumption|]. eapply bf_step; [rewrite Nx; exact Nx1|exact B].
  Qed.
End Greedy.

Lemma coro_lemma q t wave fuel max degree lists : dq_ok max degree lists q -> td_ok max degree lists t -> dq_fuel q <= fuel ->
  exists t' I F e C, coro_run degree q wave fuel t = Done (Ok (take_live (d_deleted (dq_disk q)) (dq_top_k q) (map fst C), t', e)) /\ td_ok max degree lists t'
    /\ sinv (disk_edge (dq_disk q)) (eq (d_medoid (dq_disk q))) (d_dist (dq_disk q)) (dq_capacity q) I [] e [] C
    /\ In (d_medoid (dq_disk q)) I /\ (forall x, In x C -> snd x = true) /\ StronglySorted cand_lt (map fst C)
    /\ map fst C = closest (dq_disk q) (dq_capacity q) F
    /\ best_first (dq_disk q) (dq_capacity q) [d_medoid (dq_disk q)] [] F e.
Proof.
  intros [Hp Hmd Hdg Hr Hs Hev] T Hf. unfold dq_fuel in Hf. unfold coro_run, coro_greedy_search. fold (dq_capacity q).
  set (d := dq_disk q) in *. set (cap := dq_capacity q) in *. set (w0 := ensure_wave wave (N.max 1 degree)).
  pose proof (ensure_wave_length wave (N.max 1 degree)) as Lw0. fold w0 in Lw0.
  destruct (reset_query_spec (d_nbrs d) max degree lists t cap T) as (t0 & -> & V0 & Q0 & C0 & L0 & N0 & Ex0 & Exd & Exn & Li0 & Ls0). cbn [bind].
  destruct (vis_mark max (td_visited t0) (fun _ => false) (d_medoid d) V0 Hmd) as (v & w & E1 & V1 & _). unfold vb_set. rewrite E1. cbn [bind].
  assert (D0 : dinv d max degree (N.to_nat lists) cap (with_visited t0 v) [] ([] ++ d_medoid d :: []) [] []).
  { constructor; cbn [app].
    - exists (fun p => N.eqb (d_medoid d) p || false). split; [exact V1|]. split.
      + intros p [<-|[]]. now rewrite N.eqb_refl.
      + intros p Hpp. left. left. rewrite orb_false_r in Hpp. now apply N.eqb_eq.
    - exact Q0.
    - cbn [td_front with_visited]. rewrite C0. change [d_medoid d] with ([] ++ [d_medoid d]). apply sinv_discover; [apply sinv_nil|now apply reach_start|intros []].
    - exists []. cbn [td_front with_visited]. rewrite C0. cbn [ids_of map]. eapply lists_same; [..|exact L0]; reflexivity.
    - cbn [td_front with_visited map]. rewrite <- q_list_content, C0. apply smallest_nil. }
  assert (Rm : cap <= N.to_nat lists) by lia.
  assert (Sd : exists w1, seed_record (dq_src q) w0 (d_medoid d) = Ok (d_medoid d, w1) /\ length w1 = length w0).
  { unfold seed_record. destruct (dq_src q (d_medoid d)); [exists w0; now split| |];
      (exists (upd w0 0 (d_medoid d)); rewrite aput_ok by lia; cbn [bind]; unfold aget; change (N.to_nat 0) with 0; rewrite nth_error_upd by lia; cbn [Nat.eqb bind];
       split; [reflexivity|apply upd_length]). }
  destruct Sd as (w1 & -> & Lw1). cbn [bind].
  destruct (absorb_spec d max degree (N.to_nat lists) cap Hp Hmd Hdg Rm Hs _ _ _ _ _ _ _ D0) as (t1 & -> & D1 & Fr1). cbn [app] in D1. cbn [bind].
  destruct (coro_loop_spec d max degree (N.to_nat lists) cap Hp Hmd Hdg Rm Hs (dq_src q) fuel t1 w1 [d_medoid d] [d_medoid d] [] D1) as (t2 & I & F & E & -> & D2 & Fr2 & Im & Un & Pm & Bf); auto.
  { lia. } { cbn. lia. } { now left. }
  cbn [bind]. pose proof (closest_is _ _ _ _ _ _ _ _ _ _ D2) as Cl.
  assert (NDI : NoDup I) by (eapply nodup_app_l; apply (si_nodup _ _ _ _ _ _ _ _ _ (dv_inv _ _ _ _ _ _ _ _ _ _ D2))).
  destruct D2 as [(mem & V2 & _) Q2 S2 (U & L2) Sm2].
  exists t2, I, F, E, (q_list (td_front t2)). rewrite (front_list_is _ _ Q2). split; [reflexivity|]. split.
  { destruct Fr1 as (A1 & B1 & C1 & F1), Fr2 as (A2 & B2 & C2 & F2). cbn [td_exact td_exact_dirty td_inflight td_sector with_visited] in *. constructor.
    - eauto.
    - rewrite A2, A1. assumption.
    - rewrite B2, B1, Exd. intros ? [].
    - rewrite A2, A1, B2, B1. intros id z Ez. assert (N.to_nat id < length (td_exact t0)) by (apply nth_error_Some; congruence). rewrite Exn in Ez by lia. discriminate.
    - apply L2.
    - rewrite (li_buf _ _ _ _ _ _ _ L2). now rewrite N2Nat.id.
    - apply L2.
    - apply L2.
    - intros id o Eo Ne. assert (Li : N.to_nat id < length (td_offsets t2)) by (apply nth_error_Some; congruence). rewrite (li_len _ _ _ _ _ _ _ L2) in Li.
      destruct (in_dec N.eq_dec id (map fst U)) as [Hu|Hu]; [now apply (li_dirty _ _ _ _ _ _ _ L2)|].
      rewrite (li_hasnt _ _ _ _ _ _ _ L2 id ltac:(lia) Hu) in Eo. congruence.
    - rewrite C2, F2, C1, F1, Li0, Ls0. apply T.
    - rewrite F2, F1, Ls0. apply T. }
  split; [assumption|]. split; [assumption|]. split; [eapply npq_all_expanded; eauto|].
  rewrite q_list_content. split; [unfold q_content; fold of_nbr; apply (q_sorted_strong _ (qi_sorted _ _ Q2))|].
  split; [rewrite Cl; now apply closest_perm|exact Bf].
Qed.

(** ** With quantization *)
Section Pq.
  Variables (d : disk) (pq : N -> Z) (max : N) (cap : nat).
  Hypothesis Hpoints : (d_points d <= max)%N.
  Hypothesis Hmedoid : (d_medoid d < max)%N.
  Hypothesis Hcap : 0 < cap.
  Notation M := (S (N.to_nat (d_points d))).
  Notation inv := (binv d pq max cap).
  Lemma pop_wave_spec src beam : forall fuel t wave slot I E X, inv t I [] E X -> M < fuel + length E -> (beam <= N.of_nat (length wave))%N ->
    exists t' wave' misses hit I', pop_wave fuel d pq src beam t wave slot = Done (Ok (t', wave', misses, hit))
      /\ inv t' I' [] (E ++ hit ++ map fst misses) (map fst misses ++ X)
      /\ bframe t t' /\ length wave' = length wave /\ slots_from slot misses /\ (misses <> [] -> (slot + N.of_nat (length misses) <= beam)%N) /\ incl I I'
      /\ (has_unexpanded_node (td_front t) = true -> (slot < beam)%N -> hit ++ map fst misses <> []).
  Proof.
    induction fuel as [|k IH]; intros t wave slot I E X H Hf Hw; cbn [pop_wave].
    { pose proof (binv_count d pq max cap Hpoints Hmedoid Hcap _ _ _ _ _ H). lia. }
    assert (Stop : exists t' wave' misses hit I', Done (Ok (t, wave, [], [])) = Done (Ok (t', wave', misses, hit))
      /\ inv t' I' [] (E ++ hit ++ map fst misses) (map fst misses ++ X)
      /\ bframe t t' /\ length wave' = length wave /\ slots_from slot misses /\ (misses <> [] -> (slot + N.of_nat (length misses) <= beam)%N) /\ incl I I').
    { exists t, wave, [], [], I. cbn [map app]. rewrite app_nil_r. split; [reflexivity|]. split; [assumption|]. split; [apply bframe_refl|].
      split; [reflexivity|]. split; [apply slots_nil|]. split; [congruence|apply incl_refl]. }
    destruct (has_unexpanded_node (td_front t)) eqn:Un; cbn [andb].
    2:{ destruct Stop as (t' & w & ms & h & I' & R). exists t', w, ms, h, I'. intuition auto; discriminate. }
    destruct (N.ltb_spec slot beam) as [Hs|Hs].
    2:{ destruct Stop as (t' & w & ms & h & I' & R). exists t', w, ms, h, I'. intuition auto; lia. }
    clear Stop. destruct (pop_spec d pq max cap t I E X H Un) as (e & q' & -> & H1).
    assert (Lk : M < k + length (E ++ [n_id e])) by (rewrite app_length; cbn [length]; lia).
    assert (Hit : forall w, length w = length wave -> exists t2, process_node d pq (with_front t q') (n_id e) (n_id e) = Ok t2 /\ exists t' wave' misses hit I',
      match pop_wave k d pq src beam t2 w slot with
      | Done (Ok (t3, wave3, misses, seen)) => Done (Ok (t3, wave3, misses, n_id e :: seen))
      | other => other end = Done (Ok (t', wave', misses, hit))
      /\ inv t' I' [] (E ++ hit ++ map fst misses) (map fst misses ++ X)
      /\ bframe t t' /\ length wave' = length wave /\ slots_from slot misses /\ (misses <> [] -> (slot + N.of_nat (length misses) <= beam)%N) /\ incl I I' /\ hit ++ map fst misses <> []).
    { intros w Lw. destruct (process_spec d pq max cap Hpoints Hmedoid Hcap (with_front t q') I (E ++ [n_id e]) (n_id e :: X) X (n_id e) H1) as (t2 & I2 & -> & H2 & Fr2 & In2).
      { apply in_or_app. right. now left. } { intros y [<-|Hy]; auto. }
      exists t2. split; [reflexivity|].
      destruct (IH t2 w slot I2 (E ++ [n_id e]) X H2 Lk ltac:(lia)) as (t' & w' & ms & h & I' & -> & H' & Fr & Lw' & Sl & Lm & In' & _).
      exists t', w', ms, (n_id e :: h), I'. rewrite <- app_assoc in H'. split; [reflexivity|]. split; [exact H'|]. split; [eapply bframe_trans; [exact Fr2|exact Fr]|].
      split; [congruence|]. split; [assumption|]. split; [assumption|]. split; [eapply incl_tran; eauto|discriminate]. }
    destruct (src (n_id e)).
    - destruct (Hit wave eq_refl) as (t2 & E2 & t' & w' & ms & h & I' & R). cbn [bind]. rewrite E2. cbn [bind]. exists t', w', ms, h, I'. intuition auto.
    - rewrite aput_ok by lia. cbn [bind]. unfold aget. rewrite nth_error_upd by lia. rewrite Nat.eqb_refl. cbn [bind].
      destruct (Hit (upd wave (N.to_nat slot) (n_id e)) ltac:(apply upd_length)) as (t2 & E2 & t' & w' & ms & h & I' & R). rewrite E2. cbn [bind]. exists t', w', ms, h, I'. intuition auto.
    - destruct (IH (with_front t q') wave (slot + 1)%N I (E ++ [n_id e]) (n_id e :: X) H1 Lk Hw) as (t' & w' & ms & h & I' & -> & H' & Fr & Lw' & Sl & Lm & In' & _).
      exists t', w', ((n_id e, slot) :: ms), h, I'. split; [reflexivity|]. cbn [map fst]. split.
      { apply (binv_X _ _ _ _ _ _ _ _ (map fst ms ++ n_id e :: X)).
        - eapply binv_E; [exact H'|]. rewrite <- app_assoc. apply Permutation_app_head. cbn [app]. apply Permutation_middle.
        - intros z Hz. cbn [app]. apply in_app_or in Hz as [Hz|[<-|Hz]]; [right; apply in_or_app; now left|now left|right; apply in_or_app; now right]. }
      split; [exact Fr|]. split; [assumption|]. split; [now apply slots_cons|]. split; [|split; [assumption|]].
      { intros _. cbn [length]. destruct ms as [|m0 ms0]; [cbn; lia|]. specialize (Lm ltac:(discriminate)). lia. }
      intros _ _ K. apply app_eq_nil in K as [_ K]. discriminate.
  Qed.
  Lemma process_wave_spec E wave : forall misses t I, inv t I [] E (map fst misses) -> incl (map fst misses) E ->
    (forall m s, In (m, s) misses -> nth_error wave (N.to_nat s) = Some m) ->
    exists t' I', process_wave d pq t wave misses = Ok t' /\ inv t' I' [] E [] /\ bframe t t' /\ incl I I'.
  Proof.
    induction misses as [|(m & s) misses IH]; intros t I H Hi W; cbn [process_wave].
    { exists t, I. split; [reflexivity|]. split; [assumption|]. split; [apply bframe_refl|apply incl_refl]. }
    unfold aget. rewrite (W m s (or_introl eq_refl)). cbn [bind]. cbn [map fst] in H, Hi.
    destruct (process_spec d pq max cap Hpoints Hmedoid Hcap t I E (m :: map fst misses) (map fst misses) m H) as (t1 & I1 & -> & H1 & Fr1 & In1).
    { apply Hi. now left. } { intros y [<-|Hy]; auto. }
    cbn [bind]. destruct (IH t1 I1 H1) as (t2 & I2 & -> & H2 & Fr2 & In2).
    { intros y Hy. apply Hi. now right. } { intros m' s' Hm. apply W. now right. }
    exists t2, I2. split; [reflexivity|]. split; [assumption|]. split; [eapply bframe_trans; eauto|eapply incl_tran; eauto].
  Qed.
  Lemma wave_loop_spec src beam : (0 < beam)%N -> forall fuel t wave I E, inv t I [] E [] -> (beam <= N.of_nat (length wave))%N -> M < fuel + length E -> In (d_medoid d) I ->
    exists t' I' E', wave_loop fuel d pq src beam t wave E = Done (Ok (t', E')) /\ inv t' I' [] E' [] /\ bframe t t' /\ In (d_medoid d) I'
      /\ has_unexpanded_node (td_front t') = false.
  Proof.
    intros Hb. induction fuel as [|k IH]; intros t wave I E H Hw Hf Hm; cbn [wave_loop].
    { pose proof (binv_count d pq max cap Hpoints Hmedoid Hcap _ _ _ _ _ H). lia. }
    destruct (has_unexpanded_node (td_front t)) eqn:Un; [|exists t, I, E; split; [reflexivity|]; split; [assumption|]; split; [apply bframe_refl|auto]].
    destruct (pop_wave_spec src beam (S k) t wave 0%N I E [] H Hf Hw) as (t1 & w1 & ms & h & I1 & -> & H1 & Fr1 & Lw1 & Sl & Lm & In1 & Ne).
    specialize (Ne Un Hb). rewrite app_nil_r in H1.
    destruct (read_wave_spec ms w1 0%N Sl) as (w2 & -> & Lw2 & _ & New).
    { destruct ms; [cbn; lia|]. specialize (Lm ltac:(discriminate)). lia. }
    cbn [bind]. destruct (process_wave_spec (E ++ h ++ map fst ms) w2 ms t1 I1 H1) as (t2 & I2 & -> & H2 & Fr2 & In2).
    { intros y Hy. apply in_or_app. right. apply in_or_app. now right. } { assumption. }
    cbn [bind]. destruct (IH t2 w2 I2 (E ++ h ++ map fst ms) H2) as (t3 & I3 & E3 & -> & H3 & Fr3 & R).
    { rewrite Lw2, Lw1. assumption. }
    { rewrite app_length. destruct (h ++ map fst ms); [contradiction|]. cbn [length]. lia. } { auto. }
    exists t3, I3, E3. split; [reflexivity|]. split; [assumption|]. split; [|assumption].
    eapply bframe_trans; [exact Fr1|]. eapply bframe_trans; eauto.
  Qed.
End Pq.

Lemma coro_pq_lemma q t wave fuel max degree lists : coro_pq_ok max q -> td_ok max degree lists t -> pq_fuel q <= fuel ->
  let d := pq_disk q in
  exists t' I seen C, coro_pq_run q wave fuel t
      = Done (Ok (firstn (pq_top_k q) (sort_results (map (fun e => (fst e, d_dist d (fst e))) (take_live (d_deleted d) (pq_pool q) (map fst C)))), t', seen))
    /\ td_ok max degree lists t' /\ length (td_inflight t') = length (td_inflight t)
    /\ sinv (disk_edge d) (eq (d_medoid d)) (pq_dist q) (pq_capacity q) I [] seen [] C
    /\ In (d_medoid d) I /\ (forall x, In x C -> snd x = true) /\ StronglySorted cand_lt (map fst C).
Proof.
  intros [Hp Hmd Hs Hr] T Hf d. unfold pq_fuel in Hf. fold d in Hf. unfold coro_pq_run, coro_pq_search. rewrite Hr. fold (pq_capacity q).
  set (cap := pq_capacity q) in *. set (pq := pq_dist q) in *. fold d in Hp, Hmd. fold d.
  destruct (reset_query_spec (d_nbrs d) max degree lists t cap T) as (t0 & -> & V0 & Q0 & C0 & L0 & N0 & Ex0 & Exd & Exn & Li0 & Ls0). cbn [bind].
  destruct (vis_mark max (td_visited t0) (fun _ => false) (d_medoid d) V0 Hmd) as (v & w & E1 & V1 & _). unfold vb_set. rewrite E1. cbn [bind].
  assert (D0 : binv d pq max cap (with_visited t0 v) [] [d_medoid d] [] []).
  { constructor; cbn [app].
    - exists (fun p => N.eqb (d_medoid d) p || false). split; [exact V1|]. intros p. rewrite orb_false_r, N.eqb_eq. cbn [In]. tauto.
    - exact Q0.
    - cbn [td_front with_visited]. rewrite C0. change [d_medoid d] with ([] ++ [d_medoid d]). apply sinv_discover; [apply sinv_nil|now apply reach_start|intros []].
    - exact Ex0.
    - intros x [].
    - cbn [td_exact_dirty with_visited]. rewrite Exd. intros id [].
    - cbn [td_exact with_visited]. intros id z Ez. assert (N.to_nat id < length (td_exact t0)) by (apply nth_error_Some; congruence). rewrite Exn in Ez by lia. discriminate. }
  destruct (insert_tile_spec d pq max cap Hs [] [] [d_medoid d] _ _ D0) as (q1 & Eq1 & D1). cbn [td_front with_visited] in Eq1. rewrite Eq1. cbn [bind].
  set (t1 := with_front (with_visited t0 v) q1) in *. cbn [app] in D1.
  assert (Hs1 : length (td_sector t1) = length (td_sector t)) by exact Ls0.
  assert (Hi1 : length (td_inflight t1) = length (td_inflight t)) by exact Li0.
  assert (Hio : length (td_inflight t) = length (td_sector t)) by apply T.
  assert (Hpos : 0 < length (td_sector t)) by apply T.
  assert (Hbeam : (0 < beam_of (pq_opts q))%N) by (unfold beam_of; lia).
  destruct (wave_loop_spec d pq max cap Hp Hmd Hs (pq_src q) (beam_of (pq_opts q)) Hbeam fuel t1 (ensure_wave wave (beam_of (pq_opts q))) [d_medoid d] [] D1) as (t2 & I & E & -> & D2 & Fr2 & Im & Un).
  { apply ensure_wave_length. } { cbn. lia. } { now left. }
  apply bframe_weak in Fr2. cbn [bind].
  pose proof D2 as [(mem & V2 & _) Q2 S2 Xl Xe Di Dd].
  pose proof (npq_all_expanded _ _ Q2 Un) as Fl.
  set (C := q_list (td_front t2)) in *.
  assert (Front : front_list t2 = map fst C) by apply (front_list_is _ _ Q2).
  assert (Known : forall e, In e (map fst C) -> (fst e < N.of_nat (length (td_exact t2)))%N /\ nth_error (td_exact t2) (N.to_nat (fst e)) = Some (Some (d_dist d (fst e)))).
  { intros e He. apply in_map_iff in He as (c & <- & Hc). pose proof (proj1 (si_flags _ _ _ _ _ _ _ _ _ S2 c Hc) (Fl c Hc)) as Ec.
    destruct (Xe _ Ec) as [[]|K]. split; [|exact K]. assert (N.to_nat (fst (fst c)) < length (td_exact t2)) by (apply nth_error_Some; congruence). lia. }
  assert (Pool : pq_pool q = pq_top_k q) by (unfold pq_pool, pool_size; now rewrite Hr).
  exists t2, I, E, C. rewrite Front, (no_rerank_spec d t2 (map fst C) Known), Pool. cbn [bind]. split; [reflexivity|].
  destruct Fr2 as (A1 & A2 & A3 & A4 & A5 & A6 & A7).
  split.
  { assert (L2 : lists_inv (d_nbrs d) max degree (N.to_nat lists) t2 [] []) by (eapply lists_same; [exact A3|exact A4|exact A5|exact A6|exact A7|]; eapply lists_same; [..|exact L0]; reflexivity).
    constructor.
    - eauto.
    - assumption.
    - assumption.
    - assumption.
    - apply L2.
    - rewrite (li_buf _ _ _ _ _ _ _ L2). now rewrite N2Nat.id.
    - apply L2.
    - apply L2.
    - intros id o Eo Ne. assert (Li : N.to_nat id < length (td_offsets t2)) by (apply nth_error_Some; congruence). rewrite (li_len _ _ _ _ _ _ _ L2) in Li.
      rewrite (li_hasnt _ _ _ _ _ _ _ L2 id ltac:(lia) (fun K => K)) in Eo. congruence.
    - congruence.
    - lia. }
  split; [congruence|]. split; [assumption|]. split; [assumption|]. split; [exact Fl|].
  unfold C. rewrite q_list_content. unfold q_content. fold of_nbr. apply (q_sorted_strong _ (qi_sorted _ _ Q2)).
Qed.
Lemma coro_td_ok degree lists max t : coro_history degree lists max t -> td_ok max degree lists t.
Proof.
  induction 1 as [max t H|max t max' H IH|max t q wave hits t' e H IH Q R|max t q wave hits t' seen H IH Q R].
  - now apply scratch_td_ok.
  - now apply resize_ok.
  - destruct (coro_lemma q t wave (dq_fuel q) max degree lists Q IH (le_n _)) as (t2 & I & F & e2 & C & R2 & T & _). rewrite R in R2. now injection R2 as _ -> _.
  - destruct (coro_pq_lemma q t wave (pq_fuel q) max degree lists Q IH (le_n _)) as (t2 & I & e2 & C & R2 & T & _). rewrite R in R2. now injection R2 as _ -> _.
Qed.

(** ** With everything read from the device both searches are the same *)
Lemma scan_io d pq a b : forall l t tile, scan_neighbors d pq (with_io t a b) tile l = (let* t' := scan_neighbors d pq t tile l in Ok (with_io t' a b)).
Proof.
  induction l as [|m l IH]; intros t tile; cbn [scan_neighbors].
  - cbn [td_front with_io]. destruct (insert_tile pq (td_front t) tile); reflexivity.
  - destruct (N.leb _ _); [apply IH|]. destruct (d_deleted d m); [apply IH|]. cbn [td_visited with_io].
    destruct (vb_test_and_set (td_visited t) m) as [(fresh & v)| | |]; cbn [bind]; try reflexivity.
    destruct (negb fresh); [apply (IH (with_visited t v))|]. destruct (Nat.eqb _ _).
    + cbn [td_front with_visited with_io]. destruct (insert_tile pq (td_front t) (tile ++ [m])); cbn [bind]; try reflexivity. apply (IH (with_front (with_visited t v) a0)).
    + apply (IH (with_visited t v)).
Qed.
Lemma process_io d pq a b t id r : process_node d pq (with_io t a b) id r = (let* t' := process_node d pq t id r in Ok (with_io t' a b)).
Proof.
  unfold process_node, set_exact_dist. cbn [td_exact td_exact_dirty with_io]. destruct (N.leb _ _); cbn [bind].
  - reflexivity.
  - destruct (aget (td_exact t) id); cbn [bind]; try reflexivity. destruct (aput (td_exact t) id _); cbn [bind]; try reflexivity. apply (scan_io d pq a b _ (with_exact t _ _)).
Qed.
Fixpoint process_ids (d : disk) (pq : N -> Z) (t : thread_data) (ids : list N) : res thread_data :=
  match ids with [] => Ok t | m :: rest => let* t1 := process_node d pq t m m in process_ids d pq t1 rest end.
Lemma process_ids_io d pq a b : forall ids t, process_ids d pq (with_io t a b) ids = (let* t' := process_ids d pq t ids in Ok (with_io t' a b)).
Proof.
  induction ids as [|m ids IH]; intros t; cbn [process_ids]; [reflexivity|]. rewrite process_io. destruct (process_node d pq t m m); cbn [bind]; [apply IH|reflexivity..].
Qed.
Lemma io_eta t : with_io t (td_inflight t) (td_sector t) = t.
Proof. now destruct t. Qed.
Lemma process_keeps_io d pq t id r t' : process_node d pq t id r = Ok t' -> td_inflight t' = td_inflight t /\ td_sector t' = td_sector t.
Proof.
  intros H. rewrite <- (io_eta t) in H. rewrite process_io in H. destruct (process_node d pq t id r); try discriminate. cbn [bind] in H. injection H as <-. now split.
Qed.
Lemma process_wave_ids d pq wave : forall misses t, (forall m s, In (m, s) misses -> nth_error wave (N.to_nat s) = Some m) ->
  process_wave d pq t wave misses = process_ids d pq t (map fst misses).
Proof.
  induction misses as [|(m & s) misses IH]; intros t W; cbn [process_wave process_ids map fst]; [reflexivity|].
  unfold aget. rewrite (W m s (or_introl eq_refl)). cbn [bind]. destruct (process_node d pq t m m); cbn [bind]; try reflexivity. apply IH. intros; apply W. now right.
Qed.
Lemma process_batch_ids d pq : forall b t, (forall m s, In (m, Some s) b -> nth_error (td_sector t) (N.to_nat s) = Some m) ->
  process_batch d pq t b = process_ids d pq t (map fst b).
Proof.
  induction b as [|(m & s) b IH]; intros t W; cbn [process_batch process_ids map fst]; [reflexivity|].
  assert (record_in t m s = Ok m) as -> by (destruct s as [s|]; [|reflexivity]; cbn [record_in]; unfold aget; now rewrite (W m s (or_introl eq_refl))).
  cbn [bind]. destruct (process_node d pq t m m) eqn:E; cbn [bind]; try reflexivity. apply IH. destruct (process_keeps_io _ _ _ _ _ _ E) as [_ ->]. intros; apply W. now right.
Qed.
Lemma pop_same d pq src beam n_slots : (forall x, src x = Device) -> (beam <= n_slots)%N -> forall fuel t slot wave a c t' b,
  pop_batch fuel src beam n_slots t slot slot = Done (Ok (t', b)) ->
  exists misses, pop_wave fuel d pq src beam (with_io t a c) wave slot = Done (Ok (with_io t' a c, wave, misses, [])) /\ map fst misses = map fst b.
Proof.
  intros Dev Hb. induction fuel as [|k IH]; intros t slot wave a c t' b; cbn [pop_batch pop_wave]; cbn [td_front with_io].
  - destruct (has_unexpanded_node (td_front t)); cbn [andb].
    2:{ intros H. injection H as <- <-. exists []. now split. }
    destruct (N.ltb_spec slot beam); cbn [andb].
    2:{ intros H'. injection H' as <- <-. exists []. now split. }
    destruct (N.ltb_spec slot n_slots); [discriminate|lia].
  - destruct (has_unexpanded_node (td_front t)); cbn [andb].
    2:{ intros H. injection H as <- <-. exists []. now split. }
    destruct (N.ltb_spec slot beam); cbn [andb].
    2:{ intros H'. injection H' as <- <-. exists []. now split. }
    destruct (N.ltb_spec slot n_slots); [|lia].
    destruct (closest_unexpanded (td_front t)) as [(n & q)| | |]; try discriminate. rewrite Dev.
    cbn [td_sector td_inflight with_front]. destruct (aput (td_sector t) slot (n_id n)) as [sec| | |]; try discriminate.
    destruct (pop_batch k src beam n_slots _ (slot + 1)%N (slot + 1)%N) as [|[(t2 & b2)| | |]] eqn:E; try discriminate. intros H'. injection H' as <- <-.
    destruct (IH _ _ wave a c _ _ E) as (ms & Em & Ei). change (with_front (with_io t a c) q) with (with_io (with_io (with_front t q) (td_inflight t) sec) a c). rewrite Em.
    exists ((n_id n, slot) :: ms). split; [reflexivity|]. cbn [map fst]. now f_equal.
Qed.
Lemma loop_same d pq max cap src beam : (d_points d <= max)%N -> (d_medoid d < max)%N -> 0 < cap -> (forall x, src x = Device) -> (0 < beam)%N ->
  forall fuel t I E wave a c t' E', binv d pq max cap t I [] E [] -> S (N.to_nat (d_points d)) < fuel + length E ->
  (beam <= N.of_nat (length (td_sector t)))%N -> (beam <= N.of_nat (length wave))%N ->
  beam_loop fuel d pq src beam t E = Done (Ok (t', E')) -> wave_loop fuel d pq src beam (with_io t a c) wave E = Done (Ok (with_io t' a c, E')).
Proof.
  intros Hp Hm Hc Dev Hb. induction fuel as [|k IH]; intros t I E wave a c t' E' H Hf Hs Hw.
  { pose proof (binv_count d pq max cap Hp Hm Hc _ _ _ _ _ H). lia. }
  cbn [beam_loop wave_loop td_front with_io]. destruct (has_unexpanded_node (td_front t)) eqn:Un; [|intros H'; now injection H' as <- <-].
  assert (Ns : n_page_slots t = length (td_sector t)) by (unfold n_page_slots; lia). rewrite Ns.
  destruct (pop_batch_spec d pq max cap Hp Hm Hc src beam (N.of_nat (length (td_sector t))) I (S k) t 0%N 0%N E [] H Hf) as (t1 & b & Eb & H1 & Fr1 & _ & _ & Sec & Ne); [lia|].
  specialize (Ne Un Hb ltac:(lia)). rewrite app_nil_r in H1. rewrite Eb.
  destruct (pop_same d pq src beam _ Dev Hs (S k) t 0%N wave a c t1 b Eb) as (ms & Em & Ei). rewrite Em.
  destruct (pop_wave_spec d pq max cap Hp Hm Hc src beam (S k) (with_io t a c) wave 0%N I E [] (binv_io _ _ _ _ _ _ _ _ _ _ _ H) Hf Hw)
    as (t1' & w1 & ms' & h & I1 & Em' & _ & _ & Lw & Sl & Lm & _). rewrite Em in Em'. injection Em' as <- <- <- <-.
  destruct (process_batch_spec d pq max cap Hp Hm Hc (E ++ map fst b) b t1 I H1) as (t2 & I2 & Ep & H2 & Fr2 & In2).
  { intros y Hy. apply in_or_app. now right. } { assumption. }
  rewrite Ep. destruct (read_wave_spec ms wave 0%N Sl) as (w2 & -> & Lw2 & _ & New).
  { destruct ms; [cbn; lia|]. specialize (Lm ltac:(discriminate)). lia. }
  cbn [bind]. rewrite (process_wave_ids d pq w2 ms _ New), Ei, process_ids_io, <- (process_batch_ids d pq b t1 Sec), Ep. cbn [bind app].
  intros R. apply (IH _ I2); auto.
  - rewrite app_length, map_length. destruct b; [contradiction|]. cbn [length]. lia.
  - destruct Fr2 as (_ & -> & _). destruct Fr1 as (_ & -> & _). assumption.
  - rewrite Lw2. assumption.
Qed.
Lemma coro_pq_same_lemma q t wave fuel max degree lists hits t' seen n : coro_pq_ok max q -> td_ok max degree lists t -> pq_fuel q <= fuel ->
  (forall x, pq_src q x = Device) -> pq_is_deterministic (pq_opts q) = true -> (beam_of (pq_opts q) <= page_slots t)%N ->
  pq_run q fuel t = Done (Ok (hits, t', seen, n)) -> exists t'', coro_pq_run q wave fuel t = Done (Ok (hits, t'', seen)).
Proof.
  intros [Hp Hmd Hs Hr] T Hf Dev Det Hsl. unfold pq_fuel in Hf. unfold coro_pq_run, coro_pq_search, pq_run, pq_beam_search. rewrite Hr, Det. fold (pq_capacity q).
  set (d := pq_disk q) in *. set (cap := pq_capacity q) in *. set (pq := pq_dist q) in *.
  destruct (reset_query_spec (d_nbrs d) max degree lists t cap T) as (t0 & -> & V0 & Q0 & C0 & L0 & N0 & Ex0 & Exd & Exn & Li0 & Ls0). cbn [bind].
  destruct (vis_mark max (td_visited t0) (fun _ => false) (d_medoid d) V0 Hmd) as (v & w & E1 & V1 & _). unfold vb_set. rewrite E1. cbn [bind].
  assert (D0 : binv d pq max cap (with_visited t0 v) [] [d_medoid d] [] []).
  { constructor; cbn [app].
    - exists (fun p => N.eqb (d_medoid d) p || false). split; [exact V1|]. intros p. rewrite orb_false_r, N.eqb_eq. cbn [In]. tauto.
    - exact Q0.
    - cbn [td_front with_visited]. rewrite C0. change [d_medoid d] with ([] ++ [d_medoid d]). apply sinv_discover; [apply sinv_nil|now apply reach_start|intros []].
    - exact Ex0.
    - intros x [].
    - cbn [td_exact_dirty with_visited]. rewrite Exd. intros id [].
    - cbn [td_exact with_visited]. intros id z Ez. assert (N.to_nat id < length (td_exact t0)) by (apply nth_error_Some; congruence). rewrite Exn in Ez by lia. discriminate. }
  destruct (insert_tile_spec d pq max cap Hs [] [] [d_medoid d] _ _ D0) as (q1 & Eq1 & D1). cbn [td_front with_visited] in Eq1. rewrite Eq1. cbn [bind].
  set (t1 := with_front (with_visited t0 v) q1) in *. cbn [app] in D1.
  assert (Hs1 : length (td_sector t1) = length (td_sector t)) by exact Ls0.
  assert (Hio : length (td_inflight t) = length (td_sector t)) by apply T.
  assert (Hbeam : (0 < beam_of (pq_opts q))%N) by (unfold beam_of; lia). unfold page_slots in Hsl.
  destruct (beam_loop fuel d pq (pq_src q) (beam_of (pq_opts q)) t1 []) as [|[(t2 & E)| | |]] eqn:Eb; try discriminate.
  rewrite <- (io_eta t1).
  rewrite (loop_same d pq max cap (pq_src q) (beam_of (pq_opts q)) Hp Hmd Hs Dev Hbeam fuel t1 [d_medoid d] [] _ _ _ t2 E D1 ltac:(cbn; lia) ltac:(lia) (ensure_wave_length _ _) Eb).
  cbn [bind]. unfold pq_results. rewrite Hr.
  assert (Ef : forall a c k l, no_rerank d (with_io t2 a c) k l = no_rerank d t2 k l).
  { intros a c k l. revert k. induction l as [|(id & x) l IH]; intros [|k]; cbn [no_rerank]; try reflexivity. destruct (d_deleted d id); [apply IH|].
    unfold exact_dist. cbn [td_exact with_io]. destruct (N.leb _ _); [reflexivity|]. destruct (aget (td_exact t2) id) as [[z|]| | |]; cbn [bind]; try reflexivity; now rewrite IH. }
  rewrite Ef. change (front_list (with_io t2 (td_inflight t1) (td_sector t1))) with (front_list t2).
  destruct (no_rerank d t2 (pq_top_k q) (front_list t2)) as [out| | |]; cbn [bind]; try discriminate.
  intros R. injection R as <- <- <- <-. eauto.
Qed.
