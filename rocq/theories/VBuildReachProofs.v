(** A Vamana graph built by one chunk of nodes reaches all of them. *)
From Coq Require Import Permutation Sorting.Sorted.
From Verif Require Import PoolProofs NpqProofs BitsetProofs FrontierProofs SearchProofs PruneModel PruneProofs PruneProps VBuildSpec VBuildProofs VBuildFloatProofs.

(** ** Links chosen by pruning connect the nodes *)
Section Links.
  Variables (D : N -> N -> Z) (m : N).
  Hypothesis Dsym : forall a b, D a b = D b a.
  Hypothesis Dpos : forall a b, (0 <= D a b)%Z.
  (** The nodes linked before node [k]. *)
  Definition member (k x : N) : Prop := (x < k)%N \/ x = m.
  (** [l] is what pruning may keep of the members before [z]. *)
  Definition pruned_to (z : N) (l : list N) : Prop :=
    (forall y, In y l -> member z y /\ y <> z)
    /\ forall w, member z w -> w <> z -> In w l \/ exists y, In y l /\ (D z y < D z w \/ (D z y = D z w /\ (y < w)%N))%Z /\ (D w y = 0 \/ D w y < D z w)%Z.
  Variables (pr : N -> list N) (K : N) (E : N -> N -> Prop).
  Hypothesis Hpr : forall z, (z < K)%N -> pruned_to z (pr z).
  Hypothesis Hout : forall z y, (z < K)%N -> In y (pr z) -> E z y.
  Hypothesis Hback : forall z y, (z < K)%N -> In y (pr z) -> y <> m \/ (K <= m)%N \/ (m < z)%N -> E y z.

  Lemma some_kept z : (z < K)%N -> z <> m -> exists y, In y (pr z).
  Proof. intros Hz Nz. destruct (proj2 (Hpr z Hz) m ltac:(now right) ltac:(congruence)) as [H|(y & H & _)]; eauto. Qed.
  Lemma go x y : reachable E (eq m) x -> E x y -> reachable E (eq m) y.
  Proof. intros. eapply reach_edge; eauto. Qed.

  (** A node whose nearest earlier node is [m], found again from nodes close to it. *)
  Lemma descend x : (x < m)%N -> (m < K)%N -> (forall w, (w < x)%N -> (D x m < D x w)%Z) ->
    forall k, (x < k < m)%N -> (D x k = 0 \/ D x k < D m x)%Z -> reachable E (eq m) k -> reachable E (eq m) x.
  Proof.
    intros Hx Hm Near k. induction k as [k IH] using (well_founded_induction N.lt_wf_0). intros Hk C R.
    destruct (proj2 (Hpr k ltac:(lia)) x ltac:(left; lia) ltac:(lia)) as [H|(y & Hy & Cl & Oc)].
    { eapply go; eauto. apply Hout; [lia|assumption]. }
    destruct (proj1 (Hpr k ltac:(lia)) y Hy) as [My Ny].
    pose proof (Dpos x y). pose proof (Dpos k y). pose proof (Dpos x m). pose proof (Dsym k x). pose proof (Dsym m x).
    destruct (N.eq_dec y m) as [->|Nm]; [exfalso; lia|].
    assert (Ly : (y < k)%N) by (destruct My; congruence || assumption).
    destruct (N.lt_trichotomy y x) as [L|[->|L]].
    - exfalso. specialize (Near y L). lia.
    - eapply go; eauto. apply Hout; [lia|assumption].
    - apply (IH y); [assumption|lia|lia|]. eapply go; eauto. apply Hout; [lia|assumption].
  Qed.
  Lemma links_reach x : member K x -> reachable E (eq m) x.
  Proof.
    induction x as [x IH] using (well_founded_induction N.lt_wf_0). intros Mx.
    destruct (N.eq_dec x m) as [->|Nx]; [now constructor|]. assert (Hx : (x < K)%N) by (destruct Mx; congruence || assumption).
    assert (Sub : forall y, In y (pr x) -> y <> m -> reachable E (eq m) x).
    { intros y Hy Ny. destruct (proj1 (Hpr x Hx) y Hy) as [My _]. assert ((y < x)%N) by (destruct My; congruence || assumption).
      eapply go; [apply (IH y); [assumption|left; lia]|]. apply Hback; auto. }
    destruct (some_kept x Hx Nx) as [y Hy]. destruct (N.eq_dec y m) as [->|Ny]; [|eauto].
    destruct (N.lt_ge_cases m K) as [Hm|Hm]; [|eapply go; [constructor; reflexivity|]; apply Hback; auto].
    destruct (N.lt_ge_cases m x) as [Hmx|Hmx]; [eapply go; [constructor; reflexivity|]; apply Hback; auto|].
    assert (Hxm : (x < m)%N) by lia.
    destruct (existsb (fun y => negb (N.eqb y m)) (pr x)) eqn:Ex.
    { apply existsb_exists in Ex as (w & Hw & Ew). apply negb_true_iff, N.eqb_neq in Ew. eauto. }
    assert (Only : forall w, In w (pr x) -> w = m).
    { intros w Hw. destruct (N.eq_dec w m); [assumption|]. enough (existsb (fun y => negb (N.eqb y m)) (pr x) = true) by congruence.
      apply existsb_exists. exists w. split; [assumption|]. now apply negb_true_iff, N.eqb_neq. }
    assert (Near : forall w, (w < x)%N -> (D x m < D x w)%Z).
    { intros w Hw. destruct (proj2 (Hpr x Hx) w ltac:(left; lia) ltac:(lia)) as [H|(z & Hz & Cl & _)].
      - apply Only in H. lia.
      - apply Only in Hz. subst z. destruct Cl as [Cl|[_ Cl]]; [assumption|lia]. }
    destruct (proj2 (Hpr m Hm) x ltac:(left; lia) ltac:(lia)) as [H|(k & Hk & Cl & Oc)].
    { eapply go; [constructor; reflexivity|]. now apply Hout. }
    assert (Rk : reachable E (eq m) k) by (eapply go; [constructor; reflexivity|]; now apply Hout).
    destruct (proj1 (Hpr m Hm) k Hk) as [Mk Nk]. assert (Lk : (k < m)%N) by (destruct Mk; congruence || assumption).
    destruct (N.lt_trichotomy k x) as [L|[->|L]]; [|assumption|].
    - exfalso. specialize (Near k L). pose proof (Dpos x m). pose proof (Dsym m x). lia.
    - apply (descend x Hxm Hm Near k); auto.
  Qed.
End Links.

(** ** The build *)
Lemma levels_ge_one : forallb (fun n => SFleb fone (level n)) (seq 0 487) = true.
Proof. vm_compute. reflexivity. Qed.
Lemma level_ge_one alpha n : SFltb alpha flt_max = true -> SFleb (level n) alpha = true -> SFleb fone (level n) = true.
Proof.
  intros A L. pose proof (level_bound _ _ A L) as B. pose proof levels_ge_one as F. rewrite forallb_forall in F. apply F, in_seq. lia.
Qed.

Section Build.
  Variables (n fuel : nat) (p : bparams) (dist : N -> N -> spec_float) (medoid : N).
  Hypothesis Hmed : (medoid < N.of_nat n)%N.
  Hypothesis HA : alpha_ok (b_alpha p).
  Hypothesis HM : metric_like dist.
  Hypothesis HF : 489 <= fuel.
  Hypothesis HR : n <= S (b_R p).
  Hypothesis HR2 : (Z.of_nat (b_R p) < 2 ^ 24)%Z.
  Hypothesis HLn : n <= b_L p.
  Hypothesis Hmax : n <= S (b_maxc p).
  Hypothesis Hchunk : (N.of_nat n <= kChunk)%N.
  Let cap := Nat.max (b_R p) (slack (b_R p)).
  Definition key (a b : N) : Z := order_key (dist a b).

  Lemma HL : 0 < b_L p. Proof. clear - Hmed HLn. lia. Qed.
  Lemma dist_num a b : not_nan (dist a b).
  Proof. destruct (HM a b) as (_ & Nn & _). intros E. rewrite E in Nn. destruct Nn. Qed.
  Lemma HD : comparable dist. Proof. intros a b. apply dist_num. Qed.
  Lemma key_sym a b : key a b = key b a.
  Proof. unfold key. now destruct (HM a b) as (_ & _ & ->). Qed.
  Lemma key_pos a b : (0 <= key a b)%Z.
  Proof.
    unfold key. destruct (HM a b) as (V & Nn & _). destruct (dist a b) as [s|s| |s m e]; cbn in Nn |- *; try contradiction; try lia; subst s; try lia.
    pose proof (finite_range _ _ _ V). lia.
  Qed.
  Lemma key_lt a b c d : SFltb (dist a b) (dist c d) = true <-> (key a b < key c d)%Z.
  Proof. apply order_key_lt; try apply HM; apply dist_num. Qed.
  Lemma key_eq a b c d : SFeqb (dist a b) (dist c d) = true <-> key a b = key c d.
  Proof. apply order_key_eq; try apply HM; apply dist_num. Qed.
  Lemma key_zero a b : SFeqb (dist a b) fzero = true <-> key a b = 0%Z.
  Proof. change 0%Z with (order_key fzero). apply order_key_eq; try apply HM; try apply dist_num; reflexivity || discriminate. Qed.

  Lemma prune_members node ids r : (node < N.of_nat n)%N -> NoDup ids -> (forall x, In x ids <-> member medoid node x /\ x <> node) ->
    prune_ids fuel p dist node ids = Some r -> pruned_to key medoid node r.
  Proof.
    intros Hn ND Hids E.
    destruct (prune_ids_ok fuel p dist HA HD HF node ids ND) as (r0 & E0 & Len & NDr & Inc & _).
    assert (r0 = r) by congruence. subst r0. split.
    { intros y Hy. apply Hids. now apply Inc. }
    intros w Mw Nw. assert (Iw : In w ids) by (apply Hids; auto).
    destruct (in_dec N.eq_dec w r) as [|Nr]; [now left|right].
    set (mk := fun i => {| c_id := i; c_dist := dist node i |}).
    assert (PI : map c_id (map mk ids) = ids) by apply (pool_ids dist).
    assert (Cnt : length (node :: ids) <= n).
    { apply ids_bound.
      - constructor; [|assumption]. intros K. apply Hids in K. tauto.
      - intros y [<-|Hy]; [assumption|]. apply Hids in Hy as [[K|K] _]; lia. }
    cbn [length] in Cnt.
    destruct (prune_drops_only_occluded fuel dist node (map mk ids) (b_alpha p) (b_R p) (b_maxc p) r (mk w)) as [Full|[(l & NDl & Il & Ll & Cl)|(k & lv & Ik & Kr & Cl & LL & Oc)]].
    - split; [|split].
      + rewrite PI. assumption.
      + rewrite PI. intros K. apply Hids in K. tauto.
      + intros c Hc. apply in_map_iff in Hc as (i & <- & _). apply dist_num.
    - exact HA.
    - exact E.
    - now apply in_map.
    - exact Nr.
    - exfalso. assert (length (w :: r) <= length ids).
      { apply NoDup_incl_length; [constructor; assumption|]. intros y [<-|Hy]; auto. }
      cbn [length] in H. lia.
    - exfalso. assert (length (mk w :: l) <= length (map mk ids)).
      { apply NoDup_incl_length.
        - constructor; [|assumption]. intros K. apply Cl in K. unfold closer in K. destruct K as [K|[_ K]]; [|cbn in K; lia].
          cbn [mk c_dist] in K. apply key_lt in K. lia.
        - intros y [<-|Hy]; [now apply in_map|auto]. }
      rewrite map_length in H. cbn [length] in H. lia.
    - apply in_map_iff in Ik as (y & <- & Iy). exists y. split; [exact Kr|]. split.
      + destruct Cl as [Cl|[Cl C2]]; cbn [mk c_dist c_id] in *; [left; now apply key_lt|right]. split; [now apply key_eq|assumption].
      + cbn [mk c_id] in *. unfold occludes in Oc. cbn [mk c_id c_dist] in Oc.
        destruct (SFeqb (dist w y) fzero) eqn:Z0; [left; now apply key_zero|right]. destruct Oc as [Oc|Oc]; [discriminate Oc|].
        apply key_lt. destruct LL as (j & -> & LA & _). destruct HA as [A1 A2].
        eapply fdiv_above_one; try exact Oc; try apply HM; [assumption|]. eapply level_ge_one; eauto.
  Qed.

  Lemma adj_upd rows i row x y : (i < N.of_nat (length rows))%N ->
    adjacent (upd rows (N.to_nat i) row) x y <-> (x = i /\ In y row) \/ (x <> i /\ adjacent rows x y).
  Proof using.
    clear. intros Hi. unfold adjacent. rewrite nth_error_upd by lia. destruct (Nat.eqb_spec (N.to_nat i) (N.to_nat x)) as [E|E].
    - assert (i = x) by lia. subst i. split.
      + intros (r & Er & Hy). injection Er as <-. auto.
      + intros [[_ H]|[H _]]; [eauto|congruence].
    - assert (x <> i) by (intros ->; congruence). split; [auto|]. intros [[K _]|[_ K]]; [congruence|assumption].
  Qed.
  (** Nodes below [k] are linked, [pr] being what pruning kept for each; the
      last one still misses the links back from [todo]. *)
  Definition linked (rows : list (list N)) (k : N) (pr : N -> list N) (todo : list N) : Prop :=
    (forall z, (z < k)%N -> pruned_to key medoid z (pr z))
    /\ (forall z y, (z < k)%N -> In y (pr z) -> adjacent rows z y)
    /\ (forall z y, (z < k)%N -> In y (pr z) -> y <> medoid \/ (k <= medoid)%N \/ (medoid < z)%N -> (z + 1)%N = k /\ In y todo \/ adjacent rows y z)
    /\ (forall x y, adjacent rows x y -> member medoid k x /\ member medoid k y).
  Definition upto (k : N) : list N := map N.of_nat (seq (N.to_nat k) (n - N.to_nat k)).
  Definition active (rows : list (list N)) (t : thread) : Prop :=
    exists k pr, match t_pc t with
    | Idle => linked rows k pr [] /\ t_todo t = upto k
    | Search node pool => node = k /\ linked rows k pr [] /\ t_todo t = upto (k + 1)
        /\ In medoid (vs_touched (t_scratch t)) /\ (forall x, In x (vs_touched (t_scratch t)) -> member medoid k x)
        /\ (forall x y, In x pool -> adjacent rows x y -> In y (vs_touched (t_scratch t)))
    | Store node pruned => node = k /\ linked rows k pr [] /\ t_todo t = upto (k + 1) /\ pruned_to key medoid k pruned
    | Link node todo => (node + 1)%N = k /\ linked rows k pr todo /\ incl todo (pr node) /\ t_todo t = upto k
    | Replace _ _ _ _ => False
    end.
  Lemma linked_reach rows k pr x : linked rows k pr [] -> member medoid k x -> reachable (adjacent rows) (eq medoid) x.
  Proof.
    intros (A & B & C & _). apply (links_reach key medoid key_sym key_pos pr k (adjacent rows) A B).
    intros z y Hz Hy H. destruct (C z y Hz Hy H) as [[_ []]|]. assumption.
  Qed.
  Lemma upto_cons k node rest : upto k = node :: rest -> node = k /\ (k < N.of_nat n)%N /\ rest = upto (k + 1).
  Proof using.
    clear. unfold upto. destruct (n - N.to_nat k) as [|d] eqn:E; [discriminate|]. cbn [seq map]. intros H. injection H as <- <-.
    split; [lia|]. split; [lia|]. replace (N.to_nat (k + 1)) with (S (N.to_nat k)) by lia. now replace (n - S (N.to_nat k)) with d by lia.
  Qed.

  Lemma active_step rows next t rows' next' t' : well_formed n cap rows -> thread_ok n p t -> active rows t -> (N.of_nat n <= next)%N ->
    thread_step fuel p dist medoid rows next t = Done (Ok (rows', next', t')) -> active rows' t' /\ next' = next.
  Proof.
    intros W [Todo T] (k & pr & A) Hnext. pose proof W as [Ln Wr]. unfold thread_step. destruct t as [todo s c]. cbn [t_todo t_scratch t_pc] in *. rewrite Ln.
    destruct c as [|node pool|node pruned|node todo'|node des new todo'].
    - destruct A as [Lk Et]. destruct todo as [|node rest].
      + destruct (N.ltb_spec next (N.of_nat n)); [lia|]. intros E. injection E as <- <- <-. split; [|reflexivity].
        exists k, pr. cbn [t_pc t_todo]. auto.
      + symmetry in Et. destruct (upto_cons k node rest Et) as (-> & Hk & ->).
        destruct (begin_ok n p dist medoid Hmed HL k s T) as (s1 & -> & _ & T1). cbn [lift_res].
        intros E. injection E as <- <- <-. split; [|reflexivity]. exists k, pr. cbn [t_pc t_todo t_scratch]. rewrite T1.
        split; [reflexivity|]. split; [assumption|]. split; [reflexivity|]. split; [now left|]. split; [intros x [<-|[]]; now right|intros x y []].
    - destruct A as (<- & Lk & Et & Tm & Tb & Tc). destruct T as [Hn I]. destruct (has_unexpanded_node (vs_pool s)) eqn:U.
      + destruct (expand_ok n (b_L p) dist node HL rows s pool I U Ln) as (x & s1 & row & -> & I1 & Nx & Bx & Er & T1).
        { intros row y Hr Hy. apply In_nth_error in Hr as [j Hj]. apply (Wr j row Hj). assumption. }
        cbn [lift_res]. intros E. injection E as <- <- <-. split; [|reflexivity]. exists node, pr. cbn [t_pc t_todo t_scratch].
        split; [reflexivity|]. split; [assumption|]. split; [assumption|]. split; [apply T1; now left|]. split.
        * intros y Hy. apply T1 in Hy as [Hy|Hy]; [now apply Tb|]. destruct Lk as (_ & _ & _ & M). apply (M x y). exists row. auto.
        * intros z y Hz Hy. apply T1. apply in_app_or in Hz as [Hz|[<-|[]]]; [left; eauto|right].
          destruct Hy as (r & Hr & Hy). assert (r = row) by congruence. now subst.
      + destruct (prune_ids fuel p dist node (filter (fun x => negb (N.eqb x node)) pool)) as [r|] eqn:Ep; [|discriminate].
        cbn [lift_opt]. intros E. injection E as <- <- <-. split; [|reflexivity]. exists node, pr. cbn [t_pc t_todo t_scratch].
        split; [reflexivity|]. split; [assumption|]. split; [assumption|].
        assert (TP : forall x, In x (vs_touched s) -> In x pool).
        { intros x Hx. destruct (so_all _ _ _ _ _ I HLn x Hx) as [[]|K]. apply in_map_iff in K as (e & <- & He).
          apply (so_exp2 _ _ _ _ _ I e He). eapply npq_all_expanded; eauto. apply I. }
        assert (RP : forall x, reachable (adjacent rows) (eq medoid) x -> In x pool).
        { intros x Hx. induction Hx as [x <-|x y Hx IHx Hxy]; [auto|]. apply TP. eauto. }
        eapply prune_members; try exact Ep; [assumption|apply NoDup_filter, I|].
        intros x. rewrite filter_In, negb_true_iff, N.eqb_neq. split; intros [K1 K2]; split; auto.
        * apply Tb. now apply (so_pt _ _ _ _ _ I).
        * apply RP. eapply linked_reach; eauto.
    - destruct A as (<- & Lk & Et & Pr). destruct T as (Hn & S & P & LR). rewrite aput_ok by lia. cbn [lift_res].
      intros E. injection E as <- <- <-. split; [|reflexivity].
      exists (node + 1)%N, (fun x => if N.eqb x node then pruned else pr x). cbn [t_pc t_todo].
      split; [reflexivity|]. split; [|split; [rewrite N.eqb_refl; apply incl_refl|assumption]].
      destruct Lk as (L1 & L2 & L3 & L4). destruct Pr as [P1 P2]. split; [|split; [|split]].
      + intros z Hz. destruct (N.eqb_spec z node) as [->|]; [split; assumption|]. apply L1. lia.
      + intros z y Hz Hy. apply adj_upd; [lia|]. destruct (N.eqb_spec z node) as [->|Nz]; [now left|right]. split; [assumption|]. apply L2; [lia|assumption].
      + intros z y Hz Hy Hc. destruct (N.eqb_spec z node) as [->|Nz]; [left; auto|right].
        assert (Lz : (z < node)%N) by lia. destruct (proj1 (L1 z Lz) y Hy) as [My _]. apply adj_upd; [lia|right].
        assert (y <> node) by (intros ->; destruct My as [My| ->]; [|destruct Hc as [Hc|[Hc|Hc]]; [congruence| |]]; lia).
        split; [assumption|]. destruct (L3 z y Lz Hy) as [[_ []]|]; [|assumption]. destruct Hc as [Hc|[Hc|Hc]]; auto. right. left. lia.
      + intros x y Hxy. apply adj_upd in Hxy; [|lia]. unfold member in *. destruct Hxy as [[-> Hy]|[_ Hxy]].
        * destruct (P1 y Hy) as [My _]. split; [left; lia|]. destruct My; [left; lia|now right].
        * destruct (L4 x y Hxy) as [Mx My]. split; [destruct Mx|destruct My]; auto; left; lia.
    - destruct A as (<- & Lk & Inc & Et). destruct todo' as [|des rest].
      + intros E. injection E as <- <- <-. split; [|reflexivity]. exists (node + 1)%N, pr. cbn [t_pc t_todo]. auto.
      + destruct T as (Hn & S & NI & B & LR). cbn [length] in LR.
        assert (Bd : (des < N.of_nat n)%N) by (apply B; now left).
        assert (Nd : node <> des) by (intros ->; apply NI; now left).
        assert (Id : In des (pr node)) by (apply Inc; now left).
        assert (Inc' : incl rest (pr node)) by (intros y Hy; apply Inc; now right).
        destruct (nth_error rows (N.to_nat des)) as [row|] eqn:Er; [|apply nth_error_None in Er; lia].
        assert (Ga : aget rows des = Ok row) by (unfold aget; now rewrite Er). rewrite Ga. cbn [lift_res].
        destruct (Wr _ _ Er) as (RN & RS & RB & RL). rewrite N2Nat.id in RS. destruct Lk as (L1 & L2 & L3 & L4).
        destruct (existsb (N.eqb node) row) eqn:Ex.
        * intros E. injection E as <- <- <-. split; [|reflexivity]. exists (node + 1)%N, pr. cbn [t_pc t_todo].
          split; [reflexivity|]. split; [|split; assumption]. split; [assumption|]. split; [assumption|]. split; [|assumption].
          intros z y Hz Hy Hc. destruct (L3 z y Hz Hy Hc) as [[Ez [<-|K]]|K]; auto.
          right. assert (z = node) by lia. subst z. apply existsb_exists in Ex as (w & Hw & Ew). apply N.eqb_eq in Ew. subst w. exists row. auto.
        * assert (Nr : ~ In node row).
          { intros K. enough (existsb (N.eqb node) row = true) by congruence. apply existsb_exists. exists node. split; [assumption|apply N.eqb_refl]. }
          assert (Cnt : length (node :: des :: row) <= n).
          { apply ids_bound; [|intros y [<-|[<-|Hy]]; auto]. constructor; [|constructor; assumption]. intros [K|K]; congruence. }
          cbn [length] in Cnt. pose proof (slack_ge (b_R p) HR2) as SG.
          destruct (Nat.ltb_spec (length row) (slack (b_R p))) as [Ls|Ls]; [|lia].
          rewrite aput_ok by lia. cbn [lift_res]. intros E. injection E as <- <- <-. split; [|reflexivity]. exists (node + 1)%N, pr. cbn [t_pc t_todo].
          assert (Keep : forall x y, adjacent rows x y -> adjacent (upd rows (N.to_nat des) (row ++ [node])) x y).
          { intros x y Hxy. apply adj_upd; [lia|]. destruct (N.eq_dec x des) as [->|]; [left|now right]. split; [reflexivity|].
            destruct Hxy as (r & Hr & Hy). assert (r = row) by congruence. subst r. apply in_or_app. now left. }
          split; [reflexivity|]. split; [|split; assumption]. split; [assumption|]. split; [intros z y Hz Hy; apply Keep; auto|]. split.
          -- intros z y Hz Hy Hc. destruct (L3 z y Hz Hy Hc) as [[Ez [<-|K]]|K]; auto. right. assert (z = node) by lia. subst z.
             apply adj_upd; [lia|]. left. split; [reflexivity|]. apply in_or_app. right. now left.
          -- intros x y Hxy. apply adj_upd in Hxy; [|lia]. destruct Hxy as [[-> Hy]|[_ Hxy]]; [|now apply L4].
             destruct (L1 node ltac:(lia)) as [P1 _]. destruct (P1 des Id) as [Md _]. split.
             ++ unfold member in *. destruct Md; [left; lia|now right].
             ++ apply in_app_or in Hy as [Hy|[<-|[]]]; [|left; lia]. apply (L4 des y). exists row. auto.
    - destruct A.
  Qed.

  Definition untouched_thread (t : thread) : Prop := t_todo t = [] /\ t_pc t = Idle.
  Definition seq_ok (st : bstate) : Prop :=
    (v_next st = 0%N /\ (forall t, In t (v_threads st) -> untouched_thread t) /\ forall row, In row (v_rows st) -> row = [])
    \/ ((N.of_nat n <= v_next st)%N /\ exists i t, nth_error (v_threads st) i = Some t /\ active (v_rows st) t
        /\ forall j t', j <> i -> nth_error (v_threads st) j = Some t' -> untouched_thread t').
  Lemma linked_nothing rows : (forall row, In row rows -> row = []) -> linked rows 0 (fun _ => []) [].
  Proof using.
    clear. intros H. split; [lia|]. split; [lia|]. split; [lia|]. intros x y (row & Er & Hy). apply nth_error_In in Er. apply H in Er. subst. destruct Hy.
  Qed.
  Lemma seq_step st i st' : state_ok n p st -> seq_ok st -> step fuel p dist medoid st i = Done (Ok st') -> seq_ok st'.
  Proof.
    intros [W T] Sq. unfold step. destruct (nth_error (v_threads st) i) as [t|] eqn:Ei; [|congruence].
    pose proof (nth_error_In _ _ Ei) as It. pose proof (T t It) as Tt.
    assert (Li : i < length (v_threads st)) by (apply nth_error_Some; congruence).
    assert (Oth : forall t' j, j <> i -> nth_error (upd (v_threads st) i t') j = nth_error (v_threads st) j).
    { intros t' j Hj. rewrite nth_error_upd by assumption. destruct (Nat.eqb_spec i j); [congruence|reflexivity]. }
    assert (Hit : forall t', nth_error (upd (v_threads st) i t') i = Some t') by (intros t'; rewrite nth_error_upd by assumption; now rewrite Nat.eqb_refl).
    destruct (thread_step fuel p dist medoid (v_rows st) (v_next st) t) as [|[[[rows' next'] t']| | |]] eqn:Es; try discriminate.
    intros E. injection E as <-. destruct Sq as [(Nx & Un & Em)|(Nx & i0 & t0 & E0 & A0 & Un)].
    - destruct (Un t It) as [U1 U2]. revert Es. unfold thread_step. rewrite U1, U2, Nx. destruct W as [Ln _]. rewrite Ln.
      destruct (N.ltb_spec 0 (N.of_nat n)); [|lia]. intros E. injection E as <- <- <-. right. cbn [v_rows v_next v_threads].
      split; [unfold kChunk in *; lia|]. eexists i, _. split; [apply Hit|]. split.
      + exists 0%N, (fun _ => []). cbn [t_pc t_todo]. split; [now apply linked_nothing|].
        unfold chunk_at, upto. replace (N.to_nat (N.min kChunk (N.of_nat n - 0))) with n by (unfold kChunk in *; lia).
        cbn [N.to_nat]. rewrite Nat.sub_0_r. apply map_ext. intros a. lia.
      + intros j t' Hj E. rewrite Oth in E by assumption. apply Un. eapply nth_error_In; eauto.
    - right. cbn [v_rows v_next v_threads]. destruct (Nat.eq_dec i i0) as [->|Ni].
      + assert (t = t0) by congruence. subst t0. destruct (active_step _ _ _ _ _ _ W Tt A0 Nx Es) as [A1 ->]. split; [assumption|].
        exists i0, t'. split; [apply Hit|]. split; [assumption|]. intros j t1 Hj E. rewrite Oth in E by assumption. eauto.
      + destruct (Un i t Ni Ei) as [U1 U2]. revert Es. unfold thread_step. rewrite U1, U2. destruct W as [Ln _]. rewrite Ln.
        destruct (N.ltb_spec (v_next st) (N.of_nat n)); [lia|]. intros E. injection E as <- <- <-. split; [assumption|].
        exists i0, t0. split; [rewrite Oth by congruence; assumption|]. split; [assumption|]. intros j t1 Hj E. rewrite (upd_id _ _ _ Ei) in E. eauto.
  Qed.
  Lemma seq_run : forall sched st st', state_ok n p st -> seq_ok st -> run fuel p dist medoid st sched = Done (Ok st') -> seq_ok st' /\ state_ok n p st'.
  Proof.
    induction sched as [|i rest IH]; intros st st' S Sq; cbn [run]; [intros E; injection E as <-; auto|].
    destruct (step_ok n fuel p dist medoid Hmed HL HA HD HF st i S) as (st1 & Es & S1 & _). rewrite Es.
    apply IH; [assumption|]. exact (seq_step st i st1 S Sq Es).
  Qed.
  Lemma seq_start threads : seq_ok (link_start p n threads).
  Proof using.
    clear. left. cbn [link_start v_next v_threads v_rows]. split; [reflexivity|]. split.
    - intros t Ht. apply repeat_spec in Ht. subst t. split; reflexivity.
    - intros row Hr. now apply repeat_spec in Hr.
  Qed.
  Lemma linking_reaches threads sched st : run fuel p dist medoid (link_start p n threads) sched = Done (Ok st) -> link_done st ->
    all_reachable medoid (v_rows st) /\ well_formed n (b_R p) (v_rows st).
  Proof.
    intros E [Dn Dt]. destruct (seq_run sched _ _ (start_ok n p threads) (seq_start threads) E) as [Sq [[Ln W] _]]. rewrite Ln in Dn. split.
    - destruct Sq as [(Nx & _)|(Nx & i & t & Ei & (k & pr & A) & _)]; [lia|].
      destruct (Dt t (nth_error_In _ _ Ei)) as [D1 D2]. rewrite D2 in A. destruct A as [Lk Et]. rewrite D1 in Et.
      assert (Hk : (N.of_nat n <= k)%N). { unfold upto in Et. destruct (n - N.to_nat k) eqn:Z; [lia|discriminate Et]. }
      intros x Hx. rewrite Ln in Hx. eapply linked_reach; eauto. left. lia.
    - split; [assumption|]. intros i row Er. destruct (W i row Er) as (A & B & C & _). repeat split; auto.
      assert (Li : i < n) by (rewrite <- Ln; apply nth_error_Some; congruence).
      assert (length (N.of_nat i :: row) <= n) by (apply ids_bound; [now constructor|intros y [<-|Hy]; [lia|auto]]).
      cbn [length] in H. lia.
  Qed.
End Build.
