(** Proofs about the construction of a Vamana graph: every interleaving. *)
From Coq Require Import Permutation Sorting.Sorted.
From Verif Require Import PoolProofs NpqProofs BitsetProofs FrontierProofs SearchProofs PruneModel PruneProofs PruneProps VBuildSpec.

Definition ids_ok (n : nat) (self : N) (l : list N) : Prop :=
  NoDup l /\ ~ In self l /\ forall y, In y l -> (y < N.of_nat n)%N.
Lemma ids_bound n l : NoDup l -> (forall y, In y l -> (y < N.of_nat n)%N) -> length l <= n.
Proof.
  intros ND B. rewrite <- (map_length N.to_nat l). rewrite <- (seq_length n 0). apply NoDup_incl_length.
  - apply FinFun.Injective_map_NoDup; [|assumption]. intros x y E. lia.
  - intros i Hi. apply in_map_iff in Hi as (y & <- & Hy). apply B in Hy. apply in_seq. lia.
Qed.

(** ** The search of one thread *)
Section Search.
  Variables (n cap : nat) (dist : N -> N -> spec_float) (query : N).
  Hypothesis Hcap : 0 < cap.
  (** [pending] are marked but not yet in the queue. *)
  Record sok (s : vamana_scratch) (pending pool : list N) : Prop := {
    so_len : length (vs_visited s) = n;
    so_bound : forall m, In m (vs_touched s) -> (m < N.of_nat n)%N;
    so_vis : forall m, (m < N.of_nat n)%N -> nth (N.to_nat m) (vs_visited s) 0%N <> 0%N <-> In m (vs_touched s);
    so_q : q_inv cap (vs_pool s);
    so_nodup : NoDup (pending ++ ids_of (q_list (vs_pool s)));
    so_pend : incl pending (vs_touched s);
    so_in : incl (ids_of (q_list (vs_pool s))) (vs_touched s);
    so_new : forall x, In x pending -> ~ In x pool;
    so_exp : forall e, In e (q_list (vs_pool s)) -> In (fst (fst e)) pool -> snd e = true;
    so_exp2 : forall e, In e (q_list (vs_pool s)) -> snd e = true -> In (fst (fst e)) pool;
    so_pool : NoDup pool;
    so_pt : incl pool (vs_touched s);
    so_all : n <= cap -> forall x, In x (vs_touched s) -> In x pending \/ In x (ids_of (q_list (vs_pool s)));
  }.
  Lemma mark_ok s pending pool m : sok s pending pool -> (m < N.of_nat n)%N ->
    exists b s', mark s m = Ok (b, s') /\ sok s' (if (b : bool) then pending ++ [m] else pending) pool
      /\ (forall x, In x (vs_touched s') <-> In x (vs_touched s) \/ x = m).
  Proof using. clear Hcap query dist.
    intros I Bm. unfold mark. rewrite (aget_nth _ m 0%N) by (rewrite (so_len _ _ _ I); lia). cbn [bind].
    destruct (N.eqb_spec (nth (N.to_nat m) (vs_visited s) 0%N) 0) as [Z0|NZ].
    - assert (Nm : ~ In m (vs_touched s)) by (intros K; apply (so_vis _ _ _ I m Bm) in K; contradiction).
      rewrite aput_ok by (rewrite (so_len _ _ _ I); lia). cbn [bind]. eexists true, _. split; [reflexivity|]. split.
      + constructor; cbn [vs_visited vs_touched vs_pool].
        * rewrite upd_length. apply I.
        * intros x Hx. apply in_app_or in Hx as [Hx|[<-|[]]]; [now apply I|assumption].
        * intros x Hx. rewrite nth_upd by (rewrite (so_len _ _ _ I); lia). rewrite in_app_iff.
          destruct (Nat.eqb_spec (N.to_nat m) (N.to_nat x)) as [E|E].
          -- split; [|discriminate]. intros _. right. left. lia.
          -- rewrite (so_vis _ _ _ I) by assumption. split; [auto|]. intros [K|[K|[]]]; [assumption|]. subst. lia.
        * apply I.
        * rewrite <- app_assoc. cbn [app]. apply NoDup_Add with (a := m) (l := pending ++ ids_of (q_list (vs_pool s))); [apply Add_app|].
          split; [apply I|]. intros K. apply in_app_or in K as [K|K]; apply Nm; [now apply (so_pend _ _ _ I)|now apply (so_in _ _ _ I)].
        * intros x Hx. apply in_or_app. apply in_app_or in Hx as [Hx|Hx]; [left; now apply (so_pend _ _ _ I)|now right].
        * intros x Hx. apply in_or_app. left. now apply (so_in _ _ _ I).
        * intros x Hx. apply in_app_or in Hx as [Hx|[<-|[]]]; [now apply (so_new _ _ _ I)|]. intros K. apply Nm. now apply (so_pt _ _ _ I).
        * apply I.
        * apply I.
        * apply I.
        * intros x Hx. apply in_or_app. left. now apply (so_pt _ _ _ I).
        * intros Hn x Hx. rewrite in_app_iff. apply in_app_or in Hx as [Hx|Hx]; [|tauto].
          destruct (so_all _ _ _ I Hn x Hx); tauto.
      + cbn [vs_touched]. intros x. rewrite in_app_iff. cbn. intuition.
    - exists false, s. split; [reflexivity|]. split; [assumption|]. intros x. split; [auto|].
      intros [K| ->]; [assumption|]. now apply (so_vis _ _ _ I).
  Qed.
  Lemma mark_new_ok : forall nbrs s pending pool, sok s pending pool -> (forall m, In m nbrs -> (m < N.of_nat n)%N) ->
    exists fresh s', mark_new s nbrs = Ok (fresh, s') /\ sok s' (pending ++ fresh) pool
      /\ (forall x, In x (vs_touched s') <-> In x (vs_touched s) \/ In x nbrs).
  Proof using. clear Hcap query dist.
    induction nbrs as [|m rest IH]; intros s pending pool I B; cbn [mark_new].
    { exists [], s. split; [reflexivity|]. rewrite app_nil_r. split; [assumption|]. intros x. cbn. tauto. }
    destruct (mark_ok s pending pool m I (B m (or_introl eq_refl))) as (b & s1 & -> & I1 & T1). cbn [bind].
    destruct (IH s1 _ pool I1 ltac:(intros x Hx; apply B; now right)) as (fresh & s2 & -> & I2 & T2). cbn [bind].
    eexists _, s2. split; [reflexivity|]. split.
    - destruct b; [now rewrite <- app_assoc in I2|assumption].
    - intros x. rewrite T2, T1. cbn. intuition.
  Qed.
  Lemma enqueue_ok s id pending pool : sok s (id :: pending) pool ->
    exists s', enqueue dist query s id = Ok s' /\ sok s' pending pool /\ vs_touched s' = vs_touched s.
  Proof.
    intros I. unfold enqueue. pose proof (so_nodup _ _ _ I) as ND. cbn [app] in ND. apply NoDup_cons_iff in ND as [N1 N2].
    assert (Nid : ~ In id (ids_of (q_list (vs_pool s)))) by (intros K; apply N1, in_or_app; now right).
    assert (Full : n <= cap -> length (q_list (vs_pool s)) = cap -> False).
    { intros Hn HL. assert (length (id :: ids_of (q_list (vs_pool s))) <= n).
      { apply ids_bound.
        - constructor; [assumption|]. clear - N2. induction pending as [|z l IHl]; [assumption|]. apply IHl. cbn [app] in N2. now apply NoDup_cons_iff in N2.
        - intros y [<-|Hy]; apply (so_bound _ _ _ I); [apply (so_pend _ _ _ I); now left|now apply (so_in _ _ _ I)]. }
      cbn [length] in H. assert (HI : length (ids_of (q_list (vs_pool s))) = length (q_list (vs_pool s))) by apply map_length. lia. }
    assert (Nt : In id (vs_touched s)) by (apply (so_pend _ _ _ I); now left).
    assert (Np : ~ In id pool) by (apply (so_new _ _ _ I); now left).
    destruct (npq_insert_new cap (vs_pool s) id (order_key (dist query id)) Hcap (so_q _ _ _ I) Nid) as [(E & _ & HL)|(q' & out & E & Q' & _ & P & Out & Inc)]; rewrite E; cbn [bind].
    - eexists. split; [reflexivity|]. split; [|reflexivity]. constructor; cbn [vs_visited vs_touched vs_pool]; try apply I; auto.
      + intros x Hx. apply (so_pend _ _ _ I). now right.
      + intros x Hx. apply (so_new _ _ _ I). now right.
      + intros Hn. destruct (Full Hn HL).
    - eexists. split; [reflexivity|]. split; [|reflexivity].
      assert (From : forall e, In e (q_list q') -> In e (q_list (vs_pool s)) \/ e = ((id, order_key (dist query id)), false)).
      { intros e He. assert (K : In e (((id, order_key (dist query id)), false) :: q_list (vs_pool s))) by (apply (Permutation_in _ (Permutation_sym P)), in_or_app; now left).
        destruct K as [<-|K]; auto. }
      assert (PI : Permutation (id :: ids_of (q_list (vs_pool s))) (ids_of (q_list q') ++ ids_of out)).
      { unfold ids_of. rewrite <- map_app. exact (Permutation_map (fun e => fst (fst e)) P). }
      constructor; cbn [vs_visited vs_touched vs_pool]; try apply I; auto.
      + assert (ND2 : NoDup (pending ++ id :: ids_of (q_list (vs_pool s)))).
        { apply NoDup_Add with (a := id) (l := pending ++ ids_of (q_list (vs_pool s))); [apply Add_app|]. split; assumption. }
        assert (P3 : Permutation (pending ++ id :: ids_of (q_list (vs_pool s))) ((pending ++ ids_of (q_list q')) ++ ids_of out)).
        { rewrite <- app_assoc. now apply Permutation_app_head. }
        apply (Permutation_NoDup P3) in ND2. clear - ND2. induction (pending ++ ids_of (q_list q')) as [|x l IH]; [constructor|].
        cbn [app] in ND2. apply NoDup_cons_iff in ND2 as [A B]. constructor; [|now apply IH]. intros K. apply A, in_or_app. now left.
      + intros x Hx. apply (so_pend _ _ _ I). now right.
      + intros x Hx. apply in_map_iff in Hx as (e & <- & He). destruct (From e He) as [K| ->]; [|exact Nt].
        apply (so_in _ _ _ I). now apply (in_map (fun e => fst (fst e))).
      + intros x Hx. apply (so_new _ _ _ I). now right.
      + intros e He K. destruct (From e He) as [F| ->]; [now apply (so_exp _ _ _ I)|contradiction].
      + intros e He K. destruct (From e He) as [F| ->]; [now apply (so_exp2 _ _ _ I)|discriminate].
      + intros Hn x Hx. destruct Out as [-> |[HL _]]; [|destruct (Full Hn HL)].
        destruct (so_all _ _ _ I Hn x Hx) as [[<-|K]|K]; [right|now left|right].
        * apply (Permutation_in id) in PI; [|now left]. now rewrite app_nil_r in PI.
        * apply (Permutation_in x) in PI; [|now right]. now rewrite app_nil_r in PI.
  Qed.
  Lemma enqueue_all_ok : forall ids s pool, sok s ids pool ->
    exists s', enqueue_all dist query s ids = Ok s' /\ sok s' [] pool /\ vs_touched s' = vs_touched s.
  Proof.
    induction ids as [|id rest IH]; intros s pool I; cbn [enqueue_all]; [eauto|].
    destruct (enqueue_ok s id rest pool I) as (s1 & -> & I1 & T1). cbn [bind].
    destruct (IH s1 pool I1) as (s2 & -> & I2 & T2). exists s2. split; [reflexivity|]. split; [assumption|congruence].
  Qed.
  Lemma expand_ok rows s pool : sok s [] pool -> has_unexpanded_node (vs_pool s) = true -> length rows = n ->
    (forall row y, In row rows -> In y row -> (y < N.of_nat n)%N) ->
    exists x s' row, expand dist rows query s = Ok (x, s') /\ sok s' [] (pool ++ [x]) /\ ~ In x pool /\ (x < N.of_nat n)%N
      /\ nth_error rows (N.to_nat x) = Some row /\ (forall y, In y (vs_touched s') <-> In y (vs_touched s) \/ In y row).
  Proof.
    intros I U HL G. unfold expand.
    destruct (npq_pop_rel cap (vs_pool s) (so_q _ _ _ I) U) as (e & q' & -> & Q' & PR). cbn [bind].
    destruct PR as (a & b & d & E1 & E2). set (x := n_id e) in *.
    assert (Ix : In x (vs_touched s)).
    { apply (so_in _ _ _ I). rewrite E1. unfold ids_of. rewrite map_app. apply in_or_app. right. now left. }
    pose proof (so_bound _ _ _ I x Ix) as Bx.
    destruct (nth_error rows (N.to_nat x)) as [row|] eqn:Er; [|apply nth_error_None in Er; lia].
    assert (Ga : aget rows x = Ok row) by (unfold aget; now rewrite Er). rewrite Ga. cbn [bind].
    assert (Ids : ids_of (q_list q') = ids_of (q_list (vs_pool s))).
    { rewrite E1, E2. unfold ids_of. rewrite !map_app. reflexivity. }
    pose proof (so_nodup _ _ _ I) as ND. cbn [app] in ND.
    assert (Nx : ~ In x pool).
    { intros K. assert (F := so_exp _ _ _ I ((x, d), false)). cbn in F. rewrite E1 in F. specialize (F ltac:(apply in_or_app; right; now left) K). discriminate. }
    assert (Only : forall en, In en (a ++ b) -> fst (fst en) <> x).
    { intros en He K. rewrite E1 in ND. unfold ids_of in ND. rewrite map_app in ND. cbn [map fst] in ND. apply NoDup_remove_2 in ND.
      apply ND. rewrite <- map_app. rewrite <- K. now apply (in_map (fun e => fst (fst e))). }
    set (s1 := {| vs_visited := vs_visited s; vs_touched := vs_touched s; vs_pool := q' |}).
    assert (I1 : sok s1 [] (pool ++ [x])).
    { constructor; cbn [vs_visited vs_touched vs_pool s1 app]; try apply I; auto.
      - now rewrite Ids.
      - rewrite Ids. apply I.
      - intros en He K. rewrite E2 in He. apply in_app_or in He as [He|[<-|He]]; [|reflexivity|].
        + apply (so_exp _ _ _ I); [rewrite E1; apply in_or_app; now left|]. apply in_app_or in K as [K|[K|[]]]; [assumption|].
          exfalso. apply (Only en); [apply in_or_app; now left|congruence].
        + apply (so_exp _ _ _ I); [rewrite E1; apply in_or_app; right; now right|]. apply in_app_or in K as [K|[K|[]]]; [assumption|].
          exfalso. apply (Only en); [apply in_or_app; now right|congruence].
      - intros en He K. apply in_or_app. rewrite E2 in He. apply in_app_or in He as [He|[<-|He]].
        + left. apply (so_exp2 _ _ _ I); [rewrite E1; apply in_or_app; now left|assumption].
        + right. now left.
        + left. apply (so_exp2 _ _ _ I); [rewrite E1; apply in_or_app; right; now right|assumption].
      - apply nodup_snoc; [apply I|assumption].
      - intros y Hy. apply in_app_or in Hy as [Hy|[<-|[]]]; [now apply (so_pt _ _ _ I)|assumption].
      - intros Hn y Hy. rewrite Ids. now apply (so_all _ _ _ I). }
    destruct (mark_new_ok row s1 [] _ I1) as (fresh & s2 & -> & I2 & T2).
    { intros m Hm. eapply G; eauto. eapply nth_error_In; eauto. }
    cbn [bind app] in *. destruct (enqueue_all_ok fresh s2 _ I2) as (s3 & -> & I3 & T3). cbn [bind].
    exists x, s3, row. split; [reflexivity|]. split; [assumption|]. split; [assumption|]. split; [assumption|]. split; [assumption|].
    rewrite T3. exact T2.
  Qed.
End Search.

(** ** Every thread *)
Section Threads.
  Variables (n fuel : nat) (p : bparams) (dist : N -> N -> spec_float) (medoid : N).
  Hypothesis Hmed : (medoid < N.of_nat n)%N.
  Hypothesis HL : 0 < b_L p.
  Hypothesis HA : alpha_ok (b_alpha p).
  Hypothesis HD : comparable dist.
  Hypothesis HF : 489 <= fuel.
  Let cap := Nat.max (b_R p) (slack (b_R p)).

  Definition idle_ok (s : vamana_scratch) : Prop := length (vs_visited s) = n /\ scratch_ok s.
  Lemma sok_idle s pending pool : sok n (b_L p) s pending pool -> idle_ok s.
  Proof.
    intros I. split; [apply I|]. split; rewrite (so_len _ _ _ _ _ I); [apply I|]. intros m Hm K. now apply (so_vis _ _ _ _ _ I).
  Qed.
  Lemma begin_ok node s : idle_ok s -> exists s', begin_search p dist medoid node s = Ok s' /\ sok n (b_L p) s' [] [] /\ vs_touched s' = [medoid].
  Proof using Hmed HL. clear HA HF HD.
    intros [Ln S]. destruct (reset_spec n s (b_L p) S) as (s0 & E & L0 & Z0 & T0 & Q0 & C0).
    unfold vamana_reset in E. rewrite Ln, Nat.eqb_refl in E. unfold begin_search.
    destruct (untouch (vs_visited s) (vs_touched s)) as [v| | |]; try discriminate E. cbn [bind] in E |- *.
    assert (E' : {| vs_visited := v; vs_touched := []; vs_pool := npq_reserve (npq_clear (vs_pool s)) (b_L p) |} = s0) by congruence.
    rewrite E'. clear E E'.
    assert (I0 : sok n (b_L p) s0 [] []).
    { constructor; rewrite ?C0, ?T0; auto; try (intros ? []); try constructor.
      all: try (intros K; rewrite Z0 in K; contradiction). intros []. }
    destruct (mark_ok n (b_L p) s0 [] [] medoid I0 Hmed) as (b & s1 & Em & I1 & T1). rewrite Em. cbn [bind].
    assert (Eb : b = true).
    { unfold mark in Em. rewrite (aget_nth _ medoid 0%N) in Em by lia. cbn [bind] in Em. rewrite Z0 in Em. cbn [N.eqb] in Em.
      rewrite aput_ok in Em by lia. cbn [bind] in Em. congruence. }
    subst b. cbn [app] in I1. destruct (enqueue_ok n (b_L p) dist node HL s1 medoid [] [] I1) as (s2 & E2 & I2 & T2).
    exists s2. split; [assumption|]. split; [assumption|]. rewrite T2.
    unfold mark in Em. rewrite (aget_nth _ medoid 0%N) in Em by lia. cbn [bind] in Em. rewrite Z0 in Em. cbn [N.eqb] in Em.
    rewrite aput_ok in Em by lia. cbn [bind] in Em. injection Em as <-. cbn [vs_touched]. now rewrite T0.
  Qed.
  Lemma pool_ids node ids : map c_id (map (fun i => {| c_id := i; c_dist := dist node i |}) ids) = ids.
  Proof. rewrite map_map. apply map_id. Qed.
  Lemma prune_ids_ok node ids : NoDup ids -> exists r, prune_ids fuel p dist node ids = Some r
    /\ length r <= b_R p /\ NoDup r /\ incl r ids /\ ~ In node r.
  Proof.
    intros ND. unfold prune_ids.
    destruct (prune_terminates fuel dist node (map (fun i => {| c_id := i; c_dist := dist node i |}) ids) (b_alpha p) (b_R p) (b_maxc p) HF HA) as [r E].
    exists r. split; [assumption|].
    destruct (prune_result_valid fuel dist node (map (fun i => {| c_id := i; c_dist := dist node i |}) ids) (b_alpha p) (b_R p) (b_maxc p) r) as (A & B & C & D); auto.
    - now rewrite pool_ids.
    - intros c Hc. apply in_map_iff in Hc as (i & <- & _). apply HD.
    - rewrite pool_ids in C. auto.
  Qed.
  Lemma collect_ok self : forall l pool, NoDup pool -> ~ In self pool ->
    NoDup (collect_pool self pool l) /\ ~ In self (collect_pool self pool l)
    /\ (forall x, In x (collect_pool self pool l) <-> In x pool \/ (In x l /\ x <> self)).
  Proof.
    induction l as [|y l IH]; intros pool ND NS; cbn [collect_pool].
    { split; [assumption|]. split; [assumption|]. intros x. cbn. tauto. }
    destruct (N.eqb_spec y self) as [E|E].
    - destruct (IH pool ND NS) as (A & B & C). split; [assumption|]. split; [assumption|]. intros x. rewrite C. cbn. split; [tauto|].
      intros [K|[[K|K] K2]]; auto. congruence.
    - destruct (existsb (N.eqb y) pool) eqn:Ex.
      + apply existsb_exists in Ex as (z & Hz & Ez). apply N.eqb_eq in Ez. subst z.
        destruct (IH pool ND NS) as (A & B & C). split; [assumption|]. split; [assumption|]. intros x. rewrite C. cbn. split; [tauto|].
        intros [K|[[K|K] K2]]; auto. subst. auto.
      + assert (Ny : ~ In y pool).
        { intros K. enough (existsb (N.eqb y) pool = true) by congruence. apply existsb_exists. exists y. split; [assumption|apply N.eqb_refl]. }
        destruct (IH (pool ++ [y])) as (A & B & C).
        * now apply nodup_snoc.
        * intros K. apply in_app_or in K as [K|[K|[]]]; congruence.
        * split; [assumption|]. split; [assumption|]. intros x. rewrite C, in_app_iff. cbn. split; [|tauto].
          intros [[K|[K|[]]]|K]; [tauto| |tauto]. subst. tauto.
  Qed.

  Definition thread_ok (t : thread) : Prop :=
    (forall x, In x (t_todo t) -> (x < N.of_nat n)%N)
    /\ match t_pc t with
       | Idle => idle_ok (t_scratch t)
       | Search node pool => (node < N.of_nat n)%N /\ sok n (b_L p) (t_scratch t) [] pool
       | Store node pruned => (node < N.of_nat n)%N /\ idle_ok (t_scratch t) /\ ids_ok n node pruned /\ length pruned <= b_R p
       | Link node todo => (node < N.of_nat n)%N /\ idle_ok (t_scratch t) /\ ~ In node todo
                           /\ (forall y, In y todo -> (y < N.of_nat n)%N) /\ length todo <= b_R p
       | Replace node des new todo => (node < N.of_nat n)%N /\ (des < N.of_nat n)%N /\ idle_ok (t_scratch t) /\ ids_ok n des new /\ length new <= b_R p
                           /\ ~ In node todo /\ (forall y, In y todo -> (y < N.of_nat n)%N) /\ S (length todo) <= b_R p
       end.
  (** How many steps a thread still makes on what it has been given. *)
  Definition per_node : nat := n + 2 * b_R p + 4.
  Definition left_over (t : thread) : nat :=
    length (t_todo t) * per_node
    + match t_pc t with
      | Idle => 0
      | Search _ pool => (n - length pool) + 2 * b_R p + 3
      | Store _ _ => 2 * b_R p + 2
      | Link _ todo => 2 * length todo + 1
      | Replace _ _ _ todo => 2 * length todo + 2
      end.
  Definition unclaimed (next : N) : nat := (n - N.to_nat next) * S per_node.

  Lemma wf_upd c rows i row : well_formed n c rows -> (i < N.of_nat n)%N -> ids_ok n i row -> length row <= c -> well_formed n c (upd rows (N.to_nat i) row).
  Proof using. clear - n.
    intros [L W] Hi (ND & NS & B) HR. split; [now rewrite upd_length|]. intros j r. rewrite nth_error_upd by lia.
    destruct (Nat.eqb_spec (N.to_nat i) j) as [<-|]; [|apply W]. intros E. injection E as <-. rewrite N2Nat.id. auto.
  Qed.
  Lemma chunk_spec next : (next < N.of_nat n)%N -> (forall x, In x (chunk_at (N.of_nat n) next) -> (x < N.of_nat n)%N)
    /\ 0 < length (chunk_at (N.of_nat n) next) <= n - N.to_nat next
    /\ length (chunk_at (N.of_nat n) next) + (n - N.to_nat (next + kChunk)) = n - N.to_nat next.
  Proof using. clear - n.
    intros H. unfold chunk_at. rewrite map_length, seq_length. split; [|unfold kChunk; lia].
    intros x Hx. apply in_map_iff in Hx as (i & <- & Hi). apply in_seq in Hi. lia.
  Qed.
  Definition resting (next : N) (t : thread) : Prop := (N.of_nat n <= next)%N /\ t_todo t = [] /\ t_pc t = Idle.

  Lemma thread_step_ok rows next t : well_formed n cap rows -> thread_ok t ->
    exists rows' next' t', thread_step fuel p dist medoid rows next t = Done (Ok (rows', next', t'))
      /\ well_formed n cap rows' /\ thread_ok t' /\ (next <= next')%N
      /\ ((resting next t /\ rows' = rows /\ next' = next /\ t' = t)
          \/ unclaimed next' + left_over t' < unclaimed next + left_over t).
  Proof.
    intros W [Todo T]. pose proof W as [Ln Wr]. unfold thread_step. destruct t as [todo s c]. cbn [t_todo t_scratch t_pc] in *. rewrite Ln.
    destruct c as [|node pool|node pruned|node todo'|node des new todo'].
    - destruct todo as [|node rest].
      + destruct (N.ltb_spec next (N.of_nat n)) as [Lt|Ge].
        * destruct (chunk_spec next Lt) as (A & B & C). eexists _, _, _. split; [reflexivity|]. split; [assumption|]. split; [split; assumption|].
          split; [lia|]. right. unfold left_over, unclaimed. cbn [t_todo t_pc length]. rewrite <- C. rewrite Nat.mul_add_distr_r.
          assert (length (chunk_at (N.of_nat n) next) * per_node < length (chunk_at (N.of_nat n) next) * S per_node) by (apply Nat.mul_lt_mono_pos_l; lia). lia.
        * eexists _, _, _. split; [reflexivity|]. split; [assumption|]. split; [split; assumption|]. split; [lia|]. left. repeat split; auto.
      + destruct (begin_ok node s T) as (s1 & -> & I1 & _). cbn [lift_res]. eexists _, _, _. split; [reflexivity|]. split; [assumption|].
        split; [|split; [lia|]].
        * split; cbn [t_todo t_pc t_scratch]; [intros x Hx; apply Todo; now right|]. split; [apply Todo; now left|assumption].
        * right. unfold left_over, per_node. cbn [t_todo t_pc length]. lia.
    - destruct T as [Hn I]. destruct (has_unexpanded_node (vs_pool s)) eqn:U.
      + destruct (expand_ok n (b_L p) dist node HL rows s pool I U Ln) as (x & s1 & row & -> & I1 & Nx & Bx & _ & _).
        { intros row y Hr Hy. apply In_nth_error in Hr as [j Hj]. apply (Wr j row Hj). assumption. }
        cbn [lift_res]. eexists _, _, _. split; [reflexivity|]. split; [assumption|]. split; [|split; [lia|]].
        * split; cbn [t_todo t_pc t_scratch]; auto.
        * right. unfold left_over. cbn [t_todo t_pc]. rewrite app_length. cbn [length].
          assert (length (pool ++ [x]) <= n).
          { apply ids_bound; [apply (so_pool _ _ _ _ _ I1)|]. intros y Hy. apply (so_bound _ _ _ _ _ I1). now apply (so_pt _ _ _ _ _ I1). }
          rewrite app_length in H. cbn in H. lia.
      + destruct (prune_ids_ok node (filter (fun x => negb (N.eqb x node)) pool)) as (r & -> & A & B & C & D).
        { apply NoDup_filter, I. }
        cbn [lift_opt]. eexists _, _, _. split; [reflexivity|]. split; [assumption|]. split; [|split; [lia|]].
        * split; cbn [t_todo t_pc t_scratch]; auto. split; [assumption|]. split; [eapply sok_idle; eauto|]. split; [|assumption].
          split; [assumption|]. split; [assumption|]. intros y Hy. apply C, filter_In in Hy as [Hy _]. apply (so_bound _ _ _ _ _ I). now apply (so_pt _ _ _ _ _ I).
        * right. unfold left_over. cbn [t_todo t_pc]. lia.
    - destruct T as (Hn & S & P & HR). rewrite aput_ok by lia. cbn [lift_res]. eexists _, _, _. split; [reflexivity|].
      split; [|split; [|split; [lia|]]].
      * apply wf_upd; auto. unfold cap. lia.
      * split; cbn [t_todo t_pc t_scratch]; auto. destruct P as (_ & P2 & P3). auto.
      * right. unfold left_over. cbn [t_todo t_pc]. lia.
    - destruct todo' as [|des rest].
      + destruct T as (Hn & S & _). eexists _, _, _. split; [reflexivity|]. split; [assumption|]. split; [split; assumption|]. split; [lia|].
        right. unfold left_over. cbn [t_todo t_pc length]. lia.
      + destruct T as (Hn & S & NI & B & HR). cbn [length] in HR.
        assert (Bd : (des < N.of_nat n)%N) by (apply B; now left).
        assert (B2 : forall y, In y rest -> (y < N.of_nat n)%N) by (intros y Hy; apply B; now right).
        assert (N2 : ~ In node rest) by (intros K; apply NI; now right).
        assert (Nd : node <> des) by (intros ->; apply NI; now left).
        destruct (nth_error rows (N.to_nat des)) as [row|] eqn:Er; [|apply nth_error_None in Er; lia].
        assert (Ga : aget rows des = Ok row) by (unfold aget; now rewrite Er). rewrite Ga. cbn [lift_res].
        destruct (Wr _ _ Er) as (RN & RS & RB & RL). rewrite N2Nat.id in RS.
        destruct (existsb (N.eqb node) row) eqn:Ex.
        * eexists _, _, _. split; [reflexivity|]. split; [assumption|]. split; [|split; [lia|]].
          -- split; cbn [t_todo t_pc t_scratch]; auto. repeat split; auto; try apply S. lia.
          -- right. unfold left_over. cbn [t_todo t_pc length]. lia.
        * assert (Nr : ~ In node row).
          { intros K. enough (existsb (N.eqb node) row = true) by congruence. apply existsb_exists. exists node. split; [assumption|apply N.eqb_refl]. }
          destruct (Nat.ltb_spec (length row) (slack (b_R p))) as [Ls|Ls].
          -- rewrite aput_ok by lia. cbn [lift_res]. eexists _, _, _. split; [reflexivity|]. split; [|split; [|split; [lia|]]].
             ++ apply wf_upd; auto.
                ** split; [now apply nodup_snoc|]. split; [intros K; apply in_app_or in K as [K|[K|[]]]; congruence|].
                   intros y Hy. apply in_app_or in Hy as [Hy|[<-|[]]]; auto.
                ** rewrite app_length. cbn. unfold cap. lia.
             ++ split; cbn [t_todo t_pc t_scratch]; auto. repeat split; auto; try apply S. lia.
             ++ right. unfold left_over. cbn [t_todo t_pc length]. lia.
          -- destruct (collect_ok des (row ++ [node]) [] (NoDup_nil _) (fun x => x)) as (C1 & C2 & C3).
             destruct (prune_ids_ok des (collect_pool des [] (row ++ [node])) C1) as (r & -> & A & B' & C & D).
             cbn [lift_opt]. eexists _, _, _. split; [reflexivity|]. split; [assumption|]. split; [|split; [lia|]].
             ++ split; cbn [t_todo t_pc t_scratch]; auto. repeat split; auto; try apply S.
                intros y Hy. apply C, C3 in Hy as [[]|[Hy _]]. apply in_app_or in Hy as [Hy|[<-|[]]]; auto.
             ++ right. unfold left_over. cbn [t_todo t_pc length]. lia.
    - destruct T as (Hn & Hd & S & P & HR & NI & B & LR). rewrite aput_ok by lia. cbn [lift_res]. eexists _, _, _. split; [reflexivity|].
      split; [|split; [|split; [lia|]]].
      * apply wf_upd; auto. unfold cap. lia.
      * split; cbn [t_todo t_pc t_scratch]; auto. repeat split; auto; try apply S. lia.
      * right. unfold left_over. cbn [t_todo t_pc]. lia.
  Qed.

  Definition state_ok (st : bstate) : Prop :=
    well_formed n cap (v_rows st) /\ forall t, In t (v_threads st) -> thread_ok t.
  Fixpoint sum_left (l : list thread) : nat := match l with [] => 0 | t :: r => left_over t + sum_left r end.
  Definition work_left (st : bstate) : nat := unclaimed (v_next st) + sum_left (v_threads st).
  Lemma sum_upd l : forall i t t', nth_error l i = Some t -> sum_left (upd l i t') + left_over t = sum_left l + left_over t'.
  Proof.
    induction l as [|x l IH]; intros [|i] t t' E; cbn [nth_error] in E; try discriminate; cbn [upd sum_left].
    - injection E as ->. lia.
    - specialize (IH i t t' E). lia.
  Qed.
  Lemma upd_id {A} (l : list A) : forall i t, nth_error l i = Some t -> upd l i t = l.
  Proof. induction l as [|x l IH]; intros [|i] t E; cbn in *; try discriminate; [congruence|]. f_equal. auto. Qed.
  Lemma step_ok st i : state_ok st -> exists st', step fuel p dist medoid st i = Done (Ok st') /\ state_ok st'
    /\ length (v_threads st') = length (v_threads st) /\ (v_next st <= v_next st')%N
    /\ ((st' = st /\ forall t, nth_error (v_threads st) i = Some t -> resting (v_next st) t) \/ work_left st' < work_left st)
    /\ (forall j, j <> i -> nth_error (v_threads st') j = nth_error (v_threads st) j).
  Proof.
    intros [W T]. unfold step. destruct (nth_error (v_threads st) i) as [t|] eqn:E.
    2:{ exists st. split; [reflexivity|]. split; [split; assumption|]. split; [reflexivity|]. split; [lia|]. split; [|auto]. left. split; [reflexivity|discriminate]. }
    destruct (thread_step_ok (v_rows st) (v_next st) t W (T t (nth_error_In _ _ E))) as (rows' & next' & t' & -> & W' & T' & Le & M).
    assert (Li : i < length (v_threads st)) by (apply nth_error_Some; congruence).
    eexists. split; [reflexivity|]. split; [|split; [|split; [|split]]]; cbn [v_rows v_next v_threads].
    - split; [assumption|]. cbn [v_threads]. intros x Hx. apply In_nth_error in Hx as [j Hj]. rewrite nth_error_upd in Hj by assumption.
      destruct (Nat.eqb_spec i j); [congruence|]. eapply T, nth_error_In; eauto.
    - apply upd_length.
    - assumption.
    - destruct M as [(R & -> & -> & ->)|M].
      + left. rewrite (upd_id _ _ _ E). split; [now destruct st|]. intros x Hx. injection Hx as <-. assumption.
      + right. unfold work_left. cbn [v_next v_threads]. pose proof (sum_upd (v_threads st) i t t' E). lia.
    - intros j Hj. rewrite nth_error_upd by assumption. destruct (Nat.eqb_spec i j); [congruence|reflexivity].
  Qed.
  Lemma run_ok : forall sched st, state_ok st -> exists st', run fuel p dist medoid st sched = Done (Ok st') /\ state_ok st'
    /\ length (v_threads st') = length (v_threads st) /\ (v_next st <= v_next st')%N /\ work_left st' <= work_left st
    /\ (forall i, i < length (v_threads st) -> work_left st < turns i sched -> forall t, nth_error (v_threads st') i = Some t -> resting (v_next st') t)
    /\ (forall i t, nth_error (v_threads st) i = Some t -> resting (v_next st) t -> nth_error (v_threads st') i = Some t).
  Proof.
    induction sched as [|i rest IH]; intros st I; cbn [run].
    { exists st. split; [reflexivity|]. split; [assumption|]. split; [reflexivity|]. split; [lia|]. split; [lia|]. split; [|auto].
      intros i _ H. cbn in H. lia. }
    destruct (step_ok st i I) as (st1 & Es & I1 & L1 & N1 & M1 & O1). rewrite Es.
    destruct (IH st1 I1) as (st2 & R2 & I2 & L2 & N2 & W2 & Turns & Keep). rewrite R2.
    assert (Rest1 : forall j t, nth_error (v_threads st) j = Some t -> resting (v_next st) t -> nth_error (v_threads st1) j = Some t /\ resting (v_next st1) t).
    { intros j t Hj R. split; [|destruct R; split; [lia|assumption]]. destruct (Nat.eq_dec j i) as [->|Nj]; [|now rewrite O1].
      revert Es. unfold step. rewrite Hj. destruct R as (Rn & Rt & Rp). unfold thread_step. rewrite Rp, Rt.
      destruct I as [[Ln _] _]. rewrite Ln. destruct (N.ltb_spec (v_next st) (N.of_nat n)); [lia|]. intros Es. injection Es as <-. cbn [v_threads].
      rewrite nth_error_upd by (apply nth_error_Some; congruence). now rewrite Nat.eqb_refl. }
    exists st2. split; [reflexivity|]. split; [assumption|]. split; [congruence|]. split; [lia|].
    split; [destruct M1 as [[-> _]|M1]; lia|]. split.
    - intros j Hj Ht t Hjt. unfold turns in Ht. cbn [count_occ] in Ht. destruct (Nat.eq_dec i j) as [->|Nj].
      + destruct M1 as [[Est M1]|M1].
        * subst st1. destruct (nth_error (v_threads st) j) as [t0|] eqn:E0; [|apply nth_error_None in E0; lia].
          specialize (M1 t0 eq_refl). rewrite (Keep j t0 E0 M1) in Hjt. injection Hjt as <-. destruct M1. split; [lia|assumption].
        * apply (Turns j); [lia| |assumption]. unfold turns. lia.
      + apply (Turns j); [lia| |assumption]. unfold turns. destruct M1 as [[-> _]|M1]; lia.
    - intros j t Hj R. destruct (Rest1 j t Hj R) as [A B]. exact (Keep j t A B).
  Qed.
  Lemma start_ok threads : state_ok (link_start p n threads).
  Proof using. clear Hmed HL HA HD HF medoid dist.
    split; cbn [link_start v_rows v_threads].
    - split; [apply repeat_length|]. intros i row H. apply nth_error_In, repeat_spec in H. subst row.
      split; [constructor|]. split; [intros []|]. split; [intros y []|]. cbn. lia.
    - intros t Ht. apply repeat_spec in Ht. subst t. split; cbn [new_thread t_todo t_pc t_scratch]; [intros x []|].
      split; cbn [vs_visited vs_touched]; [apply repeat_length|]. split; cbn [vs_visited vs_touched]; [intros m []|].
      intros m Hm K. rewrite repeat_length in Hm. rewrite nth_repeat in K. contradiction.
  Qed.
  Lemma start_work threads : work_left (link_start p n threads) = n * S per_node.
  Proof using. clear Hmed HL HA HD HF medoid dist.
    unfold work_left, link_start, unclaimed. cbn [v_next v_threads]. replace (n - N.to_nat 0) with n by (cbn; lia).
    assert (sum_left (repeat (new_thread p n) threads) = 0) by (induction threads; cbn [repeat sum_left]; [reflexivity|]; rewrite IHthreads; reflexivity). lia.
  Qed.
End Threads.
