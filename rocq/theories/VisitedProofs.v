From Verif Require Export VisitedSpec.
Import ListNotations.

Definition list_ok (n : nat) (v : vlist) : Prop :=
  length (v_mass v) = n /\ (1 <= v_cur v <= 65535)%N /\ Forall (fun c => (c <= v_cur v)%N) (v_mass v).
Definition mode (past : list vop) (h : N) (x : handle) : Prop :=
  match x with
  | Taken _ => ~ did_reset h past /\ ~ gave_back h past
  | Ready _ => did_reset h past /\ ~ gave_back h past
  | Released => did_reset h past /\ gave_back h past
  end.
Record vinv (n : nat) (past : list vop) (s : pool) : Prop := {
  vi_count : length (vp_handles s) = takes past;
  vi_mode : forall h x, nth_error (vp_handles s) (N.to_nat h) = Some x -> mode past h x;
  vi_late : forall h, takes past <= N.to_nat h -> ~ did_reset h past /\ ~ gave_back h past /\ forall id, marked h id past = false;
  vi_lists : Forall (list_ok n) (vp_lists s);
  vi_free : NoDup (vp_free s);
  vi_free_lt : forall l, In l (vp_free s) -> N.to_nat l < length (vp_lists s);
  vi_held : forall h l, holds s h l -> N.to_nat l < length (vp_lists s) /\ ~ In l (vp_free s);
  vi_separate : separate s;
  vi_fresh : forall h l, nth_error (vp_handles s) (N.to_nat h) = Some (Taken l) -> forall id, marked h id past = false;
  vi_cells : forall h l v, nth_error (vp_handles s) (N.to_nat h) = Some (Ready l) -> nth_error (vp_lists s) (N.to_nat l) = Some v ->
    forall id c, nth_error (v_mass v) (N.to_nat id) = Some c -> N.eqb c (v_cur v) = marked h id past }.

Lemma vl_new_ok n junk : list_ok n (vl_new n junk).
Proof.
  repeat split; cbn [vl_new v_mass v_cur]; try lia.
  - rewrite map_length, seq_length. reflexivity.
  - apply Forall_map, Forall_forall. intros i _. pose proof (N.mod_upper_bound (junk i) 65536). lia.
Qed.
(** After a reset, no cell carries the tag. *)
Lemma vl_reset_ok n v : list_ok n v -> list_ok n (vl_reset v) /\ Forall (fun c => N.eqb c (v_cur (vl_reset v)) = false) (v_mass (vl_reset v)).
Proof.
  intros (L & C & F). unfold vl_reset. cbv zeta. destruct (N.eq_dec (v_cur v) 65535) as [E|E].
  - rewrite E. change ((65535 + 1) mod 65536)%N with 0%N. cbn [N.eqb v_cur v_mass]. change ((0 + 1) mod 65536)%N with 1%N. split; [split|].
    + cbn. rewrite repeat_length. exact L.
    + cbn. split; [lia|]. apply Forall_forall. intros c H. apply repeat_spec in H. lia.
    + apply Forall_forall. intros c H. apply repeat_spec in H. subst. reflexivity.
  - rewrite (N.mod_small (v_cur v + 1)) by lia. destruct (N.eqb_spec (v_cur v + 1) 0); [lia|]. cbn [v_cur v_mass]. split; [split; [exact L|split]|]; cbn [v_cur v_mass].
    + lia.
    + eapply Forall_impl; [|exact F]. intros c H. cbn in H. lia.
    + eapply Forall_impl; [|exact F]. intros c H. cbn in H. apply N.eqb_neq. lia.
Qed.

Lemma vp_fill_ok n junk : forall k s, vinv n [] s -> vp_handles s = [] -> (forall l, In l (vp_free s) <-> N.to_nat l < length (vp_lists s)) ->
  vinv n [] (vp_fill k n junk s).
Proof.
  induction k as [|k IH]; intros s I Hh Hf; cbn [vp_fill]; [exact I|]. apply IH; cbn [vp_handles vp_free vp_lists].
  - constructor; cbn [vp_handles vp_free vp_lists].
    + apply (vi_count n _ s I).
    + apply (vi_mode n _ s I).
    + intros h _. repeat split; auto.
    + apply Forall_app. split; [apply (vi_lists n _ s I)|]. repeat constructor; apply vl_new_ok.
    + constructor; [|apply (vi_free n _ s I)]. rewrite Hf. lia.
    + intros l. rewrite app_length. cbn [length]. intros [ <- |H]; [lia|]. apply Hf in H. lia.
    + intros h l [H|H]; rewrite Hh in H; destruct (N.to_nat h); discriminate H.
    + intros h h' l [H|H]; cbn in H; rewrite Hh in H; destruct (N.to_nat h); discriminate H.
    + intros h l H. rewrite Hh in H. destruct (N.to_nat h); discriminate H.
    + intros h l v H. rewrite Hh in H. destruct (N.to_nat h); discriminate H.
  - exact Hh.
  - intros l. cbn [In]. rewrite app_length, Hf. cbn [length]. split; [intros [ <- |H]; lia|]. intros H.
    destruct (Nat.eq_dec (N.to_nat l) (length (vp_lists s))) as [E|E]; [left; lia|right; lia].
Qed.
Lemma vp_new_ok k n junk : vinv n [] (vp_new k n junk).
Proof.
  apply vp_fill_ok; [|reflexivity|cbn; split; [intros []|lia]].
  assert (No : forall (h : N) (x : handle), nth_error (@nil handle) (N.to_nat h) <> Some x) by (intros h x; destruct (N.to_nat h); discriminate).
  constructor; cbn [vp_handles vp_lists vp_free].
  - reflexivity.
  - intros h x H. destruct (No h x H).
  - intros h _. repeat split; intros [].
  - constructor.
  - constructor.
  - intros l [].
  - intros h l [H|H]; destruct (No _ _ H).
  - intros h h' l [H|H]; destruct (No _ _ H).
  - intros h l H. destruct (No _ _ H).
  - intros h l v H. destruct (No _ _ H).
Qed.

Lemma aget_at {A} (l : list A) i x : nth_error l (N.to_nat i) = Some x -> aget l i = Ok x.
Proof. unfold aget. intros ->. reflexivity. Qed.
Lemma at_lt {A} (l : list A) i x : nth_error l i = Some x -> i < length l.
Proof. intros H. apply nth_error_Some. congruence. Qed.
Lemma aput_at {A} (l : list A) i x y : nth_error l (N.to_nat i) = Some x -> aput l i y = Ok (upd l (N.to_nat i) y).
Proof. intros H. apply aput_ok. apply at_lt in H. lia. Qed.
Lemma upd_at {A} (l : list A) i j x y : nth_error l (N.to_nat i) = Some x ->
  nth_error (upd l (N.to_nat i) y) (N.to_nat j) = if N.eqb i j then Some y else nth_error l (N.to_nat j).
Proof.
  intros H. rewrite nth_error_upd by (eapply at_lt; exact H). destruct (N.eqb_spec i j) as [ -> |D]; [rewrite Nat.eqb_refl; reflexivity|].
  destruct (Nat.eqb_spec (N.to_nat i) (N.to_nat j)) as [E|_]; [apply Nnat.N2Nat.inj in E; contradiction|reflexivity].
Qed.
Lemma snoc_at {A} (l : list A) x i y : nth_error (l ++ [x]) i = Some y <-> nth_error l i = Some y \/ (i = length l /\ x = y).
Proof.
  destruct (Nat.lt_trichotomy i (length l)) as [H|[H|H]].
  - rewrite nth_error_app1 by exact H. split; [auto|intros [E|(E & _)]; [exact E|lia]].
  - subst i. rewrite nth_error_app2, Nat.sub_diag by lia. cbn. rewrite (proj2 (nth_error_None l (length l))) by lia.
    split; [intros E; inversion E; auto|intros [E|(_ & ->)]; [discriminate E|reflexivity]].
  - rewrite !(proj2 (nth_error_None _ i)) by (rewrite ?app_length; cbn; lia). split; [discriminate|intros [E|(E & _)]; [discriminate E|lia]].
Qed.
Lemma Forall_upd {A} (P : A -> Prop) (x : A) : P x -> forall l i, Forall P l -> Forall P (upd l i x).
Proof. intros Px. induction l as [|y l IH]; intros [|i] F; cbn; auto; inversion F; subst; constructor; auto. Qed.
Lemma handle_of n past s h : vinv n past s -> did_reset h past -> ~ gave_back h past ->
  exists l v, nth_error (vp_handles s) (N.to_nat h) = Some (Ready l) /\ nth_error (vp_lists s) (N.to_nat l) = Some v /\ list_ok n v.
Proof.
  intros I Dr Gb. assert (H : N.to_nat h < takes past).
  { destruct (Nat.lt_ge_cases (N.to_nat h) (takes past)) as [H|H]; [exact H|]. destruct (vi_late n _ s I h H). contradiction. }
  rewrite <- (vi_count n _ s I) in H. destruct (nth_error (vp_handles s) (N.to_nat h)) as [x|] eqn:E; [|apply nth_error_None in E; lia].
  pose proof (vi_mode n _ s I h x E) as Mo. destruct x as [l|l|]; cbn in Mo; try tauto.
  destruct (vi_held n _ s I h l (or_intror E)) as (B & _).
  destruct (nth_error (vp_lists s) (N.to_nat l)) as [v|] eqn:Ev; [|apply nth_error_None in Ev; lia].
  exists l, v. repeat split; auto; apply (proj1 (Forall_forall _ _) (vi_lists n _ s I) v (nth_error_In _ _ Ev)).
Qed.

Definition answer (past : list vop) (o : vop) : option bool := match o with Seen h id => Some (marked h id past) | _ => None end.

Lemma vstep_ok n junk past s o : vinv n past s -> allowed n past o ->
  exists s', vstep n junk s o = Ok (s', answer past o) /\ vinv n (o :: past) s'.
Proof.
  intros I A. destruct o as [|h|h id|h id|h]; cbn [vstep answer allowed] in *.
  - (* Take *)
    assert (G : forall l lists free, Forall (list_ok n) lists -> NoDup free -> ~ In l free -> N.to_nat l < length lists ->
      (forall l', In l' free -> N.to_nat l' < length lists) -> (forall h, ~ holds s h l) ->
      (forall h l', holds s h l' -> N.to_nat l' < length lists /\ ~ In l' free) ->
      (forall h l' v, holds s h l' -> nth_error lists (N.to_nat l') = Some v -> nth_error (vp_lists s) (N.to_nat l') = Some v) ->
      vinv n (Take :: past) {| vp_lists := lists; vp_free := free; vp_handles := vp_handles s ++ [Taken l] |}).
    { intros l lists free FL NF NI BL BF Un BH Kp. constructor; cbn [vp_lists vp_free vp_handles].
      - rewrite app_length. cbn [length takes filter]. unfold takes. cbn [filter length]. fold (takes past). rewrite (vi_count n _ s I). lia.
      - intros h x E. apply snoc_at in E. destruct E as [E|(E & <-)].
        + pose proof (vi_mode n _ s I h x E) as Mo. destruct x; cbn in *; unfold did_reset, gave_back in *; cbn [In]; intuition discriminate.
        + rewrite (vi_count n _ s I) in E. destruct (vi_late n _ s I h ltac:(lia)) as (U & V & _). cbn. unfold did_reset, gave_back in *. cbn [In]. intuition discriminate.
      - intros h H. assert (takes past <= N.to_nat h) as H' by (unfold takes in *; cbn [filter length] in H; lia).
        destruct (vi_late n _ s I h H') as (U & V & W). unfold did_reset, gave_back in *. cbn [In marked existsb orb]. repeat split; try exact W; intuition discriminate.
      - exact FL.
      - exact NF.
      - exact BF.
      - intros h l' H. assert (holds s h l' \/ l' = l) as [H'| ->].
        { destruct H as [H|H]; apply snoc_at in H; destruct H as [H|(_ & H)]; try discriminate H; [left; left; exact H|right; congruence|left; right; exact H]. }
        + apply (BH h). exact H'.
        + split; assumption.
      - intros h h' l' H H'.
        assert (X : forall h, holds {| vp_lists := lists; vp_free := free; vp_handles := vp_handles s ++ [Taken l] |} h l' ->
                   holds s h l' \/ (N.to_nat h = length (vp_handles s) /\ l' = l)).
        { intros k [K|K]; apply snoc_at in K; destruct K as [K|(K1 & K)]; try discriminate K; [left; left; exact K|right; split; congruence|left; right; exact K]. }
        destruct (X h H) as [Y|(Y1 & Y2)], (X h' H') as [Z|(Z1 & Z2)].
        + exact (vi_separate n _ s I h h' l' Y Z).
        + subst. exfalso. exact (Un h Y).
        + subst. exfalso. exact (Un h' Z).
        + apply Nnat.N2Nat.inj. congruence.
      - intros h l' E id. cbn [marked existsb orb]. apply snoc_at in E. destruct E as [E|(E & _)].
        + exact (vi_fresh n _ s I h l' E id).
        + apply (vi_late n _ s I). rewrite <- (vi_count n _ s I). lia.
      - intros h l' v E Ev id c Ec. cbn [marked existsb orb]. apply snoc_at in E. destruct E as [E|(_ & E)]; [|discriminate E].
        apply (vi_cells n _ s I h l' v E); [|exact Ec]. apply (Kp h); [right; exact E|exact Ev]. }
    destruct (vp_free s) as [|l free] eqn:Ef.
    + eexists. split; [reflexivity|]. apply G.
      * apply Forall_app. split; [apply (vi_lists n _ s I)|repeat constructor; apply vl_new_ok].
      * constructor.
      * auto.
      * rewrite app_length. cbn. lia.
      * intros l' [].
      * intros h H. apply (vi_held n _ s I) in H. lia.
      * intros h l' H. apply (vi_held n _ s I) in H. rewrite app_length. split; [lia|auto].
      * intros h l' v H E. apply (vi_held n _ s I) in H. rewrite nth_error_app1 in E by lia. exact E.
    + pose proof (vi_free n _ s I) as NF. rewrite Ef in NF. inversion NF; subst. pose proof (vi_free_lt n _ s I) as FL. rewrite Ef in FL.
      eexists. split; [reflexivity|]. apply G; auto.
      * apply (vi_lists n _ s I).
      * apply FL. left. reflexivity.
      * intros l' H. apply FL. right. exact H.
      * intros h H. apply (vi_held n _ s I) in H. rewrite Ef in H. apply (proj2 H). left. reflexivity.
      * intros h l' H. apply (vi_held n _ s I) in H. rewrite Ef in H. cbn [In] in H. tauto.
  - (* Reset *)
    destruct A as (Hh & Nr). rewrite <- (vi_count n _ s I) in Hh.
    destruct (nth_error (vp_handles s) (N.to_nat h)) as [x|] eqn:E; [|apply nth_error_None in E; lia].
    pose proof (vi_mode n _ s I h x E) as Mo. destruct x as [l|l|]; cbn in Mo; try tauto.
    destruct (vi_held n _ s I h l (or_introl E)) as (B & Nf).
    destruct (nth_error (vp_lists s) (N.to_nat l)) as [v|] eqn:Ev; [|apply nth_error_None in Ev; lia].
    pose proof (proj1 (Forall_forall _ _) (vi_lists n _ s I) v (nth_error_In _ _ Ev)) as Lv.
    destruct (vl_reset_ok n v Lv) as (Lr & Fr).
    rewrite (aget_at _ _ _ E). cbn [bind]. rewrite (aget_at _ _ _ Ev). cbn [bind]. rewrite (aput_at _ _ _ _ Ev). cbn [bind]. rewrite (aput_at _ _ _ _ E). cbn [bind].
    eexists. split; [reflexivity|].
    assert (X : forall k l', holds {| vp_lists := upd (vp_lists s) (N.to_nat l) (vl_reset v); vp_free := vp_free s; vp_handles := upd (vp_handles s) (N.to_nat h) (Ready l) |} k l' -> holds s k l').
    { intros k l' K. unfold holds in K. cbn [vp_handles] in K. rewrite (upd_at _ h k _ _ E) in K. destruct (N.eqb_spec h k) as [ <- |D]; [|exact K].
      destruct K as [K|K]; [discriminate K|]. inversion K; subst. left. exact E. }
    constructor; cbn [vp_lists vp_free vp_handles].
    + rewrite upd_length. apply (vi_count n _ s I).
    + intros k x. rewrite (upd_at _ h k _ _ E). destruct (N.eqb_spec h k) as [ <- |D].
      * intros X'. inversion X'; subst. cbn. unfold did_reset, gave_back in *. cbn [In]. intuition discriminate.
      * intros K. pose proof (vi_mode n _ s I k x K) as Mk. destruct x; cbn in *; unfold did_reset, gave_back in *; cbn [In];
          repeat split; try (intuition (try discriminate; congruence)).
    + intros k H. change (takes (Reset h :: past)) with (takes past) in H. destruct (vi_late n _ s I k H) as (U & V & W).
      rewrite (vi_count n _ s I) in Hh. unfold did_reset, gave_back in *. cbn [In marked existsb orb].
      repeat split; try exact W; intros [C|C]; try discriminate C; try contradiction. inversion C; subst. lia.
    + apply Forall_upd; [exact Lr|apply (vi_lists n _ s I)].
    + apply (vi_free n _ s I).
    + intros k. rewrite upd_length. apply (vi_free_lt n _ s I).
    + intros k l' K. rewrite upd_length. apply (vi_held n _ s I k). apply X. exact K.
    + intros k k' l' K K'. apply (vi_separate n _ s I k k' l'); apply X; assumption.
    + intros k l' K id. cbn [marked existsb orb]. rewrite (upd_at _ h k _ _ E) in K. destruct (N.eqb h k); [discriminate K|].
      exact (vi_fresh n _ s I k l' K id).
    + intros k l' v' K Kv id c Ec. cbn [marked existsb orb]. rewrite (upd_at _ h k _ _ E) in K. rewrite (upd_at _ l l' _ _ Ev) in Kv.
      destruct (N.eqb_spec h k) as [ <- |D].
      * inversion K; subst l'. rewrite N.eqb_refl in Kv. inversion Kv; subst v'. change (N.eqb c (v_cur (vl_reset v)) = marked h id past). rewrite (vi_fresh n _ s I h l E id).
        apply (proj1 (Forall_forall _ _) Fr). eapply nth_error_In; exact Ec.
      * destruct (N.eqb_spec l l') as [ <- |Dl].
        { exfalso. apply D. apply (vi_separate n _ s I h k l); [left; exact E|right; exact K]. }
        exact (vi_cells n _ s I k l' v' K Kv id c Ec).
  - (* Mark *)
    destruct A as (Dr & Ng & Hid). destruct (handle_of n past s h I Dr Ng) as (l & v & E & Ev & Lv).
    destruct Lv as (Ln & Cu & Fc).
    rewrite (aget_at _ _ _ E). cbn [bind]. rewrite (aget_at _ _ _ Ev). cbn [bind]. rewrite aput_ok by lia. cbn [bind]. rewrite (aput_at _ _ _ _ Ev). cbn [bind].
    eexists. split; [reflexivity|].
    assert (MO : forall k id', k <> h -> marked k id' (Mark h id :: past) = marked k id' past).
    { intros k id' D. cbn [marked existsb]. destruct (N.eqb_spec h k); [congruence|reflexivity]. }
    assert (Hh : N.to_nat h < takes past) by (rewrite <- (vi_count n _ s I); eapply at_lt; exact E).
    constructor; cbn [vp_lists vp_free vp_handles].
    + apply (vi_count n _ s I).
    + intros k x K. pose proof (vi_mode n _ s I k x K) as Mk. destruct x; cbn in *; unfold did_reset, gave_back in *; cbn [In]; intuition discriminate.
    + intros k H. change (takes (Mark h id :: past)) with (takes past) in H. destruct (vi_late n _ s I k H) as (U & V & W).
      unfold did_reset, gave_back in *. cbn [In]. repeat split; try (intuition discriminate). intros id'. rewrite MO; [apply W|]. intros ->. lia.
    + apply Forall_upd; [|apply (vi_lists n _ s I)]. repeat split; cbn [v_mass v_cur]; try lia; [rewrite upd_length; exact Ln|].
      apply Forall_upd; [lia|exact Fc].
    + apply (vi_free n _ s I).
    + intros k. rewrite upd_length. apply (vi_free_lt n _ s I).
    + intros k l' K. rewrite upd_length. apply (vi_held n _ s I k). exact K.
    + exact (vi_separate n _ s I).
    + intros k l' K id'. rewrite MO; [exact (vi_fresh n _ s I k l' K id')|]. intros ->. congruence.
    + intros k l' v' K Kv id' c Ec. rewrite (upd_at _ l l' _ _ Ev) in Kv. destruct (N.eqb_spec l l') as [ <- |Dl].
      * assert (k = h) as -> by (apply (vi_separate n _ s I k h l); right; assumption).
        inversion Kv; subst v'. cbn [v_mass v_cur] in *. cbn [marked existsb]. rewrite N.eqb_refl. cbn [andb].
        destruct (nth_error (v_mass v) (N.to_nat id)) as [c0|] eqn:E0; [|apply nth_error_None in E0; lia].
        rewrite (upd_at _ id id' _ _ E0) in Ec. destruct (N.eqb_spec id id') as [ <- |Di].
        { inversion Ec. rewrite N.eqb_refl. reflexivity. }
        { cbn [orb]. exact (vi_cells n _ s I h l v E Ev id' c Ec). }
      * rewrite MO; [exact (vi_cells n _ s I k l' v' K Kv id' c Ec)|]. intros ->. congruence.
  - (* Seen *)
    destruct A as (Dr & Ng & Hid). destruct (handle_of n past s h I Dr Ng) as (l & v & E & Ev & Lv). destruct Lv as (Ln & _).
    destruct (nth_error (v_mass v) (N.to_nat id)) as [c|] eqn:Ec; [|apply nth_error_None in Ec; lia].
    rewrite (aget_at _ _ _ E). cbn [bind]. rewrite (aget_at _ _ _ Ev). cbn [bind]. rewrite (aget_at _ _ _ Ec). cbn [bind].
    rewrite (vi_cells n _ s I h l v E Ev id c Ec). eexists. split; [reflexivity|].
    constructor.
    + apply (vi_count n _ s I).
    + intros k x K. pose proof (vi_mode n _ s I k x K) as Mk. destruct x; cbn in *; unfold did_reset, gave_back in *; cbn [In]; intuition discriminate.
    + intros k H. change (takes (Seen h id :: past)) with (takes past) in H. destruct (vi_late n _ s I k H) as (U & V & W).
      unfold did_reset, gave_back in *. cbn [In]. repeat split; try exact W; intuition discriminate.
    + apply (vi_lists n _ s I).
    + apply (vi_free n _ s I).
    + apply (vi_free_lt n _ s I).
    + apply (vi_held n _ s I).
    + apply (vi_separate n _ s I).
    + exact (vi_fresh n _ s I).
    + exact (vi_cells n _ s I).
  - (* Release *)
    destruct A as (Dr & Ng). destruct (handle_of n past s h I Dr Ng) as (l & v & E & Ev & Lv).
    destruct (vi_held n _ s I h l (or_intror E)) as (B & Nf).
    rewrite (aget_at _ _ _ E). cbn [bind]. rewrite (aput_at _ _ _ _ E). cbn [bind]. eexists. split; [reflexivity|].
    assert (X : forall k l', holds {| vp_lists := vp_lists s; vp_free := l :: vp_free s; vp_handles := upd (vp_handles s) (N.to_nat h) Released |} k l' -> holds s k l' /\ k <> h).
    { intros k l' K. unfold holds in K. cbn [vp_handles] in K. rewrite (upd_at _ h k _ _ E) in K. destruct (N.eqb_spec h k) as [ <- |D].
      - destruct K as [K|K]; discriminate K.
      - split; [exact K|congruence]. }
    constructor; cbn [vp_lists vp_free vp_handles].
    + rewrite upd_length. apply (vi_count n _ s I).
    + intros k x. rewrite (upd_at _ h k _ _ E). destruct (N.eqb_spec h k) as [ <- |D].
      * intros X'. inversion X'; subst. cbn. unfold did_reset, gave_back in *. cbn [In]. auto.
      * intros K. pose proof (vi_mode n _ s I k x K) as Mk. destruct x; cbn in *; unfold did_reset, gave_back in *; cbn [In];
          repeat split; try (intuition (try discriminate; congruence)).
    + intros k H. change (takes (Release h :: past)) with (takes past) in H. destruct (vi_late n _ s I k H) as (U & V & W).
      unfold did_reset, gave_back in *. cbn [In marked existsb orb].
      repeat split; try exact W; intros [C|C]; try discriminate C; try contradiction. inversion C; subst. contradiction.
    + apply (vi_lists n _ s I).
    + constructor; [exact Nf|apply (vi_free n _ s I)].
    + intros k [ <- |K]; [exact B|apply (vi_free_lt n _ s I); exact K].
    + intros k l' K. apply X in K. destruct K as (K & D). destruct (vi_held n _ s I k l' K) as (U & V). split; [exact U|].
      intros [ <- |C]; [|contradiction]. apply D. apply (vi_separate n _ s I k h l); [exact K|right; exact E].
    + intros k k' l' K K'. apply X in K. apply X in K'. apply (vi_separate n _ s I k k' l'); tauto.
    + intros k l' K id. cbn [marked existsb orb]. rewrite (upd_at _ h k _ _ E) in K. destruct (N.eqb h k); [discriminate K|].
      exact (vi_fresh n _ s I k l' K id).
    + intros k l' v' K Kv id c Ec. cbn [marked existsb orb]. rewrite (upd_at _ h k _ _ E) in K. destruct (N.eqb h k); [discriminate K|].
      exact (vi_cells n _ s I k l' v' K Kv id c Ec).
Qed.

Lemma vrun_ok n junk : forall ops past s, vinv n past s -> history_ok n past ops ->
  exists s', vrun n junk s ops = Ok (s', right_answers past ops) /\ vinv n (rev ops ++ past) s'.
Proof.
  induction ops as [|o ops IH]; intros past s I H; cbn [vrun right_answers rev app].
  - eauto.
  - cbn [history_ok] in H. destruct H as (A & H). destruct (vstep_ok n junk past s o I A) as (s1 & E1 & I1). rewrite E1. cbn [bind fst snd].
    destruct (IH (o :: past) s1 I1 H) as (s2 & E2 & I2). rewrite E2. cbn [bind fst snd]. exists s2. split.
    + destruct o; reflexivity.
    + rewrite <- app_assoc. exact I2.
Qed.
