(** Proofs about robust prune. *)
From Coq Require Import Permutation Sorting.Sorted.
From Verif Require Import PruneModel PruneSpec.

(** ** The order on floats *)
Definition fkey (f : spec_float) : Z * Z * Z :=
  match f with
  | S754_nan => (5, 0, 0)
  | S754_infinity true => (-2, 0, 0)
  | S754_finite true m e => (-1, - e, - Zpos m)
  | S754_zero _ => (0, 0, 0)
  | S754_finite false m e => (1, e, Zpos m)
  | S754_infinity false => (2, 0, 0)
  end%Z.
Definition klt (a b : Z * Z * Z) : Prop :=
  let '(a1, a2, a3) := a in let '(b1, b2, b3) := b in
  (a1 < b1 \/ (a1 = b1 /\ (a2 < b2 \/ (a2 = b2 /\ a3 < b3))))%Z.
Lemma compare_key f g : not_nan f -> not_nan g ->
  match SFcompare f g with
  | Some Lt => klt (fkey f) (fkey g)
  | Some Eq => fkey f = fkey g
  | Some Gt => klt (fkey g) (fkey f)
  | None => False
  end.
Proof.
  unfold not_nan. intros Hf Hg. destruct f as [s| s| |s m e], g as [s'|s'| |s' m' e']; try congruence; try destruct s; try destruct s'; cbn; try (lia || reflexivity).
  - destruct (Z.compare_spec e e') as [->|?|?]; cbn; try lia. change (Pos.compare_cont Eq m m') with (Pos.compare m m'). destruct (Pos.compare_spec m m') as [->|?|?]; cbn; try (lia || reflexivity).
  - destruct (Z.compare_spec e e') as [->|?|?]; cbn; try lia. change (Pos.compare_cont Eq m m') with (Pos.compare m m'). destruct (Pos.compare_spec m m') as [->|?|?]; cbn; try (lia || reflexivity).
Qed.

Lemma ltb_key f g : SFltb f g = true <-> not_nan f /\ not_nan g /\ klt (fkey f) (fkey g).
Proof.
  unfold SFltb. split.
  - intros H. assert (Hf : not_nan f) by (intros ->; discriminate). assert (Hg : not_nan g) by (intros ->; destruct f; discriminate).
    pose proof (compare_key f g Hf Hg) as C. destruct (SFcompare f g) as [[| |]|]; try discriminate. auto.
  - intros (Hf & Hg & L). pose proof (compare_key f g Hf Hg) as C. destruct (SFcompare f g) as [[| |]|]; auto; try contradiction; exfalso.
    + rewrite C in L. destruct (fkey g) as [[? ?] ?]. cbn in L. lia.
    + destruct (fkey f) as [[? ?] ?], (fkey g) as [[? ?] ?]. cbn in *. lia.
Qed.
Lemma eqb_key f g : SFeqb f g = true <-> not_nan f /\ not_nan g /\ fkey f = fkey g.
Proof.
  unfold SFeqb. split.
  - intros H. assert (Hf : not_nan f) by (intros ->; discriminate). assert (Hg : not_nan g) by (intros ->; destruct f; discriminate).
    pose proof (compare_key f g Hf Hg) as C. destruct (SFcompare f g) as [[| |]|]; try discriminate. auto.
  - intros (Hf & Hg & L). pose proof (compare_key f g Hf Hg) as C. destruct (SFcompare f g) as [[| |]|]; auto; try contradiction; exfalso;
      destruct (fkey f) as [[? ?] ?], (fkey g) as [[? ?] ?]; cbn in C; injection L; lia.
Qed.
Lemma leb_key f g : SFleb f g = true <-> not_nan f /\ not_nan g /\ ~ klt (fkey g) (fkey f).
Proof.
  unfold SFleb. split.
  - intros H. assert (Hf : not_nan f) by (intros ->; discriminate). assert (Hg : not_nan g) by (intros ->; destruct f; discriminate).
    pose proof (compare_key f g Hf Hg) as C. destruct (SFcompare f g) as [[| |]|]; try discriminate; split; auto; split; auto.
    + rewrite C. destruct (fkey g) as [[? ?] ?]. cbn. lia.
    + destruct (fkey f) as [[? ?] ?], (fkey g) as [[? ?] ?]. cbn in *. lia.
  - intros (Hf & Hg & L). pose proof (compare_key f g Hf Hg) as C. destruct (SFcompare f g) as [[| |]|]; auto; contradiction.
Qed.
Lemma ltb_trans f g h : SFltb f g = true -> SFltb g h = true -> SFltb f h = true.
Proof.
  rewrite !ltb_key. intros (? & ? & L) (? & ? & L2). split; [assumption|]. split; [assumption|].
  destruct (fkey f) as [[? ?] ?], (fkey g) as [[? ?] ?], (fkey h) as [[? ?] ?]. cbn in *. lia.
Qed.
Lemma leb_ltb_trans f g h : SFleb f g = true -> SFltb g h = true -> SFltb f h = true.
Proof.
  rewrite leb_key, !ltb_key. intros (? & ? & L) (? & ? & L2). split; [assumption|]. split; [assumption|].
  destruct (fkey f) as [[? ?] ?], (fkey g) as [[? ?] ?], (fkey h) as [[? ?] ?]. cbn in *. lia.
Qed.
(** [f <= g] when not [g < f], without NaN *)
Lemma not_ltb f g : not_nan f -> not_nan g -> SFltb g f = false -> SFleb f g = true.
Proof.
  intros Hf Hg L. apply leb_key. split; [assumption|]. split; [assumption|]. intros K. assert (SFltb g f = true) by now apply ltb_key. congruence.
Qed.
Lemma leb_not_ltb f g : SFleb f g = true -> SFltb g f = false.
Proof.
  rewrite leb_key. intros (? & ? & L). destruct (SFltb g f) eqn:E; auto. apply ltb_key in E as (_ & _ & E). contradiction.
Qed.
Lemma leb_trans f g h : SFleb f g = true -> SFleb g h = true -> SFleb f h = true.
Proof.
  rewrite !leb_key. intros (? & ? & L) (? & ? & L2). split; [assumption|]. split; [assumption|].
  destruct (fkey f) as [[? ?] ?], (fkey g) as [[? ?] ?], (fkey h) as [[? ?] ?]. cbn in *. lia.
Qed.

(** ** The order on candidates *)
Lemma lt_closer a b : pcand_lt a b = true <-> closer a b.
Proof. unfold pcand_lt, closer. rewrite orb_true_iff, andb_true_iff, N.ltb_lt. tauto. Qed.
Lemma closer_key a b : closer a b -> klt (fkey (c_dist a)) (fkey (c_dist b)) \/ (fkey (c_dist a) = fkey (c_dist b) /\ (c_id a < c_id b)%N).
Proof. intros [H|[H L]]; [left; now apply ltb_key in H|right; now apply eqb_key in H]. Qed.
Lemma key_closer a b : not_nan (c_dist a) -> not_nan (c_dist b) ->
  klt (fkey (c_dist a)) (fkey (c_dist b)) \/ (fkey (c_dist a) = fkey (c_dist b) /\ (c_id a < c_id b)%N) -> closer a b.
Proof. intros Ha Hb [H|[H L]]; [left; now apply ltb_key|right; split; [now apply eqb_key|assumption]]. Qed.
Lemma closer_nan a b : closer a b -> not_nan (c_dist a) /\ not_nan (c_dist b).
Proof. intros [H|[H _]]; [apply ltb_key in H|apply eqb_key in H]; tauto. Qed.
Lemma closer_trans a b c : closer a b -> closer b c -> closer a c.
Proof.
  intros H1 H2. pose proof (closer_nan _ _ H1). pose proof (closer_nan _ _ H2). apply key_closer; try tauto.
  apply closer_key in H1, H2. destruct (fkey (c_dist a)) as [[? ?] ?], (fkey (c_dist b)) as [[? ?] ?], (fkey (c_dist c)) as [[? ?] ?]. cbn in *.
  destruct H1 as [H1|[H1 L1]], H2 as [H2|[H2 L2]]; try (injection H1 as -> -> ->); try (injection H2 as -> -> ->); try (left; lia). right. split; [reflexivity|lia].
Qed.
Lemma closer_irrefl a : ~ closer a a.
Proof. intros H. apply closer_key in H. destruct (fkey (c_dist a)) as [[? ?] ?]. cbn in H. lia. Qed.
Lemma closer_total a b : not_nan (c_dist a) -> not_nan (c_dist b) -> c_id a <> c_id b -> closer a b \/ closer b a.
Proof.
  intros Ha Hb N. pose proof (key_closer a b Ha Hb) as K1. pose proof (key_closer b a Hb Ha) as K2.
  destruct (fkey (c_dist a)) as [[x1 x2] x3], (fkey (c_dist b)) as [[y1 y2] y3]. cbn in *.
  destruct (Z.lt_trichotomy x1 y1) as [?|[->|?]]; [left; apply K1; lia| |right; apply K2; lia].
  destruct (Z.lt_trichotomy x2 y2) as [?|[->|?]]; [left; apply K1; lia| |right; apply K2; lia].
  destruct (Z.lt_trichotomy x3 y3) as [?|[->|?]]; [left; apply K1; lia| |right; apply K2; lia].
  destruct (N.lt_trichotomy (c_id a) (c_id b)) as [?|[?|?]]; [left; apply K1; auto|contradiction|right; apply K2; auto].
Qed.

(** ** Sorting *)
Lemma sort_insert_perm c l : Permutation (c :: l) (sort_insert c l).
Proof. induction l as [|d l IH]; cbn; auto. destruct (pcand_lt c d); auto. rewrite perm_swap. now constructor. Qed.
Lemma sort_perm l : Permutation l (std_sort l).
Proof. induction l as [|c l IH]; cbn; auto. rewrite IH at 1. apply sort_insert_perm. Qed.
Lemma sort_insert_sorted c l : (forall d, In d l -> not_nan (c_dist d) /\ c_id d <> c_id c) -> not_nan (c_dist c) ->
  StronglySorted closer l -> StronglySorted closer (sort_insert c l).
Proof.
  intros Hl Hc S. induction S as [|d l S IH F]; cbn; [repeat constructor|]. destruct (pcand_lt c d) eqn:L.
  - apply lt_closer in L. constructor; [now constructor|]. constructor; [assumption|]. eapply Forall_impl; [|exact F]. intros x Hx. eapply closer_trans; eauto.
  - constructor; [apply IH; intros; apply Hl; now right|].
    assert (D : closer d c).
    { destruct (Hl d (or_introl eq_refl)) as [Hd Nd]. destruct (closer_total c d) as [H|H]; auto. apply lt_closer in H. congruence. }
    rewrite Forall_forall in *. intros x Hx. apply (Permutation_in _ (Permutation_sym (sort_insert_perm c l))) in Hx as [<-|Hx]; auto.
Qed.
Lemma sort_sorted l : NoDup (map c_id l) -> (forall c, In c l -> not_nan (c_dist c)) -> StronglySorted closer (std_sort l).
Proof.
  induction l as [|c l IH]; intros N Hn; cbn; [constructor|]. inversion N as [|? ? N1 N2]; subst. apply sort_insert_sorted.
  - intros d Hd. apply (Permutation_in _ (Permutation_sym (sort_perm l))) in Hd. split; [apply Hn; now right|]. intros E. apply N1. rewrite <- E. now apply in_map.
  - apply Hn. now left.
  - apply IH; auto. intros x Hx. apply Hn. now right.
Qed.

(** ** The levels *)
Lemma level_inf n : 487 <= n -> level n = S754_infinity false.
Proof.
  induction n as [|n IH]; intros H; [lia|]. destruct (Nat.eq_dec n 486) as [->|]; [vm_compute; reflexivity|].
  cbn [level]. rewrite IH by lia. reflexivity.
Qed.
Lemma level_bound alpha n : SFltb alpha flt_max = true -> SFleb (level n) alpha = true -> n < 487.
Proof.
  intros A L. destruct (Nat.lt_ge_cases n 487) as [|G]; auto. rewrite level_inf in L by assumption. pose proof (leb_ltb_trans _ _ _ L A) as C. discriminate C.
Qed.
Lemma levels_nonneg : forallb (fun n => negb (SFltb (level n) fzero)) (seq 0 487) = true.
Proof. vm_compute. reflexivity. Qed.
Lemma level_nonneg alpha n : SFltb alpha flt_max = true -> SFleb (level n) alpha = true -> SFltb (level n) fzero = false.
Proof.
  intros A L. pose proof (level_bound _ _ A L) as B. pose proof levels_nonneg as F. rewrite forallb_forall in F.
  specialize (F n). rewrite negb_true_iff in F. apply F. apply in_seq. lia.
Qed.

(** ** The passes *)
Lemma fop_snoc {A} (R : A -> A -> Prop) l x : ForallOrdPairs R l -> (forall k, In k l -> R k x) -> ForallOrdPairs R (l ++ [x]).
Proof.
  induction 1 as [|a l F O IH]; intros H; cbn; [repeat constructor|]. constructor.
  - apply Forall_app. split; [assumption|]. constructor; [apply H; now left|constructor].
  - apply IH. intros k Hk. apply H. now right.
Qed.
Lemma nodup_snoc {A} (l : list A) x : NoDup l -> ~ In x l -> NoDup (l ++ [x]).
Proof.
  intros N H. apply (Permutation_NoDup (l := x :: l)); [apply Permutation_cons_append|now constructor].
Qed.

Section Prune.
Context (dist : N -> N -> spec_float) (location : N) (alpha : spec_float) (degree : nat).
Hypothesis alpha_max : SFltb alpha flt_max = true.

Definition ratio (n k : pcand) : spec_float := fdiv (c_dist n) (dist (c_id n) (c_id k)).
Definition same_point (n k : pcand) : bool := SFeqb (dist (c_id n) (c_id k)) fzero.
(** What the factor of entry [n] says when the entries [P] are selected. *)
Definition entry_ok (P : list pcand) (n : pcand) (f : spec_float) : Prop :=
  not_nan f /\ (In n P -> f = flt_max)
  /\ (~ In n P -> f = fzero \/ exists k, In k P /\ closer k n /\ ((same_point n k = true /\ f = flt_max) \/ f = ratio n k))
  /\ (~ In n P -> forall k, In k P -> closer k n -> SFltb alpha f = true \/ (same_point n k = false /\ SFltb f (ratio n k) = false)).
Definition kept_rel (k n : pcand) : Prop := closer k n -> ~ occludes dist alpha k n.
Definition ids (P : list pcand) : list N := map c_id (filter (fun c => negb (N.eqb (c_id c) location)) P).
Lemma ids_app P Q : ids (P ++ Q) = ids P ++ ids Q.
Proof. unfold ids. now rewrite filter_app, map_app. Qed.

Lemma entry_mono P new n f : entry_ok P n f -> (forall x, In x new -> closer n x) -> entry_ok (P ++ new) n f.
Proof.
  intros (A & B & C & D) H.
  assert (Nn : ~ In n new) by (intros I; apply (closer_irrefl n); auto).
  assert (NP : ~ In n (P ++ new) -> ~ In n P) by (intros X Y; apply X, in_or_app; now left).
  split; [assumption|]. split; [intros I; apply in_app_or in I as [I|I]; [auto|contradiction]|]. split.
  - intros I. destruct (C (NP I)) as [->|(k & Hk & R)]; [now left|]. right. exists k. split; [apply in_or_app; now left|assumption].
  - intros I k Hk Ck. apply in_app_or in Hk as [Hk|Hk]; [now apply D; auto|].
    exfalso. apply (closer_irrefl n). eapply closer_trans; eauto.
Qed.
Lemma occlude_ok P c n f : entry_ok P n f -> closer c n -> entry_ok (P ++ [c]) n (occlude dist alpha c n f).
Proof.
  intros (A & B & C & D) H.
  assert (NE : n <> c) by (intros ->; now apply (closer_irrefl c)).
  assert (IE : In n (P ++ [c]) -> In n P) by (intros I; apply in_app_or in I as [I|[I|[]]]; [assumption|congruence]).
  assert (NP : ~ In n (P ++ [c]) -> ~ In n P) by (intros X Y; apply X, in_or_app; now left).
  assert (KeepC : ~ In n P -> f = fzero \/ exists k, In k (P ++ [c]) /\ closer k n /\ ((same_point n k = true /\ f = flt_max) \/ f = ratio n k)).
  { intros I. destruct (C I) as [->|(k & Hk & R)]; [now left|]. right. exists k. split; [apply in_or_app; now left|assumption]. }
  unfold occlude. destruct (SFltb alpha f) eqn:Ea.
  - split; [assumption|]. split; [auto|]. split; [auto|]. intros _ k _ _. now left.
  - assert (NotP : ~ In n P). { intros I. rewrite (B I) in Ea. congruence. }
    assert (NotP1 : ~ In n (P ++ [c])) by (intros I; now apply NotP, IE).
    assert (InC : In c (P ++ [c])) by (apply in_or_app; right; now left).
    destruct (SFeqb (dist (c_id n) (c_id c)) fzero) eqn:Ez.
    + split; [discriminate|]. split; [contradiction|]. split.
      * intros _. right. exists c. split; [assumption|]. split; [assumption|]. left. split; [exact Ez|reflexivity].
      * intros _ k _ _. now left.
    + fold (ratio n c). unfold std_max. destruct (SFltb f (ratio n c)) eqn:Er.
      * split; [now apply ltb_key in Er|]. split; [contradiction|]. split.
        { intros _. right. exists c. split; [assumption|]. split; [assumption|]. now right. }
        intros _ k Hk Ck. right. apply in_app_or in Hk as [Hk|[<-|[]]].
        { destruct (D NotP k Hk Ck) as [X|[X Y]]; [congruence|]. split; [assumption|].
          destruct (SFltb (ratio n c) (ratio n k)) eqn:Z; auto. rewrite (ltb_trans _ _ _ Er Z) in Y. discriminate. }
        { split; [exact Ez|]. destruct (SFltb (ratio n c) (ratio n c)) eqn:Z; auto. apply ltb_key in Z as (_ & _ & Z).
          destruct (fkey (ratio n c)) as [[? ?] ?]. cbn in Z. lia. }
      * split; [assumption|]. split; [contradiction|]. split; [auto|].
        intros _ k Hk Ck. apply in_app_or in Hk as [Hk|[<-|[]]]; [rewrite Ea; now apply D|]. right. split; [exact Ez|assumption].
Qed.
Lemma occlude_rest_ok P c : forall pool fs, Forall2 (entry_ok P) pool fs -> Forall (closer c) pool ->
  Forall2 (entry_ok (P ++ [c])) pool (occlude_rest dist alpha c pool fs).
Proof.
  induction 1 as [|n f pool fs E F IH]; intros C; cbn [occlude_rest]; [constructor|]. inversion C; subst. constructor; auto. now apply occlude_ok.
Qed.

Lemma pass_ok cur : SFleb cur alpha = true -> forall pool fs P fs' r', StronglySorted closer pool ->
  Forall2 (entry_ok P) pool fs -> NoDup P -> ForallOrdPairs kept_rel P -> length (ids P) <= degree ->
  prune_pass dist location alpha degree cur pool fs (ids P) = (fs', r') ->
  exists new, incl new pool /\ NoDup (P ++ new) /\ ForallOrdPairs kept_rel (P ++ new) /\ r' = ids (P ++ new)
    /\ length r' <= degree /\ Forall2 (entry_ok (P ++ new)) pool fs'
    /\ (degree <= length r' \/ Forall2 (fun n f => In n (P ++ new) \/ SFltb cur f = true) pool fs')
    /\ match pool, fs with c :: _, f :: _ => length (ids P) < degree -> SFltb cur f = false -> hd_error new = Some c | _, _ => True end.
Proof.
  intros Hcur. pose proof (leb_ltb_trans _ _ _ Hcur alpha_max) as cur_max.
  induction pool as [|c pool IH]; intros fs P fs' r' S F ND K L E; inversion F as [|? f ? fs0 Ec F0]; subst; cbn [prune_pass] in E.
  - injection E as <- <-. exists []. rewrite app_nil_r. split; [intros x []|]. repeat (split; [assumption || reflexivity|]). split; [right; constructor|exact I].
  - inversion S as [|? ? S0 C0]; subst.
    destruct (Nat.ltb_spec (length (ids P)) degree) as [Ld|Ld].
    2:{ injection E as <- <-. exists []. rewrite app_nil_r. split; [intros x []|]. repeat (split; [assumption || reflexivity|]).
        split; [now left|]. intros; lia. }
    destruct (SFltb cur f) eqn:Ef.
    + destruct (prune_pass dist location alpha degree cur pool fs0 (ids P)) as [fs2 r2] eqn:E2. injection E as <- <-.
      destruct (IH fs0 P fs2 r2 S0 F0 ND K L E2) as (new & I1 & N1 & K1 & R1 & L1 & F1 & D1 & _).
      exists new. split; [intros x Hx; right; auto|]. repeat (split; [assumption|]).
      assert (Hn : entry_ok (P ++ new) c f).
      { apply entry_mono; [assumption|]. intros x Hx. rewrite Forall_forall in C0. auto. }
      split; [now constructor|]. split; [|discriminate]. destruct D1 as [D1|D1]; [now left|]. right. constructor; auto.
    + destruct Ec as (En & Eb & Ew & Ed).
      assert (NP : ~ In c P). { intros I. rewrite (Eb I) in Ef. congruence. }
      assert (Hc : SFleb f cur = true) by (apply not_ltb; auto; now apply leb_key in Hcur).
      pose proof (leb_trans _ _ _ Hc Hcur) as Ha.
      assert (K1 : ForallOrdPairs kept_rel (P ++ [c])).
      { apply fop_snoc; [assumption|]. intros k Hk Ck O. destruct (Ed NP k Hk Ck) as [X|[X Y]].
        - rewrite (leb_not_ltb _ _ Ha) in X. discriminate.
        - destruct O as [O|O]; [unfold same_point in X; congruence|]. fold (ratio c k) in O. rewrite (leb_ltb_trans _ _ _ Ha O) in Y. discriminate. }
      assert (RE : (if N.eqb (c_id c) location then ids P else ids P ++ [c_id c]) = ids (P ++ [c])).
      { rewrite ids_app. unfold ids at 4. cbn [filter]. destruct (N.eqb (c_id c) location); cbn [negb map]; [now rewrite app_nil_r|reflexivity]. }
      rewrite RE in E.
      destruct (prune_pass dist location alpha degree cur pool (occlude_rest dist alpha c pool fs0) (ids (P ++ [c]))) as [fs2 r2] eqn:E2.
      injection E as <- <-.
      assert (L' : length (ids (P ++ [c])) <= degree).
      { rewrite ids_app, app_length. unfold ids at 2. cbn [filter]. destruct (negb (N.eqb (c_id c) location)); cbn [map length]; lia. }
      destruct (IH _ (P ++ [c]) fs2 r2 S0 (occlude_rest_ok P c pool fs0 F0 C0) (nodup_snoc _ _ ND NP) K1 L' E2) as (new & I1 & N1 & K2 & R1 & L1 & F1 & D1 & _).
      rewrite <- app_assoc in *. cbn [app] in *. exists (c :: new).
      split; [intros x [<-|Hx]; [now left|right; auto]|]. repeat (split; [assumption|]).
      assert (InC : In c (P ++ c :: new)) by (apply in_or_app; right; now left).
      split.
      { constructor; [|assumption]. split; [discriminate|]. split; [reflexivity|]. split; intros X; contradiction. }
      split; [|reflexivity]. destruct D1 as [D1|D1]; [now left|]. right. constructor; auto.
Qed.

Definition ramp_inv (pool : list pcand) (P : list pcand) (fs : list spec_float) : Prop :=
  incl P pool /\ NoDup P /\ ForallOrdPairs kept_rel P /\ length (ids P) <= degree /\ Forall2 (entry_ok P) pool fs.
Lemma ramp_ok pool : StronglySorted closer pool -> forall fuel n P fs r', ramp_inv pool P fs -> SFleb (level n) alpha = true ->
  prune_ramp fuel dist location alpha degree (level n) pool fs (ids P) = Some r' ->
  exists new fs', ramp_inv pool (P ++ new) fs' /\ r' = ids (P ++ new)
    /\ (degree <= length r' \/ exists lv, last_level alpha lv /\ Forall2 (fun c f => In c (P ++ new) \/ SFltb lv f = true) pool fs')
    /\ match pool, fs with c :: _, f :: _ => length (ids P) < degree -> SFltb (level n) f = false -> hd_error new = Some c | _, _ => True end.
Proof.
  intros S. induction fuel as [|k IH]; intros n P fs r' (I & N & K & L & F) Hn E; cbn [prune_ramp] in E; [discriminate|].
  rewrite Hn in E. cbn [andb] in E. destruct (Nat.ltb_spec (length (ids P)) degree) as [Ld|Ld].
  2:{ injection E as <-. exists [], fs. rewrite app_nil_r. split; [repeat (split; [assumption|]); assumption|]. split; [reflexivity|]. split; [now left|].
      destruct pool, fs; auto. intros; lia. }
  destruct (prune_pass dist location alpha degree (level n) pool fs (ids P)) as [fs2 r2] eqn:E2.
  destruct (pass_ok (level n) Hn pool fs P fs2 r2 S F N K L E2) as (new & I1 & N1 & K1 & R1 & L1 & F1 & D1 & H1).
  assert (I2 : incl (P ++ new) pool) by (intros x Hx; apply in_app_or in Hx as [Hx|Hx]; auto).
  rewrite R1 in L1. change (fmul (level n) f1_2) with (level (Datatypes.S n)) in E.
  destruct (SFleb (level (Datatypes.S n)) alpha) eqn:Hn'.
  - rewrite R1 in E.
    assert (RI : ramp_inv pool (P ++ new) fs2) by (repeat (split; [assumption|]); assumption).
    destruct (IH (Datatypes.S n) (P ++ new) fs2 r' RI Hn' E) as (new2 & fs' & RI' & RE & D & _).
    rewrite <- app_assoc in *. exists (new ++ new2), fs'. split; [assumption|]. split; [assumption|]. split; [assumption|].
    destruct pool as [|c pool]; [exact Logic.I|]. destruct fs as [|f fs]; [exact Logic.I|]. intros A B. specialize (H1 A B). destruct new; [discriminate|exact H1].
  - destruct k as [|k]; [discriminate|]. cbn [prune_ramp] in E. rewrite Hn' in E. cbn [andb] in E. injection E as <-.
    exists new, fs2. split; [repeat (split; [assumption|]); assumption|]. split; [assumption|]. split; [|exact H1].
    destruct D1 as [D1|D1]; [now left|]. right. exists (level n). split; [|assumption]. exists n. auto.
Qed.
Lemma ramp_terminates pool : forall fuel n fs r, 489 <= fuel + n -> exists r', prune_ramp fuel dist location alpha degree (level n) pool fs r = Some r'
  \/ 488 < n.
Proof.
  induction fuel as [|k IH]; intros n fs r H; cbn [prune_ramp]; [exists []; right; lia|].
  destruct (SFleb (level n) alpha) eqn:Hn; cbn [andb]; [|eauto]. destruct (Nat.ltb (length r) degree); [|eauto].
  destruct (prune_pass dist location alpha degree (level n) pool fs r) as [fs2 r2]. change (fmul (level n) f1_2) with (level (S n)).
  destruct (IH (S n) fs2 r2) as [r' [E|E]]; [lia|eauto|]. pose proof (level_bound _ _ alpha_max Hn). lia.
Qed.
End Prune.

Lemma sorted_firstn {A} (R : A -> A -> Prop) n l : StronglySorted R l -> StronglySorted R (firstn n l).
Proof.
  intros S. revert n. induction S as [|a l S IH F]; intros [|n]; cbn; try constructor; auto. rewrite Forall_forall in *. intros x Hx. apply F.
  rewrite <- (firstn_skipn n l). apply in_or_app. now left.
Qed.
Lemma sorted_split {A} (R : A -> A -> Prop) n l : StronglySorted R l -> forall x y, In x (firstn n l) -> In y (skipn n l) -> R x y.
Proof.
  intros S. revert n. induction S as [|a l S IH F]; intros [|n] x y; cbn [firstn skipn]; try (intros []; fail).
  intros [<-|Hx] Hy; [|eauto]. rewrite Forall_forall in F. apply F. rewrite <- (firstn_skipn n l). apply in_or_app. now right.
Qed.
Lemma forall2_in {A B} (R : A -> B -> Prop) l l' x : Forall2 R l l' -> In x l -> exists y, In (x, y) (combine l l') /\ R x y.
Proof.
  induction 1 as [|a b l l' H F IH]; [intros []|]. intros [<-|Hx]; [exists b; split; [now left|assumption]|]. destruct (IH Hx) as (y & I & Ry). exists y. split; [now right|assumption].
Qed.
Lemma forall2_combine {A B} (R : A -> B -> Prop) l l' x y : Forall2 R l l' -> In (x, y) (combine l l') -> R x y.
Proof. induction 1 as [|a b l l' H F IH]; [intros []|]. intros [E|Hx]; [now injection E as <- <-|auto]. Qed.
Lemma ids_all location P : (forall c, In c P -> c_id c <> location) -> ids location P = map c_id P.
Proof.
  intros H. unfold ids. induction P as [|c P IH]; cbn; [reflexivity|]. destruct (N.eqb_spec (c_id c) location) as [E|E]; [exfalso; apply (H c); auto; now left|].
  cbn. f_equal. apply IH. intros x Hx. apply H. now right.
Qed.

(** The result of a whole prune. *)
Lemma prune_result fuel dist location pool alpha degree maxc r : 
  NoDup (map c_id pool) -> (forall c, In c pool -> not_nan (c_dist c)) -> alpha_ok alpha -> pool <> [] ->
  prune_neighbors fuel dist location pool alpha degree maxc = Some r ->
  exists P fs, let pool1 := firstn maxc (std_sort pool) in
    ramp_inv dist location alpha degree pool1 P fs /\ r = ids location P
    /\ (degree <= length r \/ exists lv, last_level alpha lv /\ Forall2 (fun c f => In c P \/ SFltb lv f = true) pool1 fs)
    /\ match pool1 with c :: _ => 0 < degree -> hd_error P = Some c | [] => True end.
Proof.
  intros ND NN [A1 A2] NE E. pose proof (sort_sorted pool ND NN) as S. pose proof (sort_perm pool) as PM.
  unfold prune_neighbors in E. destruct pool as [|c0 pool0] eqn:Ep; [congruence|]. rewrite <- Ep in *.
  unfold occlude_list in E. destruct (std_sort pool) as [|s0 s1] eqn:Es; [apply Permutation_sym, Permutation_nil in PM; congruence|]. rewrite <- Es in *.
  assert (E1 : (if Nat.ltb maxc (length (std_sort pool)) then firstn maxc (std_sort pool) else std_sort pool) = firstn maxc (std_sort pool)).
  { destruct (Nat.ltb_spec maxc (length (std_sort pool))); [reflexivity|]. now rewrite firstn_all2. }
  rewrite E1 in E. set (pool1 := firstn maxc (std_sort pool)) in *.
  assert (I0 : ramp_inv dist location alpha degree pool1 [] (repeat fzero (length pool1))).
  { split; [intros x []|]. split; [constructor|]. split; [constructor|]. split; [apply Nat.le_0_l|].
    clear. induction pool1 as [|c l IH]; cbn; constructor; auto. split; [discriminate|]. split; [intros []|]. split; [now left|intros _ k []]. }
  destruct (ramp_ok dist location alpha degree A2 pool1 (sorted_firstn _ _ _ S) fuel 0 [] (repeat fzero (length pool1)) r I0 A1 E) as (new & fs & RI & RE & D & H).
  exists new, fs. cbn [app] in *. split; [assumption|]. split; [assumption|]. split; [assumption|]. destruct pool1 as [|c l]; [exact I|].
  cbn [length repeat] in H. intros Hd. apply H; [exact Hd|reflexivity].
Qed.
