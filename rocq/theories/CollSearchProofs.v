(** Proofs about searching a disk collection *)
From Verif Require Export CollSearchSpec.

(** ** Keeping the best, by any strict weak ordering *)
Section Keep.
Context {A : Type} (less : A -> A -> bool).
Definition among (k : nat) (all l : list A) : Prop :=
  length l <= k /\ exists rest, Permutation all (l ++ rest) /\ (rest <> [] -> length l = k) /\ forall x y, In x l -> In y rest -> less y x = false.
Lemma among_nil k : among k [] [].
Proof. split; [cbn; lia|]. exists []. split; [constructor|]. split; [congruence|]. intros ? ? []. Qed.
Lemma among_length k all l : among k all l -> length l = Nat.min k (length all).
Proof.
  intros (L & rest & P & F & _). apply Permutation_length in P. rewrite app_length in P. destruct rest; cbn [length] in P; [lia|]. specialize (F ltac:(discriminate)). lia.
Qed.
Lemma among_perm k all l l' : among k all l -> Permutation l l' -> among k all l'.
Proof.
  intros (L & rest & P & F & B) Q. pose proof (Permutation_length Q) as QL. split; [lia|]. exists rest. split; [rewrite P; now apply Permutation_app_tail|]. split; [intros H; rewrite <- QL; auto|].
  intros x y Hx Hy. apply B; [|assumption]. eapply Permutation_in; [symmetry; exact Q|assumption].
Qed.
Lemma among_perm_all k all all' l : among k all l -> Permutation all all' -> among k all' l.
Proof. intros (L & rest & P & F & B) Q. split; [assumption|]. exists rest. split; [now rewrite <- Q|auto]. Qed.
Lemma order_incl l l' : weak_order less l -> incl l' l -> weak_order less l'.
Proof. intros [I T N] H. constructor; intros; [apply I|eapply T with (b := b)|eapply N with (b := b)]; auto. Qed.
Lemma perm_incl (l l' : list A) : Permutation l l' -> incl l' l.
Proof. intros P x Hx. eapply Permutation_in; [symmetry; exact P|exact Hx]. Qed.
Lemma order_asym l a b : weak_order less l -> In a l -> In b l -> less a b = true -> less b a = false.
Proof. intros [I T _] Ha Hb H. destruct (less b a) eqn:E; [|reflexivity]. rewrite <- (I a Ha). symmetry. eapply T; [| |exact Ha| |]; eauto. Qed.
(** The first element of a heap is the largest. *)
Lemma heap_front x l : weak_order less (x :: l) -> heap less (x :: l) -> forall y, In y (x :: l) -> less x y = false.
Proof.
  intros W H. assert (G : forall i y, nth_error (x :: l) i = Some y -> less x y = false).
  { induction i as [i IH] using lt_wf_ind. intros y Hy. destruct i as [|i].
    - cbn in Hy. injection Hy as <-. apply (wo_irreflexive _ _ W). now left.
    - assert (LT : (S i - 1) / 2 < S i) by (apply Nat.div_lt_upper_bound; lia). destruct (nth_error (x :: l) ((S i - 1) / 2)) as [p|] eqn:E.
      + apply (wo_incomparable _ _ W x p y); [now left|eapply nth_error_In; exact E|eapply nth_error_In; exact Hy|apply (IH _ LT); exact E|]. apply (H (S i)); [lia|exact E|exact Hy].
      + apply nth_error_None in E. assert (S i < length (x :: l)) by (apply nth_error_Some; congruence). lia. }
  intros y Hy. apply In_nth_error in Hy. destruct Hy as [i Hy]. exact (G i y Hy).
Qed.
Lemma heap_nil : heap less [].
Proof. intros i a b _ _ H. destruct i; discriminate. Qed.
(** Sorting and cutting gives the best. *)
Lemma sorted_app l1 l2 (R : A -> A -> Prop) : StronglySorted R (l1 ++ l2) -> StronglySorted R l1 /\ (forall a b, In a l1 -> In b l2 -> R a b).
Proof.
  induction l1 as [|x l1 IH]; cbn [app]; intros H; [split; [constructor|intros ? ? []]|]. inversion H as [|? ? S F]; subst. destruct (IH S) as [S1 C]. rewrite Forall_forall in F. split.
  - constructor; [exact S1|]. apply Forall_forall. intros y Hy. apply F. apply in_or_app. now left.
  - intros a b [<-|Ha] Hb; [apply F; apply in_or_app; now right|now apply C].
Qed.
Lemma sorted_among k all l : Permutation all l -> StronglySorted (fun a b => less b a = false) l -> among k all (firstn k l).
Proof.
  intros P S. rewrite <- (firstn_skipn k l) in S. destruct (sorted_app _ _ _ S) as [_ C]. split; [rewrite firstn_length; lia|]. exists (skipn k l). rewrite firstn_skipn. split; [exact P|]. split; [|exact C].
  intros NE. rewrite firstn_length. destruct (Nat.le_gt_cases (length l) k); [|lia]. contradict NE. now apply skipn_all2.
Qed.
(** The best of the best of the parts are the best of all. *)
Lemma filter_le (f : A -> bool) l : length (filter f l) <= length l.
Proof. induction l as [|x l IH]; cbn [filter length]; [lia|]. destruct (f x); cbn [length]; lia. Qed.
Lemma filter_lt (f : A -> bool) l x : In x l -> f x = false -> length (filter f l) < length l.
Proof.
  intros Hx F. induction l as [|y l IH]; [destruct Hx|]. cbn [filter length]. destruct Hx as [->|Hx]; [rewrite F; pose proof (filter_le f l); lia|]. specialize (IH Hx). destruct (f y); cbn [length]; lia.
Qed.
Lemma filter_all (f : A -> bool) l : (forall x, In x l -> f x = true) -> length (filter f l) = length l.
Proof. induction l as [|y l IH]; intros H; [reflexivity|]. cbn [filter]. rewrite (H y) by now left. cbn [length]. rewrite IH; [reflexivity|]. intros x Hx. apply H. now right. Qed.
Lemma filter_none (f : A -> bool) l : (forall x, In x l -> f x = false) -> filter f l = [].
Proof. induction l as [|y l IH]; intros H; [reflexivity|]. cbn [filter]. rewrite (H y) by now left. apply IH. intros x Hx. apply H. now right. Qed.
Lemma filter_perm (f : A -> bool) l l' : Permutation l l' -> Permutation (filter f l) (filter f l').
Proof.
  induction 1 as [|x l l' P IH|x y l|l l' l'' P IH P' IH']; cbn [filter]; [constructor|..].
  - destruct (f x); [now constructor|exact IH].
  - destruct (f x), (f y); try reflexivity. constructor.
  - now transitivity (filter f l').
Qed.
Lemma among_parts k (parts bests : list (list A)) out : weak_order less (concat parts) -> Forall2 (among k) parts bests -> among k (concat bests) out -> among k (concat parts) out.
Proof.
  intros W F (L & rest & P & FU & B).
  assert (R : exists rests, Permutation (concat parts) (concat bests ++ rests)
      /\ forall y, In y rests -> exists b, incl b (concat bests) /\ (forall f, length (filter f b) <= length (filter f (concat bests))) /\ length b = k /\ forall x, In x b -> less y x = false).
  { clear - F. induction F as [|p b parts bests (LB & r & PB & FB & BB) F IH]; [exists []; split; [constructor|intros ? []]|]. destruct IH as (rs & PR & RR). exists (r ++ rs). cbn [concat]. split.
    - rewrite PB, PR, <- !app_assoc. apply Permutation_app_head. rewrite !app_assoc. apply Permutation_app_tail. apply Permutation_app_comm.
    - intros y Hy. apply in_app_or in Hy as [Hy|Hy].
      + exists b. split; [apply incl_appl, incl_refl|]. split; [intros f; rewrite filter_app, app_length; lia|]. split; [apply FB; intros ->; destruct Hy|]. intros x Hx. now apply BB.
      + destruct (RR y Hy) as (b' & I & FL & LB' & BB'). exists b'. split; [now apply incl_appr|]. split; [intros f; rewrite filter_app, app_length; specialize (FL f); lia|]. auto. }
  destruct R as (rests & PR & RR). split; [exact L|]. exists (rest ++ rests). split; [rewrite PR, P, <- app_assoc; reflexivity|].
  assert (IB : incl (concat bests) (concat parts)) by (intros z Hz; eapply Permutation_in; [symmetry; exact PR|apply in_or_app; now left]).
  assert (IO : incl out (concat parts)) by (intros z Hz; apply IB; eapply Permutation_in; [symmetry; exact P|apply in_or_app; now left]).
  assert (IR : incl rests (concat parts)) by (intros z Hz; eapply Permutation_in; [symmetry; exact PR|apply in_or_app; now right]).
  split.
  - intros NE. destruct rest as [|z rest]; [|apply FU; discriminate]. cbn [app] in NE. destruct rests as [|y rests]; [congruence|]. destruct (RR y ltac:(now left)) as (b & _ & FL & LB & _).
    specialize (FL (fun _ => true)). rewrite !filter_all in FL by reflexivity. rewrite app_nil_r in P. apply Permutation_length in P. lia.
  - intros x y Hx Hy. apply in_app_or in Hy as [Hy|Hy]; [now apply B|]. destruct (RR y Hy) as (b & I & FL & LB & BB). destruct (less y x) eqn:E; [|reflexivity]. exfalso.
    assert (BX : forall z, In z b -> less z x = true).
    { intros z Hz. destruct (less z x) eqn:EZ; [reflexivity|]. rewrite <- E. symmetry. apply (wo_incomparable _ _ W y z x); auto. }
    specialize (FL (fun z => less z x)). rewrite (filter_all (fun z => less z x) b) in FL by exact BX. pose proof (Permutation_length (filter_perm (fun z => less z x) _ _ P)) as PL. rewrite filter_app, app_length in PL.
    rewrite (filter_none (fun z => less z x) rest) in PL by (intros z Hz; now apply B). cbn [length] in PL.
    pose proof (filter_lt (fun z => less z x) out x Hx (wo_irreflexive _ _ W x (IO x Hx))). lia.
Qed.
End Keep.

(** ** The heap of a flat segment *)
Lemma flat_before a b : numeric a -> numeric b -> flat_less a b = true <-> before a b.
Proof.
  unfold numeric, flat_less, before. destruct a as [la [x|]], b as [lb [y|]]; cbn [fst snd feqb fltb]; try congruence. intros _ _. destruct (Z.eqb_spec x y); cbn [negb]; [rewrite N.ltb_lt; lia|rewrite Z.ltb_lt; lia].
Qed.
Lemma flat_not_before a b : numeric a -> numeric b -> flat_less a b = false <-> ~ before a b.
Proof. intros NA NB. rewrite <- (flat_before a b NA NB). destruct (flat_less a b); split; congruence. Qed.
Lemma before_irrefl a : ~ before a a.
Proof. unfold before. destruct (snd a); lia. Qed.
Lemma before_trans a b c : before a b -> before b c -> before a c.
Proof. unfold before. destruct (snd a), (snd b), (snd c); try tauto; lia. Qed.
Lemma not_before_trans a b c : ~ before a b -> ~ before b c -> ~ before a c.
Proof. unfold before. destruct (snd a), (snd b), (snd c); try tauto; lia. Qed.
Lemma before_total a b : ~ before a b -> ~ before b a -> a = b.
Proof.
  destruct a as [la [x|]], b as [lb [y|]]; unfold before; cbn [fst snd]; intros H1 H2; try tauto.
  - assert (x = y) by lia. assert (la = lb) by lia. congruence.
  - assert (la = lb) by lia. congruence.
Qed.
Lemma flat_order l : Forall numeric l -> weak_order flat_less l.
Proof.
  intros F. rewrite Forall_forall in F. constructor.
  - intros a Ha. apply flat_not_before; auto. apply before_irrefl.
  - intros a b c Ha Hb Hc. rewrite !flat_before by auto. apply before_trans.
  - intros a b c Ha Hb Hc. rewrite !flat_not_before by auto. apply not_before_trans.
Qed.
Lemma hit_before a b : hit_less a b = true <-> before a b.
Proof.
  unfold hit_less, before, distance_equal, distance_less. destruct a as [la [x|]], b as [lb [y|]]; cbn [fst snd isnan andb orb negb feqb fltb].
  - destruct (Z.eqb_spec x y); cbn [negb]; [rewrite N.ltb_lt; lia|rewrite Z.ltb_lt; lia].
  - tauto.
  - split; [discriminate|tauto].
  - apply N.ltb_lt.
Qed.
Lemma hit_not_before a b : hit_less a b = false <-> ~ before a b.
Proof. rewrite <- hit_before. destruct (hit_less a b); split; congruence. Qed.
Lemma hit_order l : weak_order hit_less l.
Proof.
  constructor.
  - intros a _. apply hit_not_before, before_irrefl.
  - intros a b c _ _ _. rewrite !hit_before. apply before_trans.
  - intros a b c _ _ _. rewrite !hit_not_before. apply not_before_trans.
Qed.
(** The tagged order refines the order of the hits. *)
Definition tagged_before (a b : tagged) : Prop := before (fst a) (fst b) \/ fst a = fst b /\ (snd a < snd b)%N.
Lemma tagged_is_before a b : tagged_less a b = true <-> tagged_before a b.
Proof.
  unfold tagged_less, tagged_before, before, distance_equal, distance_less. destruct a as [[la [x|]] sa], b as [[lb [y|]] sb]; cbn [fst snd isnan andb orb negb feqb fltb].
  - destruct (Z.eqb_spec x y) as [->|NE]; cbn [negb].
    + destruct (N.eqb_spec la lb) as [->|NL]; cbn [negb]; rewrite N.ltb_lt; split; [intros L; right; split; [reflexivity|exact L]|intros [[?|?]|[_ ?]]; lia|intros L; left; lia|intros [[?|?]|[E ?]]; [lia|lia|congruence]].
    + rewrite Z.ltb_lt. split; [intros L; left; lia|intros [[?|?]|[E ?]]; [lia|lia|congruence]].
  - split; [intros _; left; exact I|reflexivity].
  - split; [discriminate|intros [[]|[E _]]; discriminate E].
  - destruct (N.eqb_spec la lb) as [->|NL]; cbn [negb]; rewrite N.ltb_lt; split; [intros L; right; split; [reflexivity|exact L]|intros [?|[_ ?]]; lia|intros L; left; lia|intros [?|[E ?]]; [lia|congruence]].
Qed.
Lemma tagged_not_before a b : tagged_less a b = false -> ~ before (fst a) (fst b).
Proof. intros H B. assert (T : tagged_less a b = true) by (apply tagged_is_before; now left). congruence. Qed.
Lemma tagged_order l : weak_order tagged_less l.
Proof.
  assert (NT : forall a b, tagged_less a b = false <-> ~ tagged_before a b) by (intros a b; rewrite <- tagged_is_before; destruct (tagged_less a b); split; congruence). unfold tagged_before in NT.
  constructor.
  - intros a _. apply NT. intros [B|[_ B]]; [exact (before_irrefl _ B)|lia].
  - intros a b c _ _ _. rewrite !tagged_is_before. unfold tagged_before. intros [B1|[E1 L1]] [B2|[E2 L2]].
    + left. exact (before_trans _ _ _ B1 B2).
    + left. now rewrite <- E2.
    + left. now rewrite E1.
    + right. split; [congruence|lia].
  - intros a b c _ _ _. rewrite !NT. intros N1 N2 [B|[E L]].
    + apply N1. left. destruct (hit_less (fst a) (fst b)) eqn:H1; [now apply hit_before|]. exfalso. apply hit_not_before in H1. apply N2. left.
      destruct (hit_less (fst b) (fst c)) eqn:H2; [now apply hit_before|]. apply hit_not_before in H2. exfalso. exact (not_before_trans _ _ _ H1 H2 B).
    + destruct (hit_less (fst a) (fst b)) eqn:H1; [apply hit_before in H1; now apply N1; left|]. destruct (hit_less (fst b) (fst a)) eqn:H2; [apply hit_before in H2; rewrite E in H2; now apply N2; left|].
      apply hit_not_before in H1, H2. assert (fst a = fst b) by now apply before_total. apply N1. right. split; [assumption|]. destruct (N.ltb_spec (snd a) (snd b)) as [|GE]; [assumption|]. exfalso. apply N2. right. split; [congruence|lia].
Qed.

(** ** Best *)
Lemma among_best k rows out : among hit_less k rows out -> StronglySorted (fun a b => hit_less b a = false) out -> best k rows out.
Proof.
  intros K S. pose proof (among_length _ _ _ _ K) as L. destruct K as (_ & rest & P & _ & B). exists rest. split; [exact P|]. split; [exact L|]. split.
  - clear - S. induction S as [|a l S IH F]; constructor; [exact IH|]. eapply Forall_impl; [|exact F]. intros b. apply hit_not_before.
  - intros a b Ha Hb. apply hit_not_before. now apply B.
Qed.
Lemma best_among k rows out : best k rows out -> among hit_less k rows out /\ StronglySorted (fun a b => hit_less b a = false) out.
Proof.
  intros (rest & P & L & S & B). split.
  - split; [lia|]. exists rest. split; [exact P|]. split.
    + intros NE. apply Permutation_length in P. rewrite app_length in P. destruct rest; [congruence|]. cbn [length] in P. lia.
    + intros x y Hx Hy. apply hit_not_before. now apply B.
  - clear - S. induction S as [|a l S IH F]; constructor; [exact IH|]. eapply Forall_impl; [|exact F]. intros b. apply hit_not_before.
Qed.
(** The rows determine the best. *)
Lemma sorted_unique l : forall l', Permutation l l' -> StronglySorted (fun a b => ~ before b a) l -> StronglySorted (fun a b => ~ before b a) l' -> l = l'.
Proof.
  induction l as [|a l IH]; intros l' P S S'; [symmetry; now apply Permutation_nil|]. destruct l' as [|b l']; [symmetry in P; apply Permutation_nil in P; discriminate P|].
  inversion S as [|? ? S1 F1]; subst. inversion S' as [|? ? S2 F2]; subst. rewrite Forall_forall in F1, F2.
  assert (E : a = b).
  { assert (Ia : In a (b :: l')) by (eapply Permutation_in; [exact P|now left]). assert (Ib : In b (a :: l)) by (eapply Permutation_in; [symmetry; exact P|now left]).
    destruct Ia as [->|Ia]; [reflexivity|]. destruct Ib as [->|Ib]; [reflexivity|]. apply before_total; [now apply F2|now apply F1]. }
  subst b. f_equal. apply IH; [now apply Permutation_cons_inv in P|exact S1|exact S2].
Qed.
Lemma best_unique k rows out out' : best k rows out -> best k rows out' -> out = out'.
Proof.
  intros (r & P & L & S & B) (r' & P' & L' & S' & B'). assert (LL : length out = length out') by lia.
  (* both lists extended by their sorted rests are sorted permutations of the rows *)
  assert (EX : forall l : list hit, exists s, Permutation l s /\ StronglySorted (fun a b => ~ before b a) s).
  { induction l as [|a l (s & PS & SS)]; [exists []; split; constructor|]. assert (IN : exists s', Permutation (a :: s) s' /\ StronglySorted (fun a b => ~ before b a) s').
    { clear - SS. induction SS as [|b s SS IH F].
      - exists [a]. split; [constructor; constructor|repeat constructor].
      - destruct (hit_less b a) eqn:E.
        + apply hit_before in E. destruct IH as (s' & PS & SS'). exists (b :: s'). split; [rewrite <- PS; constructor|]. constructor; [exact SS'|]. apply Forall_forall. intros c Hc.
          rewrite Forall_forall in F. assert (Hc' : In c (a :: s)) by (eapply Permutation_in; [symmetry; exact PS|exact Hc]). destruct Hc' as [<-|Hc']; [|now apply F]. intros B. exact (before_irrefl _ (before_trans _ _ _ E B)).
        + apply hit_not_before in E. exists (a :: b :: s). split; [reflexivity|]. constructor; [now constructor|]. constructor; [exact E|]. eapply Forall_impl; [|exact F]. intros c NC. exact (not_before_trans _ _ _ NC E). }
    destruct IN as (s' & P1 & S1). exists s'. split; [rewrite <- P1; now constructor|exact S1]. }
  destruct (EX r) as (s & PS & SS). destruct (EX r') as (s' & PS' & SS').
  assert (AP : forall l1 l2, StronglySorted (fun a b => ~ before b a) l1 -> StronglySorted (fun a b => ~ before b a) l2 -> (forall a b, In a l1 -> In b l2 -> ~ before b a) -> StronglySorted (fun a b => ~ before b a) (l1 ++ l2)).
  { clear. induction l1 as [|a l1 IH]; intros l2 S1 S2 C; [exact S2|]. inversion S1; subst. cbn [app]. constructor; [apply IH; auto; intros; apply C; auto; now right|]. apply Forall_app. split; [assumption|]. apply Forall_forall. intros b Hb. apply C; [now left|exact Hb]. }
  assert (E : out ++ s = out' ++ s').
  { apply sorted_unique.
    - rewrite <- PS, <- PS', <- P, <- P'. reflexivity.
    - apply AP; auto. intros a b Ha Hb. apply B; [exact Ha|]. eapply Permutation_in; [symmetry; exact PS|exact Hb].
    - apply AP; auto. intros a b Ha Hb. apply B'; [exact Ha|]. eapply Permutation_in; [symmetry; exact PS'|exact Hb]. }
  assert (FA : forall a b : list hit, firstn (length a) (a ++ b) = a) by (intros a b; rewrite firstn_app, Nat.sub_diag, firstn_all, app_nil_r; reflexivity).
  rewrite <- (FA out s), E, LL. apply FA.
Qed.
Lemma best_perm k rows rows' out : Permutation rows rows' -> best k rows out -> best k rows' out.
Proof. intros Q (r & P & L & S & B). exists r. split; [now rewrite <- Q|]. split; [rewrite <- (Permutation_length Q); exact L|auto]. Qed.

Section Lib.
Variable lib : std_lib.
Hypothesis OK : std_lib_ok lib.

Lemma flat_insert_among k all l c : 0 < k -> Forall numeric (all ++ [c]) -> heap flat_less l -> among flat_less k all l ->
  exists l', flat_insert lib k l c = Ok l' /\ heap flat_less l' /\ among flat_less k (all ++ [c]) l'.
Proof.
  intros Hk NU H K. unfold flat_insert. pose proof K as (L & rest & P & F & B). pose proof (flat_order _ NU) as W.
  assert (IL : incl l (all ++ [c])) by (intros z Hz; apply in_or_app; left; eapply Permutation_in; [symmetry; exact P|apply in_or_app; now left]).
  assert (IR : incl rest (all ++ [c])) by (intros z Hz; apply in_or_app; left; eapply Permutation_in; [symmetry; exact P|apply in_or_app; now right]).
  assert (IC : In c (all ++ [c])) by (apply in_or_app; right; now left).
  destruct (Nat.ltb_spec (length l) k) as [Lt|Ge].
  - destruct (push_ok lib OK _ flat_less l c ltac:(eapply order_incl; [exact W|]; apply incl_app; [exact IL|intros z [<-|[]]; exact IC]) H) as [P' H']. eexists. split; [reflexivity|]. split; [assumption|].
    apply among_perm with (l := l ++ [c]); [|assumption].
    assert (rest = []) by (destruct rest as [|r rest]; [reflexivity|]; specialize (F ltac:(discriminate)); lia). subst rest.
    rewrite app_nil_r in P. split; [rewrite app_length; cbn; lia|]. exists []. rewrite app_nil_r.
    split; [now apply Permutation_app_tail|]. split; [congruence|]. intros ? ? ? [].
  - destruct l as [|front l]; [cbn in Ge; lia|]. assert (WL : weak_order flat_less (front :: l)) by (eapply order_incl; [exact W|exact IL]). pose proof (heap_front flat_less front l WL H) as Top.
    destruct (flat_less c front) eqn:C.
    + destruct (pop_ok lib OK _ flat_less front l WL H) as (l1 & -> & P1 & H1).
      assert (E : l1 ++ [front] <> []) by (destruct l1; discriminate).
      destruct (l1 ++ [front]) as [|z zs] eqn:Ez; [congruence|]. rewrite <- Ez. clear E Ez z zs.
      assert (IL1 : incl l1 (all ++ [c])) by (intros z Hz; apply IL; right; eapply Permutation_in; [symmetry; exact P1|exact Hz]).
      rewrite removelast_last. destruct (push_ok lib OK _ flat_less l1 c ltac:(eapply order_incl; [exact W|]; apply incl_app; [exact IL1|intros z [<-|[]]; exact IC]) H1) as [P2 H2].
      eexists. split; [reflexivity|]. split; [assumption|]. apply among_perm with (l := l1 ++ [c]); [|assumption].
      pose proof (Permutation_length P1) as Q1. cbn [length] in *. split; [rewrite app_length; cbn; lia|].
      exists (front :: rest). split; [|split].
      * rewrite P. transitivity ((front :: l1 ++ rest) ++ [c]).
        -- apply Permutation_app_tail. cbn [app]. constructor. now apply Permutation_app_tail.
        -- cbn [app]. apply Permutation_cons_app. rewrite <- !app_assoc. apply Permutation_app_head. apply Permutation_app_comm.
      * intros _. rewrite app_length. cbn. lia.
      * assert (IF : In front (all ++ [c])) by (apply IL; now left). intros x y Hx Hy. apply in_app_or in Hx as [Hx|[<-|[]]].
        -- assert (Hx' : In x (front :: l)) by (right; eapply Permutation_in; [symmetry; exact P1|assumption]).
           destruct Hy as [<-|Hy]; [now apply Top|now apply B].
        -- apply (wo_incomparable _ _ W y front c); auto; [destruct Hy as [<-|Hy]; auto|..].
           ++ destruct Hy as [<-|Hy]; [now apply (wo_irreflexive _ _ W)|]. apply B; [now left|assumption].
           ++ now apply (order_asym _ _ _ _ W).
    + eexists. split; [reflexivity|]. split; [assumption|]. split; [exact L|]. exists (rest ++ [c]). split; [rewrite app_assoc; now apply Permutation_app_tail|]. split; [intros _; lia|].
      intros x y Hx Hy. apply in_app_or in Hy as [Hy|[<-|[]]]; [now apply B|]. apply (wo_incomparable _ _ W c front x); auto. apply IL. now left.
Qed.
Lemma flat_scan_among k cs : 0 < k -> forall all l, Forall numeric (all ++ cs) -> heap flat_less l -> among flat_less k all l ->
  exists l', flat_scan lib k l cs = Ok l' /\ heap flat_less l' /\ among flat_less k (all ++ cs) l'.
Proof.
  intros Hk. induction cs as [|c cs IH]; intros all l NU H K; cbn [flat_scan].
  - exists l. rewrite app_nil_r. auto.
  - change (c :: cs) with ([c] ++ cs) in *. rewrite app_assoc in NU. destruct (flat_insert_among k all l c Hk ltac:(apply Forall_app in NU; apply NU) H K) as (l1 & -> & H1 & K1). cbn [bind].
    destruct (IH _ _ NU H1 K1) as (l2 & E & H2 & K2). cbn [app] in E |- *. rewrite E. exists l2. rewrite <- app_assoc in K2. auto.
Qed.
Lemma among_min k (all l : list hit) : among flat_less (Nat.min k (length all)) all l -> among flat_less k all l.
Proof.
  intros (L & rest & P & F & B). split; [lia|]. exists rest. split; [exact P|]. split; [|exact B]. intros NE. specialize (F NE). apply Permutation_length in P. rewrite app_length in P. destruct rest; [congruence|]. cbn [length] in P. lia.
Qed.
Lemma flat_best rows k : 0 < k -> Forall numeric rows -> exists out, flat_search lib true rows k = Ok out /\ best k rows out.
Proof.
  intros Hk NU. unfold flat_search. destruct (Nat.eqb_spec k 0); [lia|]. cbn [negb]. destruct rows as [|r rows].
  - cbn [length]. rewrite Nat.min_0_r. cbn [flat_scan bind]. destruct (sort_ok lib OK _ flat_less (@nil hit) (flat_order _ NU)) as [P _]. apply Permutation_nil in P. rewrite P. exists []. split; [reflexivity|].
    exists []. split; [constructor|]. split; [cbn; lia|]. split; [constructor|]. intros ? ? [].
  - destruct (flat_scan_among (Nat.min k (length (r :: rows))) (r :: rows) ltac:(cbn [length]; lia) [] [] NU (heap_nil _) (among_nil _ _)) as (l & -> & H & K). cbn [bind app] in *. apply among_min in K.
    assert (IL : Forall numeric l). { destruct K as (_ & rest & P & _). rewrite Forall_forall in *. intros x Hx. apply NU. eapply Permutation_in; [symmetry; exact P|apply in_or_app; now left]. }
    destruct (sort_ok lib OK _ flat_less l (flat_order _ IL)) as [PS SS]. eexists. split; [reflexivity|]. apply among_perm with (l' := sort lib flat_less l) in K; [|exact PS].
    assert (IS : Forall numeric (sort lib flat_less l)) by (rewrite Forall_forall in *; intros x Hx; apply IL; eapply Permutation_in; [symmetry; exact PS|exact Hx]).
    pose proof (among_length _ _ _ _ K) as LL. destruct K as (_ & rest & P & _ & B). exists rest. split; [exact P|]. split; [exact LL|].
    assert (NR : forall y, In y rest -> numeric y) by (rewrite Forall_forall in NU; intros y Hy; apply NU; eapply Permutation_in; [symmetry; exact P|apply in_or_app; now right]).
    split.
    + clear - SS IS. induction SS as [|a s SS IH F]; constructor; inversion IS as [|? ? NA NS]; subst; [now apply IH|]. rewrite Forall_forall in *. intros b Hb. apply flat_not_before; auto.
    + rewrite Forall_forall in IS. intros a b Ha Hb. apply flat_not_before; auto.
Qed.

(** ** Merging *)
Lemma gather_ok k : forall segments rows s, Forall2 (fun seg r => exists out, seg k = Ok out /\ best k r out) segments rows ->
  exists all bests, gather segments k s = Ok all /\ map fst all = concat bests /\ Forall2 (best k) rows bests.
Proof.
  intros segments rows s F. revert s. induction F as [|seg r segments rows (out & E & BO) F IH]; intros s; cbn [gather]; [exists [], []; split; [reflexivity|]; split; [reflexivity|constructor]|].
  destruct (IH (s + 1)%N) as (all & bests & G & M & FB). rewrite E. cbn [bind]. rewrite G. cbn [bind]. exists (map (fun h => (h, s)) out ++ all), (out :: bests). split; [reflexivity|]. split; [|now constructor].
  cbn [concat]. rewrite map_app, map_map, M, map_id. reflexivity.
Qed.
Lemma merge_best k segments rows : 0 < k -> Forall2 (fun seg r => exists out, seg k = Ok out /\ best k r out) segments rows ->
  exists out, search_segments lib segments k = Ok out /\ best k (concat rows) out.
Proof.
  intros Hk F. unfold search_segments. destruct (Nat.eqb_spec k 0); [lia|]. destruct F as [|seg r segments rows (out & E & BO) F].
  - exists []. split; [reflexivity|]. exists []. split; [constructor|]. split; [cbn; lia|]. split; [constructor|]. intros ? ? [].
  - destruct F as [|seg2 r2 segments rows F2 F].
    + rewrite E. cbn [bind concat]. rewrite app_nil_r. destruct (best_among _ _ _ BO) as [K S]. destruct (sort_ok lib OK _ hit_less out (hit_order _)) as [P SS]. eexists. split; [reflexivity|].
      pose proof (among_perm _ _ _ _ _ K P) as K2. rewrite firstn_all2 by (destruct K2; assumption). now apply among_best.
    + assert (F' : Forall2 (fun seg r => exists out, seg k = Ok out /\ best k r out) (seg :: seg2 :: segments) (r :: r2 :: rows)) by (constructor; [eauto|constructor; assumption]).
      destruct (gather_ok k _ _ 0%N F') as (all & bests & -> & M & FB). cbn [bind]. destruct (sort_ok lib OK _ tagged_less all (tagged_order _)) as [P SS]. eexists. split; [reflexivity|].
      set (all' := sort lib tagged_less all) in *.
      assert (FE : firstn (Nat.min k (length all)) all' = firstn k all'). { pose proof (Permutation_length P). destruct (Nat.le_gt_cases k (length all)); [now rewrite Nat.min_l|]. rewrite Nat.min_r by lia. rewrite !firstn_all2 by lia. reflexivity. }
      rewrite FE. assert (SM : StronglySorted (fun a b => hit_less b a = false) (map fst all')).
      { clear - SS. induction SS as [|a s SS IH F]; cbn [map]; constructor; [exact IH|]. apply Forall_map. eapply Forall_impl; [|exact F]. intros b H. apply hit_not_before. now apply tagged_not_before in H. }
      assert (PM : Permutation (concat bests) (map fst all')) by (rewrite <- M; now apply Permutation_map).
      rewrite <- firstn_map. pose proof (sorted_among hit_less k _ _ PM SM) as K.
      apply among_best.
      * apply (among_parts hit_less k (r :: r2 :: rows) bests); [apply hit_order| |exact K]. clear - FB. induction FB as [|p b ps bs B1 FB IH]; constructor; [now apply best_among in B1|exact IH].
      * rewrite <- (firstn_skipn k (map fst all')) in SM. now apply sorted_app in SM.
Qed.
End Lib.
