(** Proofs about the entry point of a Vamana graph. *)
From Coq Require Import Permutation Sorting.Sorted.
From Verif Require Import VBuildSpec.

(** The first entry with the least number below that of [best]. *)
Lemma scan_spec : forall l best, 
  (scan_best best l = best /\ (forall i v, In (i, Some v) l -> (fst best <= v)%Z))
  \/ exists l1 i v l2, l = l1 ++ (i, Some v) :: l2 /\ scan_best best l = (v, i) /\ (v < fst best)%Z
       /\ (forall j w, In (j, Some w) l1 -> (v < w)%Z) /\ (forall j w, In (j, Some w) l2 -> (v <= w)%Z).
Proof.
  induction l as [|[i d] l IH]; intros best; cbn [scan_best]; [left; split; [reflexivity|intros ? ? []]|].
  assert (Skip : scan_best best ((i, d) :: l) = scan_best best l -> (forall v, d = Some v -> (fst best <= v)%Z) ->
    (scan_best best l = best /\ (forall j v, In (j, Some v) ((i, d) :: l) -> (fst best <= v)%Z))
    \/ exists l1 j v l2, (i, d) :: l = l1 ++ (j, Some v) :: l2 /\ scan_best best l = (v, j) /\ (v < fst best)%Z
       /\ (forall j w, In (j, Some w) l1 -> (v < w)%Z) /\ (forall j w, In (j, Some w) l2 -> (v <= w)%Z)).
  { intros _ Hd. destruct (IH best) as [[E H]|(l1 & j & v & l2 & -> & E & Lt & A & B)].
    - left. split; [assumption|]. intros k w [K|K]; [injection K as -> ->; auto|eauto].
    - right. exists ((i, d) :: l1), j, v, l2. split; [reflexivity|]. split; [assumption|]. split; [assumption|]. split; [|assumption].
      intros k w [K|K]; [|eauto]. injection K as -> ->. specialize (Hd w eq_refl). lia. }
  destruct d as [v|]; [|apply Skip; [reflexivity|discriminate]].
  destruct (Z.ltb_spec v (fst best)) as [Lt|Ge].
  - right. destruct (IH (v, i)) as [[E H]|(l1 & j & w & l2 & -> & E & Lw & A & B)]; cbn [fst] in *.
    + exists [], i, v, l. split; [reflexivity|]. split; [assumption|]. split; [assumption|]. split; [intros ? ? []|exact H].
    + exists ((i, Some v) :: l1), j, w, l2. split; [reflexivity|]. split; [assumption|]. split; [lia|]. split; [|assumption].
      intros k u [K|K]; [injection K as -> ->; assumption|eauto].
  - apply Skip; [cbn [scan_best]; destruct (Z.ltb_spec v (fst best)); [lia|reflexivity]|]. intros w E. injection E as <-. assumption.
Qed.
Lemma merge_scan : forall l best, fold_left merge_best l best = scan_best best (map (fun e => (snd e, Some (fst e))) l).
Proof.
  induction l as [|[v i] l IH]; intros best; cbn [fold_left map scan_best fst snd]; [reflexivity|]. rewrite IH. unfold merge_best. cbn [fst].
  destruct (Z.ltb v (fst best)); reflexivity.
Qed.

Section Entry.
  Variables (dists : list (option Z)) (T : N).
  Definition thread_of (i : N) : N := ((i / kBlock) mod T)%N.
  Lemma numbered (l : list (option Z)) : forall s i d, In (i, d) (combine (map N.of_nat (seq s (length l))) l) <->
    s <= N.to_nat i /\ nth_error l (N.to_nat i - s) = Some d.
  Proof using.
    clear. induction l as [|x l IH]; intros s i d; cbn [length seq map combine].
    - split; [intros []|]. intros [_ H]. destruct (N.to_nat i - s); discriminate.
    - cbn [In]. rewrite IH. split.
      + intros [E|[A B]].
        * injection E as <- <-. rewrite Nat2N.id, Nat.sub_diag. split; [lia|reflexivity].
        * split; [lia|]. replace (N.to_nat i - s) with (S (N.to_nat i - S s)) by lia. assumption.
      + intros [A B]. destruct (N.to_nat i - s) as [|k] eqn:E.
        * left. cbn in B. injection B as ->. f_equal. lia.
        * right. split; [lia|]. replace (N.to_nat i - S s) with k by lia. assumption.
  Qed.
  Lemma nodes_in t i d : In (i, d) (nodes_of dists T t) <-> nth_error dists (N.to_nat i) = Some d /\ thread_of i = t.
  Proof.
    unfold nodes_of. rewrite filter_In, numbered, N.eqb_eq. cbn [fst]. rewrite Nat.sub_0_r. unfold thread_of. split; [tauto|]. intros [A B]. split; [split; [lia|assumption]|assumption].
  Qed.
  Lemma numbered_sorted (l : list (option Z)) : forall s, StronglySorted (fun a b => (fst a < fst b)%N) (combine (map N.of_nat (seq s (length l))) l).
  Proof using.
    clear. induction l as [|x l IH]; intros s; cbn [length seq map combine]; constructor; auto.
    apply Forall_forall. intros [j d] H. apply numbered in H as [H _]. cbn [fst]. lia.
  Qed.
  Lemma sorted_filter {A} (R : A -> A -> Prop) f l : StronglySorted R l -> StronglySorted R (filter f l).
  Proof using.
    clear. induction 1 as [|x l S IH F]; cbn [filter]; [constructor|]. destruct (f x); [|assumption]. constructor; [assumption|].
    rewrite Forall_forall in *. intros y Hy. apply filter_In in Hy. now apply F.
  Qed.
  Lemma sorted_split {A} (R : A -> A -> Prop) l1 x l2 : StronglySorted R (l1 ++ x :: l2) -> (forall y, In y l1 -> R y x) /\ (forall y, In y l2 -> R x y).
  Proof using.
    clear. induction l1 as [|a l1 IH]; cbn [app]; intros S; apply StronglySorted_inv in S as [S F]; rewrite Forall_forall in F.
    - split; [intros ? []|assumption].
    - destruct (IH S) as [A1 A2]. split; [|assumption]. intros y [<-|Hy]; [|auto]. apply F, in_or_app. right. now left.
  Qed.
  Variable huge : Z.
  Definition local (t : N) : Z * N := scan_best (huge, 0%N) (nodes_of dists T t).
  Lemma local_spec t : (local t = (huge, 0%N) /\ forall i v, nth_error dists (N.to_nat i) = Some (Some v) -> thread_of i = t -> (huge <= v)%Z)
    \/ exists i v, local t = (v, i) /\ (v < huge)%Z /\ nth_error dists (N.to_nat i) = Some (Some v) /\ thread_of i = t
         /\ forall j w, nth_error dists (N.to_nat j) = Some (Some w) -> thread_of j = t -> (v < w)%Z \/ (v = w /\ (i <= j)%N) \/ (v < w)%Z.
  Proof.
    destruct (scan_spec (nodes_of dists T t) (huge, 0%N)) as [[E H]|(l1 & i & v & l2 & El & E & Lt & A & B)].
    - left. split; [exact E|]. intros i v Hi Ht. apply (H i v). now apply nodes_in.
    - right. exists i, v. cbn [fst] in Lt. split; [exact E|]. split; [assumption|].
      assert (Hi : In (i, Some v) (nodes_of dists T t)) by (rewrite El; apply in_or_app; right; now left).
      apply nodes_in in Hi as [Hi Ht]. split; [assumption|]. split; [assumption|]. intros j w Hj Hjt.
      assert (Ij : In (j, Some w) (nodes_of dists T t)) by (apply nodes_in; auto).
      assert (St : StronglySorted (fun a b => (fst a < fst b)%N) (nodes_of dists T t)) by (apply sorted_filter, numbered_sorted).
      rewrite El in Ij, St. apply sorted_split in St as [_ S2]. apply in_app_or in Ij as [Ij|[Ij|Ij]].
      + left. now apply A in Ij.
      + injection Ij as <- <-. right. left. split; [reflexivity|lia].
      + pose proof (B j w Ij). pose proof (S2 _ Ij) as S3. cbn [fst] in S3. destruct (Z.eq_dec v w); [right; left; split; [assumption|lia]|left; lia].
  Qed.
  Variable order : list N.
  Hypothesis HT : (0 < T)%N.
  Hypothesis Hord : Permutation order (map N.of_nat (seq 0 (N.to_nat T))).
  Lemma in_order i : In (thread_of i) order.
  Proof using HT Hord.
    clear huge. apply (Permutation_in _ (Permutation_sym Hord)). apply in_map_iff. exists (N.to_nat (thread_of i)). split; [apply N2Nat.id|].
    apply in_seq. assert (H : (thread_of i < T)%N) by (apply N.mod_lt; clear - HT; lia). lia.
  Qed.
  (** The entry point is a nearest node, of the first thread that has one, and
      the first of its nearest nodes. *)
  Lemma entry_spec : (entry_point huge dists T order = 0%N /\ forall i v, nth_error dists i = Some (Some v) -> (huge <= v)%Z)
    \/ exists o1 o2 i v, order = o1 ++ thread_of i :: o2 /\ entry_point huge dists T order = i /\ (v < huge)%Z /\ nth_error dists (N.to_nat i) = Some (Some v)
         /\ forall j w, nth_error dists (N.to_nat j) = Some (Some w) -> (v <= w)%Z /\ (v = w -> ~ In (thread_of j) o1 /\ (thread_of j = thread_of i -> (i <= j)%N)).
  Proof.
    unfold entry_point. rewrite merge_scan, map_map.
    destruct (scan_spec (map (fun t => (snd (local t), Some (fst (local t)))) order) (huge, 0%N)) as [[E H]|(l1 & i & v & l2 & El & E & Lt & A & B)]; unfold local in E; rewrite E; cbn [fst snd] in *.
    - left. split; [reflexivity|]. intros i v Hi. pose proof (in_order (N.of_nat i)) as Io.
      destruct (local_spec (thread_of (N.of_nat i))) as [[_ L]|(k & w & L & Lw & _ & _)].
      + apply (L (N.of_nat i) v); [now rewrite Nat2N.id|reflexivity].
      + exfalso. specialize (H k w). apply (in_map (fun t => (snd (local t), Some (fst (local t))))) in Io. rewrite L in Io. specialize (H Io). lia.
    - right. apply map_eq_app in El as (o1 & o2' & Eo & E1 & E2). destruct o2' as [|t o2]; [discriminate E2|]. cbn [map] in E2. injection E2 as Ei Ev E2.
      destruct (local_spec t) as [[L _]|(k & w & L & Lw & Hk & Kt & Hmin)]; rewrite L in Ei, Ev; cbn [fst snd] in Ei, Ev; [lia|]. subst k w.
      pose proof Hord as Ho. rewrite Eo in Ho. exists o1, o2, i, v. split; [now rewrite Kt|]. split; [reflexivity|]. split; [assumption|]. split; [assumption|]. intros j w Hj.
      pose proof (in_order j) as Io. rewrite Eo in Io. apply in_app_or in Io as [Io|[Io|Io]].
      + assert (v < w)%Z; [|split; [lia|intros; lia]].
        pose proof (in_map (fun t => (snd (local t), Some (fst (local t)))) _ _ Io) as Im. rewrite E1 in Im. cbn beta in Im. apply A in Im.
        destruct (local_spec (thread_of j)) as [[L2 M]|(k & u & L2 & _ & _ & _ & M)]; rewrite L2 in Im; cbn [fst] in Im.
        * specialize (M j w Hj eq_refl). lia.
        * destruct (M j w Hj eq_refl) as [K|[[K _]|K]]; lia.
      + subst t. destruct (Hmin j w Hj (eq_sym Io)) as [K|[[K K2]|K]]; (split; [lia|]); intros; try lia. split; [|auto].
        rewrite <- Io. assert (ND : NoDup (o1 ++ thread_of i :: o2)).
        { apply (Permutation_NoDup (Permutation_sym Ho)). apply FinFun.Injective_map_NoDup; [intros a b; lia|apply seq_NoDup]. }
        apply NoDup_remove_2 in ND. intros K3. apply ND, in_or_app. now left.
      + pose proof (in_map (fun t => (snd (local t), Some (fst (local t)))) _ _ Io) as Im. rewrite E2 in Im. cbn beta in Im. apply B in Im.
        assert (NI : ~ In (thread_of j) o1 /\ thread_of j <> t).
        { assert (ND : NoDup (o1 ++ t :: o2)).
          { apply (Permutation_NoDup (Permutation_sym Ho)). apply FinFun.Injective_map_NoDup; [intros a b; lia|apply seq_NoDup]. }
          pose proof (NoDup_remove_2 _ _ _ ND) as N2. split.
          - intros K. apply in_split in Io as (a & b & ->). rewrite app_comm_cons, app_assoc in ND. apply NoDup_remove_2 in ND. apply ND, in_or_app. left. apply in_or_app. now left.
          - intros <-. apply N2, in_or_app. now right. }
        destruct NI as [NI1 NI2].
        split; [|intros _; split; [assumption|intros K; congruence]].
        destruct (local_spec (thread_of j)) as [[L2 M]|(k & u & L2 & _ & _ & _ & M)]; rewrite L2 in Im; cbn [fst] in Im.
        * specialize (M j w Hj eq_refl). lia.
        * destruct (M j w Hj eq_refl) as [K|[[K _]|K]]; lia.
  Qed.
End Entry.
