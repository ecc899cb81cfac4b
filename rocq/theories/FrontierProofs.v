(** The invariant of a greedy search, independent of the data structures: the
    nodes found, the nodes inserted into the candidate list, the nodes
    expanded and the content of the list. *)
From Verif Require Import SearchSpec PoolProofs.

(** What inserting does to the content of a candidate list. *)
Definition ins_rel (cap : nat) (C : list entry) (x : N * Z) (C' : list entry) : Prop :=
  (C' = C /\ length C = cap /\ forall e, In e C -> (e_dist e <= snd x)%Z)
  \/ exists before after out, C = before ++ after /\ before ++ (x, false) :: after = C' ++ out
       /\ StronglySorted dist_le (C' ++ out) /\ length C' <= cap
       /\ (out = [] \/ length C = cap /\ length out = 1).
(** What taking the next candidate does. *)
Definition pop_rel (C : list entry) (id : N) (C' : list entry) : Prop :=
  exists before after d, C = before ++ ((id, d), false) :: after /\ C' = before ++ ((id, d), true) :: after.
Definition ids_of (C : list entry) : list N := map (fun e => fst (fst e)) C.

Lemma sorted_app_le (l l' : list entry) : StronglySorted dist_le (l ++ l') -> forall x y, In x l -> In y l' -> dist_le x y.
Proof.
  induction l as [|a l IH]; intros S x y Hx Hy; [destruct Hx|]. cbn [app] in S. inversion S; subst.
  destruct Hx as [<-|Hx]; [|eauto]. rewrite Forall_forall in H2. apply H2. apply in_or_app. now right.
Qed.
Lemma sorted_app_l {A} (R : A -> A -> Prop) (l l' : list A) : StronglySorted R (l ++ l') -> StronglySorted R l.
Proof.
  induction l as [|a l IH]; intros S; constructor; cbn [app] in S; inversion S; subst; [auto|].
  apply Forall_forall. intros x Hx. rewrite Forall_forall in H2. apply H2. apply in_or_app. now left.
Qed.

Lemma nodup_app_l {A} (l l' : list A) : NoDup (l ++ l') -> NoDup l.
Proof.
  induction l as [|a l IH]; intros H; constructor; inversion H; subst; auto. intros K. apply H2. apply in_or_app. now left.
Qed.

Section Frontier.
  Variables (edge : N -> N -> Prop) (start : N -> Prop) (dist : N -> Z) (cap : nat).
  Let reach := reachable edge start.
  Definition with_dist (I : list N) : list (N * Z) := map (fun i => (i, dist i)) I.

  (** [I] were inserted, [P] are found and still to be inserted, [E] were
      expanded, all but [X] completely. *)
  Record sinv (I P E X : list N) (C : list entry) : Prop := {
    si_nodup : NoDup (I ++ P);
    si_reach : forall x, In x (I ++ P) -> reach x;
    si_enodup : NoDup E;
    si_exp : incl E I;
    si_closed : forall x y, In x E -> edge x y -> In x X \/ In y (I ++ P);
    si_flags : forall e, In e C -> (snd e = true <-> In (fst (fst e)) E);
    si_keep : keeps_closest cap (with_dist I) (map fst C);
    si_sorted : StronglySorted dist_le C;
  }.
  Lemma sinv_nil : sinv [] [] [] [] [].
  Proof.
    constructor; cbn; try (intros; contradiction); try (now constructor).
    - intros x [].
    - split; [apply Nat.le_0_l|]. exists []. split; [constructor|]. split; [congruence|]. intros x y [].
  Qed.
  Lemma kept_inserted I P E X C e : sinv I P E X C -> In e C -> In (fst (fst e)) I /\ snd (fst e) = dist (fst (fst e)).
  Proof.
    intros H He. destruct (si_keep _ _ _ _ _ H) as (_ & rest & Pm & _).
    assert (Hin : In (fst e) (with_dist I)) by (apply (Permutation_in _ (Permutation_sym Pm)), in_or_app; left; now apply in_map).
    apply in_map_iff in Hin as (i & Ei & Hi). rewrite <- Ei. auto.
  Qed.
  Lemma with_dist_nodup I : NoDup I -> NoDup (with_dist I).
  Proof. intros H. unfold with_dist. apply (NoDup_map_inv fst). rewrite map_map. cbn. now rewrite map_id. Qed.
  Lemma kept_nodup I P E X C : sinv I P E X C -> NoDup (ids_of C).
  Proof.
    intros H. destruct (si_keep _ _ _ _ _ H) as (_ & rest & Pm & _).
    pose proof (si_nodup _ _ _ _ _ H) as ND. apply nodup_app_l in ND.
    apply (Permutation_map fst) in Pm. unfold with_dist in Pm. rewrite map_map in Pm. cbn [fst] in Pm. rewrite map_id, map_app, map_map in Pm.
    apply (Permutation_NoDup Pm) in ND. now apply nodup_app_l in ND.
  Qed.
  Lemma sinv_discover I P E X C m : sinv I P E X C -> reach m -> ~ In m (I ++ P) -> sinv I (P ++ [m]) E X C.
  Proof.
    intros [] R Ni. constructor; auto.
    - rewrite app_assoc. apply (Permutation_NoDup (l := m :: (I ++ P))); [apply Permutation_cons_append|]. now constructor.
    - intros x Hx. rewrite app_assoc in Hx. apply in_app_or in Hx as [Hx|[<-|[]]]; auto.
    - intros x y Hx Hy. destruct (si_closed0 x y Hx Hy) as [?|?]; auto. right. rewrite app_assoc. apply in_or_app. now left.
  Qed.
  Lemma keep_insert I C m C' : keeps_closest cap (with_dist I) (map fst C) -> StronglySorted dist_le C ->
    ins_rel cap C (m, dist m) C' -> keeps_closest cap (with_dist (I ++ [m])) (map fst C').
  Proof.
    intros (HL & rest & Pm & Fu & Far) Srt IR. assert (WD : with_dist (I ++ [m]) = with_dist I ++ [(m, dist m)]) by (unfold with_dist; now rewrite map_app).
    rewrite WD. rewrite map_length in HL, Fu. unfold entry in *.
    destruct IR as [(-> & Hf & Le)|(before & after & out & EC & EC' & S' & L' & Out)].
    - split; [now rewrite map_length|]. exists (rest ++ [(m, dist m)]). split; [|split].
      + rewrite app_assoc. now apply Permutation_app_tail.
      + intros _. now rewrite map_length.
      + intros x y Hx Hy. apply in_app_or in Hy as [Hy|[<-|[]]]; [auto|]. apply in_map_iff in Hx as (e & <- & He). now apply Le.
    - unfold entry in *. split; [now rewrite map_length|]. exists (map fst out ++ rest). split; [|split].
      + assert (MA : map fst C' ++ map fst out = map fst before ++ (m, dist m) :: map fst after) by (pose proof (f_equal (map fst) EC') as MA; rewrite !map_app in MA; symmetry; exact MA).
        rewrite app_assoc, MA. rewrite EC, map_app in Pm.
        transitivity (((m, dist m) :: map fst before ++ map fst after) ++ rest).
        * rewrite Permutation_app_comm. cbn. now constructor.
        * apply Permutation_app_tail. apply Permutation_middle.
      + intros NE. rewrite map_length. assert (length (C' ++ out) = S (length C)).
        { rewrite <- EC', EC, !app_length. cbn. lia. }
        rewrite app_length in H. destruct Out as [->|[H1 H2]]; [|lia].
        cbn [map app] in NE. specialize (Fu NE). cbn in H. lia.
      + intros x y Hx Hy. apply in_map_iff in Hx as (e & <- & He). apply in_app_or in Hy as [Hy|Hy].
        * apply in_map_iff in Hy as (o & <- & Ho). apply (sorted_app_le _ _ S' e o He Ho).
        * (* y was left out before, when the list was already full *)
          assert (FC : length C = cap) by (apply Fu; intros ->; destruct Hy).
          assert (InC : forall z, In z C -> (e_dist z <= snd y)%Z) by (intros z Hz; apply Far; [now apply in_map|assumption]).
          assert (L2 : length (C' ++ out) = S (length C)) by (rewrite <- EC', EC, !app_length; cbn; lia).
          rewrite app_length in L2. destruct Out as [->|[_ HO]]; [cbn in L2; lia|]. destruct out as [|o [|]]; try discriminate.
          assert (Lo : (e_dist e <= e_dist o)%Z) by (apply (sorted_app_le _ _ S' e o He); now left).
          assert (Ho : In o C \/ incl C' C).
          { destruct after as [|a0 after0] using rev_ind.
            - right. apply app_inj_tail in EC' as [-> _]. rewrite EC, app_nil_r. intros z Hz. exact Hz.
            - left. clear IHafter0. rewrite app_comm_cons, app_assoc in EC'. apply app_inj_tail in EC' as [_ ->]. rewrite EC. apply in_or_app. right. apply in_or_app. right. now left. }
          change (e_dist e <= snd y)%Z. destruct Ho as [Ho|Ho]; [pose proof (InC o Ho); lia|]. apply InC, Ho, He.
  Qed.
  Lemma ins_from C m d C' e : ins_rel cap C (m, d) C' -> In e C' -> In e C \/ e = ((m, d), false).
  Proof.
    intros [(-> & _)|(before & after & out & EC & EC' & _)] He; [now left|].
    assert (He' : In e (C' ++ out)) by (apply in_or_app; now left). rewrite <- EC' in He'.
    apply in_app_or in He' as [H|[H|H]]; [left|right|left]; auto; rewrite EC; apply in_or_app; auto.
  Qed.
  Lemma ins_sorted C x C' : StronglySorted dist_le C -> ins_rel cap C x C' -> StronglySorted dist_le C'.
  Proof. intros S [(-> & _)|(before & after & out & EC & EC' & S' & _)]; [assumption|]. eapply sorted_app_l; eauto. Qed.
  Lemma sinv_insert I P1 m P2 E X C C' : sinv I (P1 ++ m :: P2) E X C -> ins_rel cap C (m, dist m) C' ->
    sinv (I ++ [m]) (P1 ++ P2) E X C'.
  Proof.
    intros H IR. assert (Pm : Permutation (I ++ P1 ++ m :: P2) ((I ++ [m]) ++ P1 ++ P2)).
    { rewrite <- app_assoc. apply Permutation_app_head. cbn. symmetry. apply Permutation_middle. }
    assert (Nm : ~ In m I).
    { pose proof (si_nodup _ _ _ _ _ H) as ND. apply (Permutation_NoDup Pm) in ND. apply nodup_app_l in ND.
      intros Hm. apply NoDup_remove_2 in ND. apply ND. now rewrite app_nil_r. }
    constructor.
    - eapply Permutation_NoDup; [exact Pm|apply H].
    - intros x Hx. apply (si_reach _ _ _ _ _ H). apply (Permutation_in _ (Permutation_sym Pm)), Hx.
    - apply H.
    - intros x Hx. apply in_or_app. left. now apply (si_exp _ _ _ _ _ H).
    - intros x y Hx Hy. destruct (si_closed _ _ _ _ _ H x y Hx Hy) as [?|?]; auto. right. eapply Permutation_in; eauto.
    - intros e He. destruct (ins_from _ _ _ _ _ IR He) as [He'| ->]; [now apply (si_flags _ _ _ _ _ H)|]. cbn [fst snd].
      split; [discriminate|]. intros Hm. apply (si_exp _ _ _ _ _ H) in Hm. contradiction.
    - eapply keep_insert; eauto; apply H.
    - eapply ins_sorted; eauto; apply H.
  Qed.
  Lemma pop_same C x C' : pop_rel C x C' -> map fst C' = map fst C.
  Proof. intros (b & a & d & -> & ->). rewrite !map_app. reflexivity. Qed.
  Lemma sorted_keys (C C' : list entry) : map fst C' = map fst C -> StronglySorted dist_le C -> StronglySorted dist_le C'.
  Proof.
    revert C. induction C' as [|c C' IH]; intros [|a C] E S; try discriminate; constructor; inversion S; subst; inversion E.
    - eauto.
    - apply Forall_forall. intros z Hz. assert (Hz' : In (fst z) (map fst C)) by (rewrite <- H3; now apply in_map).
      apply in_map_iff in Hz' as (w & Ew & Hw). rewrite Forall_forall in H2. specialize (H2 w Hw). unfold dist_le, e_dist in *. now rewrite H0, <- Ew.
  Qed.
  Lemma sinv_expand_in I P E X C x C' : sinv I P E X C -> pop_rel C x C' -> ~ In x E /\ In x I /\ sinv I P (E ++ [x]) (x :: X) C'.
  Proof.
    intros H PR. pose proof PR as (b & a & d & EC & EC').
    assert (Hx : In ((x, d), false) C) by (rewrite EC; apply in_or_app; right; now left).
    assert (Nx : ~ In x E) by (intros K; apply (si_flags _ _ _ _ _ H _ Hx) in K; discriminate).
    pose proof (proj1 (kept_inserted _ _ _ _ _ _ H Hx)) as Ix. cbn [fst] in Ix.
    split; [assumption|]. split; [assumption|]. constructor; try apply H.
    - apply (Permutation_NoDup (l := x :: E)); [apply Permutation_cons_append|]. constructor; [assumption|apply H].
    - intros y Hy. apply in_app_or in Hy as [Hy|[<-|[]]]; [now apply (si_exp _ _ _ _ _ H)|assumption].
    - intros y z Hy Hz. apply in_app_or in Hy as [Hy|[<-|[]]]; [|left; now left]. destruct (si_closed _ _ _ _ _ H y z Hy Hz) as [?|?]; [left; now right|auto].
    - pose proof (kept_nodup _ _ _ _ _ H) as ND. rewrite EC in ND. unfold ids_of in ND. rewrite map_app in ND. cbn [map fst] in ND. apply NoDup_remove_2 in ND.
      intros e He. rewrite EC' in He. apply in_app_or in He as [He|[<-|He]].
      + assert (HeC : In e C) by (rewrite EC; apply in_or_app; now left). rewrite (si_flags _ _ _ _ _ H e HeC), in_app_iff.
        split; [auto|]. intros [K|[K|[]]]; [assumption|]. exfalso. apply ND. apply in_or_app. left. rewrite K. now apply (in_map (fun e : entry => fst (fst e))).
      + cbn [fst snd]. split; [|reflexivity]. intros _. apply in_or_app. right. now left.
      + assert (HeC : In e C) by (rewrite EC; apply in_or_app; right; now right). rewrite (si_flags _ _ _ _ _ H e HeC), in_app_iff.
        split; [auto|]. intros [K|[K|[]]]; [assumption|]. exfalso. apply ND. apply in_or_app. right. rewrite K. now apply (in_map (fun e : entry => fst (fst e))).
    - rewrite (pop_same _ _ _ PR). apply H.
    - eapply sorted_keys; [apply (pop_same _ _ _ PR)|apply H].
  Qed.
  Lemma sinv_expand I P E C x C' : sinv I P E [] C -> pop_rel C x C' -> ~ In x E /\ In x I /\ sinv I P (E ++ [x]) [x] C'.
  Proof. apply sinv_expand_in. Qed.
  Lemma sinv_done_in I P E X X' x C : sinv I P E X C -> (forall y, In y X -> y = x \/ In y X') -> (forall y, edge x y -> In y (I ++ P)) ->
    sinv I P E X' C.
  Proof.
    intros H S D. constructor; try apply H. intros y z Hy Hz. destruct (si_closed _ _ _ _ _ H y z Hy Hz) as [K|?]; auto.
    destruct (S y K) as [->|?]; auto.
  Qed.
  Lemma sinv_perm I P P' E X C : sinv I P E X C -> Permutation P P' -> sinv I P' E X C.
  Proof.
    intros H Pm. assert (Pm' : Permutation (I ++ P) (I ++ P')) by now apply Permutation_app_head. constructor; try apply H.
    - eapply Permutation_NoDup; [exact Pm'|apply H].
    - intros x Hx. apply (si_reach _ _ _ _ _ H). eapply Permutation_in; [apply Permutation_sym, Pm'|assumption].
    - intros x y Hx Hy. destruct (si_closed _ _ _ _ _ H x y Hx Hy) as [?|?]; auto. right. eapply Permutation_in; eauto.
  Qed.
  Lemma sinv_done I P E x C : sinv I P E [x] C -> (forall y, edge x y -> In y (I ++ P)) -> sinv I P E [] C.
  Proof.
    intros H D. constructor; try apply H. intros y z Hy Hz. right. destruct (si_closed _ _ _ _ _ H y z Hy Hz) as [[<-|[]]|?]; auto.
  Qed.

  (** ** When everything is expanded *)
  Lemma firstn_in {A} n (l : list A) x : In x (firstn n l) -> In x l.
  Proof. intros H. rewrite <- (firstn_skipn n l). apply in_or_app. now left. Qed.
  Lemma nodup_firstn {A} n (l : list A) : NoDup l -> NoDup (firstn n l).
  Proof. intros H. rewrite <- (firstn_skipn n l) in H. now apply nodup_app_l in H. Qed.
  Lemma final_ranked I P E X C k : sinv I P E X C -> ranked reach dist k (map fst (firstn k C)).
  Proof.
    intros H. constructor.
    - rewrite map_length, firstn_length. lia.
    - rewrite map_map. rewrite <- firstn_map. apply nodup_firstn, (kept_nodup _ _ _ _ _ H).
    - intros id d Hin. apply in_map_iff in Hin as (e & Ee & He). apply firstn_in in He.
      destruct (kept_inserted _ _ _ _ _ _ H He) as [Hi Hd]. rewrite Ee in Hi, Hd. cbn [fst snd] in *. split; [|assumption].
      apply (si_reach _ _ _ _ _ H). apply in_or_app. now left.
    - pose proof (si_sorted _ _ _ _ _ H) as S. rewrite <- (firstn_skipn k C) in S. apply sorted_app_l in S.
      induction S as [|a l S IH F]; cbn [map]; constructor; auto. apply Forall_forall. intros y Hy.
      apply in_map_iff in Hy as (z & <- & Hz). rewrite Forall_forall in F. apply (F z Hz).
  Qed.
  Lemma final_nearest_inserted I P E X C k : sinv I P E X C -> k <= cap -> nearest (fun x => In x I) dist k (map fst (firstn k C)).
  Proof.
    intros H Hk id Hid. destruct (si_keep _ _ _ _ _ H) as (HL & rest & Pm & Fu & Far). rewrite map_length in HL, Fu.
    assert (Hin : In (id, dist id) (map fst C ++ rest)) by (apply (Permutation_in _ Pm); now apply (in_map (fun i => (i, dist i)))).
    apply in_app_or in Hin as [Hin|Hin].
    - apply in_map_iff in Hin as (e & Ee & He). rewrite <- (firstn_skipn k C) in He. apply in_app_or in He as [He|He].
      + left. rewrite <- Ee. now apply in_map.
      + right. split.
        * rewrite map_length, firstn_length. assert (length (skipn k C) <> 0) by (destruct (skipn k C); [destruct He|discriminate]). rewrite skipn_length in H0. lia.
        * intros y Hy. apply in_map_iff in Hy as (z & <- & Hz). pose proof (si_sorted _ _ _ _ _ H) as S. rewrite <- (firstn_skipn k C) in S.
          pose proof (sorted_app_le _ _ S z e Hz He) as L. unfold dist_le, e_dist in L. rewrite Ee in L. exact L.
    - right. assert (FC : length C = cap) by (apply Fu; intros ->; destruct Hin). split; [rewrite map_length, firstn_length; lia|].
      intros y Hy. apply in_map_iff in Hy as (z & <- & Hz). apply firstn_in in Hz. apply (Far (fst z) (id, dist id)); [now apply in_map|assumption].
  Qed.
  Lemma final_closed I E C : sinv I [] E [] C -> (forall e, In e C -> snd e = true) -> (forall s, start s -> In s I) ->
    at_most cap reach -> forall x, reach x -> In x I.
  Proof.
    intros H Fl St (l & Ll & Hl).
    assert (LI : length I <= cap).
    { pose proof (si_nodup _ _ _ _ _ H) as ND. rewrite app_nil_r in ND. enough (length I <= length l) by lia. apply NoDup_incl_length; [assumption|].
      intros x Hx. apply Hl, (si_reach _ _ _ _ _ H). apply in_or_app. now left. }
    assert (IE : forall x, In x I -> In x E).
    { intros x Hx. destruct (si_keep _ _ _ _ _ H) as (HL & rest & Pm & Fu & _). rewrite map_length in HL, Fu.
      assert (rest = []).
      { destruct rest as [|r rest]; [reflexivity|]. assert (length C = cap) by (apply Fu; discriminate).
        apply Permutation_length in Pm. unfold with_dist in Pm. rewrite app_length, !map_length in Pm. cbn in Pm. unfold entry in *. lia. }
      subst rest. rewrite app_nil_r in Pm.
      assert (Hin : In (x, dist x) (map fst C)) by (apply (Permutation_in _ Pm); now apply (in_map (fun i => (i, dist i)))).
      apply in_map_iff in Hin as (e & Ee & He). pose proof (proj1 (si_flags _ _ _ _ _ H e He) (Fl e He)) as K. now rewrite Ee in K. }
    intros x Hx. induction Hx as [x Hs|x y Hx IH Hy]; [auto|].
    destruct (si_closed _ _ _ _ _ H x y (IE x IH) Hy) as [[]|K]. now rewrite app_nil_r in K.
  Qed.
  Lemma final_exact I E C k : sinv I [] E [] C -> (forall e, In e C -> snd e = true) -> (forall s, start s -> In s I) ->
    at_most cap reach -> k <= cap -> nearest reach dist k (map fst (firstn k C)).
  Proof.
    intros H Fl St A Hk id Hid. apply (final_nearest_inserted _ _ _ _ _ k H Hk). eapply final_closed; eauto.
  Qed.
  Lemma final_settled I E C k : sinv I [] E [] C -> (forall e, In e C -> snd e = true) -> (forall s, start s -> In s I) ->
    k <= cap -> settled edge start dist k (map fst (firstn k C)).
  Proof.
    intros H Fl St Hk id Hid. apply (final_nearest_inserted _ _ _ _ _ k H Hk). destruct Hid as [Hs|(x & d & Hx & Hy)]; [now apply St|].
    apply in_map_iff in Hx as (e & Ee & He). apply firstn_in in He.
    assert (Hx : In x E) by (replace x with (fst (fst e)) by (now rewrite Ee); apply (si_flags _ _ _ _ _ H); auto).
    destruct (si_closed _ _ _ _ _ H _ _ Hx Hy) as [[]|K]. now rewrite app_nil_r in K.
  Qed.
  (** The nodes expanded are at most the nodes there are. *)
  Lemma expanded_bound I P E X C n : sinv I P E X C -> (forall x, reach x -> (x < N.of_nat n)%N) -> length E <= n.
  Proof.
    intros H B. assert (length E <= length (map N.of_nat (seq 0 n))); [|now rewrite map_length, seq_length in *].
    apply NoDup_incl_length; [apply H|]. intros x Hx. apply in_map_iff. exists (N.to_nat x). split; [lia|]. apply in_seq.
    assert (x < N.of_nat n)%N; [|lia]. apply B, (si_reach _ _ _ _ _ H). apply in_or_app. left. now apply (si_exp _ _ _ _ _ H).
  Qed.
End Frontier.
