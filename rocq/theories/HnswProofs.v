(** Lemmas about the HNSW builder. *)
From Coq Require Import Sorting.Permutation.
From Verif Require Export HnswSpec.
Import ListNotations.
Open Scope hnsw_scope.

Lemma aget_some {A} (l : list A) i x : nth_error l (N.to_nat i) = Some x -> aget l i = Ok x.
Proof. intros E. unfold aget. rewrite E. reflexivity. Qed.
Lemma nth_error_snoc {A} (l : list A) x i :
  nth_error (l ++ [x]) i = if Nat.eqb i (length l) then Some x else nth_error l i.
Proof.
  destruct (Nat.eqb_spec i (length l)) as [ -> |D].
  - rewrite nth_error_app2, Nat.sub_diag by lia. reflexivity.
  - destruct (Nat.lt_ge_cases i (length l)) as [H|H].
    + rewrite nth_error_app1 by lia. reflexivity.
    + rewrite nth_error_app2 by lia. rewrite (proj2 (nth_error_None l i)) by lia.
      destruct (i - length l) eqn:E; [lia|]. cbn. destruct n; reflexivity.
Qed.
Lemma NoDup_snoc {A} (l : list A) x : NoDup l -> ~ In x l -> NoDup (l ++ [x]).
Proof.
  intros H K. induction H as [|y l Hy Hl IH]; cbn; [constructor; [tauto|constructor]|].
  constructor; [|apply IH; intro; apply K; right; assumption].
  rewrite in_app_iff. cbn. intros [|[ -> |[]]]; [tauto|]. apply K. left. reflexivity.
Qed.
Lemma NoDup_app_l {A} (a b : list A) : NoDup (a ++ b) -> NoDup a.
Proof.
  induction a as [|x a IH]; intros H; [constructor|]. inversion H as [|? ? K H']; subst. constructor; [|apply IH; exact H'].
  intro C. apply K. apply in_or_app. left. exact C.
Qed.

Section Params.
Variable p : params.
Hypothesis Q : queues_ok (p_lib p).
Notation lib := (p_lib p).

(** ** Queues *)
Lemma first_none q : top_first lib q = None -> q = [].
Proof. apply (proj1 (proj1 Q)). Qed.
Lemma first_some q c q' : top_first lib q = Some (c, q') -> Permutation q (c :: q').
Proof. intros H. apply (proj2 (proj1 Q)) in H. tauto. Qed.
Lemma pair_none q : top_pair lib q = None -> q = [].
Proof. apply (proj1 (proj2 Q)). Qed.
Lemma pair_some q c q' : top_pair lib q = Some (c, q') -> Permutation q (c :: q').
Proof. intros H. apply (proj2 (proj2 Q)) in H. tauto. Qed.
Lemma drain_perm k : forall q, length q = k -> Permutation (drain lib k q) (map snd q).
Proof.
  induction k as [|k IH]; intros q L; cbn [drain].
  - destruct q; [constructor|discriminate L].
  - destruct (top_first lib q) as [[c q']|] eqn:E.
    + apply first_some in E. rewrite (Permutation_map snd E). cbn [map]. constructor. apply IH.
      apply Permutation_length in E. cbn in E. lia.
    + apply first_none in E. subst. discriminate L.
Qed.

(** ** The state *)
Definition on (h : hnsw) (l : nat) (i : N) : Prop := exists k, nth_error (h_levels h) (N.to_nat i) = Some k /\ l <= k.
Definition list_at (h : hnsw) (l : nat) (i : N) : option (list N) :=
  match nth_error (h_links h) (N.to_nat i) with Some ls => nth_error ls l | None => None end.
Record shape (h : hnsw) : Prop := {
  sh_lv : length (h_levels h) = length (h_labels h);
  sh_ln : length (h_links h) = length (h_labels h);
  sh_ls : forall i ls k, nth_error (h_links h) i = Some ls -> nth_error (h_levels h) i = Some k -> length ls = S k }.
Definition good_list (h : hnsw) (l : nat) (i : N) (L : list N) : Prop :=
  length L <= cap p l /\ NoDup L /\ Forall (fun j => on h l j /\ j <> i) L.
Definition lists_ok (h : hnsw) : Prop := forall l i L, list_at h l i = Some L -> good_list h l i L.
Definition same (h h' : hnsw) : Prop := h_labels h' = h_labels h /\ h_levels h' = h_levels h /\ h_top h' = h_top h.

Lemma same_refl h : same h h.
Proof. unfold same. auto. Qed.
Lemma same_trans a b c : same a b -> same b c -> same a c.
Proof. unfold same. intros (A & B & C) (D & E & F). rewrite D, E, F. auto. Qed.
Lemma same_on h h' l i : same h h' -> on h' l i <-> on h l i.
Proof. intros (_ & E & _). unfold on. rewrite E. tauto. Qed.
Lemma on_label h l i : shape h -> on h l i -> exists lab, nth_error (h_labels h) (N.to_nat i) = Some lab.
Proof.
  intros S (k & E & _). assert (N.to_nat i < length (h_labels h)) by (rewrite <- (sh_lv h S); apply nth_error_Some; congruence).
  destruct (nth_error (h_labels h) (N.to_nat i)) eqn:F; [eauto|apply nth_error_None in F; lia].
Qed.
Lemma on_lt h l i : shape h -> on h l i -> N.to_nat i < length (h_labels h).
Proof. intros S (k & E & _). rewrite <- (sh_lv h S). apply nth_error_Some. congruence. Qed.
Lemma on_low h l l' i : on h l i -> l' <= l -> on h l' i.
Proof. intros (k & E & H) L. exists k. split; [exact E|lia]. Qed.
Lemma on_zero h i : shape h -> N.to_nat i < length (h_labels h) -> on h 0 i.
Proof.
  intros S H. rewrite <- (sh_lv h S) in H. destruct (nth_error (h_levels h) (N.to_nat i)) as [k|] eqn:E; [|apply nth_error_None in E; lia].
  exists k. split; [exact E|lia].
Qed.
Lemma links_at h l i : shape h -> on h l i -> exists L, links h i l = Ok L /\ list_at h l i = Some L.
Proof.
  intros S (k & E & H).
  assert (Hi : N.to_nat i < length (h_links h)) by (rewrite (sh_ln h S), <- (sh_lv h S); apply nth_error_Some; congruence).
  destruct (nth_error (h_links h) (N.to_nat i)) as [ls|] eqn:F; [|apply nth_error_None in F; lia].
  pose proof (sh_ls h S _ _ _ F E) as Ls.
  destruct (nth_error ls l) as [L|] eqn:G; [|apply nth_error_None in G; lia].
  exists L. unfold links, list_at. rewrite (aget_some _ _ _ F). cbn [bind]. rewrite F.
  rewrite (aget_some ls (N.of_nat l) L); [auto|]. rewrite Nnat.Nat2N.id. exact G.
Qed.
Lemma list_on h l i L : shape h -> list_at h l i = Some L -> on h l i.
Proof.
  intros S H. unfold list_at in H. destruct (nth_error (h_links h) (N.to_nat i)) as [ls|] eqn:F; [|discriminate H].
  assert (Hi : N.to_nat i < length (h_levels h)).
  { rewrite (sh_lv h S), <- (sh_ln h S). apply nth_error_Some. congruence. }
  destruct (nth_error (h_levels h) (N.to_nat i)) as [k|] eqn:E; [|apply nth_error_None in E; lia].
  pose proof (sh_ls h S _ _ _ F E) as Ls. exists k. split; [exact E|].
  assert (l < length ls) by (apply nth_error_Some; congruence). lia.
Qed.
Lemma dist_to_ok h lab l i : shape h -> on h l i -> exists d, dist_to p h lab i = Ok d.
Proof.
  intros S H. destruct (on_label h l i S H) as (x & E). unfold dist_to. rewrite (aget_some _ _ _ E). cbn. eauto.
Qed.
Lemma dist_ids_ok h l a b : shape h -> on h l a -> on h l b -> exists d, dist_ids p h a b = Ok d.
Proof.
  intros S Ha Hb. destruct (on_label h l a S Ha) as (x & E). unfold dist_ids. rewrite (aget_some _ _ _ E). cbn [bind].
  eapply dist_to_ok; eauto.
Qed.
Lemma set_links_ok h l i L : shape h -> on h l i -> length L <= cap p l ->
  exists h', set_links p h i l L = Ok h' /\ same h h' /\ shape h' /\
    (forall l' j, list_at h' l' j = if (Nat.eqb l' l && N.eqb j i)%bool then Some L else list_at h l' j).
Proof.
  intros S O HL. destruct (links_at h l i S O) as (L0 & _ & E0).
  unfold list_at in E0. destruct (nth_error (h_links h) (N.to_nat i)) as [ls|] eqn:F; [|discriminate E0].
  assert (Hi : N.to_nat i < length (h_links h)) by (apply nth_error_Some; congruence).
  assert (Hl : l < length ls) by (apply nth_error_Some; congruence).
  unfold set_links. destruct (Nat.leb_spec (length L) (cap p l)); [|lia].
  rewrite (aget_some _ _ _ F). cbn [bind]. rewrite aput_ok by lia. cbn [bind]. rewrite aput_ok by lia. cbn [bind].
  rewrite Nnat.Nat2N.id. eexists. split; [reflexivity|].
  split; [unfold same; cbn; auto|]. split.
  - constructor; cbn [h_labels h_levels h_links].
    + apply (sh_lv h S).
    + rewrite upd_length. apply (sh_ln h S).
    + intros i' ls' k E1 E2. rewrite nth_error_upd in E1 by exact Hi.
      destruct (Nat.eqb_spec (N.to_nat i) i') as [ <- |D].
      * inversion E1; subst ls'. rewrite upd_length. eapply (sh_ls h S); eauto.
      * eapply (sh_ls h S); eauto.
  - intros l' j. unfold list_at. cbn [h_links]. rewrite nth_error_upd by exact Hi.
    destruct (Nat.eqb_spec (N.to_nat i) (N.to_nat j)) as [e|D].
    + apply Nnat.N2Nat.inj in e. subst j. rewrite N.eqb_refl, andb_true_r. rewrite nth_error_upd by exact Hl.
      rewrite F. destruct (Nat.eqb_spec l l'), (Nat.eqb_spec l' l); congruence.
    + destruct (N.eqb_spec j i) as [ -> |_]; [congruence|]. rewrite andb_false_r. reflexivity.
Qed.

(** ** The heuristic *)
Definition valid (h : hnsw) (l : nat) (cs : list qel) : Prop := Forall (fun c => on h l (snd c)) cs.
Lemma is_good_ok h l c : shape h -> on h l (snd c) -> forall chosen, valid h l chosen -> exists b, is_good p h chosen c = Ok b.
Proof.
  intros S Hc. induction chosen as [|s rest IH]; intros V; cbn [is_good]; [eauto|].
  apply Forall_cons_iff in V. destruct V as (Hs & V). destruct (dist_ids_ok h l (snd s) (snd c) S Hs Hc) as (d & ->). cbn [bind].
  destruct (Z.ltb d (- fst c)); eauto.
Qed.
Lemma choose_ok h l m : shape h -> forall k q chosen, length q <= k -> valid h l q -> valid h l chosen ->
  NoDup (map snd (chosen ++ q)) -> length chosen <= m ->
  exists out, choose p h m k q chosen = Ok out /\ NoDup (map snd out) /\ valid h l out
    /\ incl (map snd out) (map snd (chosen ++ q)) /\ length out <= m /\ length chosen <= length out
    /\ (chosen = [] -> q <> [] -> 0 < m -> out <> []).
Proof.
  intros S. induction k as [|k IH]; intros q chosen Lq Vq Vc ND Lc; cbn [choose].
  - destruct q; [|cbn in Lq; lia]. rewrite app_nil_r in *. exists chosen. repeat split; auto. apply incl_refl.
  - destruct (Nat.leb_spec m (length chosen)) as [Hm|Hm].
    + exists chosen. split; [reflexivity|]. rewrite map_app in ND. repeat split; auto.
      * apply NoDup_app_l in ND. exact ND.
      * rewrite map_app. apply incl_appl, incl_refl.
      * intros -> _ H. cbn in Hm. lia.
    + destruct (top_pair lib q) as [[c q']|] eqn:E.
      * apply pair_some in E.
        assert (Vcq : valid h l (c :: q')) by (eapply Permutation_Forall; eauto).
        apply Forall_cons_iff in Vcq. destruct Vcq as (Hc & Vq').
        assert (ND' : NoDup (map snd (chosen ++ c :: q'))).
        { eapply Permutation_NoDup; [|exact ND]. apply Permutation_map. apply Permutation_app_head. exact E. }
        assert (Hin : incl (map snd (chosen ++ c :: q')) (map snd (chosen ++ q))).
        { intros x Hx. eapply Permutation_in; [|exact Hx]. apply Permutation_map, Permutation_app_head, Permutation_sym, E. }
        assert (Lq' : length q' <= k) by (apply Permutation_length in E; cbn in E; lia).
        destruct (is_good_ok h l c S Hc chosen Vc) as (b & Eb). rewrite Eb. cbn [bind]. destruct b.
        -- destruct (IH q' (chosen ++ [c])) as (out & Eo & A1 & A2 & A3 & A4 & A5 & _); auto.
           ++ apply Forall_app. split; [exact Vc|constructor; [exact Hc|constructor]].
           ++ rewrite <- app_assoc. exact ND'.
           ++ rewrite app_length. cbn. lia.
           ++ exists out. split; [exact Eo|]. repeat split; auto.
              ** rewrite <- app_assoc in A3. eapply incl_tran; eauto.
              ** rewrite app_length in A5. cbn in A5. lia.
              ** intros _ _ _ ->. rewrite app_length in A5. cbn in A5. lia.
        -- destruct (IH q' chosen) as (out & Eo & A1 & A2 & A3 & A4 & A5 & A6); auto.
           ++ rewrite map_app in *. cbn [map] in ND'. apply NoDup_remove_1 in ND'. exact ND'.
           ++ exists out. split; [exact Eo|]. repeat split; auto.
              ** eapply incl_tran; [exact A3|]. eapply incl_tran; [|exact Hin]. rewrite !map_app. cbn [map].
                 apply incl_app; [apply incl_appl, incl_refl|apply incl_appr, incl_tl, incl_refl].
              ** intros -> _ _. discriminate Eb.
      * apply pair_none in E. subst q. rewrite app_nil_r in *. exists chosen. repeat split; auto; try apply incl_refl; try tauto.
Qed.
Lemma map_snd_negate cs : map snd (map negate cs) = map snd cs.
Proof. rewrite map_map. reflexivity. Qed.
Lemma heuristic_ok h l cs m : shape h -> valid h l cs -> NoDup (map snd cs) ->
  exists kept, heuristic p h cs m = Ok kept /\ NoDup (map snd kept) /\ valid h l kept
    /\ incl (map snd kept) (map snd cs) /\ length kept <= m /\ (cs <> [] -> 0 < m -> kept <> [])
    /\ (length cs < m -> kept = cs).
Proof.
  intros S V ND. unfold heuristic. destruct (Nat.ltb_spec (length cs) m) as [H|H].
  - exists cs. repeat split; auto; try apply incl_refl; lia.
  - assert (V' : valid h l (map negate cs)) by (apply Forall_map; exact V).
    destruct (choose_ok h l m S (length cs) (map negate cs) []) as (out & E & A1 & A2 & A3 & A4 & _ & A6); auto.
    + rewrite map_length. lia.
    + constructor.
    + cbn [app]. rewrite map_snd_negate. exact ND.
    + cbn. lia.
    + rewrite E. cbn [bind]. exists (map negate out). split; [reflexivity|]. rewrite map_snd_negate, map_length.
      repeat split; auto.
      * apply Forall_map. exact A2.
      * cbn [app] in A3. rewrite map_snd_negate in A3. exact A3.
      * intros Hc Hm K. apply (A6 eq_refl); [|exact Hm|].
        -- destruct cs; [congruence|discriminate].
        -- destruct out; [reflexivity|discriminate K].
      * lia.
Qed.

(** ** Searching a layer *)
Definition marked (vis : list bool) (i : N) : Prop := nth_error vis (N.to_nat i) = Some true.
Definition unmarked (vis : list bool) : nat := length (filter negb vis).
Lemma unmarked_upd vis i : nth_error vis i = Some false -> S (unmarked (upd vis i true)) = unmarked vis.
Proof.
  unfold unmarked. revert i. induction vis as [|b vis IH]; intros i E; [destruct i; discriminate E|].
  destruct i as [|i]; cbn in E.
  - inversion E; subst. reflexivity.
  - cbn [upd filter]. specialize (IH i E). destruct (negb b); cbn [length]; lia.
Qed.
Lemma marked_upd vis i j : N.to_nat i < length vis -> marked (upd vis (N.to_nat i) true) j <-> j = i \/ marked vis j.
Proof.
  intros H. unfold marked. rewrite nth_error_upd by exact H. destruct (Nat.eqb_spec (N.to_nat i) (N.to_nat j)) as [e|D].
  - apply Nnat.N2Nat.inj in e. subst. tauto.
  - split; [tauto|]. intros [ -> |K]; [congruence|exact K].
Qed.

Lemma NoDup_lt_length (l : list N) n : NoDup l -> Forall (fun i => N.to_nat i < n) l -> length l <= n.
Proof.
  intros ND F. rewrite <- (map_length N.to_nat). rewrite <- (seq_length n 0). apply NoDup_incl_length.
  - apply FinFun.Injective_map_NoDup; [intros a b; apply Nnat.N2Nat.inj|exact ND].
  - intros x Hx. apply in_map_iff in Hx. destruct Hx as (y & <- & Hy). apply in_seq.
    pose proof (proj1 (Forall_forall _ _) F y Hy). cbn in H. lia.
Qed.

Section Scan.
Variables (h : hnsw) (layer : nat) (c : N) (label : N).
Hypothesis Sh : shape h.
Hypothesis Hn : length (h_labels h) <= N.to_nat (p_n p).
Hypothesis Ef : 0 < ef_of p.
(** [c] is in no list of the layer. *)
Hypothesis Iso : forall i L, list_at h layer i = Some L -> ~ In c L.
Hypothesis LO : lists_ok h.

Record scan_ok (s : scan) : Prop := {
  so_len : length (s_vis s) = N.to_nat (p_n p);
  so_top : NoDup (map snd (s_top s));
  so_ne : s_top s <> [];
  so_in : Forall (fun e => on h layer (snd e) /\ snd e <> c /\ marked (s_vis s) (snd e)) (s_top s);
  so_cand : Forall (fun e => on h layer (snd e)) (s_cand s);
  so_all : N.to_nat (p_n p) <= ef_of p -> forall i, marked (s_vis s) i -> In i (map snd (s_top s)) }.
Definition todo (s : scan) : nat := unmarked (s_vis s) + length (s_cand s).

Lemma scan_list_ok : forall ids s, Forall (fun j => on h layer j /\ j <> c) ids -> scan_ok s ->
  exists s', scan_list p h label ids s = Ok s' /\ scan_ok s' /\ todo s' <= todo s
    /\ (forall i, marked (s_vis s) i -> marked (s_vis s') i) /\ (forall i, In i ids -> marked (s_vis s') i).
Proof.
  induction ids as [|id ids IH]; intros s F K; cbn [scan_list].
  - exists s. repeat split; auto; try apply K. intros i [].
  - apply Forall_cons_iff in F. destruct F as ((Oi & Dc) & F).
    assert (Li : N.to_nat id < length (s_vis s)) by (rewrite (so_len s K); pose proof (on_lt h layer id Sh Oi); lia).
    destruct (nth_error (s_vis s) (N.to_nat id)) as [seen|] eqn:Es; [|apply nth_error_None in Es; lia].
    rewrite (aget_some _ _ _ Es). cbn [bind]. destruct seen.
    + destruct (IH s F K) as (s' & E & A1 & A2 & A3 & A4). exists s'. repeat split; auto; try apply A1.
      intros i [ <- |Hi]; [apply A3; exact Es|apply A4; exact Hi].
    + rewrite aput_ok by lia. cbn [bind]. destruct (dist_to_ok h label layer id Sh Oi) as (d & ->). cbn [bind].
      pose proof (unmarked_upd _ _ Es) as U.
      assert (Fresh : ~ In id (map snd (s_top s))).
      { intro C. apply in_map_iff in C. destruct C as (e & E1 & E2).
        pose proof (proj1 (Forall_forall _ _) (so_in s K) e E2) as (_ & _ & M). unfold marked in M. rewrite E1 in M. congruence. }
      assert (Step : forall s1, scan_ok s1 -> s_vis s1 = upd (s_vis s) (N.to_nat id) true -> todo s1 <= todo s ->
                exists s', scan_list p h label ids s1 = Ok s' /\ scan_ok s' /\ todo s' <= todo s
                  /\ (forall i, marked (s_vis s) i -> marked (s_vis s') i) /\ (forall i, In i (id :: ids) -> marked (s_vis s') i)).
      { intros s1 K1 V1 T1. destruct (IH s1 F K1) as (s' & E & A1 & A2 & A3 & A4). exists s'.
        split; [exact E|]. split; [exact A1|]. split; [lia|]. split.
        - intros i Hi. apply A3. rewrite V1. apply marked_upd; auto.
        - intros i [ <- |Hi]; [|apply A4; exact Hi]. apply A3. rewrite V1. apply marked_upd; auto. }
      assert (Keep : Forall (fun e => on h layer (snd e) /\ snd e <> c /\ marked (upd (s_vis s) (N.to_nat id) true) (snd e)) (s_top s)).
      { eapply Forall_impl; [|apply (so_in s K)]. intros e (X & Y & Z). repeat split; auto. apply marked_upd; auto. }
      set (top1 := (d, id) :: s_top s).
      assert (ND1 : NoDup (map snd top1)) by (cbn [top1 map snd]; constructor; [exact Fresh|apply (so_top s K)]).
      assert (F1 : Forall (fun e => on h layer (snd e) /\ snd e <> c /\ marked (upd (s_vis s) (N.to_nat id) true) (snd e)) top1).
      { constructor; [|exact Keep]. cbn [snd]. repeat split; auto. apply marked_upd; auto. }
      assert (Small : N.to_nat (p_n p) <= ef_of p -> length top1 <= ef_of p).
      { intros H. etransitivity; [|exact H]. rewrite <- (map_length snd). apply NoDup_lt_length; [exact ND1|].
        apply Forall_map. eapply Forall_impl; [|exact F1]. intros e (X & _). pose proof (on_lt h layer _ Sh X). lia. }
      destruct (Nat.ltb (length (s_top s)) (ef_of p) || Z.ltb d (s_lower s))%bool eqn:B.
      * set (top2 := if Nat.ltb (ef_of p) (length top1) then match top_first lib top1 with Some (_, r) => r | None => top1 end else top1).
        assert (P2 : exists x, Permutation top1 (x ++ top2) /\ (x = [] \/ ef_of p < length top1)).
        { unfold top2. destruct (Nat.ltb_spec (ef_of p) (length top1)) as [H|H]; [|exists []; auto].
          destruct (top_first lib top1) as [[c0 r]|] eqn:E; [|exists []; auto].
          apply first_some in E. exists [c0]. auto. }
        destruct P2 as (x & P2 & Px).
        assert (N2 : top2 <> []).
        { intro C. rewrite C, app_nil_r in P2. destruct Px as [ -> |Px]; [apply Permutation_length in P2; discriminate P2|].
          unfold top2 in C. destruct (Nat.ltb_spec (ef_of p) (length top1)); [|discriminate C].
          destruct (top_first lib top1) as [[c0 r]|] eqn:E; [|discriminate C]. subst r.
          apply first_some, Permutation_length in E. cbn in E. cbn in Px. lia. }
        apply Step.
        -- constructor; cbn [s_vis s_top s_cand].
           ++ rewrite upd_length. apply (so_len s K).
           ++ apply (Permutation_map snd) in P2. rewrite map_app in P2. pose proof (Permutation_NoDup P2 ND1) as P3. clear P2. rename P3 into P2.
              clear -P2. induction (map snd x) as [|y l IH]; [exact P2|]. inversion P2; auto.
           ++ exact N2.
           ++ pose proof (Permutation_Forall P2 F1) as F2. apply Forall_app in F2. apply F2.
           ++ constructor; [exact Oi|apply (so_cand s K)].
           ++ intros H i Hi. specialize (Small H). destruct Px as [ -> |Px]; [|lia]. cbn [app] in P2.
              eapply Permutation_in; [apply Permutation_map; exact P2|]. apply marked_upd in Hi; [|exact Li].
              destruct Hi as [ -> |Hi]; [left; reflexivity|right; apply (so_all s K H i Hi)].
        -- reflexivity.
        -- unfold todo. cbn [s_vis s_cand length]. lia.
      * apply Step.
        -- constructor; cbn [s_vis s_top s_cand]; try apply K.
           ++ rewrite upd_length. apply (so_len s K).
           ++ exact Keep.
           ++ intros H i Hi. specialize (Small H). exfalso. apply orb_false_iff in B. destruct B as (B & _).
              apply Nat.ltb_ge in B. cbn in Small. lia.
        -- reflexivity.
        -- unfold todo. cbn [s_vis s_cand]. lia.
Qed.
Definition found_ok (top : list qel) : Prop :=
  NoDup (map snd top) /\ top <> [] /\ Forall (fun e => on h layer (snd e) /\ snd e <> c) top.
Lemma scan_found s : scan_ok s -> found_ok (s_top s).
Proof.
  intros K. split; [apply K|]. split; [apply K|]. eapply Forall_impl; [|apply (so_in s K)]. intros e (A & B & _). auto.
Qed.
Lemma list_members i L : list_at h layer i = Some L -> Forall (fun j => on h layer j /\ j <> c) L.
Proof.
  intros E. destruct (LO layer i L E) as (_ & _ & F). apply Forall_forall. intros j Hj.
  split; [apply (proj1 (Forall_forall _ _) F j Hj)|]. intros ->. exact (Iso i L E Hj).
Qed.
Lemma scan_loop_ok : forall fuel s, scan_ok s -> todo s < fuel ->
  exists top, scan_loop fuel p h label layer s = Done (Ok top) /\ found_ok top
    /\ (N.to_nat (p_n p) <= ef_of p -> forall i, marked (s_vis s) i -> In i (map snd top)).
Proof.
  induction fuel as [|k IH]; intros s K T; [lia|]. cbn [scan_loop].
  destruct (top_first lib (s_cand s)) as [[e rest]|] eqn:E.
  - apply first_some in E.
    destruct (Z.ltb (s_lower s) (- fst e) && Nat.eqb (length (s_top s)) (ef_of p))%bool.
    + exists (s_top s). split; [reflexivity|]. split; [apply scan_found; exact K|]. apply (so_all s K).
    + pose proof (Permutation_Forall E (so_cand s K)) as Fc. apply Forall_cons_iff in Fc. destruct Fc as (Oe & Fr).
      destruct (links_at h layer (snd e) Sh Oe) as (L & -> & EL). cbn [hbind].
      destruct (scan_list_ok L {| s_top := s_top s; s_cand := rest; s_lower := s_lower s; s_vis := s_vis s |}) as (s' & -> & K' & T' & M' & _).
      * exact (list_members _ _ EL).
      * constructor; cbn [s_vis s_top s_cand]; try apply K. exact Fr.
      * cbn [hbind]. destruct (IH s' K') as (top & -> & Fo & Al).
        { unfold todo in *. cbn [s_vis s_cand] in *. apply Permutation_length in E. cbn in E. lia. }
        exists top. split; [reflexivity|]. split; [exact Fo|]. intros H i Hi. apply Al; [exact H|]. apply M'. exact Hi.
  - exists (s_top s). split; [reflexivity|]. split; [apply scan_found; exact K|]. apply (so_all s K).
Qed.
Lemma unmarked_le vis : unmarked vis <= length vis.
Proof. unfold unmarked. induction vis as [|b vis IH]; cbn; [lia|]. destruct b; cbn; lia. Qed.
Lemma marked_start m i j : N.to_nat i < m -> marked (upd (repeat false m) (N.to_nat i) true) j <-> j = i.
Proof.
  intros H. rewrite marked_upd by (rewrite repeat_length; exact H). split; [|auto]. intros [ -> |K]; [reflexivity|].
  unfold marked in K. apply nth_error_In, repeat_spec in K. discriminate K.
Qed.
Lemma search_layer_ok fuel ep : on h layer ep -> ep <> c -> N.to_nat (p_n p) < fuel ->
  exists top, search_base_layer fuel p h ep label layer = Done (Ok top) /\ found_ok top
    /\ (N.to_nat (p_n p) <= ef_of p -> forall i L, list_at h layer ep = Some L -> i = ep \/ In i L -> In i (map snd top)).
Proof.
  intros Oe Dc Hf. unfold search_base_layer. destruct (dist_to_ok h label layer ep Sh Oe) as (d & ->). cbn [hbind].
  pose proof (on_lt h layer ep Sh Oe) as Le.
  rewrite aput_ok by (rewrite repeat_length; lia). cbn [hbind].
  set (vis := upd (repeat false (N.to_nat (p_n p))) (N.to_nat ep) true).
  set (s0 := {| s_top := [(d, ep)]; s_cand := [((- d)%Z, ep)]; s_lower := d; s_vis := vis |}).
  assert (Mk : forall j, marked vis j <-> j = ep) by (intros j; apply marked_start; lia).
  assert (K0 : scan_ok s0).
  { constructor; cbn [s0 s_vis s_top s_cand].
    - unfold vis. rewrite upd_length. apply repeat_length.
    - repeat constructor. intros [].
    - discriminate.
    - repeat constructor; cbn [snd]; auto. apply Mk. reflexivity.
    - repeat constructor. exact Oe.
    - intros _ i Hi. apply Mk in Hi. subst. left. reflexivity. }
  assert (U : S (unmarked vis) <= N.to_nat (p_n p)).
  { unfold vis. rewrite unmarked_upd.
    - etransitivity; [apply unmarked_le|]. rewrite repeat_length. lia.
    - rewrite nth_error_repeat by lia. reflexivity. }
  destruct fuel as [|k]; [lia|]. cbn [scan_loop]. cbn [s0 s_cand s_lower s_top s_vis].
  destruct (top_first lib [((- d)%Z, ep)]) as [[e rest]|] eqn:E.
  2: { apply first_none in E. discriminate E. }
  apply first_some in E. apply Permutation_length_1_inv in E. inversion E; subst e rest. clear E. cbn [fst snd].
  rewrite Z.opp_involutive, Z.ltb_irrefl. cbn [andb].
  destruct (links_at h layer ep Sh Oe) as (L & -> & EL). cbn [hbind].
  destruct (scan_list_ok L {| s_top := [(d, ep)]; s_cand := []; s_lower := d; s_vis := vis |}) as (s' & -> & K' & T' & M' & A').
  { exact (list_members _ _ EL). }
  { constructor; cbn [s_vis s_top s_cand]; try apply K0. constructor. }
  cbn [hbind]. destruct (scan_loop_ok k s' K') as (top & -> & Fo & Al).
  { unfold todo in *. cbn [s_vis s_cand length] in *. lia. }
  exists top. split; [reflexivity|]. split; [exact Fo|]. intros H i L' EL' Hi. rewrite EL in EL'. inversion EL'; subst L'.
  apply Al; [exact H|]. destruct Hi as [ -> |Hi]; [apply M'; apply Mk; reflexivity|apply A'; exact Hi].
Qed.
End Scan.

(** ** Linking a new element on one layer *)
Lemma rated_ok h l owner : shape h -> on h l owner -> forall ids, Forall (fun j => on h l j) ids ->
  exists cs, rated p h owner ids = Ok cs /\ map snd cs = ids.
Proof.
  intros Sh Oo. induction ids as [|j ids IH]; intros F; cbn [rated]; [exists []; auto|].
  apply Forall_cons_iff in F. destruct F as (Oj & F). destruct (dist_ids_ok h l j owner Sh Oj Oo) as (d & ->). cbn [bind].
  destruct (IH F) as (cs & -> & E). cbn [bind]. exists ((d, j) :: cs). split; [reflexivity|]. cbn. rewrite E. reflexivity.
Qed.
Lemma good_list_same h h' l i L : same h h' -> good_list h l i L -> good_list h' l i L.
Proof.
  intros Sm (A & B & C). split; [exact A|]. split; [exact B|]. eapply Forall_impl; [|exact C].
  intros j (X & Y). split; [apply (same_on h h' l j Sm); exact X|exact Y].
Qed.
Lemma lists_ok_set h h' l i L : lists_ok h -> same h h' -> good_list h l i L ->
  (forall l' j, list_at h' l' j = if (Nat.eqb l' l && N.eqb j i)%bool then Some L else list_at h l' j) -> lists_ok h'.
Proof.
  intros LO Sm G E l' j L' H. rewrite E in H. apply (good_list_same h); [exact Sm|].
  destruct (Nat.eqb_spec l' l) as [ -> |D]; cbn [andb] in H; [|apply LO; exact H].
  destruct (N.eqb_spec j i) as [ -> |D]; [inversion H; subst; exact G|apply LO; exact H].
Qed.
Lemma cap_pos l : 0 < p_M p -> 0 < cap p l.
Proof. intros H. destruct l; cbn; lia. Qed.
Lemma M_cap l : p_M p <= cap p l.
Proof. destruct l; cbn; lia. Qed.

Lemma link_back_ok l c : 0 < p_M p -> forall sel h, shape h -> lists_ok h -> on h l c -> NoDup sel ->
  Forall (fun s => on h l s /\ s <> c) sel -> (forall s L, In s sel -> list_at h l s = Some L -> ~ In c L) ->
  exists h', link_back p h c l sel = Ok h' /\ same h h' /\ shape h' /\ lists_ok h'
    /\ (forall l' j, (l' <> l \/ ~ In j sel) -> list_at h' l' j = list_at h l' j)
    /\ (forall s L, In s sel -> list_at h l s = Some L ->
          exists L', list_at h' l s = Some L' /\ L' <> [] /\ (length L < cap p l -> L' = L ++ [c])).
Proof.
  intros HM. induction sel as [|s sel IH]; intros h Sh LO Oc ND F Fr; cbn [link_back].
  - exists h. split; [reflexivity|]. split; [apply same_refl|]. split; [exact Sh|]. split; [exact LO|]. split; [auto|].
    intros s L [].
  - apply Forall_cons_iff in F. destruct F as ((Os & Ds) & F). inversion ND as [|? ? Hs ND']; subst.
    destruct (links_at h l s Sh Os) as (ids & Eids & Lids). rewrite Eids. cbn [bind].
    destruct (LO l s ids Lids) as (G1 & G2 & G3).
    assert (Fc : ~ In c ids) by (apply (Fr s ids); [left; reflexivity|exact Lids]).
    (* the new list of [s] *)
    assert (Go : forall L1 h1, good_list h l s L1 -> L1 <> [] -> (length ids < cap p l -> L1 = ids ++ [c]) ->
      same h h1 -> shape h1 -> (forall l' j, list_at h1 l' j = if (Nat.eqb l' l && N.eqb j s)%bool then Some L1 else list_at h l' j) ->
      exists h', link_back p h1 c l sel = Ok h' /\ same h h' /\ shape h' /\ lists_ok h'
        /\ (forall l' j, (l' <> l \/ ~ In j (s :: sel)) -> list_at h' l' j = list_at h l' j)
        /\ (forall s0 L, In s0 (s :: sel) -> list_at h l s0 = Some L ->
          exists L', list_at h' l s0 = Some L' /\ L' <> [] /\ (length L < cap p l -> L' = L ++ [c]))).
    { intros L1 h1 Gd N1 A1 Sm S1 E1.
      assert (Off : forall j, j <> s -> list_at h1 l j = list_at h l j).
      { intros j D. rewrite E1. destruct (N.eqb_spec j s); [congruence|]. rewrite andb_false_r. reflexivity. }
      destruct (IH h1 S1 (lists_ok_set h h1 l s L1 LO Sm Gd E1)) as (h' & E & B1 & B2 & B3 & B4 & B5); auto.
      - apply (same_on h h1 l c Sm). exact Oc.
      - eapply Forall_impl; [|exact F]. intros j (X & Y). split; [apply (same_on h h1 l j Sm); exact X|exact Y].
      - intros j L Hj HL. rewrite Off in HL; [|intros ->; contradiction]. apply (Fr j L); [right; exact Hj|exact HL].
      - exists h'. split; [exact E|]. split; [eapply same_trans; eauto|]. split; [exact B2|]. split; [exact B3|]. split.
        + intros l' j H. rewrite B4 by (destruct H as [H|H]; [left; exact H|right; intro C; apply H; right; exact C]).
          rewrite E1. destruct (Nat.eqb_spec l' l) as [e|D]; [|reflexivity]. cbn [andb].
          destruct (N.eqb_spec j s) as [ -> |D]; [|reflexivity]. exfalso. destruct H as [H|H]; [congruence|]. apply H. left. reflexivity.
        + intros s0 L [ <- |H0] HL.
          * rewrite HL in Lids. inversion Lids; subst L. exists L1. split; [|auto].
            rewrite B4 by (right; exact Hs). rewrite E1, Nat.eqb_refl, N.eqb_refl. reflexivity.
          * apply (B5 s0 L H0). rewrite Off; [exact HL|intros ->; contradiction]. }
    destruct (Nat.ltb_spec (length ids) (cap p l)) as [Hlt|Hge].
    + destruct (set_links_ok h l s (ids ++ [c]) Sh Os) as (h1 & E1 & Sm & S1 & At); [rewrite app_length; cbn; lia|].
      rewrite E1. cbn [bind]. apply (Go (ids ++ [c]) h1); auto.
      * split; [rewrite app_length; cbn; lia|]. split; [apply NoDup_snoc; auto|]. apply Forall_app. split; [exact G3|]. constructor; [auto|constructor].
      * destruct ids; discriminate.
    + destruct (dist_ids_ok h l c s Sh Oc Os) as (d & ->). cbn [bind].
      assert (Fi : Forall (fun j => on h l j) ids) by (eapply Forall_impl; [|exact G3]; intros j (X & _); exact X).
      destruct (rated_ok h l s Sh Os ids Fi) as (cs & -> & Ecs). cbn [bind].
      destruct (heuristic_ok h l ((d, c) :: cs) (cap p l) Sh) as (kept & -> & K1 & K2 & K3 & K4 & K5 & _).
      { constructor; [exact Oc|]. apply Forall_forall. intros e He. apply (proj1 (Forall_forall _ _) Fi). rewrite <- Ecs. apply in_map. exact He. }
      { cbn [map snd]. rewrite Ecs. constructor; assumption. }
      cbn [bind]. pose proof (drain_perm (length kept) kept eq_refl) as Pd.
      assert (Len : length (drain lib (length kept) kept) = length kept) by (rewrite (Permutation_length Pd); apply map_length).
      destruct (set_links_ok h l s (drain lib (length kept) kept) Sh Os) as (h1 & E1 & Sm & S1 & At); [rewrite Len; exact K4|].
      rewrite E1. cbn [bind]. apply (Go (drain lib (length kept) kept) h1); auto.
      * split; [rewrite Len; exact K4|]. split; [eapply Permutation_NoDup; [apply Permutation_sym; exact Pd|exact K1]|].
        apply Forall_forall. intros j Hj. apply (Permutation_in _ Pd) in Hj. apply K3 in Hj. cbn [map snd] in Hj. rewrite Ecs in Hj.
        destruct Hj as [ <- |Hj]; [split; auto|]. apply (proj1 (Forall_forall _ _) G3 j Hj).
      * intro C. apply (f_equal (@length N)) in C. rewrite Len in C. cbn in C. apply K5; [discriminate|apply cap_pos; exact HM|].
        destruct kept; [reflexivity|discriminate C].
      * lia.
Qed.

(** [c] has no link to or from it on the layer. *)
Definition isolated (h : hnsw) (l : nat) (c : N) : Prop :=
  list_at h l c = Some [] /\ forall i L, list_at h l i = Some L -> ~ In c L.
Lemma last_in {A} (l : list A) : l <> [] -> exists x, aget l (N.of_nat (length l - 1)) = Ok x /\ In x l.
Proof.
  intros H. assert (length l - 1 < length l) by (destruct l; [congruence|cbn; lia]).
  destruct (nth_error l (length l - 1)) as [x|] eqn:E; [|apply nth_error_None in E; lia].
  exists x. split; [apply aget_some; rewrite Nnat.Nat2N.id; exact E|eapply nth_error_In; eauto].
Qed.
Lemma connect_ok h l c top : 0 < p_M p -> shape h -> lists_ok h -> isolated h l c -> found_ok h l c top ->
  exists h' next sel, connect p h c top l = Ok (h', next) /\ same h h' /\ shape h' /\ lists_ok h'
    /\ (forall l' j, l' <> l -> list_at h' l' j = list_at h l' j)
    /\ on h l next /\ next <> c
    /\ sel <> [] /\ Forall (fun s => on h l s /\ s <> c) sel /\ list_at h' l c = Some sel
    /\ (forall j, j <> c -> ~ In j sel -> list_at h' l j = list_at h l j)
    /\ (forall j L, In j sel -> list_at h l j = Some L -> exists L', list_at h' l j = Some L' /\ L' <> [] /\ (length L < cap p l -> L' = L ++ [c]))
    /\ (length top < p_M p -> forall j, In j (map snd top) -> In j sel).
Proof.
  intros HM Sh LO (Ic & Ii) (ND & NE & F). unfold connect.
  assert (V : valid h l top) by (eapply Forall_impl; [|exact F]; intros e (X & _); exact X).
  destruct (heuristic_ok h l top (p_M p) Sh V ND) as (kept & -> & K1 & K2 & K3 & K4 & K5 & K6). cbn [bind].
  pose proof (drain_perm (length kept) kept eq_refl) as Pd. set (sel := drain lib (length kept) kept) in *.
  assert (Len : length sel = length kept) by (rewrite (Permutation_length Pd); apply map_length).
  assert (NEs : sel <> []).
  { intro C. rewrite C in Len. apply (K5 NE HM). destruct kept; [reflexivity|discriminate Len]. }
  assert (Fs : Forall (fun s => on h l s /\ s <> c) sel).
  { apply Forall_forall. intros j Hj. apply (Permutation_in _ Pd), K3 in Hj. apply in_map_iff in Hj. destruct Hj as (e & <- & He).
    apply (proj1 (Forall_forall _ _) F e He). }
  assert (NDs : NoDup sel) by (eapply Permutation_NoDup; [apply Permutation_sym; exact Pd|exact K1]).
  destruct (last_in sel NEs) as (next & En & Hn).
  assert (Em : match sel with [] => OutOfBounds | _ => aget sel (N.of_nat (length sel - 1)) end = Ok next) by (destruct sel; [congruence|exact En]).
  rewrite Em. cbn [bind].
  assert (Oc : on h l c) by (eapply list_on; eauto).
  destruct (set_links_ok h l c sel Sh Oc) as (h1 & -> & Sm1 & S1 & At1); [pose proof (M_cap l); lia|]. cbn [bind].
  assert (Off : forall j, j <> c -> list_at h1 l j = list_at h l j).
  { intros j D. rewrite At1. destruct (N.eqb_spec j c); [congruence|]. rewrite andb_false_r. reflexivity. }
  assert (LO1 : lists_ok h1).
  { eapply (lists_ok_set h h1 l c sel); eauto. split; [pose proof (M_cap l); lia|]. split; [exact NDs|exact Fs]. }
  destruct (link_back_ok l c HM sel h1 S1 LO1) as (h2 & -> & Sm2 & S2 & LO2 & B4 & B5); auto.
  - apply (same_on h h1 l c Sm1). exact Oc.
  - eapply Forall_impl; [|exact Fs]. intros j (X & Y). split; [apply (same_on h h1 l j Sm1); exact X|exact Y].
  - intros s L Hs HL. pose proof (proj1 (Forall_forall _ _) Fs s Hs) as (_ & Ds). rewrite Off in HL by exact Ds. exact (Ii s L HL).
  - cbn [bind]. exists h2, next, sel. split; [reflexivity|]. split; [eapply same_trans; eauto|]. split; [exact S2|]. split; [exact LO2|].
    pose proof (proj1 (Forall_forall _ _) Fs next Hn) as (On & Dn).
    assert (Csel : ~ In c sel) by (intro C; pose proof (proj1 (Forall_forall _ _) Fs c C) as (_ & D); congruence).
    repeat (split; [solve [auto]|]).
    split; [intros l' j D; rewrite B4 by (left; exact D); rewrite At1; destruct (Nat.eqb_spec l' l); [congruence|reflexivity]|].
    split; [exact On|]. split; [exact Dn|]. split; [exact NEs|]. split; [exact Fs|].
    split; [rewrite B4 by (right; exact Csel); rewrite At1, Nat.eqb_refl, N.eqb_refl; reflexivity|].
    split; [intros j D Nj; rewrite B4 by (right; exact Nj); apply Off; exact D|].
    split.
    + intros j L Hj HL. apply B5; [exact Hj|]. rewrite Off; [exact HL|]. apply (proj1 (Forall_forall _ _) Fs j Hj).
    + intros Hlt j Hj. rewrite (K6 Hlt) in Pd. eapply Permutation_in; [apply Permutation_sym; exact Pd|exact Hj].
Qed.
(** ** Going down the layers *)
Definition nearer (h : hnsw) (label : N) (d : Z) : nat := length (filter (fun lab => Z.ltb (p_dist p label lab) d) (h_labels h)).
Lemma filter_shrinks {A} (f g : A -> bool) (l : list A) x : (forall y, g y = true -> f y = true) -> In x l -> f x = true -> g x = false ->
  length (filter g l) < length (filter f l).
Proof.
  intros Imp. assert (Le : forall l, length (filter g l) <= length (filter f l)).
  { clear -Imp. induction l as [|y l IH]; cbn; [lia|]. pose proof (Imp y) as H. destruct (g y), (f y); cbn; try lia; discriminate (H eq_refl). }
  induction l as [|y l IH]; intros Hin Fx Gx; [destruct Hin|]. destruct Hin as [ -> |Hin]; cbn [filter].
  - rewrite Fx, Gx. cbn. specialize (Le l). lia.
  - specialize (IH Hin Fx Gx). pose proof (Imp y) as H. destruct (g y), (f y); cbn; try lia; discriminate (H eq_refl).
Qed.
Lemma walk_ok h label l : shape h -> forall ids cur d ch, Forall (fun j => on h l j) ids -> on h l cur ->
  exists cur' d' ch', walk p h label ids cur d ch = Ok (cur', d', ch') /\ on h l cur'
    /\ ((cur' = cur /\ d' = d /\ ch' = ch) \/ (ch' = true /\ (d' < d)%Z /\ exists lab, In lab (h_labels h) /\ d' = p_dist p label lab)).
Proof.
  intros Sh. induction ids as [|id ids IH]; intros cur d ch F Oc; cbn [walk].
  - exists cur, d, ch. split; [reflexivity|]. split; [exact Oc|]. left. auto.
  - apply Forall_cons_iff in F. destruct F as (Oi & F). destruct (on_label h l id Sh Oi) as (lab & El).
    unfold dist_to at 1. rewrite (aget_some _ _ _ El). cbn [bind].
    destruct (Z.ltb_spec (p_dist p label lab) d) as [Hd|Hd]; [|apply IH; auto].
    destruct (IH id (p_dist p label lab) true F Oi) as (cur' & d' & ch' & E & O' & H).
    exists cur', d', ch'. split; [exact E|]. split; [exact O'|]. right.
    destruct H as [(-> & -> & ->)|(A & B & C)].
    + split; [reflexivity|]. split; [exact Hd|]. exists lab. split; [eapply nth_error_In; eauto|reflexivity].
    + split; [exact A|]. split; [lia|exact C].
Qed.
Lemma list_on_all h l i L : lists_ok h -> list_at h l i = Some L -> Forall (fun j => on h l j) L.
Proof. intros LO E. destruct (LO l i L E) as (_ & _ & F). eapply Forall_impl; [|exact F]. intros j (X & _). exact X. Qed.
Lemma walk_layer_ok h label l : shape h -> lists_ok h -> forall fuel cur d, on h l cur -> nearer h label d < fuel ->
  exists cur' d', walk_layer fuel p h label l cur d = Done (Ok (cur', d')) /\ on h l cur'.
Proof.
  intros Sh LO. induction fuel as [|k IH]; intros cur d Oc Hf; [lia|]. cbn [walk_layer].
  destruct (links_at h l cur Sh Oc) as (ids & -> & Ei). cbn [hbind].
  destruct (walk_ok h label l Sh ids cur d false (list_on_all h l cur ids LO Ei) Oc) as (cur' & d' & ch' & -> & O' & H). cbn [hbind].
  destruct H as [(-> & -> & ->)|(-> & Hd & lab & Hl & Ed)]; [eauto|].
  apply IH; [exact O'|]. eapply Nat.lt_le_trans; [|apply le_S_n; exact Hf].
  unfold nearer. apply (filter_shrinks _ _ _ lab); [|exact Hl| |].
  - intros y Hy. apply Z.ltb_lt in Hy. apply Z.ltb_lt. lia.
  - apply Z.ltb_lt. lia.
  - apply Z.ltb_ge. lia.
Qed.
Lemma nearer_le h label d : nearer h label d <= length (h_labels h).
Proof. unfold nearer. induction (h_labels h) as [|x l IH]; cbn; [lia|]. destruct (Z.ltb _ _); cbn; lia. Qed.
Lemma walk_down_ok h label low fuel : shape h -> lists_ok h -> length (h_labels h) < fuel ->
  forall steps cur d, on h (low + steps) cur ->
  exists cur' d', walk_down fuel p h label low steps cur d = Done (Ok (cur', d')) /\ (0 < steps -> on h (S low) cur') /\ (steps = 0 -> cur' = cur).
Proof.
  intros Sh LO Hf. induction steps as [|k IH]; intros cur d Oc; cbn [walk_down].
  - exists cur, d. repeat split; auto; lia.
  - destruct (walk_layer_ok h label (low + S k) Sh LO fuel cur d Oc) as (c1 & d1 & -> & O1).
    { eapply Nat.le_lt_trans; [apply nearer_le|exact Hf]. }
    cbn [hbind fst snd]. destruct (IH c1 d1) as (cur' & d' & E & A & B).
    { eapply on_low; [exact O1|lia]. }
    exists cur', d'. split; [exact E|]. split; [|lia]. intros _. destruct k as [|k].
    + rewrite (B eq_refl). eapply on_low; [exact O1|lia].
    + apply A. lia.
Qed.

(** ** All layers of a new element *)
(** A node without links on a layer is alone on it. *)
Definition filled (h : hnsw) (l : nat) : Prop :=
  forall i, list_at h l i = Some [] -> forall j, on h l j -> j = i.
(** The same for the nodes other than [c]. *)
Definition filled_but (c : N) (h : hnsw) (l : nat) : Prop :=
  forall i, i <> c -> list_at h l i = Some [] -> forall j, on h l j -> j <> c -> j = i.
(** On layer 0 everything is linked to everything. *)
Definition complete (h : hnsw) : Prop :=
  forall i j, on h 0 i -> on h 0 j -> i <> j -> exists L, list_at h 0 i = Some L /\ In j L.
Definition complete_but (c : N) (h : hnsw) : Prop :=
  forall i j, i <> c -> j <> c -> on h 0 i -> on h 0 j -> i <> j -> exists L, list_at h 0 i = Some L /\ In j L.

Lemma ef_pos : 0 < p_M p -> 0 < ef_of p.
Proof. unfold ef_of. lia. Qed.
Lemma connect_fills h h' l c sel : shape h -> same h h' -> isolated h l c -> filled_but c h l ->
  sel <> [] -> Forall (fun s => on h l s /\ s <> c) sel -> list_at h' l c = Some sel ->
  (forall j, j <> c -> ~ In j sel -> list_at h' l j = list_at h l j) ->
  (forall j L, In j sel -> list_at h l j = Some L -> exists L', list_at h' l j = Some L' /\ L' <> [] /\ (length L < cap p l -> L' = L ++ [c])) ->
  filled h' l.
Proof.
  intros Sh Sm Is Fb NE Fs Ec Eo Es i Ei j Oj.
  destruct (N.eq_dec i c) as [ -> |D]; [rewrite Ec in Ei; inversion Ei; congruence|].
  destruct (in_dec N.eq_dec i sel) as [Hi|Hi].
  - pose proof (proj1 (Forall_forall _ _) Fs i Hi) as (Oi & _). destruct (links_at h l i Sh Oi) as (L & _ & EL).
    destruct (Es i L Hi EL) as (L' & E' & N' & _). rewrite Ei in E'. inversion E'; congruence.
  - exfalso. rewrite Eo in Ei by assumption. destruct sel as [|s sel]; [congruence|].
    apply Forall_cons_iff in Fs. destruct Fs as ((Os & Ds) & _).
    apply Hi. left. apply (Fb i D Ei s Os Ds).
Qed.
Lemma connect_layers_ok label c fuel : 0 < p_M p -> N.to_nat (p_n p) < fuel -> forall layer h ep,
  shape h -> lists_ok h -> length (h_labels h) <= N.to_nat (p_n p) -> on h layer ep -> ep <> c ->
  (forall l, l <= layer -> isolated h l c /\ filled_but c h l) ->
  exists h', connect_layers fuel p h label c layer ep = Done (Ok h') /\ same h h' /\ shape h' /\ lists_ok h'
    /\ (forall l, l <= layer -> filled h' l) /\ (forall l j, layer < l -> list_at h' l j = list_at h l j)
    /\ (N.to_nat (p_n p) <= p_M p -> complete_but c h -> complete h').
Proof.
  intros HM Hf. induction layer as [|l IH]; intros h ep Sh LO Hn Oe De Pre;
    destruct (Pre _ (le_n _)) as (Is & Fb); cbn [connect_layers].
  - destruct (search_layer_ok h 0 c label Sh Hn (ef_pos HM) (proj2 Is) LO fuel ep Oe De Hf) as (top & -> & Fo & All). cbn [hbind].
    destruct (connect_ok h 0 c top HM Sh LO Is Fo) as (h' & next & sel & -> & Sm & S' & LO' & Oth & On & Dn & NE & Fs & Ec & Eo & Es & Sel).
    cbn [hbind fst]. exists h'. split; [reflexivity|]. split; [exact Sm|]. split; [exact S'|]. split; [exact LO'|].
    split; [|split].
    + intros l Hl. replace l with 0 by lia. eapply connect_fills with (h := h) (c := c) (sel := sel); eauto.
    + intros l j Hl. apply Oth. lia.
    + intros Small Cb.
      assert (Oc : on h 0 c) by (eapply list_on; [exact Sh|exact (proj1 Is)]).
      assert (Lt : length top < p_M p).
      { destruct Fo as (ND & _ & F). rewrite <- (map_length snd). eapply Nat.lt_le_trans; [|exact Small].
        assert (H : length (c :: map snd top) <= N.to_nat (p_n p)); [|cbn in H; lia].
        apply NoDup_lt_length.
        - constructor; [|exact ND]. intro C. apply in_map_iff in C. destruct C as (e & E1 & E2).
          pose proof (proj1 (Forall_forall _ _) F e E2) as (_ & D). congruence.
        - constructor; [pose proof (on_lt h 0 c Sh Oc); lia|]. apply Forall_map. eapply Forall_impl; [|exact F].
          intros e (X & _). pose proof (on_lt h 0 _ Sh X). lia. }
      assert (Every : forall j, on h 0 j -> j <> c -> In j sel).
      { intros j Oj Dj. apply (Sel Lt). destruct (links_at h 0 ep Sh Oe) as (L & _ & EL).
        apply (All ltac:(unfold ef_of; lia) j L EL). destruct (N.eq_dec j ep) as [ -> |D]; [auto|right].
        destruct (Cb ep j De Dj Oe Oj) as (L' & EL' & Hin); [congruence|]. rewrite EL in EL'. inversion EL'; subst. exact Hin. }
      assert (Room : forall j L, j <> c -> list_at h 0 j = Some L -> length L < cap p 0).
      { intros j L Dj EL. destruct (LO 0 j L EL) as (_ & ND & F). cbn [cap].
        assert (H : length (c :: L) <= N.to_nat (p_n p)); [|cbn in H; lia].
        apply NoDup_lt_length.
        - constructor; [apply (proj2 Is j L EL)|exact ND].
        - constructor; [pose proof (on_lt h 0 c Sh Oc); lia|]. eapply Forall_impl; [|exact F].
          intros e (X & _). pose proof (on_lt h 0 _ Sh X). lia. }
      intros i j Oi Oj D. apply (same_on h h' 0 i Sm) in Oi. apply (same_on h h' 0 j Sm) in Oj.
      destruct (N.eq_dec i c) as [ -> |Di].
      * exists sel. split; [exact Ec|]. apply Every; [exact Oj|congruence].
      * destruct (links_at h 0 i Sh Oi) as (L & _ & EL).
        destruct (Es i L (Every i Oi Di) EL) as (L' & E' & _ & A'). specialize (A' (Room i L Di EL)). subst L'.
        exists (L ++ [c]). split; [exact E'|]. apply in_or_app.
        destruct (N.eq_dec j c) as [ -> |Dj]; [right; left; reflexivity|left].
        destruct (Cb i j Di Dj Oi Oj D) as (L' & EL' & Hin). rewrite EL in EL'. inversion EL'; subst. exact Hin.
  - destruct (search_layer_ok h (S l) c label Sh Hn (ef_pos HM) (proj2 Is) LO fuel ep Oe De Hf) as (top & -> & Fo & _). cbn [hbind].
    destruct (connect_ok h (S l) c top HM Sh LO Is Fo) as (h1 & next & sel & -> & Sm & S' & LO' & Oth & On & Dn & NE & Fs & Ec & Eo & Es & _).
    cbn [hbind fst snd].
    destruct (IH h1 next S' LO') as (h2 & E2 & Sm2 & S2 & LO2 & Fi2 & Un2 & C2).
    + destruct Sm as (-> & _). exact Hn.
    + apply (same_on h h1 l next Sm). eapply on_low; [exact On|lia].
    + exact Dn.
    + intros l' Hl'. destruct (Pre l' ltac:(lia)) as ((I1 & I2) & F1). split.
      * split; [rewrite Oth by lia; exact I1|]. intros i L HL. rewrite Oth in HL by lia. exact (I2 i L HL).
      * intros i Di Ei j Oj Dj. rewrite Oth in Ei by lia. apply (same_on h h1 l' j Sm) in Oj. exact (F1 i Di Ei j Oj Dj).
    + exists h2. split; [exact E2|]. split; [eapply same_trans; eauto|]. split; [exact S2|]. split; [exact LO2|]. split; [|split].
      * intros l' Hl'. destruct (Nat.eq_dec l' (S l)) as [ -> |D]; [|apply Fi2; lia].
        intros i Ei j Oj. rewrite Un2 in Ei by lia. apply (same_on h1 h2 (S l) j Sm2) in Oj.
        eapply connect_fills with (h := h) (h' := h1) (c := c) (sel := sel); eauto.
      * intros l' j Hl'. rewrite Un2 by lia. apply Oth. lia.
      * intros Small Cb. apply C2; [exact Small|]. intros i j Di Dj Oi Oj D.
        apply (same_on h h1 0 i Sm) in Oi. apply (same_on h h1 0 j Sm) in Oj. rewrite Oth by lia. apply Cb; auto.
Qed.
(** ** Inserting a point *)
Record inv (h : hnsw) : Prop := {
  iv_shape : shape h;
  iv_lists : lists_ok h;
  iv_filled : forall l, filled h l;
  iv_labels : NoDup (h_labels h);
  iv_top : match h_top h with
           | None => h_labels h = []
           | Some (ep, mx) => nth_error (h_levels h) (N.to_nat ep) = Some mx /\ forall k, In k (h_levels h) -> k <= mx
           end;
  iv_complete : N.to_nat (p_n p) <= p_M p -> complete h }.
Lemma list_at_none h l i : shape h -> ~ N.to_nat i < length (h_labels h) -> list_at h l i = None.
Proof.
  intros Sh H. unfold list_at. rewrite (proj2 (nth_error_None _ _)); [reflexivity|]. rewrite (sh_ln h Sh). lia.
Qed.
Lemma inv_new : inv hnsw_new.
Proof.
  constructor; cbn [hnsw_new h_top h_labels].
  - constructor; try reflexivity. intros i ls k E. destruct i; discriminate E.
  - intros l i L E. unfold list_at in E. cbn in E. destruct (N.to_nat i); discriminate E.
  - intros l i E. unfold list_at in E. cbn in E. destruct (N.to_nat i); discriminate E.
  - constructor.
  - reflexivity.
  - intros _ i j (k & E & _). cbn in E. destruct (N.to_nat i); discriminate E.
Qed.
Definition extend (h : hnsw) (label : N) (level : nat) : hnsw :=
  {| h_labels := h_labels h ++ [label]; h_levels := h_levels h ++ [level];
     h_links := h_links h ++ [repeat [] (S level)]; h_top := h_top h |}.
Definition with_top (h : hnsw) (t : option (N * nat)) : hnsw :=
  {| h_labels := h_labels h; h_levels := h_levels h; h_links := h_links h; h_top := t |}.
Lemma on_extend h label level l i : shape h ->
  on (extend h label level) l i <-> (i = N.of_nat (length (h_labels h)) /\ l <= level) \/ on h l i.
Proof.
  intros Sh. unfold on, extend. cbn [h_levels]. rewrite nth_error_snoc, (sh_lv h Sh).
  destruct (Nat.eqb_spec (N.to_nat i) (length (h_labels h))) as [e|D].
  - split.
    + intros (k & E & H). inversion E; subst k. left. split; [rewrite <- e, Nnat.N2Nat.id; reflexivity|exact H].
    + intros [(_ & H)|(k & E & H)]; [eauto|]. exfalso. assert (N.to_nat i < length (h_levels h)) by (apply nth_error_Some; congruence).
      rewrite (sh_lv h Sh) in *. lia.
  - split; [auto|]. intros [(-> & _)|H]; [|exact H]. rewrite Nnat.Nat2N.id in D. congruence.
Qed.
Lemma list_extend h label level l i : shape h ->
  list_at (extend h label level) l i =
  if N.eqb i (N.of_nat (length (h_labels h))) then (if Nat.leb l level then Some [] else None) else list_at h l i.
Proof.
  intros Sh. unfold list_at, extend. cbn [h_links]. rewrite nth_error_snoc, (sh_ln h Sh).
  destruct (N.eqb_spec i (N.of_nat (length (h_labels h)))) as [ -> |D].
  - rewrite Nnat.Nat2N.id, Nat.eqb_refl. destruct (Nat.leb_spec l level).
    + apply nth_error_repeat. lia.
    + apply nth_error_None. rewrite repeat_length. lia.
  - destruct (Nat.eqb_spec (N.to_nat i) (length (h_labels h))) as [e|_]; [|reflexivity].
    exfalso. apply D. rewrite <- e, Nnat.N2Nat.id. reflexivity.
Qed.
Lemma shape_extend h label level : shape h -> shape (extend h label level).
Proof.
  intros Sh. constructor; cbn [extend h_labels h_levels h_links].
  - rewrite !app_length, (sh_lv h Sh). reflexivity.
  - rewrite !app_length, (sh_ln h Sh). reflexivity.
  - intros i ls k. rewrite !nth_error_snoc, (sh_lv h Sh), (sh_ln h Sh). destruct (Nat.eqb i (length (h_labels h))).
    + intros A B. injection A as <-. injection B as <-. cbn [length]. rewrite repeat_length. reflexivity.
    + apply (sh_ls h Sh).
Qed.
Lemma lists_extend h label level : shape h -> lists_ok h -> lists_ok (extend h label level).
Proof.
  intros Sh LO l i L E. rewrite list_extend in E by exact Sh.
  destruct (N.eqb i (N.of_nat (length (h_labels h)))).
  - destruct (Nat.leb l level); inversion E; subst L. split; [cbn; lia|]. split; constructor.
  - destruct (LO l i L E) as (A & B & C). split; [exact A|]. split; [exact B|]. eapply Forall_impl; [|exact C].
    intros j (X & Y). split; [|exact Y]. apply on_extend; auto.
Qed.
Lemma new_not_on h l : shape h -> ~ on h l (N.of_nat (length (h_labels h))).
Proof. intros Sh H. apply on_lt in H; [|exact Sh]. lia. Qed.
Lemma isolated_extend h label level l : shape h -> lists_ok h -> l <= level ->
  isolated (extend h label level) l (N.of_nat (length (h_labels h))).
Proof.
  intros Sh LO Hl. split.
  - rewrite list_extend by exact Sh. rewrite N.eqb_refl. destruct (Nat.leb_spec l level); [reflexivity|lia].
  - intros i L E. rewrite list_extend in E by exact Sh. destruct (N.eqb i (N.of_nat (length (h_labels h)))).
    + destruct (Nat.leb l level); inversion E. intros [].
    + intro C. destruct (LO l i L E) as (_ & _ & F). pose proof (proj1 (Forall_forall _ _) F _ C) as (O & _).
      exact (new_not_on h l Sh O).
Qed.
Lemma filled_extend h label level l : shape h -> (forall l, filled h l) ->
  filled_but (N.of_nat (length (h_labels h))) (extend h label level) l.
Proof.
  intros Sh Fi i Di Ei j Oj Dj. rewrite list_extend in Ei by exact Sh.
  destruct (N.eqb_spec i (N.of_nat (length (h_labels h)))); [congruence|].
  apply on_extend in Oj; [|exact Sh]. destruct Oj as [(E & _)|Oj]; [congruence|]. exact (Fi l i Ei j Oj).
Qed.
Lemma complete_extend h label level : shape h -> complete h ->
  complete_but (N.of_nat (length (h_labels h))) (extend h label level).
Proof.
  intros Sh Cp i j Di Dj Oi Oj D. rewrite list_extend by exact Sh.
  destruct (N.eqb_spec i (N.of_nat (length (h_labels h)))); [congruence|].
  apply on_extend in Oi; [|exact Sh]. apply on_extend in Oj; [|exact Sh].
  destruct Oi as [(E & _)|Oi]; [congruence|]. destruct Oj as [(E & _)|Oj]; [congruence|]. apply Cp; auto.
Qed.

Lemma add_point_ok fuel h label level : inv h -> 2 <= p_M p -> N.to_nat (p_n p) < fuel ->
  ~ In label (h_labels h) -> length (h_labels h) < N.to_nat (p_n p) ->
  exists h', add_point fuel p h label level = Done (Ok h') /\ inv h'
    /\ h_labels h' = h_labels h ++ [label] /\ h_levels h' = h_levels h ++ [level].
Proof.
  intros I HM Hf Fr Hn. pose proof (iv_shape h I) as Sh. pose proof (iv_lists h I) as LO.
  unfold add_point. destruct (existsb (N.eqb label) (h_labels h)) eqn:Ex.
  { exfalso. apply existsb_exists in Ex. destruct Ex as (x & Hx & E). apply N.eqb_eq in E. subst. contradiction. }
  destruct (N.leb_spec (p_n p) (N.of_nat (length (h_labels h)))); [lia|].
  unfold random_level. destruct (Nat.eqb_spec (p_M p) 1); [lia|]. cbn [hbind].
  fold (extend h label level). set (h1 := extend h label level). set (c := N.of_nat (length (h_labels h))).
  assert (Sh1 : shape h1) by (apply shape_extend; exact Sh).
  assert (LO1 : lists_ok h1) by (apply lists_extend; assumption).
  assert (ND1 : NoDup (h_labels h1)) by (apply NoDup_snoc; [apply I|exact Fr]).
  pose proof (iv_top h I) as Tp. destruct (h_top h) as [[ep mx]|] eqn:Et.
  - destruct Tp as (Eep & Mx).
    assert (Oep : on h mx ep) by (exists mx; auto).
    assert (Dep : ep <> c) by (intros ->; exact (new_not_on h mx Sh Oep)).
    assert (Len1 : length (h_labels h1) <= N.to_nat (p_n p)) by (unfold h1; cbn [extend h_labels]; rewrite app_length; cbn; lia).
    assert (Start : exists start,
      (if Nat.ltb level mx then do! d <- Done (dist_to p h1 label ep); do! r <- walk_down fuel p h1 label level (mx - level) ep d; Done (Ok (fst r))
       else Done (Ok ep)) = Done (Ok start) /\ on h1 (Nat.min level mx) start /\ start <> c).
    { destruct (Nat.ltb_spec level mx) as [Hl|Hl].
      - assert (O1 : on h1 (level + (mx - level)) ep) by (replace (level + (mx - level)) with mx by lia; apply on_extend; auto).
        destruct (dist_to_ok h1 label _ ep Sh1 O1) as (d & ->). cbn [hbind].
        destruct (walk_down_ok h1 label level fuel Sh1 LO1 ltac:(lia) (mx - level) ep d O1) as (s & d' & -> & A & _). cbn [hbind fst].
        exists s. split; [reflexivity|]. specialize (A ltac:(lia)). split; [eapply on_low; [exact A|lia]|].
        intros ->. apply on_extend in A; [|exact Sh]. destruct A as [(_ & A)|A]; [lia|exact (new_not_on h _ Sh A)].
      - exists ep. split; [reflexivity|]. split; [|exact Dep]. replace (Nat.min level mx) with mx by lia. apply on_extend; auto. }
    destruct Start as (start & Est & Ost & Dst). cbn [hbind] in Est. rewrite Est. cbn [hbind].
    destruct (connect_layers_ok label c fuel ltac:(lia) Hf (Nat.min level mx) h1 start Sh1 LO1 Len1 Ost Dst)
      as (h2 & -> & Sm & S2 & LO2 & Fi2 & Un2 & C2).
    { intros l Hl. split; [apply isolated_extend; auto; lia|apply filled_extend; [exact Sh|apply I]]. }
    cbn [hbind].
    assert (Fi : forall l, filled h2 l).
    { intros l. destruct (Nat.le_gt_cases l (Nat.min level mx)) as [Hl|Hl]; [apply Fi2; exact Hl|].
      intros i Ei j Oj. rewrite Un2 in Ei by exact Hl. apply (same_on h1 h2 l j Sm) in Oj. unfold h1 in Ei, Oj.
      apply on_extend in Oj; [|exact Sh]. rewrite list_extend in Ei by exact Sh.
      destruct (N.eqb_spec i (N.of_nat (length (h_labels h)))) as [Ic|Di].
      - destruct Oj as [(Jc & _)|(k & Ek & Hk)]; [congruence|]. exfalso. apply nth_error_In, Mx in Ek.
        destruct (Nat.leb_spec l level); [lia|discriminate Ei].
      - destruct Oj as [(_ & Hl2)|Oj]; [|exact (iv_filled h I l i Ei j Oj)].
        exfalso. destruct (list_on h l i [] Sh Ei) as (k & Ek & Hk). apply nth_error_In, Mx in Ek. lia. }
    assert (Cp : N.to_nat (p_n p) <= p_M p -> complete h2).
    { intros Small. apply C2; [exact Small|]. apply complete_extend; [exact Sh|]. apply (iv_complete h I Small). }
    destruct Sm as (Lab & Lev & Top).
    assert (Eold : nth_error (h_levels h2) (N.to_nat ep) = Some mx).
    { rewrite Lev. unfold h1. cbn [extend h_levels]. rewrite nth_error_app1 by (apply nth_error_Some; congruence). exact Eep. }
    assert (Mx2 : forall k, In k (h_levels h2) -> k = level \/ k <= mx).
    { intros k Hk. rewrite Lev in Hk. unfold h1 in Hk. cbn [extend h_levels] in Hk. apply in_app_iff in Hk.
      destruct Hk as [Hk|[ <- |[]]]; auto. }
    destruct (Nat.ltb_spec mx level) as [Hl|Hl].
    + eexists. split; [reflexivity|]. split; [|split; [exact Lab|exact Lev]].
      constructor; cbn [h_top h_labels h_levels].
      * constructor; cbn [h_labels h_levels h_links]; apply S2.
      * exact LO2.
      * exact Fi.
      * rewrite Lab. exact ND1.
      * rewrite Lev. split.
        -- unfold c, h1. rewrite Nnat.Nat2N.id. cbn [extend h_levels]. rewrite nth_error_snoc, (sh_lv h Sh), Nat.eqb_refl. reflexivity.
        -- intros k Hk. rewrite <- Lev in Hk. apply Mx2 in Hk. lia.
      * exact Cp.
    + exists h2. split; [reflexivity|]. split; [|split; [exact Lab|exact Lev]].
      constructor; auto.
      * rewrite Lab. exact ND1.
      * rewrite Top. unfold h1. cbn [extend h_top].
        rewrite Et. split; [exact Eold|]. intros k Hk. apply Mx2 in Hk. lia.
  - eexists. split; [reflexivity|]. split; [|split; reflexivity].
    assert (Lv0 : h_levels h = []) by (apply length_zero_iff_nil; rewrite (sh_lv h Sh), Tp; reflexivity).
    constructor; cbn [h_top h_labels h_levels h_links].
    + constructor; cbn [h_labels h_levels h_links]; apply Sh1.
    + exact LO1.
    + intros l i Ei j Oj. change (list_at h1 l i = Some []) in Ei. change (on h1 l j) in Oj.
      assert (Z : forall l x, on h1 l x -> x = c).
      { intros l0 x Ox. apply on_extend in Ox; [|exact Sh]. destruct Ox as [(-> & _)|(k & Ek & _)]; [reflexivity|].
        rewrite Lv0 in Ek. destruct (N.to_nat x); discriminate Ek. }
      rewrite (Z l j Oj). symmetry. apply (Z l). eapply list_on; eauto.
    + exact ND1.
    + split.
      * unfold c, h1. cbn [extend h_levels]. rewrite Lv0, Tp. reflexivity.
      * unfold h1. cbn [extend h_levels]. rewrite Lv0. intros k [ <- |[]]. lia.
    + intros _ i j Oi Oj D. exfalso. apply D.
      assert (Z : forall l x, on h1 l x -> x = c).
      { intros l0 x Ox. apply on_extend in Ox; [|exact Sh]. destruct Ox as [(-> & _)|(k & Ek & _)]; [reflexivity|].
        rewrite Lv0 in Ek. destruct (N.to_nat x); discriminate Ek. }
      rewrite (Z 0 i Oi), (Z 0 j Oj). reflexivity.
Qed.
Lemma add_points_ok fuel : 2 <= p_M p -> N.to_nat (p_n p) < fuel -> forall order h, inv h ->
  NoDup (h_labels h ++ map fst order) -> length (h_labels h) + length order <= N.to_nat (p_n p) ->
  exists h', add_points fuel p h order = Done (Ok h') /\ inv h'
    /\ h_labels h' = h_labels h ++ map fst order /\ h_levels h' = h_levels h ++ map snd order.
Proof.
  intros HM Hf. induction order as [|[label draw] order IH]; intros h I ND Hn; cbn [add_points map fst snd].
  - exists h. rewrite !app_nil_r. auto.
  - cbn [map fst] in ND. pose proof (NoDup_remove_2 _ _ _ ND) as Fr. cbn [length] in Hn.
    destruct (add_point_ok fuel h label draw I HM Hf) as (h1 & -> & I1 & L1 & V1); [intro C; apply Fr, in_or_app; auto|lia|].
    cbn [hbind]. destruct (IH h1 I1) as (h2 & E2 & I2 & L2 & V2).
    + rewrite L1, <- app_assoc. exact ND.
    + rewrite L1, app_length. cbn. lia.
    + exists h2. split; [exact E2|]. split; [exact I2|]. rewrite L2, V2, L1, V1, <- !app_assoc. auto.
Qed.

(** ** Copying *)
Definition labs (h : hnsw) (ids : list N) : list N := map (fun id => nth (N.to_nat id) (h_labels h) 0%N) ids.
Lemma lookup_from_ok label : forall labels k, In label labels ->
  exists i, lookup_from labels label k = (k + N.of_nat i)%N /\ nth_error labels i = Some label.
Proof.
  induction labels as [|l labels IH]; intros k H; [destruct H|]. cbn [lookup_from]. destruct (N.eqb_spec l label) as [ -> |D].
  - exists 0. split; [lia|reflexivity].
  - destruct H as [H|H]; [congruence|]. destruct (IH (k + 1)%N H) as (i & -> & E). exists (S i). split; [lia|exact E].
Qed.
Lemma lookup_ok h label : In label (h_labels h) -> nth_error (h_labels h) (N.to_nat (lookup h label)) = Some label.
Proof.
  intros H. unfold lookup. destruct (lookup_from_ok label (h_labels h) 0%N H) as (i & -> & E).
  replace (N.to_nat (0 + N.of_nat i)) with i by lia. exact E.
Qed.
Lemma upd_app_mid {A} (a : list A) x y b : upd (a ++ x :: b) (length a) y = a ++ y :: b.
Proof. induction a as [|z a IH]; cbn; [reflexivity|]. f_equal. exact IH. Qed.
Lemma copy_ids_ok h : forall ids row pre mid post, Forall (fun id => N.to_nat id < length (h_labels h)) ids ->
  row = pre ++ mid ++ post -> length mid = length ids ->
  copy_ids h row (N.of_nat (length pre)) ids = Ok (pre ++ labs h ids ++ post).
Proof.
  induction ids as [|id ids IH]; intros row pre mid post F E L; cbn [copy_ids].
  - destruct mid; [|discriminate L]. cbn. rewrite E. reflexivity.
  - destruct mid as [|m mid]; [discriminate L|]. apply Forall_cons_iff in F. destruct F as (Hi & F).
    rewrite (aget_nth (h_labels h) id 0%N) by lia. cbn [bind].
    rewrite aput_ok by (rewrite E, !app_length; cbn; lia). cbn [bind]. rewrite Nnat.Nat2N.id, E. cbn [app]. rewrite upd_app_mid.
    set (x := nth (N.to_nat id) (h_labels h) 0%N).
    replace (N.of_nat (length pre) + 1)%N with (N.of_nat (length (pre ++ [x]))) by (rewrite app_length; cbn; lia).
    rewrite (IH _ (pre ++ [x]) mid post F); [|rewrite <- app_assoc; reflexivity|cbn in L; lia].
    cbn [labs map]. fold x. rewrite <- app_assoc. reflexivity.
Qed.
Definition block (h : hnsw) (R : nat) (ids : list N) : list N := labs h ids ++ repeat kInvalidId (R - length ids).
Lemma block_length h R ids : length ids <= R -> length (block h R ids) = R.
Proof. intros H. unfold block, labs. rewrite app_length, map_length, repeat_length. lia. Qed.
Lemma list_valid h l i L : inv h -> list_at h l i = Some L -> Forall (fun id => N.to_nat id < length (h_labels h)) L.
Proof.
  intros I E. eapply Forall_impl; [|apply (list_on_all h l i L (iv_lists h I) E)]. intros j O. exact (on_lt h l j (iv_shape h I) O).
Qed.
Lemma copy_row_ok h R i : inv h -> 2 * p_M p <= R -> In i (h_labels h) ->
  exists L, list_at h 0 (lookup h i) = Some L /\ length L <= R /\ copy_row h R i = Ok (block h R L).
Proof.
  intros I HR Hi. pose proof (lookup_ok h i Hi) as E.
  assert (O : on h 0 (lookup h i)) by (apply on_zero; [apply I|apply nth_error_Some; congruence]).
  destruct (links_at h 0 _ (iv_shape h I) O) as (L & EL & At). exists L. split; [exact At|].
  destruct (iv_lists h I 0 _ L At) as (Lc & _). cbn [cap] in Lc. split; [lia|].
  unfold copy_row. rewrite EL. cbn [bind].
  pose proof (copy_ids_ok h L (repeat kInvalidId R) [] (repeat kInvalidId (length L)) (repeat kInvalidId (R - length L)) (list_valid h 0 _ L I At)) as H.
  cbn [length app] in H. unfold block. apply H; [|apply repeat_length].
  rewrite <- repeat_app. f_equal. lia.
Qed.
(** The list of a node on a layer, [[]] if it has none. *)
Definition list_or h l i : list N := match list_at h l i with Some L => L | None => [] end.
Lemma copy_layers_ok h R node k : inv h -> p_M p <= R -> nth_error (h_levels h) (N.to_nat node) = Some k ->
  forall left j pre, 1 <= j -> j + left = S k -> length pre = (j - 1) * R ->
  copy_layers h R node j left (pre ++ repeat kInvalidId (left * R)) = Ok (pre ++ concat (map (fun l => block h R (list_or h l node)) (seq j left))).
Proof.
  intros I HR Ek. induction left as [|left IH]; intros j pre Hj Hk Lp; cbn [copy_layers seq map concat].
  - reflexivity.
  - assert (O : on h j node) by (exists k; split; [exact Ek|lia]).
    destruct (links_at h j node (iv_shape h I) O) as (L & -> & At). cbn [bind].
    destruct (iv_lists h I j node L At) as (Lc & _).
    assert (HL : length L <= R) by (destruct j; [lia|cbn [cap] in Lc; lia]).
    rewrite <- Lp. rewrite (copy_ids_ok h L _ pre (repeat kInvalidId (length L)) (repeat kInvalidId (R - length L) ++ repeat kInvalidId (left * R)) (list_valid h j _ L I At)).
    + cbn [bind]. rewrite !app_assoc. replace ((pre ++ labs h L) ++ repeat kInvalidId (R - length L)) with (pre ++ block h R L)
        by (unfold block; rewrite app_assoc; reflexivity).
      rewrite IH.
      * unfold list_or at 2. rewrite At. rewrite <- !app_assoc. reflexivity.
      * lia.
      * lia.
      * rewrite app_length, block_length by exact HL. rewrite Lp. destruct j; [lia|]. cbn. rewrite Nat.sub_0_r. lia.
    + rewrite <- !repeat_app. do 2 f_equal. cbn. lia.
    + apply repeat_length.
Qed.
Lemma concat_blocks {A} (f : nat -> list A) R : forall n a j, (forall l, a <= l < a + n -> length (f l) = R) -> a <= j < a + n ->
  firstn R (skipn ((j - a) * R) (concat (map f (seq a n)))) = f j /\ length (concat (map f (seq a n))) = n * R.
Proof.
  induction n as [|n IH]; intros a j H Hj; [lia|]. cbn [seq map concat].
  assert (La : length (f a) = R) by (apply H; lia).
  assert (Ln : length (concat (map f (seq (S a) n))) = n * R).
  { destruct n; [reflexivity|]. apply (IH (S a) (S a)); [|lia]. intros l Hl. apply H. lia. }
  split; [|rewrite app_length, La, Ln; cbn; reflexivity].
  destruct (Nat.eq_dec j a) as [ -> |D].
  - rewrite Nat.sub_diag. cbn [Nat.mul skipn]. rewrite firstn_app, La, Nat.sub_diag, firstn_O, app_nil_r. apply firstn_all2. lia.
  - replace ((j - a) * R) with (length (f a) + (j - S a) * R) by (rewrite La; replace (j - a) with (S (j - S a)) by lia; cbn; lia).
    rewrite skipn_app. rewrite skipn_all2 by apply Nat.le_add_r. rewrite Nat.add_comm, Nat.add_sub.
    cbn [app]. apply IH; [|lia]. intros l Hl. apply H. lia.
Qed.
Lemma copy_overlay_ok h R i : inv h -> p_M p <= R -> In i (h_labels h) ->
  exists k, nth_error (h_levels h) (N.to_nat (lookup h i)) = Some k
    /\ copy_overlay h R i = Ok (k, concat (map (fun l => block h R (list_or h l (lookup h i))) (seq 1 k))).
Proof.
  intros I HR Hi. pose proof (lookup_ok h i Hi) as E.
  assert (N.to_nat (lookup h i) < length (h_levels h)) by (rewrite (sh_lv h (iv_shape h I)); apply nth_error_Some; congruence).
  destruct (nth_error (h_levels h) (N.to_nat (lookup h i))) as [k|] eqn:Ek; [|apply nth_error_None in Ek; lia].
  exists k. split; [reflexivity|]. unfold copy_overlay. rewrite (aget_some _ _ _ Ek). cbn [bind].
  pose proof (copy_layers_ok h R (lookup h i) k I HR Ek k 1 []) as HC. cbn [app length] in HC. rewrite HC; [reflexivity| | |]; lia.
Qed.
Lemma collect_ok {A} (f : N -> res A) (g : N -> A) : forall is, (forall i, In i is -> f i = Ok (g i)) -> collect f is = Ok (map g is).
Proof.
  induction is as [|i is IH]; intros H; cbn [collect map]; [reflexivity|]. rewrite (H i (or_introl eq_refl)). cbn [bind].
  rewrite IH by (intros j Hj; apply H; right; exact Hj). reflexivity.
Qed.
Lemma copy_out_ok R h : inv h -> 2 * p_M p <= R -> h_labels h <> [] -> (forall i, In i (all_ids (p_n p)) -> In i (h_labels h)) ->
  exists ep, copy_out p R h = Ok {| g_max_nbrs := N.of_nat R;
      g_rows := map (fun i => block h R (list_or h 0 (lookup h i))) (all_ids (p_n p)); g_eps := [];
      g_overlay := Some {| ov_max_nbrs := N.of_nat R; ov_ep := ep;
        ov_levels := map (fun i => N.of_nat (nth (N.to_nat (lookup h i)) (h_levels h) 0)) (all_ids (p_n p));
        ov_lists := map (fun i => concat (map (fun l => block h R (list_or h l (lookup h i))) (seq 1 (nth (N.to_nat (lookup h i)) (h_levels h) 0)))) (all_ids (p_n p)) |} |}
    /\ exists k, nth_error (h_labels h) k = Some ep /\ forall x, In x (h_levels h) -> x <= nth k (h_levels h) 0.
Proof.
  intros I HR NE Cov. pose proof (iv_top h I) as Tp. unfold copy_out.
  rewrite (collect_ok _ (fun i => block h R (list_or h 0 (lookup h i)))).
  2: { intros i Hi. destruct (copy_row_ok h R i I HR (Cov i Hi)) as (L & At & _ & ->). unfold list_or. rewrite At. reflexivity. }
  cbn [bind]. destruct (h_top h) as [[ep mx]|]; [|contradiction]. destruct Tp as (Eep & Mx).
  destruct (on_label h 0 ep (iv_shape h I)) as (lab & El); [exists mx; split; [exact Eep|lia]|].
  rewrite (aget_some _ _ _ El). cbn [bind].
  rewrite (collect_ok _ (fun i => (nth (N.to_nat (lookup h i)) (h_levels h) 0,
     concat (map (fun l => block h R (list_or h l (lookup h i))) (seq 1 (nth (N.to_nat (lookup h i)) (h_levels h) 0)))))).
  2: { intros i Hi. destruct (copy_overlay_ok h R i I ltac:(lia) (Cov i Hi)) as (k & Ek & ->). rewrite (nth_error_nth _ _ 0 Ek). reflexivity. }
  cbn [bind]. exists lab. split.
  - rewrite !map_map. reflexivity.
  - exists (N.to_nat ep). split; [exact El|]. intros x Hx. rewrite (nth_error_nth _ _ 0 Eep). apply Mx. exact Hx.
Qed.
(** ** The copied lists *)
Lemma labs_ok h draw l node L i : inv h -> h_levels h = map draw (h_labels h) -> list_at h l node = Some L ->
  nth_error (h_labels h) (N.to_nat node) = Some i ->
  NoDup (labs h L) /\ Forall (fun j => In j (h_labels h) /\ j <> i /\ l <= draw j) (labs h L).
Proof.
  intros I Ed At Ei. destruct (iv_lists h I l node L At) as (_ & ND & F).
  assert (Inj : forall a b, N.to_nat a < length (h_labels h) -> N.to_nat b < length (h_labels h) ->
            nth (N.to_nat a) (h_labels h) 0%N = nth (N.to_nat b) (h_labels h) 0%N -> a = b).
  { intros a b Ha Hb E. apply Nnat.N2Nat.inj. apply (proj1 (NoDup_nth (h_labels h) 0%N) (iv_labels h I)); assumption. }
  pose proof (list_valid h l node L I At) as V. split.
  - clear At F. unfold labs. induction L as [|a L IH]; cbn [map]; [constructor|].
    apply Forall_cons_iff in V. destruct V as (Va & V). inversion ND; subst. constructor; [|apply IH; assumption].
    intro C. apply in_map_iff in C. destruct C as (b & E & Hb). pose proof (proj1 (Forall_forall _ _) V b Hb).
    apply Inj in E; auto. subst. contradiction.
  - unfold labs. apply Forall_map, Forall_forall. intros a Ha.
    pose proof (proj1 (Forall_forall _ _) F a Ha) as ((k & Ek & Hk) & Da). pose proof (proj1 (Forall_forall _ _) V a Ha) as Va. cbn in Va.
    split; [apply nth_In; exact Va|]. split.
    + intro C. apply Da. apply Inj; [exact Va|apply nth_error_Some; congruence|]. rewrite C. symmetry. apply nth_error_nth. exact Ei.
    + rewrite Ed in Ek. rewrite (map_nth_error draw _ _ (nth_error_nth' (h_labels h) 0%N Va)) in Ek. inversion Ek; subst. exact Hk.
Qed.
Lemma slots_block h draw n R l node L i : inv h -> h_levels h = map draw (h_labels h) -> (forall j, In j (h_labels h) -> (j < n)%N) ->
  list_at h l node = Some L -> nth_error (h_labels h) (N.to_nat node) = Some i -> length L <= R ->
  slots n R i (block h R L) (labs h L) /\ length (labs h L) = length L /\ Forall (fun j => l <= draw j) (labs h L).
Proof.
  intros I Ed Bd At Ei HL. destruct (labs_ok h draw l node L i I Ed At Ei) as (ND & F).
  assert (Len : length (labs h L) = length L) by (unfold labs; apply map_length).
  repeat split; auto.
  - unfold block. rewrite Len. reflexivity.
  - lia.
  - eapply Forall_impl; [|exact F]. intros j (A & B & _). auto.
  - eapply Forall_impl; [|exact F]. intros j (_ & _ & C). exact C.
Qed.
Lemma not_alone h draw l node L i : inv h -> h_levels h = map draw (h_labels h) -> list_at h l node = Some L ->
  nth_error (h_labels h) (N.to_nat node) = Some i -> (exists k, In k (h_labels h) /\ k <> i /\ l <= draw k) -> labs h L <> [].
Proof.
  intros I Ed At Ei (k & Hk & Dk & Hl) C. apply map_eq_nil in C. subst L. apply Dk.
  pose proof (lookup_ok h k Hk) as Ek.
  assert (E : lookup h k = node).
  { apply (iv_filled h I l node At). exists (draw k). split; [|exact Hl]. rewrite Ed. erewrite map_nth_error by exact Ek. reflexivity. }
  rewrite E, Ei in Ek. congruence.
Qed.
End Params.

Lemma all_ids_in n i : In i (all_ids n) <-> (i < n)%N.
Proof.
  unfold all_ids. rewrite in_map_iff. split.
  - intros (k & <- & H). apply in_seq in H. lia.
  - intros H. exists (N.to_nat i). split; [lia|]. apply in_seq. lia.
Qed.
Lemma all_ids_nth n i : (i < n)%N -> nth_error (all_ids n) (N.to_nat i) = Some i.
Proof.
  intros H. unfold all_ids. erewrite map_nth_error; [rewrite Nnat.N2Nat.id; reflexivity|].
  rewrite (nth_error_nth' _ 0) by (rewrite seq_length; lia). rewrite seq_nth by lia. reflexivity.
Qed.
Lemma all_ids_length n : length (all_ids n) = N.to_nat n.
Proof. unfold all_ids. rewrite map_length, seq_length. reflexivity. Qed.
Lemma map_ids_nth {A} (f : N -> A) n i x : nth_error (map f (all_ids n)) (N.to_nat i) = Some x -> (i < n)%N /\ x = f i.
Proof.
  intros E. assert (H : N.to_nat i < length (map f (all_ids n))) by (apply nth_error_Some; congruence).
  rewrite map_length, all_ids_length in H. split; [lia|].
  erewrite map_nth_error in E by (apply all_ids_nth; lia). congruence.
Qed.
Lemma build_facts r fuel : request_ok r -> 4 <= r_R r -> N.to_nat (r_n r) < fuel ->
  exists h ep, build_hnsw fuel r = Done (copy_out (params_of r) (r_R r) h) /\ inv (params_of r) h
    /\ h_labels h = 0%N :: r_others r /\ h_levels h = map (r_draw r) (h_labels h)
    /\ (forall i, In i (h_labels h) <-> (i < r_n r)%N) /\ queues_ok (p_lib (params_of r))
    /\ copy_out (params_of r) (r_R r) h = Ok {| g_max_nbrs := N.of_nat (r_R r);
      g_rows := map (fun i => block h (r_R r) (list_or h 0 (lookup h i))) (all_ids (r_n r)); g_eps := [];
      g_overlay := Some {| ov_max_nbrs := N.of_nat (r_R r); ov_ep := ep;
        ov_levels := map (fun i => N.of_nat (r_draw r i)) (all_ids (r_n r));
        ov_lists := map (fun i => concat (map (fun l => block h (r_R r) (list_or h l (lookup h i))) (seq 1 (r_draw r i)))) (all_ids (r_n r)) |} |}
    /\ (ep < r_n r)%N /\ forall i, (i < r_n r)%N -> r_draw r i <= r_draw r ep.
Proof.
  intros (Hn & Q & Pm) HR Hf. set (p := params_of r). assert (HM : 2 <= p_M p) by (cbn [p params_of p_M]; apply Nat.div_le_lower_bound; lia).
  assert (Two : 2 * p_M p <= r_R r) by (cbn [p params_of p_M]; apply Nat.mul_div_le; lia).
  set (order := map (fun i => (i, r_draw r i)) (0%N :: r_others r)).
  assert (M1 : map fst order = 0%N :: r_others r) by (unfold order; rewrite map_map; apply map_id).
  assert (M2 : map snd order = map (r_draw r) (0%N :: r_others r)) by (unfold order; rewrite map_map; reflexivity).
  destruct (add_points_ok p Q fuel HM Hf order hnsw_new (inv_new p)) as (h & E & I & L & V).
  { cbn [hnsw_new h_labels app]. rewrite M1. eapply Permutation_NoDup; [apply Permutation_sym; exact Pm|].
    unfold all_ids. apply FinFun.Injective_map_NoDup; [intros a b; apply Nnat.Nat2N.inj|apply seq_NoDup]. }
  { cbn [hnsw_new h_labels length]. unfold order. rewrite map_length, (Permutation_length Pm), all_ids_length. cbn. lia. }
  cbn [hnsw_new h_labels h_levels app] in L, V. rewrite M1 in L. rewrite M2 in V.
  assert (Mem : forall i, In i (h_labels h) <-> (i < r_n r)%N).
  { intros i. rewrite L, <- all_ids_in. split; apply Permutation_in; [exact Pm|apply Permutation_sym; exact Pm]. }
  assert (Vd : h_levels h = map (r_draw r) (h_labels h)) by (rewrite V, L; reflexivity).
  assert (Dr : forall k i, nth_error (h_labels h) k = Some i -> nth k (h_levels h) 0 = r_draw r i).
  { intros k i Ek. rewrite Vd. apply nth_error_nth. erewrite map_nth_error by exact Ek. reflexivity. }
  destruct (copy_out_ok p (r_R r) h I Two) as (ep & Ec & k & Ek & Mx).
  { rewrite L. discriminate. }
  { intros i Hi. apply Mem, all_ids_in. exact Hi. }
  exists h, ep. split.
  { unfold build_hnsw. fold p. fold order. rewrite E. reflexivity. }
  split; [exact I|]. split; [exact L|]. split; [exact Vd|]. split; [exact Mem|]. split; [exact Q|]. split; [|split].
  - rewrite Ec. cbn [p params_of p_n].
    assert (Dl : forall i, In i (all_ids (r_n r)) -> nth (N.to_nat (lookup h i)) (h_levels h) 0 = r_draw r i).
    { intros i Hi. apply Dr, lookup_ok, Mem, all_ids_in. exact Hi. }
    do 3 f_equal. f_equal.
    + apply map_ext_in. intros i Hi. rewrite (Dl i Hi). reflexivity.
    + apply map_ext_in. intros i Hi. rewrite (Dl i Hi). reflexivity.
  - apply Mem. eapply nth_error_In; eauto.
  - intros i Hi. rewrite <- (Dr k ep Ek). apply Mx. rewrite Vd. apply in_map. apply Mem. exact Hi.
Qed.

Lemma row_of r h i : inv (params_of r) h -> 4 <= r_R r -> (forall j, In j (h_labels h) <-> (j < r_n r)%N) -> h_levels h = map (r_draw r) (h_labels h) ->
  (i < r_n r)%N -> forall l, l <= r_draw r i ->
  exists L, list_at h l (lookup h i) = Some L /\ list_or h l (lookup h i) = L /\ length L <= cap (params_of r) l
    /\ slots (r_n r) (r_R r) i (block h (r_R r) L) (labs h L) /\ length (labs h L) = length L
    /\ Forall (fun j => l <= r_draw r j) (labs h L)
    /\ ((exists k, (k < r_n r)%N /\ k <> i /\ l <= r_draw r k) -> labs h L <> []).
Proof.
  intros I HR Mem Ed Hi l Hl.
  assert (Two : 2 * (r_R r / 2) <= r_R r) by (apply Nat.mul_div_le; lia).
  pose proof (lookup_ok h i (proj2 (Mem i) Hi)) as Ei.
  assert (O : on h l (lookup h i)).
  { exists (r_draw r i). split; [|exact Hl]. rewrite Ed. erewrite map_nth_error by exact Ei. reflexivity. }
  destruct (links_at h l _ (iv_shape _ h I) O) as (L & _ & At). exists L.
  destruct (iv_lists _ h I l _ L At) as (Lc & _).
  assert (HL : length L <= r_R r) by (destruct l; cbn [cap params_of p_M] in Lc; lia).
  destruct (slots_block (params_of r) h (r_draw r) (r_n r) (r_R r) l _ L i I Ed (fun j => proj1 (Mem j)) At Ei HL) as (Sl & Le & Fl).
  repeat split; auto; try apply Sl.
  - unfold list_or. rewrite At. reflexivity.
  - intros (k & Hk & Dk & Hk2). apply (not_alone (params_of r) h (r_draw r) l (lookup h i) L i I Ed At Ei). exists k. rewrite Mem. auto.
Qed.

Lemma slots_length n R i row ids : slots n R i row ids -> length row = R.
Proof. intros (-> & H & _). rewrite app_length, repeat_length. lia. Qed.

Lemma build_ok r fuel : request_ok r -> 4 <= r_R r -> N.to_nat (r_n r) < fuel ->
  exists g o, build_hnsw fuel r = Done (Ok g) /\ g_eps g = [] /\ hnsw_ok r g o
    /\ (N.to_nat (r_n r) <= r_R r / 2 -> fully_linked r g).
Proof.
  intros Rq HR Hf. destruct (build_facts r fuel Rq HR Hf) as (h & ep & E & I & EL & Ed & Mem & Q & Ec & Bep & Mx).
  rewrite Ec in E.
  match type of Ec with _ = Ok ?g => match g with {| g_overlay := Some ?o |} => exists g, o end end. split; [exact E|]. split; [reflexivity|]. pose proof (row_of r h) as RO. split.
  - assert (BL : forall i l, (i < r_n r)%N -> l <= r_draw r i -> length (block h (r_R r) (list_or h l (lookup h i))) = r_R r).
    { intros i l Hi Hl. destruct (RO i I HR Mem Ed Hi l Hl) as (L & At & -> & _ & Sl & _). eapply slots_length; exact Sl. }
    constructor; cbn [g_max_nbrs g_rows g_overlay ov_max_nbrs ov_ep ov_levels ov_lists].
    + reflexivity.
    + rewrite map_length. apply all_ids_length.
    + intros i row Er. apply map_ids_nth in Er. destruct Er as (Hi & ->).
      destruct (RO i I HR Mem Ed Hi 0 (Nat.le_0_l _)) as (L & At & -> & _ & Sl & _ & _ & Ne). exists (labs h L). split; [exact Sl|].
      intros H2. apply Ne. destruct (N.eq_dec i 0) as [ -> |D].
      * exists 1%N. repeat split; [lia|discriminate|lia].
      * exists 0%N. repeat split; lia.
    + reflexivity.
    + reflexivity.
    + exact Bep.
    + exact Mx.
    + reflexivity.
    + rewrite map_length. apply all_ids_length.
    + intros i row Er. apply map_ids_nth in Er. destruct Er as (Hi & ->).
      destruct (r_draw r i) as [|k] eqn:Ek; [reflexivity|].
      apply (concat_blocks (fun l => block h (r_R r) (list_or h l (lookup h i))) (r_R r) (S k) 1 1); [|lia].
      intros l Hl. apply BL; [exact Hi|]. lia.
    + intros i row j Er Hj. apply map_ids_nth in Er. destruct Er as (Hi & ->).
      destruct (RO i I HR Mem Ed Hi j (proj2 Hj)) as (L & At & EL' & Lc & Sl & Le & Fl & Ne). exists (labs h L).
      destruct (concat_blocks (fun l => block h (r_R r) (list_or h l (lookup h i))) (r_R r) (r_draw r i) 1 j) as (-> & _).
      { intros l Hl. apply BL; [exact Hi|]. lia. }
      { lia. }
      rewrite EL'. split; [exact Sl|]. split; [|split; assumption].
      rewrite Le. destruct j; [lia|]. cbn [cap params_of p_M] in Lc. exact Lc.
  - intros Small i j row Hi Hj Dij Er. cbn [g_rows] in Er. apply map_ids_nth in Er. destruct Er as (_ & ->).
    pose proof (iv_complete _ h I Small) as C.
    pose proof (lookup_ok h i (proj2 (Mem i) Hi)) as Ei. pose proof (lookup_ok h j (proj2 (Mem j) Hj)) as Ej.
    assert (Oi : forall k x, nth_error (h_labels h) (N.to_nat k) = Some x -> on h 0 k).
    { intros k x Ek. exists (r_draw r x). split; [|lia]. rewrite Ed. erewrite map_nth_error by exact Ek. reflexivity. }
    destruct (C (lookup h i) (lookup h j) (Oi _ _ Ei) (Oi _ _ Ej)) as (L & At & Hin).
    { intro X. rewrite X in Ei. congruence. }
    unfold list_or. rewrite At. unfold block. apply in_or_app. left. unfold labs. apply in_map_iff. exists (lookup h j). split; [|exact Hin].
    apply nth_error_nth. exact Ej.
Qed.

(** ** Searching a built graph *)
Lemma slots_listed n R i row ids W y : slots n R i row ids -> listed W row y -> In y ids.
Proof.
  intros (-> & _) (k & _ & Ek & No). destruct (Nat.lt_ge_cases k (length ids)) as [H|H].
  - rewrite nth_error_app1 in Ek by exact H. eapply nth_error_In; exact Ek.
  - exfalso. apply (No k (Nat.le_refl k)). rewrite Ek. f_equal.
    rewrite nth_error_app2 in Ek by exact H. apply nth_error_In in Ek. apply repeat_spec in Ek. exact Ek.
Qed.
Lemma listed_firstn W row y : listed W row y -> listed W (firstn (N.to_nat W) row) y.
Proof.
  intros (k & Hk & Ek & No). exists k. split; [exact Hk|]. 
  assert (F : forall j, j < N.to_nat W -> nth_error (firstn (N.to_nat W) row) j = nth_error row j).
  { intros j Hj. rewrite <- (firstn_skipn (N.to_nat W) row) at 2. destruct (Nat.lt_ge_cases j (length (firstn (N.to_nat W) row))) as [H|H].
    - rewrite nth_error_app1 by exact H. reflexivity.
    - rewrite firstn_length in H. rewrite (proj2 (nth_error_None (firstn _ row) j)) by (rewrite firstn_length; lia).
      symmetry. apply nth_error_None. rewrite firstn_skipn. lia. }
  rewrite F by exact Hk. split; [exact Ek|]. intros j Hj. rewrite F by lia. apply No. exact Hj.
Qed.
Lemma built_searchable r g o : hnsw_ok r g o -> rows_ok (r_n r) g (fun _ => None) /\ overlay_ok (r_n r) o.
Proof.
  intros K. split.
  - constructor.
    + apply (ok_rows r g o K).
    + intros row Hr. apply In_nth_error in Hr. destruct Hr as (k & Ek). rewrite <- (Nnat.Nat2N.id k) in Ek.
      destruct (ok_row r g o K _ _ Ek) as (ids & Sl & _). rewrite (slots_length _ _ _ _ _ Sl), (ok_width r g o K). lia.
    + intros x y Hx (row & Er & Ly). destruct (ok_row r g o K _ _ Er) as (ids & Sl & _).
      pose proof (slots_listed _ _ _ _ _ _ _ Sl Ly) as Hy. destruct Sl as (_ & _ & _ & F).
      apply (proj1 (Forall_forall _ _) F y Hy).
  - assert (Lv : forall x l, nth_error (ov_levels o) (N.to_nat x) = Some l -> (x < r_n r)%N /\ l = N.of_nat (r_draw r x)).
    { intros x l E. rewrite (ok_levels r g o K) in E. apply map_ids_nth in E. exact E. }
    constructor.
    + apply (ok_entry r g o K).
    + rewrite (ok_levels r g o K), map_length, all_ids_length. lia.
    + intros x row level Er El. apply Lv in El. destruct El as (_ & ->).
      rewrite (ok_list r g o K _ _ Er), (ok_upper_width r g o K). lia.
    + rewrite (ok_lists r g o K). lia.
    + intros level x y lx Pl El Hl (row & Er & Ly). apply Lv in El. destruct El as (Hx & ->).
      destruct (ok_layer r g o K x row (N.to_nat level) Er) as (ids & Sl & _ & Fl & _); [lia|].
      apply listed_firstn in Ly. rewrite (ok_upper_width r g o K), Nnat.Nat2N.id in Ly.
      replace (N.to_nat ((level - 1) * N.of_nat (r_R r))) with ((N.to_nat level - 1) * r_R r) in Ly by lia.
      pose proof (slots_listed _ _ _ _ _ _ _ Sl Ly) as Hy. destruct Sl as (_ & _ & _ & F).
      destruct (proj1 (Forall_forall _ _) F y Hy) as (By & _). split; [exact By|].
      exists (N.of_nat (r_draw r y)). split.
      * rewrite (ok_levels r g o K). erewrite map_nth_error by (apply all_ids_nth; exact By). reflexivity.
      * pose proof (proj1 (Forall_forall _ _) Fl y Hy) as H. cbn in H. lia.
Qed.
