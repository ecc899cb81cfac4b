(** Proofs about the search of the LASER index. *)
From Coq Require Import Lia.
From Verif Require Import Arr PoolProofs.
From Verif Require Export LaserSearchSpec.
Local Open Scope nat_scope.

(** ** Buffers *)
Definition unex (p : pool) : nat := length (filter (fun e => negb (snd e)) (content p)).
Lemma content_length cap p : pool_inv cap p -> length (content p) = p_size p.
Proof. intros I. unfold content. rewrite map_length. eapply pre_length; eauto. Qed.
Lemma unex_le cap p : pool_inv cap p -> unex p <= p_size p.
Proof.
  intros I. rewrite <- (content_length _ _ I). unfold unex. generalize (content p).
  induction l as [|x l IH]; cbn; auto. destruct (snd x); cbn; lia.
Qed.
Lemma filter_firstn_le {A} (f : A -> bool) n : forall l, length (filter f (firstn n l)) <= length (filter f l).
Proof. induction n as [|n IH]; intros [|x l]; cbn; try lia. specialize (IH l). destruct (f x); cbn; lia. Qed.
Lemma firstn_In {A} (x : A) n : forall l, In x (firstn n l) -> In x l.
Proof. induction n as [|n IH]; intros [|y l]; cbn; try tauto. intros [->|H]; auto. Qed.

Lemma is_full_spec cap p d : 0 < cap -> pool_inv cap p ->
  exists b, laser_is_full p d = Ok b /\ (b = true -> p_size p = cap /\ forall c, In c (firstn (p_size p) (p_data p)) -> (c_dist c <= d)%Z).
Proof.
  intros Hc I. unfold laser_is_full. rewrite (pi_cap _ _ I).
  destruct (Nat.eqb_spec (p_size p) cap) as [E|NE]; [|exists false; split; [reflexivity|discriminate]].
  destruct (p_size p) as [|n] eqn:Ep; [lia|].
  destruct (get_nth (p_data p) n) as (c & Ec & ->); [rewrite (pi_len _ _ I); lia|]. cbn [bind].
  eexists. split; [reflexivity|]. intros L. apply Z.ltb_lt in L. split; [assumption|]. intros e He.
  enough (c_dist e <= c_dist c)%Z by lia.
  assert (PL : length (firstn (S n) (p_data p)) = S n) by (rewrite firstn_length, (pi_len _ _ I); lia).
  eapply (in_pre_last (firstn (S n) (p_data p)) n); eauto.
  - pose proof (pi_sorted _ _ I) as So. rewrite Ep in So. exact So.
  - rewrite nth_error_firstn. destruct (Nat.ltb_spec n (S n)); [assumption|lia].
Qed.

(** What an insertion, or a refusal, does for the search. *)
Definition accepts (cap : nat) (p p' : pool) (id : N) (d : Z) : Prop :=
  pool_inv cap p' /\ (forall all, keeps_closest cap all (kept p) -> keeps_closest cap (all ++ [(id, d)]) (kept p'))
  /\ unex p' <= S (unex p) /\ (forall e, In e (content p') -> snd e = true -> In e (content p)).
Lemma accepts_of cap p id d r : 0 < cap -> pool_inv cap p -> (id < 2 ^ 31)%N -> insert_does cap p id d r ->
  exists b p', r = Ok (b, p') /\ accepts cap p p' id d.
Proof.
  intros Hc I Hid D. pose proof D as D0. destruct D as [(-> & Hs & Le)|(p' & lo & -> & I' & Pl & K)].
  - exists false, p. split; [reflexivity|]. split; [assumption|]. split; [|split; [lia|auto]]. intros all KC.
    destruct (insert_closest cap p id d _ all Hc I Hid D0 KC) as (b & q & E & _ & Q). injection E as <- <-. exact Q.
  - exists true, p'. split; [reflexivity|]. split; [assumption|].
    assert (Kc : content p' = firstn cap (ins_at lo (((id, d), false) : entry) (content p))).
    { unfold content at 1. rewrite K, <- firstn_map, map_ins, entry_new by assumption. reflexivity. }
    split; [|split].
    + intros all KC. destruct (insert_closest cap p id d _ all Hc I Hid D0 KC) as (b & q & E & _ & Q). injection E as <- <-. exact Q.
    + unfold unex. rewrite Kc. etransitivity; [apply filter_firstn_le|]. unfold ins_at. rewrite filter_app. cbn [filter snd negb].
      rewrite app_length. cbn [length]. rewrite <- (firstn_skipn lo (content p)) at 3. rewrite filter_app, app_length. lia.
    + intros e He Fe. rewrite Kc in He. apply firstn_In in He. unfold ins_at in He. apply in_app_or in He as [He|[<-|He]].
      * now apply firstn_In in He.
      * discriminate.
      * rewrite <- (firstn_skipn lo (content p)). apply in_or_app. now right.
Qed.

Lemma pop_spec cap p : pool_inv cap p -> has_next p = true ->
  exists id d p' b a, sb_pop p = Ok ((id, d), p') /\ pool_inv cap p' /\ (id < 2 ^ 31)%N
    /\ content p = b ++ ((id, d), false) :: a /\ content p' = b ++ ((id, d), true) :: a.
Proof.
  intros I H. apply Nat.ltb_lt in H. destruct (sb_pop_spec cap p I H) as (c & p' & E & I' & Ec & Hid & K).
  exists (c_id c), (c_dist c), p', (firstn (p_cur p) (content p)), (skipn (S (p_cur p)) (content p)).
  split; [exact E|]. split; [assumption|]. split; [assumption|].
  assert (EN : nth_error (content p) (p_cur p) = Some ((c_id c, c_dist c), false)).
  { unfold content. rewrite (map_nth_error entry_of _ _ Ec). f_equal. unfold entry_of. rewrite N.mod_small by assumption.
    f_equal. now apply N.leb_gt. }
  split.
  - clear - EN. revert EN. generalize (content p) (p_cur p). induction l as [|x l IH]; intros [|i] EN; cbn in *; try discriminate.
    + now injection EN as ->.
    + f_equal. now apply IH.
  - unfold content at 1. rewrite K, upd_split by (rewrite (pre_length _ _ I); assumption).
    rewrite map_app. cbn [map]. rewrite entry_marked by assumption. rewrite <- firstn_map, <- skipn_map.
    now replace (p_cur p + 1) with (S (p_cur p)) by lia.
Qed.
Lemma no_next cap p : pool_inv cap p -> has_next p = false -> forall e, In e (content p) -> snd e = true.
Proof.
  intros I H e He. apply Nat.ltb_ge in H. apply in_map_iff in He as (c & <- & Hc). apply In_nth_error in Hc as [i Hi].
  assert (L : i < length (firstn (p_size p) (p_data p))) by (apply nth_error_Some; congruence). rewrite (pre_length _ _ I) in L.
  destruct (pi_flags _ _ I i c Hi) as (F1 & F2 & _). cbn. rewrite <- is_checked_le by assumption. apply F2. lia.
Qed.

Lemma member_In x l : member x l = true <-> In x l.
Proof.
  unfold member. rewrite existsb_exists. split.
  - intros (y & Hy & E). apply N.eqb_eq in E. now subst.
  - intros H. exists x. split; [assumption|apply N.eqb_refl].
Qed.

Lemma scan_spec cap vis : 0 < cap -> forall nbs p all, pool_inv cap p -> Forall (fun y => (fst y < 2 ^ 31)%N) nbs ->
  keeps_closest cap all (kept p) ->
  exists p' new sk, scan vis nbs p = Ok p' /\ pool_inv cap p' /\ keeps_closest cap (all ++ new) (kept p')
    /\ Permutation nbs (new ++ sk) /\ Forall (fun y => In (fst y) vis) sk
    /\ unex p' <= unex p + length nbs /\ (forall e, In e (content p') -> snd e = true -> In e (content p)).
Proof.
  intros Hc. induction nbs as [|[nb d] nbs IH]; intros p all I F K; cbn [scan].
  - exists p, [], []. rewrite app_nil_r. split; [reflexivity|]. split; [assumption|]. split; [assumption|]. split; [constructor|].
    split; [constructor|]. split; [cbn [length]; lia|auto].
  - apply Forall_cons_iff in F as [F0 F]. cbn [fst] in F0.
    destruct (is_full_spec cap p d Hc I) as (b & -> & Hb). cbn [bind].
    destruct (member nb vis) eqn:M.
    + rewrite orb_true_r. destruct (IH p all I F K) as (p' & new & sk & E & I' & K' & P & Sk & U & X).
      exists p', new, ((nb, d) :: sk). split; [exact E|]. split; [assumption|]. split; [assumption|]. split.
      { etransitivity; [apply perm_skip; exact P|]. apply Permutation_middle. }
      split; [constructor; [now apply member_In|assumption]|]. split; [cbn [length]; lia|assumption].
    + rewrite orb_false_r. destruct b.
      * destruct (Hb eq_refl) as [Hs Le].
        destruct (accepts_of cap p nb d (Ok (false, p)) Hc I F0) as (b' & p0 & E0 & A); [left; auto|]. injection E0 as <- <-.
        destruct A as (_ & A & _). destruct (IH p _ I F (A all K)) as (p' & new & sk & E & I' & K' & P & Sk & U & X).
        exists p', ((nb, d) :: new), sk. split; [exact E|]. split; [assumption|]. split; [now rewrite <- app_assoc in K'|].
        split; [now constructor|]. split; [assumption|]. split; [cbn [length]; lia|assumption].
      * destruct (accepts_of cap p nb d _ Hc I F0 (laser_insert_spec cap p nb d Hc I F0)) as (b' & p0 & -> & I0 & A & U0 & X0).
        cbn [bind snd]. destruct (IH p0 _ I0 F (A all K)) as (p' & new & sk & E & I' & K' & P & Sk & U & X).
        exists p', ((nb, d) :: new), sk. split; [exact E|]. split; [assumption|]. split; [now rewrite <- app_assoc in K'|].
        split; [now constructor|]. split; [assumption|]. split; [cbn [length]; lia|auto].
Qed.

(** The result buffer: beyond its results it has zeros. *)
Definition zeros (knn : nat) (p : pool) : Prop :=
  (forall c, In c (firstn (p_size p) (p_data p)) -> (c_id c < 2 ^ 31)%N)
  /\ forall i, p_size p <= i < knn -> nth_error (p_data p) i = Some zero_cand.
Lemma insert_at_tail p lo id d p' : lo <= p_size p -> insert_at p lo id d = Ok p' -> forall i, p_size p < i -> nth_error (p_data p') i = nth_error (p_data p) i.
Proof.
  intros Hlo E i Hi. unfold insert_at in E. destruct (memmove_up (p_data p) lo (p_size p - lo)) as [moved| | |] eqn:M; try discriminate.
  cbn [bind] in E. assert (Q : nth_error moved i = nth_error (p_data p) i).
  { unfold memmove_up in M. destruct (Nat.eqb_spec (p_size p - lo) 0) as [Z0|NZ]; [now injection M as <-|].
    destruct (Nat.leb_spec (lo + 1 + (p_size p - lo)) (length (p_data p))) as [L|L]; [|discriminate]. injection M as <-.
    rewrite nth_error_app2 by (rewrite firstn_length; lia). rewrite firstn_length, Nat.min_l by lia.
    rewrite nth_error_app2 by (rewrite firstn_length, skipn_length; lia).
    rewrite firstn_length, skipn_length, Nat.min_l by lia. rewrite nth_error_skipn. f_equal. lia. }
  unfold put in E. destruct (Nat.ltb_spec lo (length moved)) as [L|L]; [|discriminate]. cbn [bind] in E. injection E as <-. cbn [p_data].
  rewrite nth_error_upd by assumption. destruct (Nat.eqb_spec lo i); [lia|assumption].
Qed.
Lemma result_spec knn p id d all : 0 < knn -> pool_inv knn p -> zeros knn p -> (id < 2 ^ 31)%N -> keeps_closest knn all (kept p) ->
  exists p', result_insert p id d = Ok p' /\ pool_inv knn p' /\ zeros knn p' /\ keeps_closest knn (all ++ [(id, d)]) (kept p').
Proof.
  intros Hc I [Z1 Z2] Hid K. unfold result_insert. destruct (is_full_spec knn p d Hc I) as (b & -> & Hb). cbn [bind]. destruct b.
  - destruct (Hb eq_refl) as [Hs Le].
    destruct (accepts_of knn p id d (Ok (false, p)) Hc I Hid) as (b' & p0 & E0 & A); [left; auto|]. injection E0 as <- <-.
    destruct A as (_ & A & _). exists p. split; [reflexivity|]. split; [assumption|]. split; [now split|auto].
  - destruct (accepts_of knn p id d _ Hc I Hid (laser_insert_spec knn p id d Hc I Hid)) as (b' & p0 & E & I0 & A & _).
    unfold laser_insert in *. destruct (binary_search_spec knn p d I) as (lo & BS & Pl). rewrite BS in *. cbn [bind] in *.
    destruct (insert_at_spec knn p lo id d Hc I Hid Pl) as (p' & IA & I' & Kp). rewrite IA in *. cbn [bind snd] in *. injection E as <- <-.
    exists p'. split; [reflexivity|]. split; [assumption|]. split; [|auto]. split.
    + intros c Hx. rewrite Kp in Hx. apply firstn_In in Hx. unfold ins_at in Hx. apply in_app_or in Hx as [Hx|[<-|Hx]]; [|assumption|].
      * apply firstn_In in Hx. auto.
      * apply Z1. rewrite <- (firstn_skipn lo (firstn (p_size p) (p_data p))). apply in_or_app. now right.
    + intros i Hi. destruct Pl as [Pl _]. rewrite (pre_length _ _ I) in Pl.
      assert (SZ : p_size p' = if Nat.ltb (p_size p) (p_cap p) then p_size p + 1 else p_size p).
      { clear - IA. unfold insert_at in IA. destruct (memmove_up _ _ _); try discriminate. cbn [bind] in IA.
        destruct (put _ _ _); try discriminate. cbn [bind] in IA. injection IA as <-. reflexivity. }
      rewrite (pi_cap _ _ I) in SZ. pose proof (pi_size _ _ I). destruct (Nat.ltb_spec (p_size p) knn); [|lia].
      rewrite (insert_at_tail p lo id d p' Pl IA i) by lia. apply Z2. lia.
Qed.

(** ** Graphs *)
Section Graph.
  Variable g : lgraph.
  Hypothesis GOK : graph_ok g.
  Lemma nbs_node x y : In y (nbs_of g x) -> is_node g (fst y).
  Proof.
    unfold nbs_of. destruct (nth_error (g_nodes g) (N.to_nat x)) as [nd|] eqn:E; [|intros []]. intros H.
    apply nth_error_In in E. now apply (proj1 (proj2 (proj2 GOK)) nd).
  Qed.
  Lemma best_medoid_in (ms : list (N * Z)) b : In (fold_left (fun b m => if Z.ltb (snd m) (snd b) then m else b) ms b) (b :: ms).
  Proof.
    revert b. induction ms as [|m ms IH]; intros b; cbn [fold_left]; [now left|].
    destruct (snd m <? snd b)%Z; [destruct (IH m) as [E|H]|destruct (IH b) as [E|H]]; cbn; auto.
  Qed.
  Lemma start_node x : In x (starts g) -> is_node g x.
  Proof.
    destruct GOK as (E & M & _). unfold starts. destruct (g_medoids g) as [|m ms] eqn:Q; [intros [<-|[]]; assumption|].
    intros [<-|[<-|[]]]; [|assumption]. unfold best_medoid. destruct (best_medoid_in (m :: ms) (0%N, float_max)) as [<-|H]; [|now apply M].
    unfold is_node in *. cbn [fst]. lia.
  Qed.
  Lemma reach_node x : reachable g x -> is_node g x.
  Proof. intros [y H|y z _ H]; [now apply start_node|]. apply in_map_iff in H as (w & <- & Hw). eapply nbs_node; eauto. Qed.
  Lemma node_small x : is_node g x -> (x < 2 ^ 31)%N.
  Proof. destruct GOK as (_ & _ & _ & _ & H). unfold is_node. lia. Qed.
  Lemma node_record x : is_node g x -> exists nd, nth_error (g_nodes g) (N.to_nat x) = Some nd /\ nd_dist nd = dist_of g x /\ nd_nbs nd = nbs_of g x.
  Proof.
    intros H. unfold dist_of, nbs_of. destruct (nth_error (g_nodes g) (N.to_nat x)) as [nd|] eqn:E; [eauto|].
    apply nth_error_None in E. unfold is_node in H. lia.
  Qed.
  Lemma page_record x : is_node g x -> exists nd, record_at g (Some (page_of g x)) x = Ok nd /\ nd_dist nd = dist_of g x /\ nd_nbs nd = nbs_of g x.
  Proof.
    intros H. destruct (node_record x H) as (nd & E & D). exists nd. split; [|assumption]. unfold record_at, page_of, get.
    rewrite (N.mul_comm (x / g_npp g)). pose proof (proj1 (proj2 (proj2 (proj2 GOK)))) as Hn. rewrite <- N.div_mod by lia. now rewrite E.
  Qed.
  Lemma candidate_reachable seen y : Forall (reachable g) seen -> In y (candidates g seen) -> reachable g (fst y).
  Proof.
    intros F H. apply in_app_or in H as [H|H].
    - apply in_map_iff in H as (x & <- & Hx). now apply reach_start.
    - apply in_flat_map in H as (x & Hx & Hy). rewrite Forall_forall in F. eapply reach_edge; [apply F; exact Hx|]. now apply in_map.
  Qed.
  (** Distinct nodes have at most all the edges. *)
  Lemma edges_seq : edges g = length (flat_map (nbs_of g) (map N.of_nat (seq 0 (length (g_nodes g))))).
  Proof.
    unfold edges. assert (G : forall l pre, g_nodes g = pre ++ l ->
      flat_map nd_nbs l = flat_map (nbs_of g) (map N.of_nat (seq (length pre) (length l)))).
    { induction l as [|x l IH]; intros pre E; [reflexivity|]. cbn [length seq map flat_map]. f_equal.
      - unfold nbs_of. rewrite Nat2N.id, E, nth_error_app2, Nat.sub_diag by lia. reflexivity.
      - rewrite (IH (pre ++ [x])) by now rewrite <- app_assoc. rewrite app_length. cbn [length]. now replace (length pre + 1) with (S (length pre)) by lia. }
    now rewrite (G (g_nodes g) []).
  Qed.
  Lemma flat_incl {A B} (f : A -> list B) : forall l l', NoDup l -> incl l l' -> length (flat_map f l) <= length (flat_map f l').
  Proof.
    induction l as [|x l IH]; intros l' ND H; [cbn; lia|]. inversion ND as [|? ? NI ND']; subst.
    assert (Hx : In x l') by (apply H; now left). apply in_split in Hx as (a & b & ->).
    cbn [flat_map]. rewrite flat_map_app. cbn [flat_map]. rewrite !app_length.
    specialize (IH (a ++ b) ND'). rewrite flat_map_app, app_length in IH.
    enough (length (flat_map f l) <= length (flat_map f a) + length (flat_map f b)) by lia. apply IH.
    intros y Hy. specialize (H y (or_intror Hy)). apply in_app_or in H as [H|[->|H]]; apply in_or_app; auto. contradiction.
  Qed.
  Lemma nodes_incl l : Forall (is_node g) l -> incl l (map N.of_nat (seq 0 (length (g_nodes g)))).
  Proof.
    intros F x Hx. rewrite Forall_forall in F. specialize (F x Hx). unfold is_node in F. apply in_map_iff. exists (N.to_nat x).
    split; [apply N2Nat.id|]. apply in_seq. lia.
  Qed.
  Lemma seen_edges l : NoDup l -> Forall (is_node g) l -> length (flat_map (nbs_of g) l) <= edges g.
  Proof. intros ND F. rewrite edges_seq. apply flat_incl; [assumption|now apply nodes_incl]. Qed.
  Lemma nodes_length l : NoDup l -> Forall (is_node g) l -> length l <= length (g_nodes g).
  Proof.
    intros ND F. pose proof (NoDup_incl_length ND (nodes_incl l F)) as H. now rewrite map_length, seq_length in H.
  Qed.

  (** ** The buffers of a search after the nodes [seen] *)
  Variables ef knn : nat.
  Hypothesis EF : 0 < ef.
  Hypothesis KN : 0 < knn.
  Record core (seen vis : list N) (p r : pool) : Prop := {
    k_pool : pool_inv ef p;
    k_res : pool_inv knn r;
    k_zero : zeros knn r;
    k_best : keeps_closest knn (map (fun x => (x, dist_of g x)) seen) (kept r);
    k_cand : exists all sk, keeps_closest ef all (kept p) /\ Permutation (candidates g seen) (all ++ sk) /\ Forall (fun y => In (fst y) vis) sk;
    k_expl : forall e, In e (content p) -> snd e = true -> In (fst (fst e)) vis;
    k_nodup : NoDup vis;
    k_reach : Forall (reachable g) vis;
  }.
  Lemma process_core seen vis p r id : core seen vis p r -> In id vis ->
    exists p' r', scan vis (nbs_of g id) p = Ok p' /\ result_insert r id (dist_of g id) = Ok r' /\ core (seen ++ [id]) vis p' r'
      /\ unex p' <= unex p + length (nbs_of g id).
  Proof.
    intros C Hin. destruct (k_cand _ _ _ _ C) as (all & sk & K & P & Sk).
    assert (Hid : is_node g id) by (apply reach_node; pose proof (k_reach _ _ _ _ C) as R; rewrite Forall_forall in R; auto).
    destruct (scan_spec ef vis EF (nbs_of g id) p all (k_pool _ _ _ _ C)) as (p' & new & sk' & E & I' & K' & P' & Sk' & U & X); auto.
    { apply Forall_forall. intros y Hy. apply node_small. eapply nbs_node; eauto. }
    destruct (result_spec knn r id (dist_of g id) _ KN (k_res _ _ _ _ C) (k_zero _ _ _ _ C) (node_small _ Hid) (k_best _ _ _ _ C)) as (r' & E' & IR & ZR & KR).
    exists p', r'. split; [assumption|]. split; [assumption|]. split; [|assumption]. constructor; auto; try apply C.
    - rewrite map_app. exact KR.
    - exists (all ++ new), (sk ++ sk'). split; [assumption|]. split.
      + unfold candidates in *. rewrite flat_map_app. cbn [flat_map]. rewrite app_nil_r, app_assoc, P, P'.
        rewrite <- !app_assoc. apply Permutation_app_head. rewrite !app_assoc. apply Permutation_app_tail. apply Permutation_app_comm.
      + apply Forall_app. now split.
    - intros e He Fe. apply (k_expl _ _ _ _ C); auto.
  Qed.
  Lemma pop_core seen vis p r : core seen vis p r -> incl seen vis -> has_next p = true ->
    exists id d p', sb_pop p = Ok ((id, d), p') /\ reachable g id /\ S (unex p') = unex p
      /\ (In id vis -> core seen vis p' r) /\ (~ In id vis -> core seen (id :: vis) p' r).
  Proof.
    intros C Hs HN. destruct (pop_spec ef p (k_pool _ _ _ _ C) HN) as (id & d & p' & b & a & E & I' & Hid & Cp & Cp').
    destruct (k_cand _ _ _ _ C) as (all & sk & K & P & Sk).
    assert (KE : kept p' = kept p) by (unfold kept; rewrite Cp, Cp', !map_app; reflexivity).
    assert (R : reachable g id).
    { change id with (fst (id, d)). apply (candidate_reachable seen).
      - apply Forall_forall. intros x Hx. pose proof (k_reach _ _ _ _ C) as F. rewrite Forall_forall in F. auto.
      - apply (Permutation_in _ (Permutation_sym P)). apply in_or_app. left. destruct K as (_ & rest & Pm & _).
        apply (Permutation_in _ (Permutation_sym Pm)). apply in_or_app. left. unfold kept. rewrite Cp, map_app. apply in_or_app. right. now left. }
    assert (G : forall vis', incl vis vis' -> In id vis' -> NoDup vis' -> Forall (reachable g) vis' -> core seen vis' p' r).
    { intros vis' Hi Hv ND Fr. constructor; auto; try apply C.
      - exists all, sk. rewrite KE. split; [assumption|]. split; [assumption|]. eapply Forall_impl; [|exact Sk]. cbn. auto.
      - intros e He Fe. rewrite Cp' in He. apply in_app_or in He as [He|[<-|He]].
        + apply Hi, (k_expl _ _ _ _ C); auto. rewrite Cp. apply in_or_app. now left.
        + exact Hv.
        + apply Hi, (k_expl _ _ _ _ C); auto. rewrite Cp. apply in_or_app. right. now right. }
    exists id, d, p'. split; [assumption|]. split; [assumption|]. split.
    { unfold unex. rewrite Cp, Cp', !filter_app. cbn [filter snd negb]. rewrite !app_length. cbn [length]. lia. }
    split; intros Hv.
    - apply G; auto; try apply C. apply incl_refl.
    - apply G; auto.
      + now apply incl_tl, incl_refl.
      + now left.
      + constructor; [assumption|apply C].
      + constructor; [assumption|apply C].
  Qed.
End Graph.

(** ** The reads in flight *)
Lemma nodup_app {A} (a b : list A) : NoDup (a ++ b) -> NoDup a /\ NoDup b.
Proof.
  induction a as [|x a IH]; cbn [app]; intros H; [split; [constructor|assumption]|]. inversion H as [|? ? NI ND]; subst.
  destruct (IH ND). split; [|assumption]. constructor; [|assumption]. intros K. apply NI. apply in_or_app. now left.
Qed.
Definition slot_of (r : N * (N * nat)) : nat := snd (snd r).
Lemma ongoing_find m id s : NoDup (map fst m) -> In (id, s) m ->
  find_ongoing id m = Some s /\ Permutation m ((id, s) :: erase_ongoing id m).
Proof.
  unfold find_ongoing. induction m as [|[i t] m IH]; intros ND H; [destruct H|]. cbn [map fst] in ND. inversion ND as [|? ? NI ND']; subst.
  cbn [find erase_ongoing filter fst]. destruct (N.eqb_spec i id) as [->|NE].
  - destruct H as [H|H]; [|exfalso; apply NI; apply in_map_iff; exists (id, s); auto]. injection H as ->. cbn [option_map snd negb].
    split; [reflexivity|]. constructor. enough (E : filter (fun e : N * nat => negb (fst e =? id)%N) m = m) by now rewrite E.
    clear - NI. induction m as [|[j u] m IH]; [reflexivity|]. cbn [filter fst]. destruct (N.eqb_spec j id) as [->|]; cbn [negb].
    + exfalso. apply NI. now left.
    + f_equal. apply IH. intros K. apply NI. now right.
  - destruct H as [H|H]; [congruence|]. destruct (IH ND' H) as [F P]. split; [exact F|]. cbn [negb].
    etransitivity; [apply perm_skip; exact P|]. apply perm_swap.
Qed.
Lemma ongoing_new m id : ~ In id (map fst m) -> erase_ongoing id m = m.
Proof.
  induction m as [|[j u] m IH]; intros NI; [reflexivity|]. cbn [erase_ongoing filter fst]. destruct (N.eqb_spec j id) as [->|]; cbn [negb].
  - exfalso. apply NI. now left.
  - f_equal. apply IH. intros K. apply NI. now right.
Qed.
Lemma remove_perm {A} (l : list A) i x : nth_error l i = Some x -> Permutation l (x :: firstn i l ++ skipn (S i) l).
Proof.
  revert i. induction l as [|y l IH]; intros [|i] H; try discriminate.
  - injection H as ->. reflexivity.
  - cbn [firstn skipn app]. etransitivity; [apply perm_skip, (IH i H)|]. apply perm_swap.
Qed.

Section Io.
  Variable g : lgraph.
  Hypothesis GOK : graph_ok g.
  Variables ef knn width : nat.
  Hypothesis EF : 0 < ef.
  Hypothesis KN : 0 < knn.
  Hypothesis WD : 0 < width.
  Notation core := (core g ef knn).
  Notation flat := (fun l => length (flat_map (nbs_of g) l)).

  Record linv (cached : list N) (reqs : list (N * (N * nat))) (seen : list N) (st : lstate) : Prop := {
    i_core : core seen (l_visited st) (l_pool st) (l_res st);
    i_perm : Permutation (l_visited st) (seen ++ cached ++ map fst (reqs ++ l_kernel st) ++ map fst (l_ready st));
    i_slots : Permutation (l_free st ++ map slot_of (reqs ++ l_kernel st) ++ map snd (l_ready st)) (seq 0 (2 * width));
    i_len : length (l_slots st) = 2 * width;
    i_ong : Permutation (l_ongoing st) (map (fun r => (fst r, slot_of r)) (reqs ++ l_kernel st));
    i_pages : Forall (fun r => fst (snd r) = page_of g (fst r)) (reqs ++ l_kernel st);
    i_ready : Forall (fun r => nth_error (l_slots st) (snd r) = Some (Some (page_of g (fst r)))) (l_ready st);
  }.
  Lemma linv_seen cached reqs seen st : linv cached reqs seen st -> incl seen (l_visited st).
  Proof. intros I x Hx. apply (Permutation_in _ (Permutation_sym (i_perm _ _ _ _ I))). apply in_or_app. now left. Qed.
  Lemma linv_keys cached reqs seen st : linv cached reqs seen st -> NoDup (map fst (l_ongoing st)).
  Proof.
    intros I. rewrite (i_ong _ _ _ _ I), map_map. cbn [fst].
    pose proof (k_nodup _ _ _ _ _ _ _ (i_core _ _ _ _ I)) as ND. rewrite (i_perm _ _ _ _ I) in ND.
    apply nodup_app in ND as [_ ND]. apply nodup_app in ND as [_ ND]. now apply nodup_app in ND as [ND _].
  Qed.
  Lemma linv_count cached reqs seen st : linv cached reqs seen st ->
    length (l_free st) + length reqs + length (l_kernel st) + length (l_ready st) = 2 * width.
  Proof.
    intros I. pose proof (Permutation_length (i_slots _ _ _ _ I)) as L. rewrite seq_length, !app_length, !map_length, app_length in L. lia.
  Qed.
  Lemma linv_nodes cached reqs seen st : linv cached reqs seen st -> Forall (is_node g) (l_visited st).
  Proof. intros I. eapply Forall_impl; [|apply (k_reach _ _ _ _ _ _ _ (i_core _ _ _ _ I))]. intros x. now apply reach_node. Qed.

  (** Popping candidates. *)
  Lemma build_spec beam : beam <= width -> forall fuel cached reqs seen st, linv cached reqs seen st -> unex (l_pool st) < fuel ->
    length reqs <= beam -> 2 * (length (l_kernel st) + length (l_ready st)) <= width ->
    exists st' cached' reqs', build fuel g beam st cached reqs = Ends (Ok (st', cached', reqs')) /\ linv cached' reqs' seen st'
      /\ l_kernel st' = l_kernel st /\ l_ready st' = l_ready st /\ length reqs' <= beam /\ unex (l_pool st') <= unex (l_pool st)
      /\ (has_next (l_pool st) = true -> length reqs < beam -> unex (l_pool st') < unex (l_pool st))
      /\ length (l_visited st) + length reqs' <= length (l_visited st') + length reqs.
  Proof.
    intros Hb. induction fuel as [|fuel IH]; intros cached reqs seen st I Hf Hr Hk; [lia|]. cbn [build].
    destruct (has_next (l_pool st)) eqn:HN; cbn [andb].
    2:{ exists st, cached, reqs. do 6 (split; [first [reflexivity|assumption|lia]|]). split; [discriminate|lia]. }
    destruct (Nat.ltb_spec (length reqs) beam) as [L|L].
    2:{ exists st, cached, reqs. do 6 (split; [first [reflexivity|assumption|lia]|]). split; [lia|lia]. }
    destruct (pop_core g ef knn EF KN seen _ _ _ (i_core _ _ _ _ I) (linv_seen _ _ _ _ I) HN) as (id & d & p' & E & R & U & Cin & Cout).
    rewrite E. cbn [obind fst snd]. destruct (member id (l_visited st)) eqn:M.
    - apply member_In in M. destruct (IH cached reqs seen (with_pool st p')) as (st' & c' & r' & B & I' & Q1 & Q2 & Q3 & Q4 & Q5 & Q6); auto.
      { constructor; cbn [with_pool l_visited l_pool l_res l_free l_ongoing l_ready l_slots l_kernel]; auto; apply I. }
      { cbn [with_pool l_pool]. lia. }
      exists st', c', r'. cbn [with_pool l_pool l_kernel l_ready l_visited] in *. do 6 (split; [first [assumption|lia]|]). split; [lia|lia].
    - assert (NM : ~ In id (l_visited st)) by (intros K; apply member_In in K; congruence).
      destruct (member id (g_cached g)) eqn:MC.
      + match goal with |- context [build fuel g beam ?s _ _] => set (st0 := s) end.
        destruct (IH (cached ++ [id]) reqs seen st0) as (st' & c' & r' & B & I' & Q1 & Q2 & Q3 & Q4 & Q5 & Q6); auto.
        { constructor; cbn [st0 l_visited l_pool l_res l_free l_ongoing l_ready l_slots l_kernel]; auto; try apply I.
          rewrite (i_perm _ _ _ _ I). rewrite <- !app_assoc. cbn [app]. rewrite (app_assoc seen cached (id :: _)), app_assoc. apply Permutation_middle. }
        { cbn [st0 l_pool]. lia. }
        exists st', c', r'. cbn [st0 l_pool l_kernel l_ready l_visited length] in *. do 6 (split; [first [assumption|lia]|]). split; [lia|lia].
      + pose proof (linv_count _ _ _ _ I) as CN. destruct (l_free st) as [|slot free] eqn:EF'; [cbn [length] in CN; lia|].
        match goal with |- context [build fuel g beam ?s _ _] => set (st0 := s) end.
        destruct (IH cached (reqs ++ [(id, (page_of g id, slot))]) seen st0) as (st' & c' & r' & B & I' & Q1 & Q2 & Q3 & Q4 & Q5 & Q6); auto.
        { assert (PM : Permutation ((reqs ++ [(id, (page_of g id, slot))]) ++ l_kernel st) ((id, (page_of g id, slot)) :: reqs ++ l_kernel st)).
          { rewrite <- app_assoc. symmetry. apply Permutation_middle. }
          constructor; cbn [st0 l_visited l_pool l_res l_free l_ongoing l_ready l_slots l_kernel]; auto; try apply I.
          - rewrite PM. cbn [map fst app]. rewrite (i_perm _ _ _ _ I). rewrite (app_assoc seen cached (id :: _)), app_assoc. apply Permutation_middle.
          - rewrite PM. cbn [map]. unfold slot_of at 1. cbn [snd]. rewrite <- (i_slots _ _ _ _ I), EF'. cbn [app]. symmetry. apply Permutation_middle.
          - rewrite PM. cbn [map fst]. unfold slot_of at 1. cbn [snd]. unfold put_ongoing. rewrite ongoing_new.
            + constructor. apply I.
            + intros K. apply NM. rewrite (i_ong _ _ _ _ I), map_map in K. cbn [fst] in K.
              apply (Permutation_in _ (Permutation_sym (i_perm _ _ _ _ I))). rewrite !in_app_iff. auto.
          - rewrite PM. constructor; [reflexivity|apply I]. }
        { cbn [st0 l_pool]. lia. }
        { rewrite app_length. cbn [length]. lia. }
        exists st', c', r'. rewrite app_length in *. cbn [st0 l_pool l_kernel l_ready l_visited length] in *. do 6 (split; [first [assumption|lia]|]). split; [lia|lia].
  Qed.

  Lemma process_spec cached reqs seen st id nd : linv cached reqs seen st -> In id (l_visited st) -> nd_dist nd = dist_of g id -> nd_nbs nd = nbs_of g id ->
    exists p r, process_node st id nd = Ok {| l_pool := p; l_visited := l_visited st; l_res := r; l_free := l_free st; l_ongoing := l_ongoing st;
        l_ready := l_ready st; l_slots := l_slots st; l_kernel := l_kernel st |}
      /\ core (seen ++ [id]) (l_visited st) p r /\ unex p + flat seen <= unex (l_pool st) + flat (seen ++ [id]).
  Proof.
    intros I Hin D1 D2. unfold process_node. rewrite D1, D2.
    destruct (process_core g GOK ef knn EF KN seen _ _ _ id (i_core _ _ _ _ I) Hin) as (p & r & -> & Er & C & U). cbn [bind]. rewrite Er. cbn [bind].
    exists p, r. split; [reflexivity|]. split; [assumption|]. rewrite flat_map_app, app_length. cbn [flat_map]. rewrite app_nil_r. lia.
  Qed.
  Lemma cached_spec : forall cached seen st, linv cached [] seen st ->
    exists st', process_cached g cached st = Ok st' /\ linv [] [] (seen ++ cached) st' /\ l_visited st' = l_visited st
      /\ l_kernel st' = l_kernel st /\ l_ready st' = l_ready st /\ unex (l_pool st') + flat seen <= unex (l_pool st) + flat (seen ++ cached).
  Proof.
    induction cached as [|id cached IH]; intros seen st I; cbn [process_cached].
    - exists st. rewrite app_nil_r. repeat (split; [first [reflexivity|assumption]|]). lia.
    - assert (Hin : In id (l_visited st)).
      { apply (Permutation_in _ (Permutation_sym (i_perm _ _ _ _ I))). apply in_or_app. right. now left. }
      assert (Hn : is_node g id) by (pose proof (linv_nodes _ _ _ _ I) as F; rewrite Forall_forall in F; auto).
      destruct (node_record g id Hn) as (nd & E & D1 & D2). unfold get. rewrite E. cbn [bind].
      destruct (process_spec _ _ _ _ id nd I Hin D1 D2) as (p & r & -> & C & U). cbn [bind].
      match goal with |- context [process_cached g cached ?s] => set (st0 := s) end.
      destruct (IH (seen ++ [id]) st0) as (st' & B & I' & Q1 & Q2 & Q3 & Q4).
      { constructor; cbn [st0 l_visited l_pool l_res l_free l_ongoing l_ready l_slots l_kernel]; auto; try apply I.
        rewrite (i_perm _ _ _ _ I). rewrite <- !app_assoc. reflexivity. }
      exists st'. split; [exact B|]. rewrite <- app_assoc in I'. split; [exact I'|]. repeat (split; [assumption|]). rewrite <- app_assoc in Q4. cbn [st0 l_pool app] in *. lia.
  Qed.

  Lemma ready_spec : forall need seen st, linv [] [] seen st ->
    exists need' st' done, take_ready g need st = Ok (need', st') /\ linv [] [] (seen ++ done) st' /\ l_visited st' = l_visited st
      /\ l_kernel st' = l_kernel st /\ length (l_ready st') + need = length (l_ready st) + need'
      /\ (need' = 0 \/ l_ready st' = []) /\ unex (l_pool st') + flat seen <= unex (l_pool st) + flat (seen ++ done).
  Proof.
    induction need as [|need IH]; intros seen st I; cbn [take_ready].
    - exists 0, st, []. rewrite app_nil_r. repeat (split; [first [reflexivity|assumption|lia|auto]|]). lia.
    - destruct (l_ready st) as [|[id slot] rest] eqn:ER.
      { exists (S need), st, []. rewrite app_nil_r. rewrite ER. repeat (split; [first [reflexivity|assumption|lia|auto]|]). lia. }
      pose proof (i_ready _ _ _ _ I) as FR. rewrite ER in FR. apply Forall_cons_iff in FR as [F0 FR]. cbn [fst snd] in F0.
      unfold get at 1. rewrite F0. cbn [bind].
      assert (Hin : In id (l_visited st)).
      { apply (Permutation_in _ (Permutation_sym (i_perm _ _ _ _ I))). rewrite ER. rewrite !in_app_iff. right. right. right. now left. }
      assert (Hn : is_node g id) by (pose proof (linv_nodes _ _ _ _ I) as F; rewrite Forall_forall in F; auto).
      destruct (page_record g GOK id Hn) as (nd & -> & D1 & D2). cbn [bind].
      destruct (process_spec _ _ _ _ id nd I Hin D1 D2) as (p & r & -> & C & U). cbn [bind l_pool l_visited l_res l_free l_ongoing l_slots l_kernel].
      match goal with |- context [take_ready g need ?s] => set (st0 := s) end.
      destruct (IH (seen ++ [id]) st0) as (need' & st' & done & B & I' & Q1 & Q2 & Q3 & Q4 & Q5).
      { constructor; cbn [st0 l_visited l_pool l_res l_free l_ongoing l_ready l_slots l_kernel]; auto; try apply I.
        - rewrite (i_perm _ _ _ _ I), ER. cbn [map fst app]. rewrite <- !app_assoc. apply Permutation_app_head. cbn [app].
          symmetry. apply Permutation_middle.
        - rewrite <- (i_slots _ _ _ _ I), ER. cbn [map snd]. rewrite <- !app_assoc. apply Permutation_app_head. cbn [app]. apply Permutation_middle. }
      exists need', st', (id :: done). rewrite <- app_assoc in I', Q5. cbn [st0 l_pool l_ready l_visited l_kernel app length] in *.
      repeat (split; [first [assumption|lia]|]). lia.
  Qed.

  (** Completions. *)
  Lemma complete_spec seen st k : linv [] [] seen st -> l_kernel st <> [] ->
    exists st', complete st (k, true) = Ok st' /\ linv [] [] seen st' /\ l_visited st' = l_visited st /\ l_pool st' = l_pool st
      /\ S (length (l_kernel st')) = length (l_kernel st) /\ length (l_ready st') = S (length (l_ready st)).
  Proof.
    intros I NE. unfold complete. cbn [fst snd]. destruct (l_kernel st) as [|r0 ks] eqn:EK; [congruence|]. rewrite <- EK in *.
    set (i := Nat.modulo k (length (l_kernel st))).
    assert (Hi : i < length (l_kernel st)) by (apply Nat.mod_upper_bound; rewrite EK; cbn; lia).
    destruct (get_nth (l_kernel st) i Hi) as ([id [pg slot]] & En & ->). cbn [bind fst snd].
    pose proof (remove_perm _ _ _ En) as PM. set (ks' := firstn i (l_kernel st) ++ skipn (S i) (l_kernel st)) in *.
    assert (IO : In (id, slot) (l_ongoing st)).
    { apply (Permutation_in _ (Permutation_sym (i_ong _ _ _ _ I))). cbn [app]. apply in_map_iff. exists (id, (pg, slot)).
      split; [reflexivity|]. eapply nth_error_In; eauto. }
    destruct (ongoing_find _ _ _ (linv_keys _ _ _ _ I) IO) as [-> PO].
    pose proof (i_slots _ _ _ _ I) as SL. cbn [app] in SL. rewrite PM in SL. cbn [map] in SL. unfold slot_of at 1 in SL. cbn [snd app] in SL.
    assert (ND : NoDup (l_free st ++ slot :: map slot_of ks' ++ map snd (l_ready st))) by (rewrite SL; apply seq_NoDup).
    assert (Hs : slot < length (l_slots st)).
    { rewrite (i_len _ _ _ _ I). assert (In slot (seq 0 (2 * width))) as H by (rewrite <- SL; apply in_or_app; right; now left).
      apply in_seq in H. lia. }
    pose proof (i_pages _ _ _ _ I) as PG. cbn [app] in PG. rewrite PM in PG. apply Forall_cons_iff in PG as [PG0 PG]. cbn [fst snd] in PG0. subst pg.
    eexists. split; [reflexivity|]. split.
    { constructor; cbn [l_visited l_pool l_res l_free l_ongoing l_ready l_slots l_kernel app]; try apply I.
      - rewrite (i_perm _ _ _ _ I). cbn [app]. apply Permutation_app_head. rewrite PM at 1. cbn [map fst app]. rewrite map_app. cbn [map fst].
        rewrite app_assoc. apply Permutation_cons_append.
      - rewrite <- SL. apply Permutation_app_head. rewrite map_app. cbn [map snd]. rewrite app_assoc. symmetry. apply Permutation_cons_append.
      - rewrite upd_length. apply I.
      - apply (Permutation_cons_inv (a := (id, slot))). rewrite <- PO, (i_ong _ _ _ _ I). cbn [app]. rewrite PM at 1. reflexivity.
      - exact PG.
      - apply Forall_app. split.
        + apply Forall_forall. intros [id' s'] Hx. cbn [fst snd]. rewrite nth_error_upd by assumption.
          destruct (Nat.eqb_spec slot s') as [->|_].
          * exfalso. apply NoDup_remove_2 in ND. apply ND. rewrite !in_app_iff. right. right. apply in_map_iff. exists (id', s'). auto.
          * pose proof (i_ready _ _ _ _ I) as FR. rewrite Forall_forall in FR. exact (FR _ Hx).
        + constructor; [|constructor]. cbn [fst snd]. rewrite nth_error_upd by assumption. now rewrite Nat.eqb_refl. }
    cbn [l_visited l_pool l_kernel l_ready]. split; [reflexivity|]. split; [reflexivity|]. split.
    - apply Permutation_length in PM. cbn [length] in PM. lia.
    - rewrite app_length. cbn [length]. lia.
  Qed.
  Lemma completes_spec : forall choices seen st, Forall (fun c => snd c = true) choices -> linv [] [] seen st ->
    exists st', completes st choices = Ok st' /\ linv [] [] seen st' /\ l_visited st' = l_visited st /\ l_pool st' = l_pool st
      /\ length (l_kernel st') + length (l_ready st') = length (l_kernel st) + length (l_ready st)
      /\ length (l_kernel st') <= length (l_kernel st) /\ (choices <> [] -> l_kernel st <> [] -> length (l_kernel st') < length (l_kernel st)).
  Proof.
    induction choices as [|[k ok] choices IH]; intros seen st F I; cbn [completes].
    - exists st. repeat (split; [first [reflexivity|assumption|lia]|]). congruence.
    - apply Forall_cons_iff in F as [F0 F]. cbn [snd] in F0. subst ok. destruct (l_kernel st) as [|r0 ks] eqn:EK.
      + unfold complete. rewrite EK. cbn [bind]. destruct (IH seen st F I) as (st' & B & I' & Q1 & Q2 & Q3 & Q4 & Q5). rewrite EK in *. exists st'.
        repeat (split; [first [assumption|lia]|]). congruence.
      + assert (NE : l_kernel st <> []) by (rewrite EK; discriminate). rewrite <- EK.
        destruct (complete_spec seen st k I NE) as (st1 & -> & I1 & V1 & P1 & K1 & R1). cbn [bind].
        destruct (IH seen st1 F I1) as (st' & B & I' & Q1 & Q2 & Q3 & Q4 & Q5). exists st'. split; [exact B|]. split; [assumption|].
        split; [congruence|]. split; [congruence|]. split; [lia|]. split; [lia|]. intros _ _. lia.
  Qed.

  (** ** Processing *)
  Definition budget (answers : list (list (nat * bool))) (st : lstate) : Prop :=
    length (g_nodes g) + length (l_kernel st) <= reports answers + length (l_visited st).
  Lemma work_spec beam : 0 < beam -> forall answers need seen st, reads_ok answers -> linv [] [] seen st ->
    need <= length (l_kernel st) + length (l_ready st) ->
    (work g beam answers need st = Waits /\ ~ budget answers st)
    \/ exists st' answers' done, work g beam answers need st = Ends (Ok (st', answers')) /\ reads_ok answers' /\ linv [] [] (seen ++ done) st'
         /\ l_visited st' = l_visited st /\ length (l_kernel st') + length (l_ready st') + need = length (l_kernel st) + length (l_ready st)
         /\ unex (l_pool st') + flat seen <= unex (l_pool st) + flat (seen ++ done)
         /\ (budget answers st -> budget answers' st').
  Proof.
    intros Hb. induction answers as [|a answers IH]; intros need seen st RO I Hn; cbn [work];
      destruct (ready_spec need seen st I) as (need' & st1 & done & -> & I1 & V1 & K1 & R1 & D1 & U1); cbn [obind fst snd]; destruct need' as [|need'].
    - right. exists st1, [], done. repeat (split; [first [reflexivity|assumption|lia]|]). split; [rewrite K1; lia|]. split; [assumption|].
      unfold budget. now rewrite V1, K1.
    - left. split; [reflexivity|]. unfold budget, reports. cbn [filter length]. destruct D1 as [D1|D1]; [discriminate|]. rewrite D1 in R1. cbn [length] in R1.
      pose proof (nodes_length g _ (k_nodup _ _ _ _ _ _ _ (i_core _ _ _ _ I)) (linv_nodes _ _ _ _ I)). lia.
    - right. exists st1, (a :: answers), done. repeat (split; [first [reflexivity|assumption|lia]|]). split; [rewrite K1; lia|]. split; [assumption|].
      unfold budget. now rewrite V1, K1.
    - destruct D1 as [D1|D1]; [discriminate|]. rewrite D1 in R1. cbn [length] in R1.
      apply Forall_cons_iff in RO as [RO0 RO]. unfold wait_for_nodes.
      destruct (completes_spec (firstn beam a) (seen ++ done) st1) as (st2 & -> & I2 & V2 & P2 & S2 & L2 & N2); [|assumption|].
      { apply Forall_forall. intros c Hc. apply firstn_In in Hc. rewrite Forall_forall in RO0. auto. }
      cbn [obind]. rewrite K1, D1 in *. cbn [length] in S2.
      assert (BB : budget (a :: answers) st -> budget answers st2).
      { unfold budget, reports. cbn [filter]. rewrite V2, V1. destruct a as [|c a]; [lia|]. cbn [length]. intros B.
        assert (length (l_kernel st2) < length (l_kernel st)); [|lia]. apply N2.
        - destruct beam; [lia|]. discriminate.
        - intros E. rewrite E in Hn. cbn [length] in Hn. lia. }
      destruct (IH (S need') (seen ++ done) st2 RO I2) as [(E & NB)|(st' & an' & dn' & E & RO' & I' & V' & S' & U' & B')]; [lia| |].
      + left. split; [exact E|]. auto.
      + right. exists st', an', (done ++ dn'). rewrite <- app_assoc in I', U'. split; [exact E|]. split; [assumption|]. split; [assumption|].
        split; [congruence|]. split; [lia|]. split; [|auto]. rewrite P2 in U'. lia.
  Qed.

  (** ** The main loop *)
  Definition ended (seen lost : list N) (st : lstate) : Prop :=
    2 * length lost <= width /\ Permutation (l_visited st) (seen ++ lost)
    /\ keeps_closest knn (map (fun x => (x, dist_of g x)) (seen ++ lost)) (kept (l_res st)) /\ pool_inv knn (l_res st) /\ zeros knn (l_res st)
    /\ NoDup (l_visited st) /\ Forall (reachable g) (l_visited st)
    /\ exists p all sk, pool_inv ef p /\ (forall e, In e (content p) -> In (fst (fst e)) (l_visited st))
         /\ keeps_closest ef all (kept p) /\ Permutation (candidates g seen) (all ++ sk) /\ Forall (fun y => In (fst y) (l_visited st)) sk.
  Lemma rounds_spec : width <= 1024 -> forall fuel beam remain answers seen st, 0 < beam -> reads_ok answers -> linv [] [] seen st ->
    remain = length (l_kernel st) + length (l_ready st) -> 2 * remain <= width ->
    unex (l_pool st) + edges g < fuel + flat seen ->
    (rounds fuel g width beam remain answers st = Waits /\ ~ budget answers st)
    \/ exists st' seen' lost, rounds fuel g width beam remain answers st = Ends (Ok st') /\ ended seen' lost st'.
  Proof.
    intros HW. induction fuel as [|fuel IH]; intros beam remain answers seen st Hb RO I Hr H2 Hf.
    { exfalso. cbn [Nat.add] in Hf. pose proof (k_nodup _ _ _ _ _ _ _ (i_core _ _ _ _ I)) as ND.
      assert (ND' : NoDup seen) by (rewrite (i_perm _ _ _ _ I) in ND; now apply nodup_app in ND as [ND _]).
      assert (FN : Forall (is_node g) seen).
      { apply Forall_forall. intros x Hx. pose proof (linv_nodes _ _ _ _ I) as F. rewrite Forall_forall in F. apply F. now apply (linv_seen _ _ _ _ I). }
      pose proof (seen_edges g _ ND' FN). lia. }
    cbn [rounds]. destruct (has_next (l_pool st)) eqn:HN.
    - set (beam' := Nat.min width (2 * beam)). assert (Hb' : 0 < beam' <= width) by (unfold beam'; lia). clearbody beam'.
      destruct (build_spec beam' (proj2 Hb') (S (p_size (l_pool st))) [] [] seen st I) as (st1 & cached & reqs & -> & I1 & K1 & R1 & L1 & U1 & U1' & V1).
      { pose proof (unex_le _ _ (k_pool _ _ _ _ _ _ _ (i_core _ _ _ _ I))). lia. }
      { cbn; lia. } { lia. }
      specialize (U1' HN (proj1 Hb')). cbn [obind]. unfold submit. destruct (Nat.ltb_spec 1024 (length reqs)); [lia|]. cbn [obind].
      match goal with |- context [process_cached g cached ?s] => set (st2 := s) end.
      assert (I2 : linv cached [] seen st2).
      { assert (PM : Permutation (l_kernel st1 ++ reqs) (reqs ++ l_kernel st1)) by apply Permutation_app_comm.
        constructor; cbn [st2 l_visited l_pool l_res l_free l_ongoing l_ready l_slots l_kernel app]; auto; try apply I1.
        - rewrite PM. apply I1.
        - rewrite PM. apply I1.
        - rewrite PM. apply I1.
        - rewrite PM. apply I1. }
      destruct (cached_spec cached seen st2 I2) as (st3 & -> & I3 & V3 & K3 & R3 & U3). cbn [obind].
      cbn [st2 l_visited l_kernel l_ready l_pool] in V3, K3, R3, U3. rewrite K1 in K3. rewrite R1 in R3.
      assert (KL : length (l_kernel st3) + length (l_ready st3) = remain + length reqs) by (rewrite K3, R3, app_length; lia).
      assert (HD : 2 * Nat.div (length reqs) 2 <= length reqs) by (apply Nat.mul_div_le; lia).
      generalize dependent (Nat.div (length reqs) 2). intros rest HD.
      assert (BB : budget answers st -> budget answers st3).
      { unfold budget. rewrite V3, K3, app_length. cbn [length] in V1. lia. }
      destruct (work_spec beam' (proj1 Hb') answers (length reqs + remain - rest) (seen ++ cached) st3 RO I3) as [(E & NB)|(st4 & an4 & done & -> & RO4 & I4 & V4 & S4 & U4 & B4)]; [lia| |].
      + left. rewrite E. split; [reflexivity|auto].
      + cbn [obind]. pose proof (IH beam' rest an4 ((seen ++ cached) ++ done) st4 (proj1 Hb') RO4 I4) as Q.
        destruct Q as [(E & NB)|Q]; [lia|lia|lia| |].
        * left. split; [exact E|]. auto.
        * right. exact Q.
  - destruct (work_spec beam Hb answers remain seen st RO I) as [(E & NB)|(st4 & an4 & lost & -> & RO4 & I4 & V4 & S4 & U4 & B4)]; [lia| |].
    + left. rewrite E. auto.
    + right. cbn [obind]. exists st4, seen, lost. split; [reflexivity|].
      assert (KE : l_kernel st4 = [] /\ l_ready st4 = []).
      { destruct (l_kernel st4), (l_ready st4); cbn [length] in S4; auto; lia. }
      destruct KE as [KE RE]. pose proof (i_perm _ _ _ _ I4) as PM. rewrite KE, RE in PM. cbn [app map] in PM. rewrite !app_nil_r in PM.
      assert (LL : length lost = remain).
      { pose proof (Permutation_length PM) as A. pose proof (Permutation_length (i_perm _ _ _ _ I)) as B. rewrite V4 in A. rewrite A in B.
        rewrite !app_length in B. cbn [app length] in B. rewrite !map_length in B. lia. }
      destruct (k_cand _ _ _ _ _ _ _ (i_core _ _ _ _ I)) as (all & sk & Kc & Pc & Sk).
      split; [lia|]. split; [exact PM|]. pose proof (i_core _ _ _ _ I4) as C4. split; [apply C4|]. split; [apply C4|]. split; [apply C4|].
      split; [apply C4|]. split; [apply C4|]. exists (l_pool st), all, sk. rewrite V4. split; [apply (i_core _ _ _ _ I)|].
      split; [|auto]. intros e He. apply (k_expl _ _ _ _ _ _ _ (i_core _ _ _ _ I)); auto.
      eapply no_next; eauto. apply (i_core _ _ _ _ I).
  Qed.
End Io.

(** ** The whole search *)
Lemma first_spec g ef : graph_ok g -> 0 < ef ->
  exists p, first_pool g (pool_new ef) = Ok p /\ pool_inv ef p /\ keeps_closest ef (candidates g []) (kept p) /\ unex p <= 2
    /\ (forall e, In e (content p) -> snd e = true -> False).
Proof.
  intros GOK EF. assert (SN : forall x, In x (starts g) -> (x < 2 ^ 31)%N) by (intros x Hx; apply (node_small g GOK), (start_node g GOK), Hx).
  assert (K0 : keeps_closest ef [] (kept (pool_new ef))).
  { split; [cbn; lia|]. exists []. split; [constructor|]. split; [congruence|]. intros x y []. }
  pose proof (pool_new_inv ef) as I0. unfold first_pool, candidates. unfold starts in *. destruct (g_medoids g) as [|m ms] eqn:EM; cbn [bind].
  - assert (H : (g_entry g < 2 ^ 31)%N) by (apply SN; now left).
    destruct (accepts_of ef _ _ float_max _ EF I0 H (laser_insert_spec ef _ _ float_max EF I0 H)) as (b & p & -> & I & A & U & X).
    cbn [bind snd]. exists p. split; [reflexivity|]. split; [assumption|]. split; [exact (A [] K0)|]. split; [cbn in U; lia|].
    intros e He Fe. exact (X e He Fe).
  - cbn [map]. set (bm := best_medoid (m :: ms)) in *. assert (H1 : (bm < 2 ^ 31)%N) by (apply SN; now left).
    assert (H2 : (g_entry g < 2 ^ 31)%N) by (apply SN; right; now left).
    destruct (accepts_of ef _ _ float_max _ EF I0 H1 (laser_insert_spec ef _ _ float_max EF I0 H1)) as (b1 & p1 & -> & I1 & A1 & U1 & X1).
    cbn [bind snd].
    destruct (accepts_of ef _ _ float_max _ EF I1 H2 (laser_insert_spec ef _ _ float_max EF I1 H2)) as (b & p & -> & I & A & U & X).
    cbn [bind snd]. exists p. split; [reflexivity|]. split; [assumption|]. split; [exact (A _ (A1 [] K0))|].
    split; [assert (unex (pool_new ef) = 0) by reflexivity; lia|].
    intros e He Fe. exact (X1 e (X e He Fe) Fe).
Qed.
Lemma sorted_kept cap p : pool_inv cap p -> StronglySorted (fun a b : N * Z => (snd a <= snd b)%Z) (kept p).
Proof.
  intros I. pose proof (content_sorted _ _ I) as So. unfold kept. induction So as [|a l So IH F]; cbn [map]; constructor; auto.
  apply Forall_forall. intros y Hy. apply in_map_iff in Hy as (z & <- & Hz). rewrite Forall_forall in F. apply (F z Hz).
Qed.
Lemma result_ids knn p : pool_inv knn p -> zeros knn p ->
  map c_id (firstn knn (p_data p)) = map fst (kept p) ++ repeat 0%N (knn - length (kept p)).
Proof.
  intros I [Z1 Z2]. assert (KL : length (kept p) = p_size p) by (unfold kept; rewrite map_length; now apply (content_length knn)).
  pose proof (pi_size _ _ I) as Hs. pose proof (pi_len _ _ I) as HL. rewrite KL.
  assert (E : firstn knn (p_data p) = firstn (p_size p) (p_data p) ++ repeat zero_cand (knn - p_size p)).
  { apply list_eq_nth.
    - rewrite app_length, !firstn_length, repeat_length. lia.
    - intros i Hi. rewrite firstn_length in Hi. rewrite nth_error_firstn. destruct (Nat.ltb_spec i knn) as [L|L]; [|lia].
      destruct (Nat.lt_ge_cases i (p_size p)) as [L'|L'].
      + rewrite nth_error_app1 by (rewrite firstn_length; lia). rewrite nth_error_firstn. now destruct (Nat.ltb_spec i (p_size p)); [|lia].
      + rewrite nth_error_app2 by (rewrite firstn_length; lia). rewrite firstn_length, Nat.min_l by lia. rewrite Z2 by lia.
        symmetry. assert (LL : i - p_size p < knn - p_size p) by lia. revert LL. generalize (i - p_size p), (knn - p_size p). clear.
        intros n m. revert n. induction m as [|m IH]; intros [|n] L; cbn; auto; try lia. apply IH. lia. }
  rewrite E, map_app. f_equal.
  - rewrite kept_map, map_map. apply map_ext_in. intros c Hc. cbn. symmetry. apply N.mod_small. auto.
  - generalize (knn - p_size p). induction n as [|n IH]; cbn; [reflexivity|]. now rewrite IH.
Qed.
Lemma ended_right g width ef knn seen lost st : ended g ef knn width seen lost st ->
  right_answer g width ef knn (map c_id (firstn knn (p_data (l_res st)))).
Proof.
  intros (HL & PM & KB & IR & ZR & ND & FR & p & all & sk & IP & EX & KC & PC & SK).
  assert (VI : forall x, In x (l_visited st) -> In x (seen ++ lost)) by (intros x; apply (Permutation_in _ PM)).
  exists seen, lost. split; [now rewrite <- PM|]. split; [now rewrite <- PM|]. split; [assumption|]. split.
  { exists (kept (l_res st)). split; [assumption|]. split; [now apply (sorted_kept knn)|]. now apply result_ids. }
  destruct KC as (LK & rest & PA & FU & FAR).
  assert (KV : forall b, In b (kept p) -> In (fst b) (seen ++ lost)).
  { intros b Hb. apply in_map_iff in Hb as (e & <- & He). now apply VI, EX. }
  intros y e H. apply (Permutation_in _ PC) in H. apply in_app_or in H as [H|H].
  2:{ left. apply VI. rewrite Forall_forall in SK. exact (SK _ H). }
  apply (Permutation_in _ PA) in H. apply in_app_or in H as [H|H]; [left; exact (KV _ H)|]. right.
  exists (kept p), (rest ++ sk). split; [rewrite PC, PA; now rewrite app_assoc|]. split; [apply in_or_app; now left|].
  split; [apply FU; intros ->; destruct H|]. intros b Hb. split; [auto|]. exact (FAR b (y, e) Hb H).
Qed.
Lemma search_spec fuel g width ef knn scratch answers : graph_ok g -> 0 < width <= 1024 -> 0 < ef -> 0 < knn ->
  length scratch = 2 * width -> reads_ok answers -> edges g + 3 <= fuel ->
  (laser_search fuel g width ef knn scratch answers = Waits /\ reports answers < length (g_nodes g))
  \/ exists ids, laser_search fuel g width ef knn scratch answers = Ends (Ok ids) /\ right_answer g width ef knn ids.
Proof.
  intros GOK [W1 W2] EF KN LS RO Hf. unfold laser_search. destruct (first_spec g ef GOK EF) as (p & -> & I & K & U & X). cbn [obind].
  match goal with |- context [rounds fuel g width 1 0 answers ?s] => set (st := s) end.
  assert (LI : linv g ef knn width [] [] [] st).
  { assert (CO : core g ef knn [] [] p (pool_new knn)).
    { constructor; auto.
      - apply pool_new_inv.
      - split; [intros c []|]. intros i Hi. cbn [pool_new p_data p_size] in *.
        rewrite (nth_error_nth' _ zero_cand) by (rewrite repeat_length; lia). f_equal. apply nth_repeat.
      - split; [cbn; lia|]. exists []. split; [constructor|]. split; [congruence|]. intros x y [].
      - exists (candidates g []), []. rewrite app_nil_r. auto.
      - constructor. }
    constructor; cbn [st l_visited l_pool l_res l_free l_ongoing l_ready l_slots l_kernel app map]; auto. now rewrite app_nil_r. }
  destruct (rounds_spec g GOK ef knn width EF KN W1 W2 fuel 1 0 answers [] st) as [(E & NB)|(st' & seen & lost & E & EN)]; auto; try (cbn; lia).
  - left. rewrite E. split; [reflexivity|]. unfold budget in NB. cbn [st l_kernel l_visited length] in NB. lia.
  - right. rewrite E. cbn [obind]. eexists. split; [reflexivity|]. eapply ended_right; eauto.
Qed.

(** With room for all candidates, none is left out. *)
Lemma candidates_length g seen : graph_ok g -> NoDup seen -> Forall (reachable g) seen -> length (candidates g seen) <= edges g + 2.
Proof.
  intros GOK ND F. unfold candidates. rewrite app_length, map_length.
  assert (FN : Forall (is_node g) seen) by (eapply Forall_impl; [|exact F]; intros x; now apply reach_node).
  pose proof (seen_edges g _ ND FN). enough (length (starts g) <= 2) by lia. unfold starts. destruct (g_medoids g); cbn; lia.
Qed.
Lemma all_followed g width ef knn ids : graph_ok g -> edges g + 2 <= ef -> right_answer g width ef knn ids ->
  exists seen lost, NoDup (seen ++ lost) /\ Forall (reachable g) (seen ++ lost) /\ 2 * length lost <= width /\ closest_ids g knn (seen ++ lost) ids
    /\ (forall x, In x (starts g) -> In x (seen ++ lost))
    /\ (forall x y, In x seen -> In y (map fst (nbs_of g x)) -> In y (seen ++ lost)).
Proof.
  intros GOK HE (seen & lost & ND & FR & HL & CI & CA). exists seen, lost. do 4 (split; [assumption|]).
  destruct (nodup_app _ _ ND) as [ND1 _]. apply Forall_app in FR as [FR1 _].
  pose proof (candidates_length g seen GOK ND1 FR1) as CL.
  assert (A : forall y e, In (y, e) (candidates g seen) -> In y (seen ++ lost)).
  { intros y e H. destruct (CA y e H) as [Q|(better & others & PM & HO & LB & _)]; [exact Q|]. apply Permutation_length in PM.
    rewrite app_length in PM. destruct others; [destruct HO|]. cbn [length] in PM. lia. }
  split.
  - intros x Hx. apply (A x float_max). apply in_or_app. left. apply in_map_iff. eauto.
  - intros x y Hx Hy. apply in_map_iff in Hy as ([y' e] & <- & Hy). apply (A y' e). apply in_or_app. right. apply in_flat_map. eauto.
Qed.
Lemma width0_loop fuel g : forall beam answers st, has_next (l_pool st) = true -> rounds fuel g 0 beam 0 answers st = Fuel_out.
Proof.
  induction fuel as [|fuel IH]; intros beam answers st H; [reflexivity|]. cbn [rounds]. rewrite H. cbn [Nat.min build]. rewrite H.
  cbn [length Nat.ltb Nat.leb andb obind submit process_cached].
  cbn [Nat.add Nat.sub Nat.div Nat.divmod fst snd]. destruct answers as [|a answers]; cbn [work take_ready obind fst snd]; apply IH; exact H.
Qed.
Lemma first_next g ef p : graph_ok g -> 0 < ef -> first_pool g (pool_new ef) = Ok p -> has_next p = true.
Proof.
  intros GOK EF E. destruct (first_spec g ef GOK EF) as (p' & E' & I & K & _ & X). rewrite E in E'. injection E' as <-.
  destruct (has_next p) eqn:HN; [reflexivity|]. exfalso. pose proof (no_next _ _ I HN) as Q.
  destruct (content p) as [|e l] eqn:EC.
  - destruct K as (_ & rest & PM & FU & _). unfold kept in *. rewrite EC in *. cbn [map app] in PM.
    destruct rest as [|r rest].
    + apply Permutation_sym, Permutation_nil in PM. unfold candidates, starts in PM. destruct (g_medoids g); discriminate.
    + assert (r :: rest <> []) as NE by discriminate. specialize (FU NE). cbn in FU. lia.
  - apply (X e); [now left|]. apply Q. now left.
Qed.
