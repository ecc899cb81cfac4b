From Coq Require Import Sorting.Permutation.
From Verif Require Export NsgProofs.
Import ListNotations.

Lemma in_order_upd pool k x : in_order pool ->
  (forall i a, i < k -> nth_error pool i = Some a -> (nb_dist a <= nb_dist x)%Z) ->
  (forall i a, k < i -> nth_error pool i = Some a -> (nb_dist x <= nb_dist a)%Z) -> in_order (upd pool k x).
Proof.
  intros H B A i j a b Hij Ea Eb. destruct (Nat.lt_ge_cases k (length pool)) as [Hk|Hk]; [|rewrite upd_out in Ea, Eb by lia; exact (H i j a b Hij Ea Eb)].
  rewrite nth_error_upd in Ea, Eb by exact Hk. destruct (Nat.eqb_spec k i) as [<-|NI]; destruct (Nat.eqb_spec k j) as [<-|NJ].
  - injection Ea as <-. injection Eb as <-. lia.
  - injection Ea as <-. apply (A j); [lia|exact Eb].
  - injection Eb as <-. apply (B i); [lia|exact Ea].
  - exact (H i j a b Hij Ea Eb).
Qed.
(** Moving entries up keeps the order and leaves a slot for [d]. *)
Lemma shift_order q pos : forall pool d pool' p, in_order pool -> own_dist q pool -> pos < length pool ->
  (forall i a, pos < i -> nth_error pool i = Some a -> (d <= nb_dist a)%Z) -> shift pool pos d = (pool', p) ->
  in_order pool' /\ own_dist q pool' /\ length pool' = length pool /\
  (forall i a, i < p -> nth_error pool' i = Some a -> (nb_dist a <= d)%Z) /\ (forall i a, p < i -> nth_error pool' i = Some a -> (d <= nb_dist a)%Z).
Proof.
  induction pos as [|k IH]; intros pool d pool' p O W L A E; cbn [shift] in E.
  - injection E as <- <-. split; [exact O|]. split; [exact W|]. split; [reflexivity|]. split; [intros i a Hi; lia|exact A].
  - destruct (nth_error pool k) as [x|] eqn:EX; [|apply nth_error_None in EX; lia]. destruct (Z.ltb_spec d (nb_dist x)) as [LT|GE].
    + apply IH in E.
      * rewrite upd_length in E. exact E.
      * apply in_order_upd; [exact O| |]; intros i a Hi Ea; [apply (O i k a x); [lia|exact Ea|exact EX]|apply (O k i x a); [lia|exact EX|exact Ea]].
      * apply Forall_upd; [exact W|]. exact (Forall_nth_error _ _ _ _ W EX).
      * rewrite upd_length. lia.
      * intros i a Hi Ea. rewrite nth_error_upd in Ea by lia. destruct (Nat.eqb_spec (S k) i) as [<-|NI]; [injection Ea as <-; lia|]. apply (A i); [lia|exact Ea].
    + injection E as <- <-. split; [exact O|]. split; [exact W|]. split; [reflexivity|]. split; [|exact A].
      intros i a Hi Ea. specialize (O i k a x ltac:(lia) Ea EX). lia.
Qed.

Section Sort.
Context (inp : input).
Let n := in_n inp.
Let R := in_R inp.
Let L := in_L inp.
Lemma insert_order q pool x : in_order pool -> own_dist q pool -> length pool = L -> nb_dist x = q (nb_id x) ->
  in_order (fst (insert_into_pool inp pool x)) /\ own_dist q (fst (insert_into_pool inp pool x)) /\ length (fst (insert_into_pool inp pool x)) = L.
Proof.
  intros O W LP WX. unfold insert_into_pool. fold L. destruct (existsb _ _); [cbn [fst]; auto|]. destruct (nth_error pool (L - 1)) as [last|] eqn:E; [|cbn [fst]; auto].
  destruct (Z.leb_spec (nb_dist last) (nb_dist x)) as [H|H]; [cbn [fst]; auto|]. assert (L - 1 < length pool) by (apply nth_error_Some; congruence).
  destruct (shift pool (L - 1) (nb_dist x)) as [pool' p] eqn:ES. cbn [fst].
  destruct (shift_order q (L - 1) pool (nb_dist x) pool' p O W ltac:(assumption)) as (O' & W' & LP' & B & A); [|exact ES|].
  { intros i a Hi Ea. assert (i < length pool) by (apply nth_error_Some; congruence). lia. }
  split; [now apply in_order_upd|]. split; [now apply Forall_upd|]. rewrite upd_length. congruence.
Qed.
Lemma expand_order q g u ms : forall pool full vis upos r, in_order pool -> own_dist q pool -> length pool = L ->
  expand inp q g u ms pool full vis upos = Ok r -> let '(pool', _, _, _) := r in in_order pool' /\ own_dist q pool' /\ length pool' = L.
Proof.
  induction ms as [|m ms IH]; intros pool full vis upos r O W LP E; cbn [expand] in E; [injection E as <-; auto|].
  apply bind_ok in E as (id & _ & E). destruct (N.leb _ _); [now apply IH in E|]. apply bind_ok in E as (seen & _ & E). destruct seen; [now apply IH in E|].
  apply bind_ok in E as (vis' & _ & E). apply bind_ok in E as (last & _ & E). destruct (Z.leb _ _); [now apply IH in E|].
  destruct (insert_order q pool (Nbr id (q id) true) O W LP eq_refl) as (O' & W' & LP'). destruct (insert_into_pool inp pool (Nbr id (q id) true)) as [pool' p]. cbn [fst] in *. now apply IH in E.
Qed.
Lemma search_loop_order q g K fuel : forall pool full vis k r, in_order pool -> own_dist q pool -> length pool = L ->
  search_loop inp fuel q g K pool full vis k = Done (Ok r) -> let '(pool', _, _) := r in in_order pool' /\ own_dist q pool' /\ length pool' = L.
Proof.
  induction fuel as [|f IH]; intros pool full vis k r O W LP E; cbn [search_loop] in E; fold L in E; destruct (Nat.ltb k L); try discriminate E; try (injection E as <-; auto).
  apply tbind_ok in E as (x & EX & E). injection EX as EX. apply aget_Ok in EX as [_ EX]. rewrite Nat2N.id in EX. destruct (nb_flag x); [|now apply IH in E].
  apply tbind_ok in E as ([[[pool2 full2] vis2] upos] & EE & E). injection EE as EE.
  assert (O1 : in_order (upd pool k (Nbr (nb_id x) (nb_dist x) false))).
  { apply in_order_upd; [exact O| |]; intros i a Hi Ea; cbn [nb_dist]; [apply (O i k a x); [lia|exact Ea|exact EX]|apply (O k i x a); [lia|exact EX|exact Ea]]. }
  assert (W1 : own_dist q (upd pool k (Nbr (nb_id x) (nb_dist x) false))) by (apply Forall_upd; [exact W|]; exact (Forall_nth_error _ _ _ _ W EX)).
  apply expand_order in EE; [|exact O1|exact W1|rewrite upd_length; exact LP]. destruct EE as (O2 & W2 & L2). now apply IH in E.
Qed.
Lemma seed_length g ep js : forall ids vis cnt r, seed inp g ep js ids vis cnt = Ok r -> let '(ids', _, _) := r in length ids' = length ids.
Proof.
  induction js as [|j js IH]; intros ids vis cnt r E; cbn [seed] in E; [injection E as <-; reflexivity|]. apply bind_ok in E as (id & _ & E). destruct (N.leb _ _); [now apply IH in E|].
  apply bind_ok in E as (ids' & EI & E). apply bind_ok in E as (vis' & _ & E). apply IH in E. destruct r as [[ids'' ?] ?]. rewrite E.
  unfold aput in EI. destruct (N.ltb _ _); [|discriminate EI]. injection EI as <-. apply upd_length.
Qed.
Lemma fill_length fuel : forall p ids vis cnt r, fill inp fuel p ids vis cnt = Done (Ok r) -> length (fst r) = length ids.
Proof.
  induction fuel as [|f IH]; intros p ids vis cnt r E; cbn [fill] in E; destruct (Nat.ltb _ _); try discriminate E; try (injection E as <-; reflexivity).
  apply tbind_ok in E as (seen & _ & E). destruct seen; [now apply IH in E|]. apply tbind_ok in E as (ids' & EI & E). apply tbind_ok in E as (vis' & _ & E). apply IH in E. rewrite E.
  injection EI as EI. unfold aput in EI. destruct (N.ltb _ _); [|discriminate EI]. injection EI as <-. apply upd_length.
Qed.
Lemma search_order fuel q g K vis ep r : sorts inp -> input_ok inp -> search_on_graph inp fuel q g K vis ep = Done (Ok r) ->
  let '(pool, _, _) := r in in_order pool /\ own_dist q pool /\ length pool = L.
Proof.
  intros S (_ & P & _) E. unfold search_on_graph in E. apply tbind_ok in E as ([[ids vis1] cnt] & ES & E). injection ES as ES. apply seed_length in ES.
  apply tbind_ok in E as ([ids2 vis2] & EF & E). apply fill_length in EF. cbn [fst] in EF. apply search_loop_order in E; [exact E|apply S| |].
  - unfold own_dist. eapply Permutation_Forall; [apply Permutation_sym, P|]. apply Forall_map, Forall_forall. intros id _. reflexivity.
  - rewrite (Permutation_length (P _)), map_length, EF, ES, repeat_length. reflexivity.
Qed.

(** ** Distinct neighbours *)
Lemma select_distinct cands : forall result, NoDup (map fst result) -> NoDup (map fst (select inp cands result)).
Proof.
  induction cands as [|p cands IH]; intros result H; cbn [select]; [exact H|]. destruct (Nat.ltb _ _); [|exact H]. apply IH.
  destruct (occluded inp result p) eqn:E; [exact H|]. rewrite map_app. cbn [map]. apply (Permutation_NoDup (Permutation_cons_append _ _)). constructor; [|exact H]. intros I. apply in_map_iff in I as (t & ET & I).
  unfold occluded in E. assert (X : existsb (fun t => orb (N.eqb (fst p) (fst t)) (Z.ltb (in_dist inp (fst t) (fst p)) (snd p))) result = true); [|congruence].
  apply existsb_exists. exists t. split; [exact I|]. rewrite ET, N.eqb_refl. reflexivity.
Qed.
Lemma NoDup_filter {A} (f : A -> bool) l : NoDup l -> NoDup (filter f l).
Proof. induction 1 as [|x l N _ IH]; cbn [filter]; [constructor|]. destruct (f x); [|exact IH]. constructor; [|exact IH]. intros I. apply filter_In in I as [I _]. contradiction. Qed.
Lemma NoDup_firstn {A} k : forall l : list A, NoDup l -> NoDup (firstn k l).
Proof.
  induction k as [|k IH]; intros [|x l] H; cbn [firstn]; try constructor; inversion H; subst; [|now apply IH].
  intros I. apply H2. rewrite <- (firstn_skipn k l). apply in_or_app. now left.
Qed.
Lemma pad_distinct r l : NoDup l -> NoDup (filter (fun x => negb (N.eqb x kEmptyId)) (pad r l)).
Proof.
  intros H. unfold pad. rewrite firstn_app, filter_app. assert (Z : filter (fun x => negb (N.eqb x kEmptyId)) (firstn (r - length l) (repeat kEmptyId r)) = []).
  { generalize (r - length l). induction r as [|r IH]; intros [|k]; try reflexivity. cbn [repeat firstn filter]. rewrite N.eqb_refl. cbn [negb]. apply IH. }
  rewrite Z, app_nil_r. now apply NoDup_filter, NoDup_firstn.
Qed.
Lemma sync_prune_distinct q pool vis knng K g g' : distinct_rows g -> sync_prune inp q pool vis knng K g = Ok g' -> distinct_rows g'.
Proof.
  intros D E. unfold sync_prune in E. apply bind_ok in E as (pool1 & _ & E). apply bind_ok in E as (first & _ & E). apply bind_ok in E as (p0 & _ & E).
  unfold aput in E. destruct (N.ltb _ _); [|discriminate E]. injection E as <-. apply Forall_upd; [exact D|]. apply pad_distinct, select_distinct. cbn [map]. constructor; [intros []|constructor].
Qed.
Lemma link_prune_distinct fuel knng K ep qs : forall g g', distinct_rows g -> link_prune inp fuel knng K ep qs g = Done (Ok g') -> distinct_rows g'.
Proof.
  induction qs as [|q qs IH]; intros g g' D E; cbn [link_prune] in E; [now injection E as <-|].
  apply tbind_ok in E as ([[pool full] vis] & _ & E). apply tbind_ok in E as (g1 & E1 & E). injection E1 as E1. apply sync_prune_distinct in E1; [|exact D]. now apply IH in E.
Qed.
End Sort.
