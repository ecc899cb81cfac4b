(** Proofs about the graph searches. *)
From Verif Require Import SearchModel SearchSpec PoolProofs NpqProofs BitsetProofs FrontierProofs.

(** ** The queue as a candidate list *)
Definition nbr_entry (e : nbr) : entry := ((n_id e, n_dist e), n_exp e).
Definition q_list (q : npq) : list entry := map nbr_entry (q_entries q).
Lemma q_list_content q : map fst (q_list q) = q_content q.
Proof. unfold q_list, q_content. now rewrite map_map. Qed.
Lemma q_sorted_ins l lo x : q_sorted l -> q_place l lo (of_nbr x) -> q_sorted (ins_at lo x l).
Proof.
  intros S [Plo P] i j a b Hij. rewrite !nth_error_ins by assumption. intros Ha Hb.
  destruct (Nat.ltb_spec i lo) as [Li|Li].
  - destruct (Nat.ltb_spec j lo) as [Lj|Lj]; [eapply (S i j); eauto|].
    destruct (Nat.eqb_spec j lo) as [->|Nj]; [injection Hb as <-; now apply (P i a)|]. eapply (S i (j - 1)); eauto. lia.
  - destruct (Nat.ltb_spec j lo) as [Lj|Lj]; [lia|]. destruct (Nat.eqb_spec j lo) as [->|Nj]; [lia|].
    destruct (Nat.eqb_spec i lo) as [->|Ni]; [injection Ha as <-; apply (P (j - 1) b); auto; lia|]. eapply (S (i - 1) (j - 1)); eauto. lia.
Qed.
Lemma entries_sorted l : q_sorted l -> StronglySorted dist_le (map nbr_entry l).
Proof.
  intros S. apply q_sorted_strong in S. induction l as [|x l IH]; cbn [map] in *; constructor; inversion S; subst; auto.
  apply Forall_forall. intros y Hy. apply in_map_iff in Hy as (z & <- & Hz). rewrite Forall_forall in H2.
  specialize (H2 (of_nbr z) (in_map _ _ _ Hz)). unfold cand_lt in H2. unfold dist_le, e_dist. cbn in *. lia.
Qed.
Lemma q_list_length cap q : q_inv cap q -> length (q_list q) = q_size q.
Proof. intros I. unfold q_list. rewrite map_length. now apply (entries_length cap). Qed.
(** What an insertion of a new id does. *)
Lemma npq_insert_new cap q id d : 0 < cap -> q_inv cap q -> ~ In id (ids_of (q_list q)) ->
  (npq_insert q {| n_id := id; n_dist := d; n_exp := false |} = Ok (not_inserted, q)
     /\ ins_rel cap (q_list q) (id, d) (q_list q) /\ length (q_list q) = cap)
  \/ exists q' out, npq_insert q {| n_id := id; n_dist := d; n_exp := false |}
       = Ok ({| r_inserted := true; r_evicted := hd_error (ids_of out) |}, q')
     /\ q_inv cap q' /\ ins_rel cap (q_list q) (id, d) (q_list q')
     /\ Permutation (((id, d), false) :: q_list q) (q_list q' ++ out) /\ (out = [] \/ length (q_list q) = cap /\ length out = 1)
     /\ incl out (q_list q).
Proof.
  intros Hc I Nid.
  assert (Fn : forall e, In e (q_entries q) -> n_id e = id -> n_dist e = d).
  { intros e He <-. exfalso. apply Nid. unfold ids_of, q_list. rewrite map_map. cbn [nbr_entry fst]. now apply in_map. }
  pose proof (q_list_length _ _ I) as QL. pose proof (entries_length _ _ I) as EL.
  destruct (npq_insert_spec cap q id d Hc I Fn) as [(-> & D)|(q' & lo & ev & -> & I' & Pl & Llo & K & EV)].
  - left. split; [reflexivity|]. destruct D as [D|[D1 D2]].
    + exfalso. apply Nid. unfold q_content in D. apply in_map_iff in D as (e & Ee & He). injection Ee as Ei Ed.
      unfold ids_of, q_list. rewrite map_map. cbn [nbr_entry fst]. rewrite <- Ei. now apply (in_map n_id).
    + split; [|congruence]. left. split; [reflexivity|]. split; [congruence|]. intros e He. apply in_map_iff in He as (z & <- & Hz).
      specialize (D2 z Hz). unfold cand_lt in D2. unfold e_dist. cbn in *. lia.
  - right. cbn [fst snd] in K. set (x := {| n_id := id; n_dist := d; n_exp := false |}) in *.
    set (whole := ins_at lo x (q_entries q)) in *. exists q', (map nbr_entry (skipn cap whole)).
    destruct Pl as [Plo P].
    assert (WL : length whole = S (q_size q)) by (unfold whole; rewrite ins_at_length by lia; lia).
    pose proof (qi_size _ _ I) as Hs.
    assert (W : q_list q' ++ map nbr_entry (skipn cap whole) = map nbr_entry whole).
    { unfold q_list. rewrite K, <- map_app, firstn_skipn. reflexivity. }
    assert (Hev : ev = hd_error (ids_of (map nbr_entry (skipn cap whole)))).
    { destruct ev as [i|].
      - destruct EV as [E (e & Ee & <-)].
        assert (Ew : nth_error whole cap = Some e).
        { unfold whole. rewrite nth_error_ins by lia. destruct (Nat.ltb_spec cap lo); [lia|]. destruct (Nat.eqb_spec cap lo); [lia|]. exact Ee. }
        assert (Es : skipn cap whole = e :: skipn (S cap) whole).
        { clear - Ew. revert cap Ew. induction whole as [|w whole IH]; intros [|cap] Ew; cbn in *; try discriminate; [congruence|]. now apply IH. }
        now rewrite Es.
      - rewrite skipn_all2 by lia. reflexivity. }
    assert (Out : map nbr_entry (skipn cap whole) = [] \/ length (q_list q) = cap /\ length (map nbr_entry (skipn cap whole)) = 1).
    { destruct (Nat.eq_dec (q_size q) cap) as [E|E]; [right; split; [lia|]; rewrite map_length, skipn_length; lia|left; rewrite skipn_all2 by lia; reflexivity]. }
    assert (WE : map nbr_entry whole = firstn lo (q_list q) ++ ((id, d), false) :: skipn lo (q_list q)).
    { unfold whole. rewrite map_ins. reflexivity. }
    assert (Kept : incl (map nbr_entry (skipn cap whole)) (q_list q)).
    { intros o Ho. apply in_map_iff in Ho as (e & <- & He). apply In_nth_error in He as [j Ej]. rewrite nth_error_skipn in Ej.
      unfold whole in Ej. rewrite nth_error_ins in Ej by lia. destruct (Nat.ltb_spec (cap + j) lo); [lia|]. destruct (Nat.eqb_spec (cap + j) lo); [lia|].
      apply in_map. eapply nth_error_In; eauto. }
    split; [now rewrite <- Hev|]. split; [assumption|]. split; [|split; [|split; assumption]].
    + right. exists (firstn lo (q_list q)), (skipn lo (q_list q)), (map nbr_entry (skipn cap whole)).
      split; [now rewrite firstn_skipn|]. split; [now rewrite W, WE|]. split; [|split; [|assumption]].
      * rewrite W. apply entries_sorted, q_sorted_ins; [apply I|]. split; [lia|exact P].
      * rewrite (q_list_length _ _ I'). apply I'.
    + rewrite W, WE. rewrite <- (firstn_skipn lo (q_list q)) at 1. apply Permutation_middle.
Qed.
Lemma npq_insert_rel cap q id d : 0 < cap -> q_inv cap q -> ~ In id (ids_of (q_list q)) ->
  exists r q', npq_insert q {| n_id := id; n_dist := d; n_exp := false |} = Ok (r, q') /\ q_inv cap q'
    /\ ins_rel cap (q_list q) (id, d) (q_list q').
Proof.
  intros Hc I Nid. destruct (npq_insert_new cap q id d Hc I Nid) as [(E & R & _)|(q' & out & E & I' & R & _)]; eauto 6.
Qed.
Lemma map_upd {A B} (f : A -> B) l : forall i x, map f (upd l i x) = upd (map f l) i (f x).
Proof. induction l as [|y l IH]; intros [|i] x; cbn; auto. now rewrite IH. Qed.
Lemma nth_split_upd {A} (l : list A) i x y : nth_error l i = Some x -> l = firstn i l ++ x :: skipn (i + 1) l /\ upd l i y = firstn i l ++ y :: skipn (i + 1) l.
Proof.
  intros H. assert (i < length l) by (apply nth_error_Some; congruence). split; [|now apply upd_split].
  clear y. revert i H H0. induction l as [|a l IH]; intros [|i] H H0; cbn in *; try lia; [congruence|]. f_equal. apply IH; [assumption|lia].
Qed.
Lemma npq_pop_rel cap q : q_inv cap q -> has_unexpanded_node q = true ->
  exists e q', closest_unexpanded q = Ok (e, q') /\ q_inv cap q' /\ pop_rel (q_list q) (n_id e) (q_list q').
Proof.
  intros I H. apply Nat.ltb_lt in H. destruct (expand_spec cap q I H) as (id & d & q' & -> & I' & Ec & K).
  eexists _, q'. split; [reflexivity|]. split; [assumption|]. cbn [n_id].
  destruct (nth_split_upd (q_entries q) (q_cur q) _ {| n_id := id; n_dist := d; n_exp := true |} Ec) as [E1 E2].
  exists (map nbr_entry (firstn (q_cur q) (q_entries q))), (map nbr_entry (skipn (q_cur q + 1) (q_entries q))), d. split.
  - unfold q_list. rewrite E1 at 1. rewrite map_app. reflexivity.
  - unfold q_list. rewrite K, E2, map_app. reflexivity.
Qed.
Lemma npq_all_expanded cap q : q_inv cap q -> has_unexpanded_node q = false -> forall e, In e (q_list q) -> snd e = true.
Proof.
  intros I H e He. apply Nat.ltb_ge in H. apply in_map_iff in He as (x & <- & Hx). apply In_nth_error in Hx as [i Hi].
  apply (qi_flags _ _ I i x Hi). assert (i < length (q_entries q)) by (apply nth_error_Some; congruence). rewrite (entries_length _ _ I) in H0. lia.
Qed.

(** ** VamanaGreedySearch *)
Section Vamana.
  Variables (graph : list (list N)) (start : N) (dist : N -> Z) (cap : nat).
  Hypothesis G : graph_ok graph.
  Hypothesis Hs : (start < N.of_nat (length graph))%N.
  Hypothesis Hcap : 0 < cap.
  Notation n := (length graph).
  Notation edge := (adjacent graph).
  Notation reach := (reachable edge (eq start)).
  Lemma adj_bound x y : edge x y -> (y < N.of_nat n)%N.
  Proof. intros (row & Er & Hy). eapply G; eauto. eapply nth_error_In; eauto. Qed.
  Lemma reach_bound x : reach x -> (x < N.of_nat n)%N.
  Proof. induction 1 as [x <-|x y _ _ Hy]; [exact Hs|]. eapply adj_bound; eauto. Qed.

  Record vinv (s : vamana_scratch) (E X : list N) : Prop := {
    vi_len : length (vs_visited s) = n;
    vi_vis : forall m, (m < N.of_nat n)%N -> nth (N.to_nat m) (vs_visited s) 0%N <> 0%N <-> In m (vs_touched s);
    vi_pool : q_inv cap (vs_pool s);
    vi_inv : sinv edge (eq start) dist cap (vs_touched s) [] E X (q_list (vs_pool s));
  }.
  Lemma visit_spec s E X m : vinv s E X -> reach m -> ~ In m (vs_touched s) ->
    exists s', vamana_visit dist s m = Ok s' /\ vinv s' E X /\ vs_touched s' = vs_touched s ++ [m].
  Proof.
    intros [L V Q S] R Nm. pose proof (reach_bound m R) as Bm. unfold vamana_visit.
    rewrite aput_ok by lia. cbn [bind].
    assert (Nid : ~ In m (ids_of (q_list (vs_pool s)))).
    { intros K. apply in_map_iff in K as (e & <- & He). apply Nm. apply (kept_inserted _ _ _ _ _ _ _ _ _ _ S He). }
    destruct (npq_insert_rel cap (vs_pool s) m (dist m) Hcap Q Nid) as (r & q' & -> & Q' & IR). cbn [bind].
    eexists. split; [reflexivity|]. split; [|reflexivity]. constructor; cbn [vs_visited vs_touched vs_pool].
    - now rewrite upd_length.
    - intros p Hp. rewrite nth_upd by lia. rewrite in_app_iff. destruct (Nat.eqb_spec (N.to_nat m) (N.to_nat p)) as [Emp|Nmp].
      + split; [|discriminate]. intros _. right. left. lia.
      + rewrite V by assumption. split; [auto|]. intros [K|[K|[]]]; [assumption|]. subst. lia.
    - assumption.
    - apply (sinv_insert _ _ _ _ _ [] m [] _ _ _ _ (sinv_discover _ _ _ _ _ _ _ _ _ m S R ltac:(now rewrite app_nil_r)) IR).
  Qed.
  Lemma scan_spec E x : reach x -> forall nbrs s, vinv s E [x] -> (forall m, In m nbrs -> edge x m) ->
    exists s', vamana_scan dist s nbrs = Ok s' /\ vinv s' E [x] /\ incl (vs_touched s) (vs_touched s') /\ incl nbrs (vs_touched s').
  Proof.
    intros Rx. induction nbrs as [|m rest IH]; intros s I A; cbn [vamana_scan].
    { exists s. split; [reflexivity|]. split; [assumption|]. split; [apply incl_refl|]. intros z []. }
    assert (Em : edge x m) by (apply A; now left). pose proof (adj_bound _ _ Em) as Bm.
    rewrite (aget_nth _ m 0%N) by (rewrite (vi_len _ _ _ I); lia). cbn [bind].
    destruct (N.eqb_spec (nth (N.to_nat m) (vs_visited s) 0%N) 0) as [Z0|NZ].
    - assert (Nm : ~ In m (vs_touched s)) by (intros K; apply (vi_vis _ _ _ I m Bm) in K; contradiction).
      destruct (visit_spec s E [x] m I ltac:(eapply reach_edge; eauto) Nm) as (s1 & -> & I1 & T1). cbn [bind].
      destruct (IH s1 I1 ltac:(intros; apply A; now right)) as (s2 & -> & I2 & T2 & T3). exists s2. split; [reflexivity|]. split; [assumption|].
      assert (incl (vs_touched s ++ [m]) (vs_touched s2)) by now rewrite <- T1. split.
      + intros z Hz. apply H. apply in_or_app. now left.
      + intros z [<-|Hz]; [apply H, in_or_app; right; now left|now apply T3].
    - assert (Hm : In m (vs_touched s)) by (apply (vi_vis _ _ _ I m Bm); assumption).
      destruct (IH s I ltac:(intros; apply A; now right)) as (s2 & -> & I2 & T2 & T3). exists s2. split; [reflexivity|]. split; [assumption|].
      split; [assumption|]. intros z [<-|Hz]; [now apply T2|now apply T3].
  Qed.
  Lemma loop_spec : forall fuel s E, vinv s E [] -> n < fuel + length E -> In start (vs_touched s) ->
    exists s' E', vamana_loop fuel graph dist s E = Done (Ok (s', E')) /\ vinv s' E' [] /\ In start (vs_touched s')
      /\ has_unexpanded_node (vs_pool s') = false.
  Proof.
    induction fuel as [|k IH]; intros s E I F St; cbn [vamana_loop].
    - pose proof (expanded_bound _ _ _ _ _ _ _ _ _ n (vi_inv _ _ _ I) reach_bound). lia.
    - destruct (has_unexpanded_node (vs_pool s)) eqn:U.
      2:{ exists s, E. auto. }
      destruct (npq_pop_rel cap (vs_pool s) (vi_pool _ _ _ I) U) as (e & q' & -> & Q' & PR). cbn [bind].
      destruct (sinv_expand _ _ _ _ _ _ _ _ _ _ (vi_inv _ _ _ I) PR) as (Nx & Ix & S').
      assert (Rx : reach (n_id e)) by (apply (si_reach _ _ _ _ _ _ _ _ _ S'), in_or_app; now left).
      pose proof (reach_bound _ Rx) as Bx.
      destruct (nth_error graph (N.to_nat (n_id e))) as [row|] eqn:Er.
      2:{ apply nth_error_None in Er. lia. }
      assert (Ga : aget graph (n_id e) = Ok row) by (unfold aget; now rewrite Er). rewrite Ga. cbn [bind].
      set (s1 := {| vs_visited := vs_visited s; vs_touched := vs_touched s; vs_pool := q' |}).
      assert (I1 : vinv s1 (E ++ [n_id e]) [n_id e]) by (constructor; cbn; try apply I; assumption).
      destruct (scan_spec (E ++ [n_id e]) (n_id e) Rx row s1 I1) as (s2 & -> & I2 & T2 & T3).
      { intros m Hm. exists row. auto. }
      cbn [bind]. apply IH.
      + destruct I2 as [L V Q S]. constructor; auto. eapply sinv_done; eauto. intros y (row' & Er' & Hy). rewrite app_nil_r. apply T3. congruence.
      + rewrite app_length. cbn. lia.
      + now apply T2.
  Qed.
End Vamana.

(** The scratch between searches. *)
Definition scratch_ok (s : vamana_scratch) : Prop :=
  (forall m, In m (vs_touched s) -> (m < N.of_nat (length (vs_visited s)))%N)
  /\ forall m, (m < N.of_nat (length (vs_visited s)))%N -> nth (N.to_nat m) (vs_visited s) 0%N <> 0%N -> In m (vs_touched s).
Lemma untouch_spec touched : forall visited, (forall m, In m touched -> (m < N.of_nat (length visited))%N) ->
  exists v, untouch visited touched = Ok v /\ length v = length visited
    /\ forall i, nth i v 0%N = if existsb (fun m => Nat.eqb (N.to_nat m) i) touched then 0%N else nth i visited 0%N.
Proof.
  induction touched as [|m t IH]; intros visited B; cbn [untouch existsb].
  - exists visited. auto.
  - rewrite aput_ok by (apply B; now left). cbn [bind].
    destruct (IH (upd visited (N.to_nat m) 0%N)) as (v & -> & L & Hv).
    { intros x Hx. rewrite upd_length. apply B. now right. }
    exists v. split; [reflexivity|]. rewrite upd_length in L. split; [assumption|]. intros i. rewrite Hv.
    destruct (existsb (fun m0 => Nat.eqb (N.to_nat m0) i) t); [now rewrite orb_true_r|]. rewrite orb_false_r.
    rewrite nth_upd by (specialize (B m ltac:(now left)); lia). reflexivity.
Qed.
Lemma reset_spec n s L : scratch_ok s -> exists s', vamana_reset n s L = Ok s' /\ length (vs_visited s') = n
  /\ (forall i, nth i (vs_visited s') 0%N = 0%N) /\ vs_touched s' = [] /\ q_inv L (vs_pool s') /\ q_list (vs_pool s') = [].
Proof.
  intros [B V]. unfold vamana_reset.
  assert (R : exists v, (if Nat.eqb (length (vs_visited s)) n then untouch (vs_visited s) (vs_touched s) else Ok (repeat 0%N n)) = Ok v
     /\ length v = n /\ forall i, nth i v 0%N = 0%N).
  { destruct (Nat.eqb_spec (length (vs_visited s)) n) as [E|E].
    - destruct (untouch_spec (vs_touched s) (vs_visited s) B) as (v & -> & Lv & Hv). exists v. split; [reflexivity|]. split; [congruence|].
      intros i. rewrite Hv. destruct (existsb _ _) eqn:Ex; [reflexivity|].
      destruct (Nat.lt_ge_cases i (length (vs_visited s))) as [Li|Li]; [|now apply nth_overflow].
      destruct (N.eq_dec (nth i (vs_visited s) 0%N) 0) as [|NZ]; [assumption|]. exfalso.
      assert (Hin : In (N.of_nat i) (vs_touched s)) by (apply V; [lia|]; now rewrite Nat2N.id).
      enough (existsb (fun m => Nat.eqb (N.to_nat m) i) (vs_touched s) = true) by congruence.
      apply existsb_exists. exists (N.of_nat i). split; [assumption|]. rewrite Nat2N.id. apply Nat.eqb_refl.
    - exists (repeat 0%N n). split; [reflexivity|]. split; [apply repeat_length|]. intros i.
      destruct (Nat.lt_ge_cases i n); [now rewrite nth_repeat|rewrite nth_overflow; [reflexivity|now rewrite repeat_length]]. }
  destruct R as (v & -> & Lv & Zv). cbn [bind]. eexists. split; [reflexivity|]. cbn [vs_visited vs_touched vs_pool].
  split; [assumption|]. split; [assumption|]. split; [reflexivity|]. split; [|reflexivity].
  constructor; unfold npq_reserve, npq_clear, q_entries; cbn [q_size q_cur q_cap q_data firstn]; try lia.
  - rewrite app_length, repeat_length. lia.
  - intros i j a b _ H. now destruct i.
  - intros i c H. now destruct i.
Qed.

Lemma vamana_lemma q s fuel : vq_ok q -> scratch_ok s -> length (vq_graph q) < fuel ->
  exists hits s' e, vq_run q fuel s = Done (Ok (hits, s', e)) /\ scratch_ok s'
    /\ ranked (vq_reachable q) (vq_dist q) (vq_top_k q) hits
    /\ StronglySorted cand_lt hits
    /\ nearest (fun x => In x (vs_touched s')) (vq_dist q) (vq_top_k q) hits
    /\ (forall x, In x (vs_touched s') -> vq_reachable q x) /\ NoDup (vs_touched s')
    /\ NoDup e /\ incl e (vs_touched s')
    /\ settled (adjacent (vq_graph q)) (eq (vq_start q)) (vq_dist q) (vq_top_k q) hits
    /\ (at_most (vq_list_size q) (vq_reachable q) -> nearest (vq_reachable q) (vq_dist q) (vq_top_k q) hits).
Proof.
  destruct q as [graph start dist k L]. unfold vq_ok, vq_run, vq_reachable. cbn [vq_graph vq_start vq_dist vq_top_k vq_list_size].
  intros (G & Hs & Hk) Sc F. unfold vamana_search.
  destruct (Nat.eqb_spec k 0); [lia|]. destruct (Nat.eqb_spec L 0); [lia|]. destruct (Nat.ltb_spec L k); [lia|]. cbn [orb].
  destruct (reset_spec (length graph) s L Sc) as (s0 & -> & L0 & V0 & T0 & Q0 & C0). cbn [bind].
  assert (I0 : vinv graph start dist L s0 [] []).
  { constructor; auto.
    - intros m _. rewrite V0, T0. split; [congruence|intros []].
    - rewrite T0, C0. apply sinv_nil. }
  destruct (visit_spec graph start dist L G Hs ltac:(lia) s0 [] [] start I0) as (s1 & -> & I1 & T1).
  { now apply reach_start. }
  { rewrite T0. intros []. }
  rewrite T0 in T1. cbn [app] in T1.
  destruct (loop_spec graph start dist L G Hs ltac:(lia) fuel s1 [] I1) as (s2 & E & -> & I2 & St & U).
  { cbn. lia. } { rewrite T1. now left. }
  cbn [bind]. destruct I2 as [L2 V2 Q2 S2]. eexists _, s2, E. split; [reflexivity|].
  pose proof (entries_length _ _ Q2) as EL. pose proof (qi_len _ _ Q2) as DL. pose proof (qi_size _ _ Q2) as DS.
  assert (EQ : npq_prefix (vs_pool s2) (Nat.min k (q_size (vs_pool s2))) = map fst (firstn k (q_list (vs_pool s2)))).
  { unfold npq_prefix, q_list. rewrite <- !firstn_map, map_map. unfold q_entries. rewrite <- !firstn_map, firstn_firstn. reflexivity. }
  rewrite EQ.
  assert (RB : forall x, reachable (adjacent graph) (eq start) x -> (x < N.of_nat (length graph))%N) by (intros x Hx; eapply reach_bound; eauto).
  assert (TR : forall x, In x (vs_touched s2) -> reachable (adjacent graph) (eq start) x).
  { intros x Hx. apply (si_reach _ _ _ _ _ _ _ _ _ S2). apply in_or_app. now left. }
  split.
  { split; [intros m Hm; rewrite L2; auto|]. intros m Hm. rewrite L2 in Hm. apply V2. assumption. }
  split; [eapply final_ranked; eauto|]. split.
  { rewrite <- firstn_map, q_list_content. unfold q_content. fold of_nbr. pose proof (q_sorted_strong _ (qi_sorted _ _ Q2)) as SS.
    rewrite <- (firstn_skipn k (map _ _)) in SS. now apply sorted_app_l in SS. }
  split; [eapply final_nearest_inserted; eauto; lia|]. split; [assumption|].
  split; [pose proof (si_nodup _ _ _ _ _ _ _ _ _ S2) as ND; now rewrite app_nil_r in ND|].
  split; [apply S2|]. split; [apply S2|].
  assert (Fl : forall e, In e (q_list (vs_pool s2)) -> snd e = true) by (eapply npq_all_expanded; eauto).
  split; [eapply final_settled; eauto; try lia; intros ? <-; assumption|].
  intros A. eapply final_exact; eauto; try lia. intros ? <-; assumption.
Qed.
Lemma vamana_loop_more graph dist : forall fuel s E r, vamana_loop fuel graph dist s E = Done r ->
  forall fuel', fuel <= fuel' -> vamana_loop fuel' graph dist s E = Done r.
Proof.
  induction fuel as [|k IH]; intros s E r H fuel' L.
  - cbn [vamana_loop] in H. destruct fuel'; cbn [vamana_loop]; destruct (has_unexpanded_node (vs_pool s)); congruence.
  - destruct fuel' as [|k']; [lia|]. cbn [vamana_loop] in H |- *. destruct (has_unexpanded_node (vs_pool s)); [|assumption].
    destruct (let* (n, pool) := closest_unexpanded (vs_pool s) in _) as [[s' e']| | |]; try assumption. apply (IH _ _ _ H). lia.
Qed.
Lemma vq_run_more q s fuel fuel' r : vq_run q fuel s = Done r -> fuel <= fuel' -> vq_run q fuel' s = Done r.
Proof.
  unfold vq_run, vamana_search. destruct (_ || _)%bool; [auto|]. destruct (let* s0 := _ in _) as [s1| | |]; auto.
  intros H L. destruct (vamana_loop fuel _ _ s1 []) as [|r0] eqn:E; [discriminate|].
  now rewrite (vamana_loop_more _ _ _ _ _ _ E fuel' L).
Qed.
Lemma history_ok qs s : vamana_history qs s -> Forall vq_ok qs -> scratch_ok s.
Proof.
  induction 1 as [|qs s q fuel hits s' e H IH R]; intros F.
  - split; [intros m []|]. intros m Hm. cbn in Hm. lia.
  - apply Forall_app in F as [F1 F2]. inversion F2 as [|? ? Q _]; subst.
    destruct (vamana_lemma q s (S (fuel + length (vq_graph q))) Q (IH F1) ltac:(lia)) as (hits2 & s2 & e2 & R2 & Sc & _).
    rewrite (vq_run_more _ _ _ (S (fuel + length (vq_graph q))) _ R ltac:(lia)) in R2. injection R2 as _ -> _. assumption.
Qed.

(** ** LinearPool as a candidate list *)
Lemma content_length cap p : pool_inv cap p -> length (content p) = p_size p.
Proof. intros I. unfold content. rewrite map_length. apply (pre_length cap p I). Qed.
Lemma insert_does_rel cap p id d r : pool_inv cap p -> (id < 2 ^ 31)%N -> insert_does cap p id d r ->
  exists b p', r = Ok (b, p') /\ pool_inv cap p' /\ ins_rel cap (content p) (id, d) (content p').
Proof.
  intros I Hid D. pose proof (content_length _ _ I) as CL. destruct D as [(-> & Hs & Le)|(p' & lo & -> & I' & Pl & K)].
  - exists false, p. split; [reflexivity|]. split; [assumption|]. left. split; [reflexivity|]. split; [congruence|].
    intros e He. apply in_map_iff in He as (c & <- & Hc). now apply Le.
  - exists true, p'. split; [reflexivity|]. split; [assumption|]. right. set (new := ins_at lo (((id, d), false) : entry) (content p)).
    assert (Kc : content p' = firstn cap new).
    { unfold content at 1. rewrite K, <- firstn_map, map_ins, entry_new by assumption. reflexivity. }
    pose proof Pl as [Plo _]. rewrite (pre_length _ _ I) in Plo.
    assert (NL : length new = S (p_size p)) by (unfold new; rewrite ins_at_length; lia).
    exists (firstn lo (content p)), (skipn lo (content p)), (skipn cap new).
    split; [now rewrite firstn_skipn|]. split; [rewrite Kc, firstn_skipn; reflexivity|]. split; [|split].
    + rewrite Kc, firstn_skipn. pose proof (sorted_ins _ lo d id (pi_sorted _ _ I) Pl) as S0. apply sorted_strong in S0.
      assert (EW : new = map entry_of (ins_at lo {| c_id := id; c_dist := d |} (firstn (p_size p) (p_data p)))).
      { unfold new, content. now rewrite map_ins, entry_new by assumption. }
      rewrite EW. clear - S0. induction S0; cbn [map]; constructor; auto. apply Forall_forall. intros y Hy.
      apply in_map_iff in Hy as (z & <- & Hz). rewrite Forall_forall in H. apply (H z Hz).
    + rewrite Kc, firstn_length. lia.
    + pose proof (pi_size _ _ I). destruct (Nat.eq_dec (p_size p) cap).
      * right. split; [lia|]. rewrite skipn_length. lia.
      * left. apply skipn_all2. lia.
Qed.
Lemma pop_does_rel cap p r : pool_inv cap p -> pop_does cap p r ->
  exists id d p', r = Ok ((id, d), p') /\ pool_inv cap p' /\ pop_rel (content p) id (content p').
Proof.
  intros I (c & p' & -> & I' & Ec & Hid & K). exists (c_id c), (c_dist c), p'. split; [reflexivity|]. split; [assumption|].
  destruct (nth_split_upd _ (p_cur p) c {| c_id := (c_id c + 2 ^ 31)%N; c_dist := c_dist c |} Ec) as [E1 E2].
  exists (map entry_of (firstn (p_cur p) (firstn (p_size p) (p_data p)))),
    (map entry_of (skipn (p_cur p + 1) (firstn (p_size p) (p_data p)))), (c_dist c). split.
  - unfold content. rewrite E1 at 1. rewrite map_app. cbn [map]. do 2 f_equal. destruct c. now apply entry_new.
  - unfold content. rewrite K, E2, map_app. cbn [map]. now rewrite entry_marked by assumption.
Qed.
Lemma pool_all_expanded cap p : pool_inv cap p -> has_next p = false -> forall e, In e (content p) -> snd e = true.
Proof.
  intros I H e He. apply Nat.ltb_ge in H. apply in_map_iff in He as (c & <- & Hc). apply In_nth_error in Hc as [i Hi].
  assert (i < length (firstn (p_size p) (p_data p))) by (apply nth_error_Some; congruence). rewrite (pre_length _ _ I) in H0.
  destruct (pi_flags _ _ I i c Hi) as (F1 & F2 & _). cbn. rewrite <- is_checked_le by assumption. apply F2. lia.
Qed.

(** ** GraphSearchJob *)
Definition vis_is (n : N) (b : dynamic_bitset) (V : list N) : Prop :=
  (forall p, (p < n)%N -> covers (db_data b) p) /\ forall p, (p < n)%N -> bit (db_data b) p = true <-> In p V.
Lemma vis_get n b V p : vis_is n b V -> (p < n)%N -> exists s, db_get b p = Ok s /\ (s = true <-> In p V).
Proof. intros [C B] H. exists (bit (db_data b) p). split; [apply test_word_spec; auto|auto]. Qed.
Lemma vis_set n b V p : vis_is n b V -> (p < n)%N -> exists b', db_set b p = Ok b' /\ vis_is n b' (V ++ [p]).
Proof.
  intros [C B] H. destruct (or_word_spec (db_data b) p (C p H)) as (ws & E & L & _ & W). unfold db_set. rewrite word_of_div, mask_pow, E. cbn [bind].
  eexists. split; [reflexivity|]. split; cbn [db_data db_with].
  - intros q Hq. eapply covers_length; [symmetry; exact L|auto].
  - intros q Hq. rewrite W, orb_true_iff, N.eqb_eq, B, in_app_iff by assumption. cbn. intuition.
Qed.

Section Solo.
  Variables (n : N) (g : graph) (removed : N -> option (list N)) (start : N -> Prop) (dist : N -> Z) (cap : nat).
  Hypothesis G : rows_ok n g removed.
  Hypothesis Hn : (n <= 2 ^ 31)%N.
  Hypothesis Hs : forall s, start s -> (s < n)%N.
  Hypothesis Hcap : 0 < cap.
  Notation edge := (leads_to g removed).
  Notation reach := (reachable edge start).
  Lemma reach_below x : reach x -> (x < n)%N.
  Proof. induction 1 as [x H|x y _ IH Hy]; [auto|]. eapply (ro_nodes _ _ _ G); eauto. Qed.
  Record soinv (s : solo) (I E X : list N) : Prop := {
    oi_vis : vis_is n (so_vis s) I;
    oi_pool : pool_inv cap (so_pool s);
    oi_inv : sinv edge start dist cap I [] E X (content (so_pool s));
  }.
  Lemma solo_insert s I E X v : soinv s I E X -> reach v -> ~ In v I ->
    exists b p vis, lp_insert (so_pool s) v (dist v) = Ok (b, p) /\ db_set (so_vis s) v = Ok vis
      /\ soinv {| so_pool := p; so_vis := vis |} (I ++ [v]) E X.
  Proof.
    intros [V P S] R Ni. pose proof (reach_below v R) as Bv.
    destruct (vis_set n _ _ v V Bv) as (vis & Ev & V').
    destruct (insert_does_rel cap _ v (dist v) _ P ltac:(lia) (lp_insert_spec cap _ v (dist v) Hcap P ltac:(lia))) as (b & p & -> & P' & IR).
    exists b, p, vis. split; [reflexivity|]. split; [assumption|]. constructor; cbn [so_pool so_vis]; auto.
    apply (sinv_insert _ _ _ _ _ [] v [] _ _ _ _ (sinv_discover _ _ _ _ _ _ _ _ _ v S R ltac:(now rewrite app_nil_r)) IR).
  Qed.
  Lemma visit_solo s I E X v : soinv s I E X -> reach v ->
    exists s' I', solo_visit dist s v = Ok s' /\ soinv s' I' E X /\ incl I I' /\ In v I'.
  Proof.
    intros H R. unfold solo_visit. destruct (vis_get n _ _ v (oi_vis _ _ _ _ H) (reach_below v R)) as (seen & -> & Sn). cbn [bind].
    destruct seen.
    - exists s, I. split; [reflexivity|]. split; [assumption|]. split; [apply incl_refl|now apply Sn].
    - assert (Ni : ~ In v I) by (intros K; apply Sn in K; discriminate).
      destruct (solo_insert s I E X v H R Ni) as (b & p & vis & -> & -> & H'). cbn [bind]. eexists _, (I ++ [v]). split; [reflexivity|].
      split; [assumption|]. split; [intros z Hz; apply in_or_app; now left|apply in_or_app; right; now left].
  Qed.
  Lemma start_solo s I E X v : soinv s I E X -> start v ->
    exists s' I', solo_start s v (dist v) = Ok s' /\ soinv s' I' E X /\ incl I I' /\ In v I'.
  Proof.
    intros H St. assert (R : reach v) by now apply reach_start.
    unfold solo_start. destruct (vis_get n _ _ v (oi_vis _ _ _ _ H) (reach_below v R)) as (seen & -> & Sn). cbn [bind].
    destruct seen.
    - exists s, I. split; [reflexivity|]. split; [assumption|]. split; [apply incl_refl|now apply Sn].
    - assert (Ni : ~ In v I) by (intros K; apply Sn in K; discriminate).
      destruct (solo_insert s I E X v H R Ni) as (b & p & vis & -> & -> & H'). cbn [bind]. eexists _, (I ++ [v]). split; [reflexivity|].
      split; [assumption|]. split; [intros z Hz; apply in_or_app; now left|apply in_or_app; right; now left].
  Qed.
  Lemma starts_solo eps : forall s I E X, soinv s I E X -> (forall v, In v eps -> start v) ->
    exists s' I', solo_starts dist s eps = Ok s' /\ soinv s' I' E X /\ incl I I' /\ incl eps I'.
  Proof.
    induction eps as [|v eps IH]; intros s I E X H A; cbn [solo_starts].
    - exists s, I. split; [reflexivity|]. split; [assumption|]. split; [apply incl_refl|]. intros z [].
    - destruct (start_solo s I E X v H) as (s1 & I1 & -> & H1 & In1 & Iv); [apply A; now left|]. cbn [bind].
      destruct (IH s1 I1 E X H1) as (s2 & I2 & -> & H2 & In2 & Ie); [intros; apply A; now right|].
      exists s2, I2. split; [reflexivity|]. split; [assumption|]. split; [eauto using incl_tran|]. intros z [<-|Hz]; auto.
  Qed.
  Lemma list_solo l : forall s I E X, soinv s I E X -> (forall v, In v l -> reach v) ->
    exists s' I', solo_list dist s l = Ok s' /\ soinv s' I' E X /\ incl I I' /\ incl l I'.
  Proof.
    induction l as [|v l IH]; intros s I E X H A; cbn [solo_list].
    - exists s, I. split; [reflexivity|]. split; [assumption|]. split; [apply incl_refl|]. intros z [].
    - destruct (visit_solo s I E X v H) as (s1 & I1 & -> & H1 & In1 & Iv); [apply A; now left|]. cbn [bind].
      destruct (IH s1 I1 E X H1) as (s2 & I2 & -> & H2 & In2 & Ie); [intros; apply A; now right|].
      exists s2, I2. split; [reflexivity|]. split; [assumption|]. split; [eauto using incl_tran|]. intros z [<-|Hz]; auto.
  Qed.
  Lemma row_solo row E X : (forall v, listed (g_max_nbrs g) row v -> reach v) ->
    forall left i s I, left + i = N.to_nat (g_max_nbrs g) -> left + i <= length row ->
    (forall j, j < i -> nth_error row j <> Some kInvalidId) -> soinv s I E X ->
    exists s' I', solo_row dist s row left (N.of_nat i) = Ok s' /\ soinv s' I' E X /\ incl I I'
      /\ forall v, listed (g_max_nbrs g) row v -> (forall j, j < i -> nth_error row j <> Some v) -> In v I'.
  Proof.
    intros A. induction left as [|k IH]; intros i s I Hi Hl No H; cbn [solo_row].
    - exists s, I. split; [reflexivity|]. split; [assumption|]. split; [apply incl_refl|]. intros v (j & Hj & Ej & _) Ne.
      exfalso. apply (Ne j); [lia|assumption].
    - destruct (nth_error row i) as [v|] eqn:Ev.
      2:{ apply nth_error_None in Ev. lia. }
      assert (Ga : aget row (N.of_nat i) = Ok v) by (unfold aget; now rewrite Nat2N.id, Ev). rewrite Ga. cbn [bind].
      destruct (N.eqb_spec v kInvalidId) as [->|Nv].
      + exists s, I. split; [reflexivity|]. split; [assumption|]. split; [apply incl_refl|]. intros v (j & Hj & Ej & Cl) Ne.
        exfalso. destruct (Nat.lt_ge_cases j i) as [L|L]; [now apply (Ne j)|]. now apply (Cl i L).
      + assert (No' : forall j, j < S i -> nth_error row j <> Some kInvalidId).
        { intros j Hj. destruct (Nat.eq_dec j i) as [->|]; [congruence|]. apply No. lia. }
        destruct (visit_solo s I E X v H) as (s1 & I1 & -> & H1 & In1 & Iv).
        { apply A. exists i. split; [lia|]. split; [assumption|]. intros j Hj. apply No'. lia. }
        cbn [bind]. replace (N.of_nat i + 1)%N with (N.of_nat (S i)) by lia.
        destruct (IH (S i) s1 I1 ltac:(lia) ltac:(lia) No' H1) as (s2 & I2 & -> & H2 & In2 & Ie).
        exists s2, I2. split; [reflexivity|]. split; [assumption|]. split; [eauto using incl_tran|]. intros w Lw Ne.
        destruct (N.eq_dec w v) as [->|Nw]; [auto|]. apply Ie; [assumption|]. intros j Hj. destruct (Nat.eq_dec j i) as [->|]; [congruence|].
        apply Ne. lia.
  Qed.
  Lemma solo_loop_spec : forall fuel s I E, soinv s I E [] -> N.to_nat n < fuel + length E ->
    exists s' I' E', solo_loop fuel g removed dist s E = Done (Ok (s', E')) /\ soinv s' I' E' [] /\ incl I I'
      /\ has_next (so_pool s') = false.
  Proof.
    assert (RB : forall x, reach x -> (x < N.of_nat (N.to_nat n))%N) by (intros x Hx; apply reach_below in Hx; lia).
    induction fuel as [|k IH]; intros s I E H F; cbn [solo_loop].
    - pose proof (expanded_bound _ _ _ _ _ _ _ _ _ (N.to_nat n) (oi_inv _ _ _ _ H) RB). lia.
    - destruct (has_next (so_pool s)) eqn:U.
      2:{ exists s, I, E. split; [reflexivity|]. split; [assumption|]. split; [apply incl_refl|assumption]. }
      assert (Uc : p_cur (so_pool s) < p_size (so_pool s)) by now apply Nat.ltb_lt.
      destruct (pop_does_rel cap _ _ (oi_pool _ _ _ _ H) (lp_pop_spec cap _ (oi_pool _ _ _ _ H) Uc)) as (x & d & p & -> & P' & PR).
      cbn [bind fst].
      destruct (sinv_expand _ _ _ _ _ _ _ _ _ _ (oi_inv _ _ _ _ H) PR) as (Nx & Ix & S').
      assert (Rx : reach x) by (apply (si_reach _ _ _ _ _ _ _ _ _ S'), in_or_app; now left).
      pose proof (reach_below _ Rx) as Bx.
      set (s1 := {| so_pool := p; so_vis := so_vis s |}).
      assert (H1 : soinv s1 I (E ++ [x]) [x]) by (constructor; cbn; try apply H; assumption).
      assert (STEP : exists s2 I2, match removed x with
                 | Some l => solo_list dist s1 l
                 | None => let* row := aget (g_rows g) x in solo_row dist s1 row (N.to_nat (g_max_nbrs g)) 0%N
                 end = Ok s2 /\ soinv s2 I2 (E ++ [x]) [x] /\ incl I I2 /\ forall y, edge x y -> In y I2).
      { destruct (removed x) as [l|] eqn:Er.
        - destruct (list_solo l s1 I _ _ H1) as (s2 & I2 & -> & H2 & In2 & Il).
          { intros v Hv. eapply reach_edge; [exact Rx|]. unfold leads_to. now rewrite Er. }
          exists s2, I2. split; [reflexivity|]. split; [assumption|]. split; [assumption|]. unfold leads_to. rewrite Er. auto.
        - destruct (nth_error (g_rows g) (N.to_nat x)) as [row|] eqn:Ew.
          2:{ apply nth_error_None in Ew. rewrite (ro_rows _ _ _ G) in Ew. lia. }
          assert (Ga : aget (g_rows g) x = Ok row) by (unfold aget; now rewrite Ew). rewrite Ga. cbn [bind].
          assert (Hrow : N.to_nat (g_max_nbrs g) <= length row) by (apply (ro_full _ _ _ G); eapply nth_error_In; eauto).
          destruct (row_solo row (E ++ [x]) [x]) with (left := N.to_nat (g_max_nbrs g)) (i := 0) (s := s1) (I := I)
            as (s2 & I2 & E2 & H2 & In2 & Il); auto; try lia.
          { intros v Hv. eapply reach_edge; [exact Rx|]. unfold leads_to. rewrite Er. eauto. }
          change (N.of_nat 0) with 0%N in E2. exists s2, I2. split; [assumption|]. split; [assumption|]. split; [assumption|].
          unfold leads_to. rewrite Er. intros y (row' & Ew' & Ly). assert (row' = row) by congruence. subst. apply Il; [assumption|]. intros j Hj. lia. }
      destruct STEP as (s2 & I2 & -> & H2 & In2 & Cl). cbn [bind].
      destruct (IH s2 I2 (E ++ [x])) as (s3 & I3 & E3 & -> & H3 & In3 & U3).
      + destruct H2 as [V Q S]. constructor; auto. eapply sinv_done; eauto. intros y Hy. rewrite app_nil_r. auto.
      + rewrite app_length. cbn. lia.
      + exists s3, I3, E3. split; [reflexivity|]. split; [assumption|]. split; [eauto using incl_tran|assumption].
  Qed.
  Lemma solo_new_inv : soinv (solo_new n cap) [] [] [].
  Proof.
    constructor; cbn [solo_new so_pool so_vis].
    - split; cbn [db_new db_data]; [apply zero_words_covers|]. intros p _. rewrite zero_words_bit. split; [discriminate|intros []].
    - apply pool_new_inv.
    - assert (E : content (pool_new cap) = []) by reflexivity. rewrite E. apply sinv_nil.
  Qed.
  Lemma pool_results_spec p : pool_inv cap p -> forall count i, i + count <= p_size p ->
    pool_results p i count = Ok (map fst (firstn count (skipn i (content p)))).
  Proof.
    intros P. pose proof (content_length _ _ P) as CL. pose proof (pre_length _ _ P) as PL.
    induction count as [|c IH]; intros i Hi; [reflexivity|]. cbn [pool_results]. unfold lp_id, lp_dist.
    pose proof (pi_len _ _ P). pose proof (pi_size _ _ P).
    destruct (get_nth (p_data p) i) as (x & Ex & ->); [lia|]. cbn [bind]. rewrite IH by lia. cbn [bind].
    assert (Ec : nth_error (content p) i = Some (entry_of x)).
    { unfold content. apply map_nth_error. rewrite nth_error_firstn. destruct (Nat.ltb_spec i (p_size p)); [assumption|lia]. }
    destruct (nth_split_upd _ i _ (entry_of x) Ec) as [E1 _].
    assert (E2 : skipn i (content p) = entry_of x :: skipn (i + 1) (content p)).
    { rewrite E1 at 1. rewrite skipn_app, firstn_length, Nat.min_l by lia. rewrite skipn_all2 by (rewrite firstn_length; lia).
      now rewrite Nat.sub_diag. }
    rewrite E2. cbn [firstn map]. rewrite get_id_mod. reflexivity.
  Qed.
  Lemma solo_results fuel s I topk : soinv s I [] [] -> (forall x, start x -> In x I) -> N.to_nat n < fuel -> topk <= cap ->
    exists s' I' E, solo_loop fuel g removed dist s [] = Done (Ok (s', E)) /\ soinv s' I' E []
      /\ pool_results (so_pool s') 0 (Nat.min (p_size (so_pool s')) topk) = Ok (map fst (firstn topk (content (so_pool s'))))
      /\ length (map fst (firstn topk (content (so_pool s')))) = Nat.min (p_size (so_pool s')) topk
      /\ ranked reach dist topk (map fst (firstn topk (content (so_pool s'))))
      /\ nearest (fun x => In x I') dist topk (map fst (firstn topk (content (so_pool s'))))
      /\ incl I I' /\ (forall x, In x I' -> reach x) /\ NoDup E /\ incl E I'
      /\ settled edge start dist topk (map fst (firstn topk (content (so_pool s'))))
      /\ (at_most cap reach -> nearest reach dist topk (map fst (firstn topk (content (so_pool s'))))).
  Proof.
    intros H St F Hk. destruct (solo_loop_spec fuel s I [] H ltac:(cbn; lia)) as (s' & I' & E & -> & H' & In' & U).
    exists s', I', E. split; [reflexivity|]. split; [assumption|]. destruct H' as [V P S].
    pose proof (content_length _ _ P) as CL.
    split.
    { rewrite (pool_results_spec _ P) by lia. cbn [skipn]. f_equal. f_equal. rewrite <- (firstn_all (content (so_pool s'))) at 1.
      rewrite firstn_firstn, CL. destruct (Nat.le_ge_cases topk (p_size (so_pool s'))).
      - f_equal. lia.
      - rewrite !firstn_all2 by (rewrite ?CL; lia). reflexivity. }
    split; [rewrite map_length, firstn_length, CL; lia|].
    split; [eapply final_ranked; eauto|]. split; [eapply final_nearest_inserted; eauto|]. split; [assumption|].
    split; [intros x Hx; apply (si_reach _ _ _ _ _ _ _ _ _ S); apply in_or_app; now left|]. split; [apply S|]. split; [apply S|].
    assert (Fl : forall e, In e (content (so_pool s')) -> snd e = true) by (eapply pool_all_expanded; eauto).
    split; [eapply final_settled; eauto|].
    intros A. eapply final_exact; eauto.
  Qed.
End Solo.

(** ** The overlay *)
Section Overlay.
  Variables (n : N) (o : overlay) (dist : N -> Z).
  Hypothesis O : overlay_ok n o.
  Definition closer (cur : Z) : list nat := List.filter (fun i => Z.ltb (dist (N.of_nat i)) cur) (seq 0 (N.to_nat n)).
  Lemma closer_less u cur : (u < n)%N -> (dist u < cur)%Z -> length (closer (dist u)) < length (closer cur).
  Proof.
    intros Hu Hc. change (length (N.to_nat u :: closer (dist u)) <= length (closer cur)). apply NoDup_incl_length.
    - constructor.
      + unfold closer. rewrite filter_In. intros [_ K]. rewrite N2Nat.id in K. lia.
      + apply NoDup_filter, seq_NoDup.
    - intros x [<-|Hx]; unfold closer in *; apply filter_In.
      + split; [apply in_seq; lia|]. rewrite N2Nat.id. lia.
      + apply filter_In in Hx as [H1 H2]. split; [assumption|]. lia.
  Qed.
  Lemma closer_bound cur : length (closer cur) <= N.to_nat n.
  Proof.
    unfold closer. rewrite <- (seq_length (N.to_nat n) 0) at 2. induction (seq 0 (N.to_nat n)) as [|a l IH]; cbn [List.filter length]; [lia|].
    destruct (Z.ltb _ _); cbn [length]; lia.
  Qed.
  Lemma overlay_row_spec row base : forall left i u cur ch, left + i = N.to_nat (ov_max_nbrs o) -> base + left + i <= length row ->
    (forall j, j < i -> nth_error (skipn base row) j <> Some kInvalidId) ->
    cur = dist u ->
    (forall v, listed (ov_max_nbrs o) (skipn base row) v -> (exists j, j < i /\ nth_error (skipn base row) j = Some v) -> (cur <= dist v)%Z) ->
    exists u' ch', overlay_row dist row (N.of_nat base) left (N.of_nat i) u cur ch = Ok (u', dist u', ch')
      /\ (forall v, listed (ov_max_nbrs o) (skipn base row) v -> (dist u' <= dist v)%Z)
      /\ (u' = u /\ ch' = ch \/ (dist u' < dist u)%Z /\ ch' = true /\ listed (ov_max_nbrs o) (skipn base row) u').
  Proof.
    induction left as [|k IH]; intros i u cur ch Hi Hl No Hc Lo; cbn [overlay_row].
    - exists u, ch. subst cur. split; [reflexivity|]. split; [|now left]. intros v Lv. apply Lo; [assumption|].
      destruct Lv as (j & Hj & Ej & _). exists j. split; [lia|assumption].
    - destruct (nth_error row (base + i)) as [v|] eqn:Ev.
      2:{ apply nth_error_None in Ev. lia. }
      assert (Ga : aget row (N.of_nat base + N.of_nat i)%N = Ok v).
      { unfold aget. replace (N.to_nat (N.of_nat base + N.of_nat i)) with (base + i) by lia. now rewrite Ev. }
      rewrite Ga. cbn [bind]. assert (Es : nth_error (skipn base row) i = Some v) by now rewrite nth_error_skipn.
      destruct (N.eqb_spec v kInvalidId) as [->|Nv].
      + exists u, ch. subst cur. split; [reflexivity|]. split; [|now left]. intros w Lw. apply Lo; [assumption|].
        destruct Lw as (j & Hj & Ej & Cl). exists j. split; [|assumption]. destruct (Nat.lt_ge_cases j i); [assumption|]. exfalso. now apply (Cl i).
      + assert (No' : forall j, j < S i -> nth_error (skipn base row) j <> Some kInvalidId).
        { intros j Hj. destruct (Nat.eq_dec j i) as [->|]; [congruence|]. apply No. lia. }
        assert (Lv : listed (ov_max_nbrs o) (skipn base row) v).
        { exists i. split; [lia|]. split; [assumption|]. intros j Hj. apply No'. lia. }
        replace (N.of_nat i + 1)%N with (N.of_nat (S i)) by lia.
        destruct (Z.ltb_spec (dist v) cur) as [L|L].
        * destruct (IH (S i) v (dist v) true) as (u' & ch' & -> & A & B); auto; try lia.
          { intros w Lw (j & Hj & Ej). destruct (Nat.eq_dec j i) as [->|]; [assert (w = v) by congruence; subst; lia|].
            assert (cur <= dist w)%Z by (apply Lo; [assumption|]; exists j; split; [lia|assumption]). lia. }
          exists u', ch'. split; [reflexivity|]. split; [assumption|]. right. destruct B as [[-> ->]|(B1 & -> & B2)].
          -- split; [lia|]. auto.
          -- split; [lia|]. auto.
        * destruct (IH (S i) u cur ch) as (u' & ch' & -> & A & B); auto; try lia.
          { intros w Lw (j & Hj & Ej). destruct (Nat.eq_dec j i) as [->|]; [assert (w = v) by congruence; subst; lia|].
            apply Lo; [assumption|]. exists j. split; [lia|assumption]. }
          exists u', ch'. auto.
  Qed.
  Notation oreach := (reachable (any_overlay_edge o) (eq (ov_ep o))).
  Definition at_level (u level : N) : Prop := (u < n)%N /\ exists lu, nth_error (ov_levels o) (N.to_nat u) = Some lu /\ (level <= lu)%N.
  Lemma descend_spec level : (0 < level)%N -> forall fuel u, length (closer (dist u)) < fuel -> at_level u level -> oreach u ->
    exists u', overlay_descend fuel o dist level u (dist u) = Done (Ok (u', dist u')) /\ oreach u' /\ at_level u' level
      /\ (dist u' <= dist u)%Z /\ forall v, overlay_edge o level u' v -> (dist u' <= dist v)%Z.
  Proof.
    intros Hl. induction fuel as [|k IH]; intros u F A R; [lia|]. cbn [overlay_descend].
    destruct A as [Hu (lu & Elu & Llu)].
    destruct (nth_error (ov_lists o) (N.to_nat u)) as [row|] eqn:Er.
    2:{ apply nth_error_None in Er. pose proof (oo_lists _ _ O). lia. }
    assert (Ga : aget (ov_lists o) u = Ok row) by (unfold aget; now rewrite Er). rewrite Ga. cbn [bind].
    pose proof (oo_rows _ _ O u row lu Er Elu) as RL.
    set (base := N.to_nat ((level - 1) * ov_max_nbrs o)).
    replace ((level - 1) * ov_max_nbrs o)%N with (N.of_nat base) by (unfold base; lia). change 0%N with (N.of_nat 0).
    assert (BL : base + N.to_nat (ov_max_nbrs o) <= length row).
    { assert (level * ov_max_nbrs o <= lu * ov_max_nbrs o)%N by (apply N.mul_le_mono_r; assumption).
      assert (((level - 1) * ov_max_nbrs o + ov_max_nbrs o)%N = (level * ov_max_nbrs o)%N) by (rewrite N.mul_sub_distr_r; nia).
      unfold base. lia. }
    destruct (overlay_row_spec row base (N.to_nat (ov_max_nbrs o)) 0 u (dist u) false) as (u' & ch' & -> & A & B); auto; try lia.
    { intros v _ (j & Hj & _). lia. }
    destruct B as [[-> ->]|(B1 & -> & B2)].
    - exists u. split; [reflexivity|]. split; [assumption|]. split; [split; eauto|]. split; [lia|].
      intros v (row' & Er' & Lv). assert (row' = row) by congruence. subst. apply A. exact Lv.
    - assert (Ed : overlay_edge o level u u') by (exists row; split; assumption).
      destruct (oo_nodes _ _ O level u u' lu Hl Elu Llu Ed) as (Hu' & lv & Elv & Llv).
      destruct (IH u') as (u2 & -> & R2 & A2 & D2 & M2).
      + pose proof (closer_less u' (dist u) Hu' B1). lia.
      + split; eauto.
      + eapply reach_edge; [exact R|]. exists level. auto.
      + exists u2. split; [reflexivity|]. split; [assumption|]. split; [assumption|]. split; [lia|assumption].
  Qed.
  Lemma levels_spec fuel : N.to_nat n < fuel -> forall level u, at_level u (N.of_nat level) -> oreach u ->
    exists u', overlay_levels fuel o dist level u (dist u) = Done (Ok (u', dist u')) /\ oreach u' /\ (u' < n)%N
      /\ (dist u' <= dist u)%Z /\ (level = 0 -> u' = u) /\ (0 < level -> forall v, overlay_edge o 1 u' v -> (dist u' <= dist v)%Z).
  Proof.
    intros F. induction level as [|l IH]; intros u A R; cbn [overlay_levels].
    - exists u. split; [reflexivity|]. split; [assumption|]. split; [apply A|]. split; [lia|]. split; [reflexivity|lia].
    - destruct (descend_spec (N.of_nat (S l)) ltac:(lia) fuel u) as (u1 & -> & R1 & A1 & D1 & M1); auto.
      { pose proof (closer_bound (dist u)). lia. }
      destruct (IH u1) as (u2 & -> & R2 & B2 & D2 & Z2 & M2); auto.
      { destruct A1 as [H1 (lu & E & L)]. split; [assumption|]. exists lu. split; [assumption|lia]. }
      exists u2. split; [reflexivity|]. split; [assumption|]. split; [assumption|]. split; [lia|]. split; [lia|]. intros _.
      destruct l as [|l]; [|apply M2; lia]. rewrite (Z2 eq_refl). exact M1.
  Qed.
End Overlay.

(** ** search_solo *)
Lemma solo_eps_lemma n g removed dist topk ef fuel : rows_ok n g removed -> (n <= 2 ^ 31)%N -> g_overlay g = None ->
  (forall x, In x (g_eps g) -> (x < n)%N) -> topk <= ef -> 0 < ef -> N.to_nat n < fuel ->
  let reach := reachable (leads_to g removed) (fun x => In x (g_eps g)) in
  exists s I E hits, solo_pool fuel g removed n dist topk ef = Done (Ok (s, E)) /\ pool_inv ef (so_pool s) /\ hits = map fst (firstn topk (content (so_pool s)))
    /\ search_solo fuel g removed n dist topk ef = Done (Ok (hits ++ repeat (kInvalidId, float_max) (topk - length hits), E))
    /\ ranked reach dist topk hits /\ nearest (fun x => In x I) dist topk hits /\ incl (g_eps g) I
    /\ (forall x, In x I -> reach x) /\ NoDup E /\ incl E I
    /\ settled (leads_to g removed) (fun x => In x (g_eps g)) dist topk hits /\ (at_most ef reach -> nearest reach dist topk hits).
Proof.
  intros G Hn Ov He Hk Hef F reach. unfold search_solo.
  assert (SP : exists s1 I1, Done (Ok s1) = initialize_search fuel g dist (solo_new n ef)
     /\ soinv n g removed (fun x => In x (g_eps g)) dist ef s1 I1 [] [] /\ incl (g_eps g) I1).
  { unfold initialize_search. rewrite Ov.
    destruct (starts_solo n g removed (fun x => In x (g_eps g)) dist ef G Hn He Hef (g_eps g) (solo_new n ef) [] [] []) as (s1 & I1 & -> & H1 & _ & Ie); auto.
    { now apply solo_new_inv. }
    eauto. }
  destruct SP as (s1 & I1 & E1 & H1 & Ie).
  destruct (solo_results n g removed (fun x => In x (g_eps g)) dist ef G Hn He Hef fuel s1 I1 topk H1 Ie F Hk)
    as (s2 & I2 & E & L & [V P S] & PR & Len & R & Ni & In2 & Rc & ND & EI & Se & Ex).
  assert (SPool : solo_pool fuel g removed n dist topk ef = Done (Ok (s2, E))).
  { unfold solo_pool. destruct (Nat.ltb_spec ef topk); [lia|]. now rewrite <- E1. }
  exists s2, I2, E. eexists. split; [assumption|]. split; [assumption|]. split; [reflexivity|].
  rewrite SPool. cbn [bind]. rewrite PR. cbn [bind]. rewrite Len. split; [reflexivity|]. repeat (split; [solve [eauto using incl_tran]|]). exact Ex.
Qed.
Lemma solo_overlay_lemma n g removed dist topk ef fuel o : rows_ok n g removed -> (n <= 2 ^ 31)%N -> g_overlay g = Some o -> overlay_ok n o ->
  topk <= ef -> 0 < ef -> N.to_nat n < fuel ->
  exists u s I E hits, let reach := reachable (leads_to g removed) (eq u) in
    reachable (any_overlay_edge o) (eq (ov_ep o)) u /\ (u < n)%N /\ (dist u <= dist (ov_ep o))%Z
    /\ (forall level v, nth_error (ov_levels o) (N.to_nat (ov_ep o)) = Some level -> (0 < level)%N -> overlay_edge o 1 u v -> (dist u <= dist v)%Z)
    /\ solo_pool fuel g removed n dist topk ef = Done (Ok (s, E)) /\ pool_inv ef (so_pool s) /\ hits = map fst (firstn topk (content (so_pool s)))
    /\ search_solo fuel g removed n dist topk ef = Done (Ok (hits ++ repeat (kInvalidId, float_max) (topk - length hits), E))
    /\ ranked reach dist topk hits /\ nearest (fun x => In x I) dist topk hits /\ In u I
    /\ (forall x, In x I -> reach x) /\ NoDup E /\ incl E I
    /\ settled (leads_to g removed) (eq u) dist topk hits /\ (at_most ef reach -> nearest reach dist topk hits).
Proof.
  intros G Hn Ov O Hk Hef F. unfold search_solo.
  destruct (nth_error (ov_levels o) (N.to_nat (ov_ep o))) as [lv|] eqn:Elv.
  2:{ apply nth_error_None in Elv. pose proof (oo_levels _ _ O). pose proof (oo_ep _ _ O). lia. }
  destruct (levels_spec n o dist O fuel F (N.to_nat lv) (ov_ep o)) as (u & LE & Ru & Bu & Du & _ & Mu).
  { split; [apply O|]. exists lv. split; [assumption|lia]. }
  { now apply reach_start. }
  assert (Hst : forall s, u = s -> (s < n)%N) by now intros ? <-.
  assert (SP : exists s1 I1, Done (Ok s1) = initialize_search fuel g dist (solo_new n ef)
     /\ soinv n g removed (eq u) dist ef s1 I1 [] [] /\ In u I1).
  { unfold initialize_search. rewrite Ov. unfold overlay_initialize. unfold aget. rewrite Elv. rewrite LE. cbn [bind].
    destruct (start_solo n g removed (eq u) dist ef G Hn Hst Hef (solo_new n ef) [] [] [] u) as (s1 & I1 & -> & H1 & _ & Ie); auto.
    { now apply solo_new_inv. }
    eauto. }
  destruct SP as (s1 & I1 & E1 & H1 & Ie).
  destruct (solo_results n g removed (eq u) dist ef G Hn Hst Hef fuel s1 I1 topk H1) as (s2 & I2 & E & L & [V P S] & PR & Len & R & Ni & In2 & Rc & ND & EI & Se & Ex); auto.
  { now intros ? <-. }
  assert (SPool : solo_pool fuel g removed n dist topk ef = Done (Ok (s2, E))).
  { unfold solo_pool. destruct (Nat.ltb_spec ef topk); [lia|]. now rewrite <- E1. }
  exists u, s2, I2, E. eexists. cbv zeta. split; [assumption|]. split; [assumption|]. split; [assumption|].
  split; [intros level v E0 H0; injection E0 as <-; apply Mu; lia|].
  split; [assumption|]. split; [assumption|]. split; [reflexivity|].
  rewrite SPool. cbn [bind]. rewrite PR. cbn [bind]. rewrite Len. split; [reflexivity|]. repeat (split; [solve [eauto using incl_tran]|]). exact Ex.
Qed.
