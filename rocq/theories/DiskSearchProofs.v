(** Proofs about the search on disk. *)
From Verif Require Import DiskSearchModel DiskSearchSpec PoolProofs NpqProofs BitsetProofs FrontierProofs SearchProofs.

(** ** The neighbour lists kept in the scratch *)
Lemma copy_n_ok buf start l : N.to_nat start + length l <= length buf ->
  copy_n buf start l = Ok (firstn (N.to_nat start) buf ++ l ++ skipn (N.to_nat start + length l) buf).
Proof. intros H. unfold copy_n. destruct (N.leb_spec (start + N.of_nat (length l)) (N.of_nat (length buf))); [reflexivity|lia]. Qed.
Lemma view_copied (buf : list N) start l : N.to_nat start + length l <= length buf ->
  firstn (length l) (skipn (N.to_nat start) (firstn (N.to_nat start) buf ++ l ++ skipn (N.to_nat start + length l) buf)) = l.
Proof.
  intros H. rewrite skipn_app, firstn_length, Nat.min_l by lia. rewrite Nat.sub_diag. cbn [skipn].
  rewrite skipn_all2 by (rewrite firstn_length; lia). cbn [app].
  rewrite firstn_app, Nat.sub_diag. cbn [firstn]. rewrite app_nil_r. apply firstn_all.
Qed.
Lemma view_other (buf : list N) start l s len : N.to_nat start + length l <= length buf -> s + len <= length buf ->
  s + len <= N.to_nat start \/ N.to_nat start + length l <= s ->
  firstn len (skipn s (firstn (N.to_nat start) buf ++ l ++ skipn (N.to_nat start + length l) buf)) = firstn len (skipn s buf).
Proof.
  intros H Hs D. set (a := N.to_nat start) in *.
  assert (L : length (firstn a buf ++ l ++ skipn (a + length l) buf) = length buf) by (rewrite !app_length, firstn_length, skipn_length; lia).
  apply list_eq_nth; [rewrite !firstn_length, !skipn_length; lia|].
  intros i Hi. rewrite firstn_length, skipn_length in Hi. rewrite !nth_error_firstn. destruct (Nat.ltb_spec i len); [|lia].
  rewrite !nth_error_skipn. destruct D as [D|D].
  - rewrite nth_error_app1 by (rewrite firstn_length; lia). rewrite nth_error_firstn. destruct (Nat.ltb_spec (s + i) a); [reflexivity|lia].
  - rewrite nth_error_app2 by (rewrite firstn_length; lia). rewrite firstn_length, Nat.min_l by lia.
    rewrite nth_error_app2 by lia. rewrite nth_error_skipn. f_equal. lia.
Qed.
Lemma slot_starts_in k sl s : In s (slot_starts k sl) <-> exists i, i < k /\ s = (N.of_nat i * sl)%N.
Proof.
  unfold slot_starts. rewrite <- in_rev, in_map_iff. split.
  - intros (i & <- & Hi). apply in_seq in Hi. exists i. split; [lia|reflexivity].
  - intros (i & Hi & ->). exists i. split; [reflexivity|]. apply in_seq. lia.
Qed.
Lemma slot_starts_nodup k sl : (0 < sl)%N -> NoDup (slot_starts k sl).
Proof.
  intros H. unfold slot_starts. apply NoDup_rev. apply FinFun.Injective_map_NoDup; [|apply seq_NoDup].
  intros i j E. nia.
Qed.
Lemma slot_starts_length k sl : length (slot_starts k sl) = k.
Proof. unfold slot_starts. now rewrite rev_length, map_length, seq_length. Qed.
Lemma starts_apart i j (sl : N) : (0 < sl)%N -> (N.of_nat i * sl)%N <> (N.of_nat j * sl)%N ->
  (N.of_nat i * sl + sl <= N.of_nat j * sl)%N \/ (N.of_nat j * sl + sl <= N.of_nat i * sl)%N.
Proof. intros H D. destruct (Nat.lt_trichotomy i j) as [L|[->|L]]; [left|contradiction|right]; nia. Qed.

Section Lists.
  Variables (nbrs : N -> list N) (max degree : N) (lists : nat).
  (** [U]: the nodes with a list in the buffer, and where it starts. *)
  Record lists_inv (t : thread_data) (ids : list N) (U : list (N * N)) : Prop := {
    li_len : length (td_offsets t) = N.to_nat max;
    li_degree : td_slot_len t = degree;
    li_buf : length (td_buf t) = N.to_nat (N.of_nat lists * degree);
    li_nodup : NoDup (map fst U);
    li_in : incl (map fst U) ids;
    li_slots : Permutation (map snd U ++ td_free t) (if N.eqb degree 0 then [] else slot_starts lists degree);
    li_has : forall id start, In (id, start) U -> nbrs id <> [] /\ (id < max)%N /\
       nth_error (td_offsets t) (N.to_nat id) = Some (start, N.of_nat (length (nbrs id))) /\
       firstn (length (nbrs id)) (skipn (N.to_nat start) (td_buf t)) = nbrs id /\ (N.of_nat (length (nbrs id)) <= degree)%N;
    li_hasnt : forall id, (id < max)%N -> ~ In id (map fst U) -> nth_error (td_offsets t) (N.to_nat id) = Some (0, 0)%N;
    li_empty : forall id, In id ids -> ~ In id (map fst U) -> nbrs id = [];
    li_dirty_in : forall id, In id (td_dirty t) -> (id < max)%N;
    li_dirty : incl (map fst U) (td_dirty t);
  }.
  Lemma start_fits t ids U id start : lists_inv t ids U -> In (id, start) U -> (0 < degree)%N /\ exists i, i < lists /\ start = (N.of_nat i * degree)%N.
  Proof.
    intros L H. assert (Hs : In start (map snd U ++ td_free t)) by (apply in_or_app; left; now apply (in_map snd) in H).
    apply (Permutation_in _ (li_slots _ _ _ L)) in Hs. destruct (N.eqb_spec degree 0); [destruct Hs|].
    split; [lia|]. now apply slot_starts_in.
  Qed.
  Lemma cached_spec t ids U id : lists_inv t ids U -> In id ids -> (id < max)%N -> cached_neighbors t id = Ok (nbrs id).
  Proof.
    intros L Hin Hm. unfold cached_neighbors. rewrite (li_len _ _ _ L). destruct (N.leb_spec (N.of_nat (N.to_nat max)) id); [lia|].
    unfold aget. destruct (in_dec N.eq_dec id (map fst U)) as [Hu|Hu].
    - apply in_map_iff in Hu as ((id' & start) & E & Hu). cbn in E. subst id'.
      destruct (li_has _ _ _ L id start Hu) as (Ne & _ & -> & V & D). cbn [bind fst snd].
      destruct (N.eqb_spec (N.of_nat (length (nbrs id))) 0) as [Z|_]; [destruct (nbrs id); [contradiction|cbn in Z; lia]|].
      destruct (start_fits _ _ _ _ _ L Hu) as (Hd & i & Hi & Hst).
      unfold view. rewrite (li_buf _ _ _ L). destruct (N.leb_spec (start + N.of_nat (length (nbrs id))) (N.of_nat (N.to_nat (N.of_nat lists * degree)))); [|nia].
      now rewrite Nat2N.id, V.
    - rewrite (li_hasnt _ _ _ L id Hm Hu). cbn [bind snd N.eqb]. now rewrite (li_empty _ _ _ L id Hin Hu).
  Qed.
  Lemma release_spec t ids U id ids' : lists_inv t ids U -> (id < max)%N -> Permutation ids (id :: ids') -> NoDup ids ->
    exists t' U', release_cached_neighbors t id = Ok t' /\ lists_inv t' ids' U'
      /\ exists off free, t' = with_lists t (td_buf t) off (td_dirty t) free.
  Proof.
    intros L Hm Pm ND. unfold release_cached_neighbors. rewrite (li_len _ _ _ L). destruct (N.leb_spec (N.of_nat (N.to_nat max)) id); [lia|].
    assert (ND' : ~ In id ids') by (apply (Permutation_NoDup Pm) in ND; now inversion ND).
    unfold aget. destruct (in_dec N.eq_dec id (map fst U)) as [Hu|Hu].
    - apply in_map_iff in Hu as ((id' & start) & E & Hu). cbn in E. subst id'.
      destruct (li_has _ _ _ L id start Hu) as (Ne & _ & -> & V & D). cbn [bind fst snd].
      destruct (N.eqb_spec (N.of_nat (length (nbrs id))) 0) as [Z|_]; [destruct (nbrs id); [contradiction|cbn in Z; lia]|].
      rewrite aput_ok by (rewrite (li_len _ _ _ L); lia). cbn [bind].
      apply in_split in Hu as (U1 & U2 & ->). pose proof (li_nodup _ _ _ L) as NU. rewrite map_app in NU. cbn [map fst] in NU.
      pose proof (NoDup_remove_1 _ _ _ NU) as NU1. pose proof (NoDup_remove_2 _ _ _ NU) as NU2. rewrite <- map_app in NU1, NU2.
      assert (Sub : forall x, In x (U1 ++ U2) -> In x (U1 ++ (id, start) :: U2)).
      { intros x Hx. apply in_app_or in Hx as [?|?]; apply in_or_app; [now left|right; now right]. }
      eexists _, (U1 ++ U2). split; [reflexivity|]. split; [|eauto]. constructor; cbn [td_offsets td_slot_len td_buf td_free td_dirty with_lists]; try apply L.
      + rewrite upd_length. apply L.
      + assumption.
      + intros x Hx. assert (Hx' : In x ids) by (apply (li_in _ _ _ L); apply in_map_iff in Hx as (p & <- & Hp); apply in_map; auto).
        apply (Permutation_in _ Pm) in Hx' as [<-|?]; [contradiction|assumption].
      + rewrite <- (li_slots _ _ _ L). rewrite !map_app, <- !app_assoc. cbn [map snd app]. apply Permutation_app_head. symmetry. apply Permutation_middle.
      + intros x s Hx. destruct (li_has _ _ _ L x s (Sub _ Hx)) as (A & B & C & F & G). split; [assumption|]. split; [assumption|]. split; [|auto].
        rewrite nth_error_upd by (rewrite (li_len _ _ _ L); lia). destruct (Nat.eqb_spec (N.to_nat id) (N.to_nat x)) as [E|_]; [|assumption].
        assert (id = x) by lia. subst x. exfalso. apply NU2. now apply (in_map fst) in Hx.
      + intros x Bx Nx. rewrite nth_error_upd by (rewrite (li_len _ _ _ L); lia). destruct (Nat.eqb_spec (N.to_nat id) (N.to_nat x)) as [E|E]; [reflexivity|].
        apply (li_hasnt _ _ _ L x Bx). rewrite map_app in Nx |- *. cbn [map fst]. intros K. apply Nx. apply in_app_or in K as [K|[<-|K]]; [apply in_or_app; now left|lia|apply in_or_app; now right].
      + intros x Hx Nx. apply (li_empty _ _ _ L x); [apply (Permutation_in _ (Permutation_sym Pm)); now right|].
        rewrite map_app in Nx |- *. cbn [map fst]. intros K. apply Nx. apply in_app_or in K as [K|[<-|K]]; [apply in_or_app; now left|contradiction|apply in_or_app; now right].
      + intros x Hx. apply (li_dirty _ _ _ L). apply in_map_iff in Hx as (p & <- & Hp). apply in_map; auto.
    - rewrite (li_hasnt _ _ _ L id Hm Hu). cbn [bind snd N.eqb]. exists t, U. split; [reflexivity|]. split.
      + constructor; try apply L.
        * intros x Hx. pose proof (li_in _ _ _ L x Hx) as Hx'. apply (Permutation_in _ Pm) in Hx' as [<-|?]; [contradiction|assumption].
        * intros x Hx. apply (li_empty _ _ _ L x). apply (Permutation_in _ (Permutation_sym Pm)). now right.
      + exists (td_offsets t), (td_free t). now destruct t.
  Qed.
  Lemma cache_spec t ids U id : lists_inv t ids U -> (id < max)%N -> ~ In id ids -> NoDup ids -> length ids < lists ->
    (N.of_nat (length (nbrs id)) <= degree)%N ->
    exists t' U', cache_neighbors t id (nbrs id) = Ok t' /\ lists_inv t' (id :: ids) U'
      /\ exists buf off dirty free, t' = with_lists t buf off dirty free.
  Proof.
    intros L Hm Nid ND Room Hd. unfold cache_neighbors. rewrite (li_len _ _ _ L), (li_degree _ _ _ L).
    destruct (N.leb_spec (N.of_nat (N.to_nat max)) id); [lia|]. destruct (N.ltb_spec degree (N.of_nat (length (nbrs id)))); [lia|].
    assert (NU : ~ In id (map fst U)) by (intros K; apply Nid, (li_in _ _ _ L), K).
    destruct (nbrs id) as [|a l] eqn:En.
    - rewrite aput_ok by (rewrite (li_len _ _ _ L); lia). cbn [bind]. eexists _, U. split; [reflexivity|]. split; [|eauto 6].
      constructor; cbn [td_offsets td_slot_len td_buf td_free td_dirty with_lists]; try apply L.
      + rewrite upd_length. apply L.
      + intros x Hx. right. now apply (li_in _ _ _ L).
      + intros x s Hx. destruct (li_has _ _ _ L x s Hx) as (A & B & C & F). split; [assumption|]. split; [assumption|]. split; [|auto].
        rewrite nth_error_upd by (rewrite (li_len _ _ _ L); lia). destruct (Nat.eqb_spec (N.to_nat id) (N.to_nat x)) as [E|_]; [|assumption].
        assert (id = x) by lia. subst x. exfalso. apply NU. now apply (in_map fst) in Hx.
      + intros x Bx Nx. rewrite nth_error_upd by (rewrite (li_len _ _ _ L); lia). destruct (Nat.eqb_spec (N.to_nat id) (N.to_nat x)); [reflexivity|now apply (li_hasnt _ _ _ L)].
      + intros x [<-|Hx] Nx; [assumption|now apply (li_empty _ _ _ L)].
    - rewrite <- En in *. assert (Ne : nbrs id <> []) by congruence. assert (Hd0 : (0 < degree)%N) by (rewrite En in Hd; cbn in Hd; lia).
      pose proof (li_slots _ _ _ L) as SL. destruct (N.eqb_spec degree 0) as [|_]; [lia|].
      assert (LU : length U <= length ids) by (rewrite <- (map_length fst U); apply NoDup_incl_length; apply L).
      pose proof (Permutation_length SL) as PL. rewrite app_length, map_length, slot_starts_length in PL.
      destruct (td_free t) as [|start free] eqn:Ef; [cbn in PL; lia|].
      assert (Hst : In start (slot_starts lists degree)) by (apply (Permutation_in _ SL), in_or_app; right; now left).
      apply slot_starts_in in Hst as (i & Hi & Hst).
      assert (Fit : N.to_nat start + length (nbrs id) <= length (td_buf t)) by (rewrite (li_buf _ _ _ L); nia).
      rewrite copy_n_ok by assumption. cbn [bind]. rewrite aput_ok by (rewrite (li_len _ _ _ L); lia). cbn [bind].
      eexists _, ((id, start) :: U). split; [reflexivity|]. split; [|eauto 6].
      constructor; cbn [td_offsets td_slot_len td_buf td_free td_dirty with_lists map fst snd]; try apply L.
      + rewrite upd_length. apply L.
      + rewrite !app_length, firstn_length, skipn_length. rewrite <- (li_buf _ _ _ L). lia.
      + constructor; [assumption|apply L].
      + intros x [<-|Hx]; [now left|]. right. now apply (li_in _ _ _ L).
      + destruct (N.eqb_spec degree 0); [lia|]. rewrite <- SL. cbn [app]. apply Permutation_middle.
      + intros x s [E|Hx].
        * injection E as <- <-. split; [assumption|]. split; [assumption|]. split; [|split; [|assumption]].
          -- rewrite nth_error_upd by (rewrite (li_len _ _ _ L); lia). now rewrite Nat.eqb_refl.
          -- now apply view_copied.
        * destruct (li_has _ _ _ L x s Hx) as (A & B & C & F & G). split; [assumption|]. split; [assumption|]. split; [|split; [|assumption]].
          -- rewrite nth_error_upd by (rewrite (li_len _ _ _ L); lia). destruct (Nat.eqb_spec (N.to_nat id) (N.to_nat x)) as [E|_]; [|assumption].
             assert (id = x) by lia. subst x. exfalso. apply NU. now apply (in_map fst) in Hx.
          -- destruct (start_fits _ _ _ _ _ L Hx) as (_ & j & Hj & Hs).
             assert (Dif : s <> start).
             { intros ->. pose proof (slot_starts_nodup lists degree Hd0) as NS. apply (Permutation_NoDup (Permutation_sym SL)) in NS.
               apply NoDup_remove_2 in NS. apply NS. apply in_or_app. left. now apply (in_map snd) in Hx. }
             rewrite view_other; [assumption|assumption|rewrite (li_buf _ _ _ L); nia|].
             destruct (starts_apart j i degree Hd0 ltac:(congruence)); [left|right]; nia.
      + intros x Bx Nx. rewrite nth_error_upd by (rewrite (li_len _ _ _ L); lia). destruct (Nat.eqb_spec (N.to_nat id) (N.to_nat x)) as [E|_].
        * exfalso. apply Nx. left. lia.
        * apply (li_hasnt _ _ _ L x Bx). intros K. apply Nx. now right.
      + intros x [<-|Hx] Nx; [exfalso; apply Nx; now left|]. apply (li_empty _ _ _ L); [assumption|]. intros K. apply Nx. now right.
      + intros x Hx. apply in_app_or in Hx as [Hx|[<-|[]]]; [now apply (li_dirty_in _ _ _ L)|assumption].
      + intros x [<-|Hx]; apply in_or_app; [right; now left|left; now apply (li_dirty _ _ _ L)].
  Qed.
  Lemma lists_ids t ids ids' U : lists_inv t ids U -> (forall x, In x ids <-> In x ids') -> lists_inv t ids' U.
  Proof.
    intros L H. constructor; try apply L.
    - intros x Hx. apply H, (li_in _ _ _ L), Hx.
    - intros x Hx. apply (li_empty _ _ _ L), H, Hx.
  Qed.
End Lists.

(** ** One search *)
Lemma inflight_fill infl : forall s m, nth_error infl s = Some None ->
  Permutation (flat_map (fun x : option N => match x with Some i => [i] | None => [] end) (upd infl s (Some m)))
    (m :: flat_map (fun x => match x with Some i => [i] | None => [] end) infl).
Proof.
  induction infl as [|x infl IH]; intros [|s] m H; try discriminate; cbn [nth_error] in H.
  - injection H as ->. reflexivity.
  - cbn [upd flat_map]. rewrite (IH s m H). symmetry. apply Permutation_middle.
Qed.
Lemma inflight_drop infl : forall s m, nth_error infl s = Some (Some m) ->
  Permutation (flat_map (fun x : option N => match x with Some i => [i] | None => [] end) infl)
    (m :: flat_map (fun x => match x with Some i => [i] | None => [] end) (upd infl s None)).
Proof.
  induction infl as [|x infl IH]; intros [|s] m H; try discriminate; cbn [nth_error] in H.
  - injection H as ->. reflexivity.
  - cbn [upd flat_map]. rewrite (IH s m H). symmetry. apply Permutation_middle.
Qed.
Lemma find_inflight_spec infl : forall base id,
  match find_inflight infl base id with
  | Some s => (base <= s)%N /\ nth_error infl (N.to_nat (s - base)) = Some (Some id)
  | None => ~ In id (flat_map (fun x : option N => match x with Some i => [i] | None => [] end) infl)
  end.
Proof.
  induction infl as [|x infl IH]; intros base id; cbn [find_inflight flat_map]; [intros []|].
  assert (K : match find_inflight infl (base + 1) id with
     | Some s => (base <= s)%N /\ nth_error (x :: infl) (N.to_nat (s - base)) = Some (Some id)
     | None => ~ In id (flat_map (fun x : option N => match x with Some i => [i] | None => [] end) infl) end).
  { specialize (IH (base + 1)%N id). destruct (find_inflight infl (base + 1) id) as [s|]; [|assumption].
    destruct IH as [H1 H2]. split; [lia|]. replace (N.to_nat (s - base)) with (S (N.to_nat (s - (base + 1)))) by lia. exact H2. }
  destruct x as [i|].
  - destruct (N.eqb_spec i id) as [->|Ni].
    + split; [lia|]. now rewrite N.sub_diag.
    + destruct (find_inflight infl (base + 1) id); [assumption|]. cbn [app]. intros [E|H]; [contradiction|]. now apply K.
  - exact K.
Qed.
Definition frame (t t' : thread_data) : Prop :=
  td_exact t' = td_exact t /\ td_exact_dirty t' = td_exact_dirty t /\ td_inflight t' = td_inflight t /\ td_sector t' = td_sector t.
Lemma frame_refl t : frame t t. Proof. repeat split. Qed.
Lemma frame_trans t t' t'' : frame t t' -> frame t' t'' -> frame t t''.
Proof. intros (A & B & C & D) (A' & B' & C' & D'). repeat split; congruence. Qed.

(** ** The textbook search *)
Lemma in_order_in a l x : In x (in_order a l) <-> x = a \/ In x l.
Proof.
  induction l as [|b l IH]; cbn [in_order]; [cbn; intuition|]. destruct (_ || _); cbn [In]; [intuition|]. rewrite IH. intuition.
Qed.
Lemma in_order_sorted a l : ~ In a l -> StronglySorted cand_lt l -> StronglySorted cand_lt (in_order a l).
Proof.
  intros Na. induction 1 as [|b l S IH F]; cbn [in_order]; [repeat constructor|].
  destruct (Z.ltb (snd a) (snd b) || (Z.eqb (snd a) (snd b) && N.ltb (fst a) (fst b))) eqn:E.
  - assert (cand_lt a b).
    { unfold cand_lt. apply orb_true_iff in E as [E|E]; [left; now apply Z.ltb_lt|]. apply andb_true_iff in E as [E1 E2]. right. split; [now apply Z.eqb_eq|now apply N.ltb_lt]. }
    constructor; [constructor; assumption|]. constructor; [assumption|]. rewrite Forall_forall in F |- *. intros y Hy. eapply lt_trans; eauto.
  - assert (cand_lt b a).
    { destruct (lt_total b a) as [K|[K|K]]; [assumption|exfalso; apply Na; now left|]. exfalso. apply orb_false_iff in E as [E1 E2].
      apply Z.ltb_ge in E1. destruct K as [K|[K1 K2]]; [lia|]. rewrite K1, Z.eqb_refl in E2. cbn [andb] in E2. apply N.ltb_ge in E2. lia. }
    constructor; [apply IH; intros K; apply Na; now right|]. rewrite Forall_forall in F |- *. intros y Hy. apply in_order_in in Hy as [->|Hy]; auto.
Qed.
Lemma sort_in l x : In x (fold_right in_order [] l) <-> In x l.
Proof. induction l as [|a l IH]; cbn [fold_right]; [tauto|]. rewrite in_order_in, IH. cbn. intuition. Qed.
Lemma sort_sorted l : NoDup l -> StronglySorted cand_lt (fold_right in_order [] l).
Proof. induction 1 as [|a l N ND IH]; cbn [fold_right]; [constructor|]. apply in_order_sorted; [now rewrite sort_in|assumption]. Qed.
Lemma closest_smallest d cap I : NoDup I -> smallest cap (map (fun x => (x, d_dist d x)) I) (closest d cap I).
Proof.
  intros ND. unfold closest. set (all := map _ I).
  assert (NDa : NoDup all).
  { unfold all. clear all. induction ND as [|a l N ND IH]; cbn [map]; [constructor|]. constructor; [|assumption]. intros K. apply in_map_iff in K as (y & Ey & Hy). congruence. }
  pose proof (sort_sorted all NDa) as So. set (l := fold_right in_order [] all) in *. rewrite <- (firstn_skipn cap l) in So.
  split; [eapply sorted_app_l; exact So|]. split; [rewrite firstn_length; lia|].
  assert (Hl : forall x, In x l <-> In x all) by (intros x; apply sort_in). split; [intros x Hx; apply Hl; apply firstn_in in Hx; exact Hx|].
  intros x Hx. apply Hl in Hx. rewrite <- (firstn_skipn cap l) in Hx. apply in_app_or in Hx as [Hx|Hx]; [now left|]. right. split.
  - rewrite firstn_length. destruct (Nat.le_gt_cases cap (length l)); [lia|]. rewrite skipn_all2 in Hx by lia. destruct Hx.
  - intros y Hy. clear - So Hx Hy. induction (firstn cap l) as [|z k IH]; [destruct Hy|]. cbn [app] in So. inversion So as [|? ? S F]; subst.
    destruct Hy as [->|Hy]; [|auto]. rewrite Forall_forall in F. apply F. apply in_or_app. now right.
Qed.
Lemma closest_perm d cap I F : Permutation I F -> NoDup I -> closest d cap I = closest d cap F.
Proof.
  intros P ND. eapply smallest_unique; [apply closest_smallest; exact ND|apply closest_smallest; eapply Permutation_NoDup; eauto|].
  intros x. split; apply Permutation_in, Permutation_map; [assumption|now symmetry].
Qed.
Lemma existsb_ext_in (m : N) f g : (forall x, In x f <-> In x g) -> existsb (N.eqb m) f = existsb (N.eqb m) g.
Proof.
  intros H. apply eq_true_iff_eq. rewrite !existsb_exists. split; intros (x & Hx & E); exists x; split; auto; now apply H.
Qed.
Lemma unfound_ext d l : forall f g, (forall x, In x f <-> In x g) -> unfound d f l = unfound d g l.
Proof.
  induction l as [|m l IH]; intros f g H; cbn [unfound]; [reflexivity|]. rewrite (existsb_ext_in m f g H).
  destruct (_ && _); [f_equal|]; apply IH; [intros x; cbn; now rewrite H|assumption].
Qed.
Lemma best_first_unique d cap f e f1 e1 : best_first d cap f e f1 e1 -> forall f2 e2, best_first d cap f e f2 e2 -> f1 = f2 /\ e1 = e2.
Proof.
  induction 1 as [f e N|f e x f1 e1 N B IH]; intros f2 e2 H2; inversion H2; subst; try congruence; auto.
  rewrite N in H. injection H as <-. now apply IH.
Qed.
Lemma mem_false (m : N) l : ~ In m l -> existsb (N.eqb m) l = false.
Proof. intros H. destruct (existsb _ l) eqn:E; [|reflexivity]. apply existsb_exists in E as (x & Hx & Ex). apply N.eqb_eq in Ex. subst. contradiction. Qed.
Lemma mem_true (m : N) l : In m l -> existsb (N.eqb m) l = true.
Proof. intros H. apply existsb_exists. exists m. split; [assumption|apply N.eqb_refl]. Qed.

Section Disk.
  Variables (d : disk) (max degree : N) (lists cap : nat).
  Hypothesis Hpoints : (d_points d <= max)%N.
  Hypothesis Hmedoid : (d_medoid d < max)%N.
  Hypothesis Hdegree : forall x, (N.of_nat (length (d_nbrs d x)) <= degree)%N.
  Hypothesis Hroom : cap <= lists.
  Hypothesis Hcap : 0 < cap.
  Notation edge := (disk_edge d).
  Notation reach := (disk_reachable d).
  Notation M := (S (N.to_nat (d_points d))).
  Lemma dreach_bound x : reach x -> (x < max)%N.
  Proof. induction 1 as [x <-|x y _ _ (_ & Hy & _)]; [exact Hmedoid|]. lia. Qed.
  Lemma dreach_count l : NoDup l -> (forall x, In x l -> reach x) -> length l <= M.
  Proof.
    intros ND R. replace M with (length (d_medoid d :: map N.of_nat (seq 0 (N.to_nat (d_points d))))) by (cbn; now rewrite map_length, seq_length).
    apply NoDup_incl_length; [assumption|]. intros x Hx. specialize (R x Hx). destruct R as [x <-|x y _ (_ & Hy & _)]; [now left|].
    right. apply in_map_iff. exists (N.to_nat y). split; [lia|]. apply in_seq. lia.
  Qed.

  Record dinv (t : thread_data) (I P E X : list N) : Prop := {
    dv_vis : exists mem, vis_inv max (td_visited t) mem /\ (forall p, In p (I ++ P) -> mem p = true)
      /\ forall p, mem p = true -> In p (I ++ P) \/ d_deleted d p = true;
    dv_front : q_inv cap (td_front t);
    dv_inv : sinv edge (eq (d_medoid d)) (d_dist d) cap I P E X (q_list (td_front t));
    dv_lists : exists U, lists_inv (d_nbrs d) max degree lists t (ids_of (q_list (td_front t))) U;
    dv_small : smallest cap (map (fun x => (x, d_dist d x)) I) (q_content (td_front t));
  }.
  Lemma dinv_count t I P E X : dinv t I P E X -> length I + length P <= M /\ length E <= length I.
  Proof.
    intros H. pose proof (dv_inv _ _ _ _ _ H) as S. split.
    - rewrite <- app_length. apply dreach_count; [apply S|]. intros x Hx. apply (si_reach _ _ _ _ _ _ _ _ _ S x Hx).
    - apply NoDup_incl_length; apply S.
  Qed.
  Lemma dinv_perm t I P P' E X : dinv t I P E X -> Permutation P P' -> dinv t I P' E X.
  Proof.
    intros [V F S L Sm] Pm. constructor; auto.
    - destruct V as (mem & V & A & B). exists mem. split; [assumption|]. assert (Pm' : Permutation (I ++ P) (I ++ P')) by now apply Permutation_app_head. split.
      + intros p Hp. apply A. eapply Permutation_in; [apply Permutation_sym, Pm'|assumption].
      + intros p Hp. destruct (B p Hp); auto. left. eapply Permutation_in; eauto.
    - eapply sinv_perm; eauto.
  Qed.
  Lemma lists_same t t' ids U : td_offsets t' = td_offsets t -> td_slot_len t' = td_slot_len t -> td_buf t' = td_buf t ->
    td_free t' = td_free t -> td_dirty t' = td_dirty t -> lists_inv (d_nbrs d) max degree lists t ids U -> lists_inv (d_nbrs d) max degree lists t' ids U.
  Proof. intros A B C D E L. constructor; rewrite ?A, ?B, ?C, ?D, ?E; apply L. Qed.
  Lemma dinv_io t infl sec I P E X : dinv t I P E X -> dinv (with_io t infl sec) I P E X.
  Proof.
    intros [V F S (U & L) Sm]. constructor; auto. exists U. eapply lists_same; [..|exact L]; reflexivity.
  Qed.

  Lemma absorb_spec t I P1 m P2 E X : dinv t I (P1 ++ m :: P2) E X ->
    exists t', absorb d t m m = Ok t' /\ dinv t' (I ++ [m]) (P1 ++ P2) E X /\ frame t t'.
  Proof.
    intros [V F S (U & L) Sm]. unfold absorb.
    assert (Pm : Permutation (I ++ P1 ++ m :: P2) ((I ++ [m]) ++ P1 ++ P2)).
    { rewrite <- app_assoc. apply Permutation_app_head. cbn. symmetry. apply Permutation_middle. }
    assert (Rm : reach m) by (apply (si_reach _ _ _ _ _ _ _ _ _ S), in_or_app; right; apply in_or_app; right; now left).
    pose proof (dreach_bound m Rm) as Bm.
    assert (Nm : ~ In m I).
    { pose proof (si_nodup _ _ _ _ _ _ _ _ _ S) as ND. intros K. apply in_split in K as (a & b & ->). rewrite <- app_assoc in ND. cbn [app] in ND.
      apply NoDup_remove_2 in ND. apply ND. apply in_or_app. right. apply in_or_app. right. apply in_or_app. right. now left. }
    assert (Nid : ~ In m (ids_of (q_list (td_front t)))).
    { intros K. apply in_map_iff in K as (e & <- & He). apply Nm. apply (kept_inserted _ _ _ _ _ _ _ _ _ _ S He). }
    assert (V' : exists mem, vis_inv max (td_visited t) mem /\ (forall p, In p ((I ++ [m]) ++ P1 ++ P2) -> mem p = true)
      /\ forall p, mem p = true -> In p ((I ++ [m]) ++ P1 ++ P2) \/ d_deleted d p = true).
    { destruct V as (mem & V & A & B). exists mem. split; [assumption|]. split.
      - intros p Hp. apply A. eapply Permutation_in; [apply Permutation_sym, Pm|assumption].
      - intros p Hp. destruct (B p Hp); auto. left. eapply Permutation_in; eauto. }
    pose proof (kept_nodup _ _ _ _ _ _ _ _ _ S) as NDq.
    assert (Sm' : exists r q', npq_insert (td_front t) {| n_id := m; n_dist := d_dist d m; n_exp := false |} = Ok (r, q')
      /\ smallest cap (map (fun x => (x, d_dist d x)) (I ++ [m])) (q_content q')).
    { assert (Fn : forall e, In e (q_entries (td_front t)) -> n_id e = m -> n_dist e = d_dist d m).
      { intros e He Ei. exfalso. apply Nid. apply in_map_iff. exists (nbr_entry e). split; [exact Ei|now apply in_map]. }
      destruct (insert_smallest cap (td_front t) m (d_dist d m) _ _ Hcap F (npq_insert_spec cap (td_front t) m (d_dist d m) Hcap F Fn) Sm) as (r & q' & Er & _ & Sm1).
      exists r, q'. split; [exact Er|]. rewrite map_app. exact Sm1. }
    destruct Sm' as (r0 & q0 & Er0 & Sm1).
    destruct (npq_insert_new cap (td_front t) m (d_dist d m) Hcap F Nid) as [(Er & IR & Full)|(q' & out & Er & F' & IR & PQ & Out & Sub)];
      rewrite Er in Er0 |- *; injection Er0 as <- <-; cbn [bind r_evicted r_inserted not_inserted].
    - eexists. split; [reflexivity|]. split; [|repeat split]. constructor; auto.
      + apply (sinv_insert _ _ _ _ _ _ _ _ _ _ _ _ S IR).
      + exists U. eapply lists_same; [..|exact L]; reflexivity.
    - assert (S' : sinv edge (eq (d_medoid d)) (d_dist d) cap (I ++ [m]) (P1 ++ P2) E X (q_list q')) by (apply (sinv_insert _ _ _ _ _ _ _ _ _ _ _ _ S IR)).
      pose proof (q_list_length _ _ F) as QL. pose proof (q_list_length _ _ F') as QL'. pose proof (qi_size _ _ F') as QS'. pose proof (qi_size _ _ F) as QS.
      assert (L0 : lists_inv (d_nbrs d) max degree lists (with_front t q') (ids_of (q_list (td_front t))) U) by (eapply lists_same; [..|exact L]; reflexivity).
      pose proof (Permutation_length PQ) as PL. rewrite app_length in PL. cbn [length] in PL.
      destruct Out as [->|[Full HO]].
      + cbn [ids_of map hd_error bind]. rewrite app_nil_r in PQ. cbn [length] in PL. unfold entry in *.
        destruct (cache_spec _ _ _ _ _ _ _ m L0 Bm Nid NDq) as (t2 & U2 & -> & L2 & buf & off & dirty & free & ->).
        { unfold ids_of. rewrite map_length. unfold entry in *. lia. } { apply Hdegree. }
        eexists. split; [reflexivity|]. split; [|repeat split]. constructor; auto.
        exists U2. cbn [td_front with_lists with_front]. eapply lists_ids; [exact L2|].
        intros x. pose proof (Permutation_map (fun e : entry => fst (fst e)) PQ) as PI. cbn [map fst] in PI.
        split; intros Hx; [eapply Permutation_in; [exact PI|exact Hx]|eapply Permutation_in; [apply Permutation_sym; exact PI|exact Hx]].
      + destruct out as [|o [|]]; try discriminate. cbn [ids_of map hd_error].
        assert (Ho : In o (q_list (td_front t))) by (apply Sub; now left).
        apply in_split in Ho as (b & a & Eb).
        assert (Bo : (fst (fst o) < max)%N).
        { apply dreach_bound. apply (si_reach _ _ _ _ _ _ _ _ _ S), in_or_app. left. apply (kept_inserted _ _ _ _ _ _ _ _ _ _ S). rewrite Eb. apply in_or_app. right. now left. }
        assert (PI : Permutation (ids_of (q_list (td_front t))) (fst (fst o) :: ids_of (b ++ a))).
        { rewrite Eb. unfold ids_of. rewrite !map_app. cbn [map]. symmetry. apply Permutation_middle. }
        destruct (release_spec _ _ _ _ _ _ _ _ (ids_of (b ++ a)) L0 Bo PI NDq) as (t1 & U1 & -> & L1 & off1 & free1 & ->). cbn [bind].
        assert (NDb : NoDup (ids_of (b ++ a))) by (apply (Permutation_NoDup PI) in NDq; now inversion NDq).
        assert (Nb : ~ In m (ids_of (b ++ a))) by (intros K; apply Nid; apply (Permutation_in _ (Permutation_sym PI)); now right).
        assert (Lb : length (ids_of (b ++ a)) < lists).
        { apply Permutation_length in PI. cbn [length] in PI. unfold ids_of in PI at 1. rewrite map_length in PI. unfold entry in *. lia. }
        destruct (cache_spec _ _ _ _ _ _ _ m L1 Bm Nb NDb Lb (Hdegree m)) as (t2 & U2 & -> & L2 & buf & off & dirty & free & ->).
        eexists. split; [reflexivity|]. split; [|repeat split]. constructor; auto.
        exists U2. cbn [td_front with_lists with_front]. eapply lists_ids; [exact L2|].
        assert (PQ2 : Permutation (((m, d_dist d m), false) :: b ++ a) (q_list q')).
        { apply (Permutation_cons_inv (a := o)). rewrite Eb in PQ. unfold entry in *. rewrite <- (Permutation_cons_append (q_list q') o) in PQ.
          rewrite <- PQ. rewrite perm_swap. constructor. apply Permutation_middle. }
        pose proof (Permutation_map (fun e : entry => fst (fst e)) PQ2) as PI2. cbn [map fst] in PI2.
        intros x. split; intros Hx; [eapply Permutation_in; [exact PI2|exact Hx]|eapply Permutation_in; [apply Permutation_sym; exact PI2|exact Hx]].
  Qed.
  Lemma closest_is t I P E X : dinv t I P E X -> q_content (td_front t) = closest d cap I.
  Proof.
    intros H. eapply smallest_unique; [apply (dv_small _ _ _ _ _ H)|apply closest_smallest|intros x; reflexivity].
    eapply nodup_app_l. apply (si_nodup _ _ _ _ _ _ _ _ _ (dv_inv _ _ _ _ _ H)).
  Qed.
  Lemma next_none t I P E : dinv t I P E [] -> has_unexpanded_node (td_front t) = false -> next_to_expand d cap I E = None.
  Proof.
    intros H Un. unfold next_to_expand. rewrite <- (closest_is _ _ _ _ _ H), <- q_list_content.
    destruct (find _ _) as [x|] eqn:Ef; [|reflexivity]. exfalso. apply find_some in Ef as [Hx Nx]. apply in_map_iff in Hx as (e & <- & He).
    pose proof (npq_all_expanded _ _ (dv_front _ _ _ _ _ H) Un e He) as Fl. apply (si_flags _ _ _ _ _ _ _ _ _ (dv_inv _ _ _ _ _ H) e He) in Fl.
    rewrite (mem_true _ _ Fl) in Nx. discriminate.
  Qed.
  Lemma next_some t I P E e q' : dinv t I P E [] -> has_unexpanded_node (td_front t) = true -> closest_unexpanded (td_front t) = Ok (e, q') ->
    next_to_expand d cap I E = Some (n_id e).
  Proof.
    intros H Un Ec. unfold next_to_expand. rewrite <- (closest_is _ _ _ _ _ H), <- q_list_content. apply Nat.ltb_lt in Un.
    destruct (NpqProofs.expand_spec cap (td_front t) (dv_front _ _ _ _ _ H) Un) as (id & dd & q2 & Ec2 & _ & En & _). rewrite Ec in Ec2. injection Ec2 as -> <-. cbn [n_id].
    pose proof (si_flags _ _ _ _ _ _ _ _ _ (dv_inv _ _ _ _ _ H)) as Fl.
    assert (Old : forall i x, nth_error (q_list (td_front t)) i = Some x -> i < q_cur (td_front t) -> snd x = true).
    { intros i x Hx Hi. unfold q_list in Hx. rewrite nth_error_map in Hx. destruct (nth_error (q_entries (td_front t)) i) as [y|] eqn:Ey; [|discriminate].
      injection Hx as <-. apply (qi_flags _ _ (dv_front _ _ _ _ _ H) i y Ey). assumption. }
    assert (Cur : nth_error (q_list (td_front t)) (q_cur (td_front t)) = Some ((id, dd), false)).
    { unfold q_list. rewrite nth_error_map, En. reflexivity. }
    clear - Fl Old Cur. revert Fl Old Cur. generalize (q_list (td_front t)). generalize (q_cur (td_front t)). intros k l. revert k.
    induction l as [|x l IH]; intros k Fl Old Cur; [destruct k; discriminate|]. cbn [map find].
    destruct k as [|k].
    - cbn in Cur. injection Cur as ->. cbn [fst]. destruct (existsb (N.eqb id) E) eqn:Ex; [|reflexivity].
      apply existsb_exists in Ex as (y & Hy & Ey). apply N.eqb_eq in Ey. subst y. apply (Fl _ (or_introl eq_refl)) in Hy. discriminate.
    - pose proof (Old 0 x eq_refl ltac:(lia)) as Fx. apply (Fl x (or_introl eq_refl)) in Fx. rewrite (mem_true _ _ Fx). cbn [negb].
      apply (IH k); [intros e He; apply Fl; now right|intros i y Hy Hi; apply (Old (S i) y Hy); lia|exact Cur].
  Qed.
  Lemma consider_spec I E X : forall l t P, dinv t I P E X ->
    (forall y, In y l -> (y < d_points d)%N -> d_deleted d y = false -> reach y) ->
    exists t' out, consider d t l = Ok (t', out) /\ dinv t' I (P ++ out) E X /\ frame t t' /\ (td_front t' = td_front t /\ out = unfound d (I ++ P) l)
      /\ forall y, In y l -> (y < d_points d)%N -> d_deleted d y = false -> In y (I ++ P ++ out).
  Proof.
    induction l as [|m l IH]; intros t P H R; cbn [consider].
    { exists t, []. split; [reflexivity|]. rewrite app_nil_r. split; [assumption|]. split; [apply frame_refl|]. split; [split; reflexivity|]. intros y []. }
    cbn [unfound].
    assert (R' : forall y, In y l -> (y < d_points d)%N -> d_deleted d y = false -> reach y) by (intros; apply R; auto; now right).
    destruct (N.leb_spec (d_points d) m) as [Hm|Hm].
    { destruct (IH t P H R') as (t' & out & -> & H' & Fr & Fq & C). exists t', out. split; [reflexivity|]. split; [assumption|]. split; [assumption|].
      split; [destruct (N.ltb_spec m (d_points d)); [lia|]; exact Fq|]. intros y [<-|Hy]; [lia|auto]. }
    destruct (N.ltb_spec m (d_points d)); [|lia]. cbn [andb].
    destruct H as [(mem & V & A & B) F S L Sm].
    destruct (vis_mark max (td_visited t) mem m V ltac:(lia)) as (v & w & E1 & V1 & Ew). unfold vb_test_and_set. rewrite E1. cbn [bind]. rewrite Ew.
    destruct (mem m) eqn:Em; cbn [negb orb].
    - destruct (IH (with_visited t v) P) as (t' & out & -> & H' & Fr & Fq & C); auto.
      { constructor; auto.
        - exists (fun p => N.eqb m p || mem p). split; [exact V1|]. split.
          + intros p Hp. rewrite (A p Hp). apply orb_true_r.
          + intros p Hp. cbv beta in Hp. destruct (N.eqb_spec m p) as [Emp|Nmp]; [subst p|]; now apply B.
        - destruct L as (U & L). exists U. eapply lists_same; [..|exact L]; reflexivity. }
      exists t', out. split; [reflexivity|]. split; [assumption|]. split; [exact Fr|]. split.
      { destruct (B m Em) as [K|K]; [rewrite (mem_true _ _ K), andb_false_r|rewrite K]; exact Fq. }
      intros y [<-|Hy] Hp Hd; [|auto]. destruct (B m Em) as [K|K]; [|congruence]. rewrite app_assoc. apply in_or_app. now left.
    - destruct (d_deleted d m) eqn:Dm.
      + destruct (IH (with_visited t v) P) as (t' & out & -> & H' & Fr & Fq & C); auto.
        { constructor; auto.
          - exists (fun p => N.eqb m p || mem p). split; [exact V1|]. split.
            + intros p Hp. rewrite (A p Hp). apply orb_true_r.
            + intros p Hp. cbv beta in Hp. destruct (N.eqb_spec m p) as [Emp|Nmp]; [subst p; now right|]. now apply B.
          - destruct L as (U & L). exists U. eapply lists_same; [..|exact L]; reflexivity. }
        exists t', out. split; [reflexivity|]. split; [assumption|]. split; [exact Fr|]. split; [exact Fq|].
        intros y [<-|Hy] Hp Hd; [congruence|auto].
      + assert (Rm : reach m) by (apply R; auto; now left).
        assert (Nm : ~ In m (I ++ P)) by (intros K; rewrite (A m K) in Em; discriminate).
        destruct (IH (with_visited t v) (P ++ [m])) as (t' & out & -> & H' & Fr & Fq & C); auto.
        { constructor; auto.
          - exists (fun p => N.eqb m p || mem p). split; [exact V1|]. split.
            + intros p Hp. rewrite app_assoc in Hp. apply in_app_or in Hp as [Hp|[<-|[]]]; [rewrite (A p Hp); apply orb_true_r|now rewrite N.eqb_refl].
            + intros p Hp. cbv beta in Hp. destruct (N.eqb_spec m p) as [Emp|Nmp]; [subst p|].
              * left. rewrite app_assoc. apply in_or_app. right. now left.
              * destruct (B p Hp); [left; rewrite app_assoc; apply in_or_app; now left|now right].
          - apply sinv_discover; auto.
          - destruct L as (U & L). exists U. eapply lists_same; [..|exact L]; reflexivity. }
        cbn [bind]. exists t', (m :: out). split; [reflexivity|]. rewrite <- app_assoc in H', C. split; [exact H'|]. split; [exact Fr|]. split.
        { split; [apply Fq|]. rewrite (mem_false _ _ Nm). cbn [negb andb]. f_equal. destruct Fq as [_ ->]. apply unfound_ext. intros x. rewrite app_assoc, in_app_iff. cbn. intuition. }
        intros y [<-|Hy] Hp Hd; [|auto]. apply in_or_app. right. apply in_or_app. right. now left.
  Qed.
  Lemma expand_spec t I P E : dinv t I P E [] -> has_unexpanded_node (td_front t) = true ->
    exists t' x out, expand d t = Ok (t', x, out) /\ dinv t' I (P ++ out) (E ++ [x]) [] /\ frame t t'
      /\ next_to_expand d cap I E = Some x /\ out = unfound d (I ++ P) (d_nbrs d x).
  Proof.
    intros H Un. unfold expand. destruct (npq_pop_rel cap (td_front t) (dv_front _ _ _ _ _ H) Un) as (e & q' & Ec & Q' & PR).
    pose proof (next_some _ _ _ _ _ _ H Un Ec) as Nxt. rewrite Ec. cbn [bind].
    destruct (sinv_expand _ _ _ _ _ _ _ _ _ _ (dv_inv _ _ _ _ _ H) PR) as (Nx & Ix & S').
    assert (Rx : reach (n_id e)) by (apply (si_reach _ _ _ _ _ _ _ _ _ S'), in_or_app; now left).
    pose proof (dreach_bound _ Rx) as Bx.
    assert (Ids : ids_of (q_list q') = ids_of (q_list (td_front t))).
    { unfold ids_of. rewrite <- (map_map fst fst (q_list q')), <- (map_map fst fst (q_list (td_front t))). f_equal. now apply (pop_same _ (n_id e)). }
    assert (H1 : dinv (with_front t q') I P (E ++ [n_id e]) [n_id e]).
    { destruct H as [V F S (U & L) Sm]. constructor; auto.
      - exists U. cbn [td_front with_front]. rewrite Ids. eapply lists_same; [..|exact L]; reflexivity.
      - cbn [td_front with_front]. rewrite <- q_list_content, (pop_same _ _ _ PR), q_list_content. exact Sm. }
    destruct (dv_lists _ _ _ _ _ H1) as (U & L). rewrite (cached_spec _ _ _ _ _ _ _ (n_id e) L); [|cbn [td_front with_front]; rewrite Ids|assumption].
    2:{ destruct PR as (b & a & dd & EC & _). rewrite EC. unfold ids_of. rewrite map_app. apply in_or_app. right. now left. }
    cbn [bind]. destruct (consider_spec I (E ++ [n_id e]) [n_id e] (d_nbrs d (n_id e)) _ P H1) as (t' & out & -> & H2 & Fr & Fq & C).
    { intros y Hy Hp Hd. eapply reach_edge; [exact Rx|]. repeat split; auto. }
    cbn [bind]. exists t', (n_id e), out. split; [reflexivity|]. split; [|split; [exact Fr|split; [exact Nxt|apply Fq]]].
    destruct H2 as [V2 F2 S2 L2 Sm2]. constructor; auto. eapply sinv_done; [exact S2|]. intros y (Hy & Hp & Hd). now apply C.
  Qed.

  (** *** The deterministic mode *)
  Lemma read_chunk_spec src : forall ids sector slot, N.to_nat slot + length ids <= length sector ->
    exists recs sec, read_chunk src sector slot ids = Ok (recs, sec) /\ length sec = length sector /\ map fst recs = ids
      /\ (forall j, j < N.to_nat slot -> nth_error sec j = nth_error sector j)
      /\ forall m s, In (m, Some s) recs -> nth_error sec (N.to_nat s) = Some m.
  Proof.
    induction ids as [|m ids IH]; intros sector slot H; cbn [read_chunk].
    { exists [], sector. split; [reflexivity|]. split; [reflexivity|]. split; [reflexivity|]. split; [intros j Hj; reflexivity|]. intros m s []. }
    cbn [length] in H.
    assert (K : exists recs sec, (let* sec1 := aput sector slot m in let* (recs, sec) := read_chunk src sec1 (slot + 1)%N ids in Ok ((m, Some slot) :: recs, sec)) = Ok (recs, sec)
      /\ length sec = length sector /\ map fst recs = m :: ids
      /\ (forall j, j < N.to_nat slot -> nth_error sec j = nth_error sector j)
      /\ forall m s, In (m, Some s) recs -> nth_error sec (N.to_nat s) = Some m).
    { rewrite aput_ok by lia. cbn [bind]. destruct (IH (upd sector (N.to_nat slot) m) (slot + 1)%N) as (recs & sec & -> & Ls & Mf & Old & New).
      { rewrite upd_length. lia. }
      cbn [bind]. eexists _, sec. split; [reflexivity|]. rewrite upd_length in Ls. split; [assumption|]. split; [cbn; now rewrite Mf|]. split.
      - intros j Hj. rewrite Old by lia. rewrite nth_error_upd by lia. destruct (Nat.eqb_spec (N.to_nat slot) j); [lia|reflexivity].
      - intros m' s [Es|Hs]; [|auto]. injection Es as <- <-. rewrite Old by lia. rewrite nth_error_upd by lia. now rewrite Nat.eqb_refl. }
    destruct (src m).
    - destruct (IH sector slot ltac:(lia)) as (recs & sec & -> & Ls & Mf & Old & New). cbn [bind]. eexists _, sec. split; [reflexivity|].
      split; [assumption|]. split; [cbn; now rewrite Mf|]. split; [assumption|]. intros m' s [Es|Hs]; [discriminate|auto].
    - exact K.
    - exact K.
  Qed.
  Lemma absorb_all_spec E X P : forall recs t I, dinv t I (map fst recs ++ P) E X ->
    (forall m s, In (m, Some s) recs -> nth_error (td_sector t) (N.to_nat s) = Some m) ->
    exists t', absorb_all d t recs = Ok t' /\ dinv t' (I ++ map fst recs) P E X /\ frame t t'.
  Proof.
    induction recs as [|(id & slot) recs IH]; intros t I H Sec; cbn [absorb_all].
    { exists t. split; [reflexivity|]. cbn [map]. rewrite app_nil_r. split; [assumption|apply frame_refl]. }
    assert (Er : record_in t id slot = Ok id).
    { destruct slot as [s|]; [|reflexivity]. cbn [record_in]. unfold aget. now rewrite (Sec id s (or_introl eq_refl)). }
    rewrite Er. cbn [bind]. cbn [map fst] in H.
    destruct (absorb_spec t I [] id (map fst recs ++ P) E X H) as (t1 & -> & H1 & Fr1). cbn [bind]. cbn [app] in H1.
    destruct (IH t1 (I ++ [id]) H1) as (t2 & -> & H2 & Fr2).
    { intros m s Hs. destruct Fr1 as (_ & _ & _ & ->). apply Sec. now right. }
    exists t2. split; [reflexivity|]. split; [cbn [map fst]; now rewrite <- app_assoc in H2|]. eapply frame_trans; eauto.
  Qed.
  (** The part of the scratch a search leaves as it is. *)
  Definition frame_io (t t' : thread_data) : Prop :=
    td_exact t' = td_exact t /\ td_exact_dirty t' = td_exact_dirty t /\ length (td_inflight t') = length (td_inflight t)
    /\ length (td_sector t') = length (td_sector t).
  Lemma frame_weak t t' : frame t t' -> frame_io t t'.
  Proof. intros (A & B & C & D). repeat split; congruence. Qed.
  Lemma frame_io_trans t t' t'' : frame_io t t' -> frame_io t' t'' -> frame_io t t''.
  Proof. intros (A & B & C & D) (A' & B' & C' & D'). repeat split; congruence. Qed.
  Lemma absorb_chunks_spec src E X : forall fuel todo t I, length todo <= fuel -> dinv t I todo E X -> 0 < length (td_sector t) ->
    exists t', absorb_chunks d src fuel t todo = Ok t' /\ dinv t' (I ++ todo) [] E X /\ frame_io t t'.
  Proof.
    induction fuel as [|k IH]; intros todo t I Hf H Hs; cbn [absorb_chunks].
    - destruct todo; [|cbn in Hf; lia]. exists t. rewrite app_nil_r. split; [reflexivity|]. split; [assumption|]. repeat split.
    - destruct todo as [|a todo]; [exists t; rewrite app_nil_r; split; [reflexivity|]; split; [assumption|]; repeat split|].
      set (n := n_page_slots t). assert (Hn : n = length (td_sector t)) by (unfold n, n_page_slots; lia). set (all := a :: todo) in *.
      destruct (read_chunk_spec src (firstn n all) (td_sector t) 0%N) as (recs & sec & -> & Ls & Mf & _ & New).
      { rewrite firstn_length. lia. }
      cbn [bind]. assert (H0 : dinv (with_io t (td_inflight t) sec) I (map fst recs ++ skipn n all) E X) by (apply dinv_io; now rewrite Mf, firstn_skipn).
      destruct (absorb_all_spec E X _ recs _ I H0 New) as (t1 & -> & H1 & Fr1). cbn [bind].
      assert (Ft : frame_io t t1).
      { eapply frame_io_trans; [|apply frame_weak, Fr1]. repeat split; cbn; congruence. }
      destruct (IH (skipn n all) t1 (I ++ map fst recs)) as (t2 & -> & H2 & Fr2).
      { rewrite skipn_length. unfold all in *. cbn [length] in *. lia. } { assumption. } { destruct Ft as (_ & _ & _ & ->). assumption. }
      exists t2. split; [reflexivity|]. split; [|eapply frame_io_trans; eauto].
      rewrite <- app_assoc, Mf, firstn_skipn in H2. exact H2.
  Qed.
  Lemma barrier_spec src : forall fuel t I E, dinv t I [] E [] -> 0 < length (td_sector t) -> M < fuel + length E -> In (d_medoid d) I ->
    exists t' I' E', barrier_loop fuel d src t E = Done (Ok (t', E')) /\ dinv t' I' [] E' [] /\ frame_io t t' /\ In (d_medoid d) I'
      /\ has_unexpanded_node (td_front t') = false /\ best_first d cap I E I' E'.
  Proof.
    induction fuel as [|k IH]; intros t I E H Hs Hf Hm; cbn [barrier_loop].
    - destruct (dinv_count _ _ _ _ _ H) as [A B]. lia.
    - destruct (has_unexpanded_node (td_front t)) eqn:Un.
      2:{ exists t, I, E. split; [reflexivity|]. split; [assumption|]. split; [repeat split|]. split; [assumption|]. split; [assumption|].
          apply bf_stop. eapply next_none; eauto. }
      destruct (expand_spec t I [] E H Un) as (t1 & x & todo & -> & H1 & Fr1 & Nx & Eo). rewrite app_nil_r in Eo. cbn [bind].
      destruct (absorb_chunks_spec src (E ++ [x]) [] (length todo) todo t1 I) as (t2 & -> & H2 & Fr2); auto.
      { destruct Fr1 as (_ & _ & _ & ->). assumption. }
      cbn [bind]. destruct (IH t2 (I ++ todo) (E ++ [x]) H2) as (t3 & I3 & E3 & -> & H3 & Fr3 & Im & Un3 & B).
      { destruct Fr2 as (_ & _ & _ & ->). destruct Fr1 as (_ & _ & _ & ->). assumption. }
      { rewrite app_length. cbn. lia. } { apply in_or_app. now left. }
      exists t3, I3, E3. split; [reflexivity|]. split; [assumption|]. split.
      { eapply frame_io_trans; [apply frame_weak, Fr1|]. eapply frame_io_trans; eauto. }
      split; [assumption|]. split; [assumption|]. eapply bf_step; [exact Nx|]. rewrite <- Eo. exact B.
  Qed.

  (** *** The asynchronous mode *)
  Record io_inv (t : thread_data) (free : list N) : Prop := {
    io_len : length (td_inflight t) = length (td_sector t);
    io_nodup : NoDup free;
    io_free : forall s, In s free <-> nth_error (td_inflight t) (N.to_nat s) = Some None;
    io_data : forall s id, nth_error (td_inflight t) s = Some (Some id) -> nth_error (td_sector t) s = Some id;
  }.
  Lemma io_frame t t' free : frame t t' -> io_inv t free -> io_inv t' free.
  Proof. intros (_ & _ & A & B) [C D F G]. constructor; rewrite ?A, ?B; auto. Qed.
  Record pinv (t : thread_data) (free pending I E : list N) : Prop := {
    pv_inv : dinv t I (pending ++ inflight_ids t) E [];
    pv_io : io_inv t free;
  }.
  Definition progress (t : thread_data) (I : list N) : nat := 2 * length I + length (inflight_ids t).
  Lemma refill_spec : forall fuel p I, pinv (pp_td p) (pp_free p) (pp_pending p) I (pp_expanded p) -> M < fuel + length (pp_expanded p) ->
    exists p', refill_pending fuel d p = Done (Ok p') /\ pinv (pp_td p') (pp_free p') (pp_pending p') I (pp_expanded p')
      /\ pp_free p' = pp_free p /\ frame (pp_td p) (pp_td p') /\ length (pp_expanded p) <= length (pp_expanded p')
      /\ (pp_pending p = [] -> pp_free p <> [] -> has_unexpanded_node (td_front (pp_td p)) = true -> length (pp_expanded p) < length (pp_expanded p'))
      /\ exists more, pp_pending p' = pp_pending p ++ more.
  Proof.
    induction fuel as [|k IH]; intros p I H Hf; cbn [refill_pending].
    - destruct (dinv_count _ _ _ _ _ (pv_inv _ _ _ _ _ H)) as [A B]. lia.
    - destruct (Nat.ltb_spec (length (pp_pending p)) (length (pp_free p))) as [Lt|Ge]; cbn [andb].
      2:{ exists p. split; [reflexivity|]. split; [assumption|]. split; [reflexivity|]. split; [apply frame_refl|]. split; [lia|].
          split; [|exists []; now rewrite app_nil_r]. intros Ep Ef. rewrite Ep in Ge. cbn in Ge. destruct (pp_free p); [contradiction|cbn in Ge; lia]. }
      destruct (has_unexpanded_node (td_front (pp_td p))) eqn:Un.
      2:{ exists p. split; [reflexivity|]. split; [assumption|]. split; [reflexivity|]. split; [apply frame_refl|]. split; [lia|].
          split; [discriminate|exists []; now rewrite app_nil_r]. }
      destruct (expand_spec _ _ _ _ (pv_inv _ _ _ _ _ H) Un) as (t1 & x & out & -> & H1 & Fr1 & _).
      assert (Inf : inflight_ids t1 = inflight_ids (pp_td p)) by (unfold inflight_ids; now destruct Fr1 as (_ & _ & -> & _)).
      destruct (IH {| pp_td := t1; pp_free := pp_free p; pp_pending := pp_pending p ++ out; pp_expanded := pp_expanded p ++ [x] |} I) as (p' & -> & H' & Fe & Fr & Le & _ & more & Em);
        cbn [pp_td pp_free pp_pending pp_expanded] in *.
      { constructor; [|eapply io_frame; [exact Fr1|apply H]]. eapply dinv_perm; [exact H1|]. rewrite Inf, <- !app_assoc. apply Permutation_app_head, Permutation_app_comm. }
      { rewrite app_length. cbn. lia. }
      rewrite app_length in Le. cbn [length] in Le.
      exists p'. split; [reflexivity|]. split; [assumption|]. split; [assumption|]. split; [eapply frame_trans; eauto|]. split; [lia|]. split; [intros; lia|].
      exists (out ++ more). now rewrite app_assoc.
  Qed.
  Lemma submit_spec src E : forall pending t free I, pinv t free pending I E ->
    exists t' free' pending' I', submit d src t free pending = Ok (t', free', pending') /\ pinv t' free' pending' I' E
      /\ frame_io t t' /\ incl I I' /\ progress t I <= progress t' I' /\ (pending <> [] -> free <> [] -> progress t I < progress t' I').
  Proof.
    induction pending as [|m rest IH]; intros t free I H; cbn [submit].
    { exists t, free, [], I. split; [reflexivity|]. split; [assumption|]. split; [repeat split|]. split; [apply incl_refl|]. split; [lia|congruence]. }
    destruct free as [|slot free'].
    { exists t, [], (m :: rest), I. split; [reflexivity|]. split; [assumption|]. split; [repeat split|]. split; [apply incl_refl|]. split; [lia|congruence]. }
    assert (Absorbed : exists t' free'' pending' I',
      (let* t' := absorb d t m m in submit d src t' (slot :: free') rest) = Ok (t', free'', pending') /\ pinv t' free'' pending' I' E
      /\ frame_io t t' /\ incl I I' /\ progress t I <= progress t' I' /\ (m :: rest <> [] -> slot :: free' <> [] -> progress t I < progress t' I')).
    { destruct (absorb_spec t I [] m (rest ++ inflight_ids t) E [] (pv_inv _ _ _ _ _ H)) as (t1 & -> & H1 & Fr1). cbn [bind]. cbn [app] in H1.
      assert (Inf : inflight_ids t1 = inflight_ids t) by (unfold inflight_ids; now destruct Fr1 as (_ & _ & -> & _)).
      destruct (IH t1 (slot :: free') (I ++ [m])) as (t2 & f2 & p2 & I2 & -> & H2 & Fr2 & In2 & Pr & _).
      { constructor; [now rewrite Inf|eapply io_frame; [exact Fr1|apply H]]. }
      exists t2, f2, p2, I2. split; [reflexivity|]. split; [assumption|]. split; [eapply frame_io_trans; [apply frame_weak, Fr1|exact Fr2]|].
      split; [intros z Hz; apply In2, in_or_app; now left|].
      unfold progress in *. rewrite Inf, app_length in Pr. cbn [length] in Pr. split; [lia|intros; lia]. }
    destruct (src m); [exact Absorbed|exact Absorbed|].
    unfold set_inflight. pose proof (pv_io _ _ _ _ _ H) as Io.
    assert (Fs : nth_error (td_inflight t) (N.to_nat slot) = Some None) by (apply (io_free _ _ Io); now left).
    assert (Ls : N.to_nat slot < length (td_inflight t)) by (apply nth_error_Some; congruence).
    destruct (N.leb_spec (N.of_nat (length (td_inflight t))) slot); [lia|].
    rewrite aput_ok by lia. cbn [bind]. rewrite aput_ok by (rewrite <- (io_len _ _ Io); lia). cbn [bind].
    set (t1 := with_io t _ _).
    assert (Inf : Permutation (inflight_ids t1) (m :: inflight_ids t)) by (unfold inflight_ids, t1; cbn [td_inflight with_io]; now apply inflight_fill).
    destruct (IH t1 free' I) as (t2 & f2 & p2 & I2 & -> & H2 & Fr2 & In2 & Pr & _).
    { constructor.
      - apply dinv_io. eapply dinv_perm; [apply H|]. fold t1. rewrite Inf. cbn [app]. apply Permutation_middle.
      - pose proof (io_nodup _ _ Io) as ND. inversion ND as [|? ? Ns ND']; subst. constructor; unfold t1; cbn [td_inflight td_sector with_io].
        + rewrite !upd_length. apply Io.
        + assumption.
        + intros s. rewrite nth_error_upd by assumption. destruct (Nat.eqb_spec (N.to_nat slot) (N.to_nat s)) as [Es|Ns'].
          * assert (slot = s) by lia. subst s. split; [contradiction|discriminate].
          * rewrite <- (io_free _ _ Io). split; [now right|]. intros [->|K]; [contradiction|assumption].
        + intros s id. rewrite nth_error_upd by assumption. rewrite nth_error_upd by (rewrite <- (io_len _ _ Io); assumption).
          destruct (Nat.eqb_spec (N.to_nat slot) s); [intros Ei; now injection Ei as <-|]. apply Io. }
    exists t2, f2, p2, I2. split; [reflexivity|]. split; [assumption|]. split.
    { eapply frame_io_trans; [|exact Fr2]. unfold t1. repeat split; cbn; now rewrite upd_length. }
    split; [assumption|]. unfold progress in *. rewrite (Permutation_length Inf) in Pr. cbn [length] in Pr. split; [lia|intros; lia].
  Qed.
  Lemma complete_spec pending E : forall evts t free I, pinv t free pending I E ->
    exists t' free' I', complete d t free evts = Ok (t', free') /\ pinv t' free' pending I' E /\ frame_io t t' /\ incl I I'
      /\ progress t I <= progress t' I' /\ (forall x, In x evts -> In x (inflight_ids t) -> progress t I < progress t' I').
  Proof.
    induction evts as [|id evts IH]; intros t free I H; cbn [complete].
    { exists t, free, I. split; [reflexivity|]. split; [assumption|]. split; [repeat split|]. split; [apply incl_refl|]. split; [lia|]. intros x []. }
    unfold remove_inflight. pose proof (find_inflight_spec (td_inflight t) 0%N id) as Fi.
    destruct (find_inflight (td_inflight t) 0%N id) as [slot|].
    - destruct Fi as [_ Fi]. rewrite N.sub_0_r in Fi. pose proof (pv_io _ _ _ _ _ H) as Io.
      assert (Ls : N.to_nat slot < length (td_inflight t)) by (apply nth_error_Some; congruence).
      rewrite aput_ok by lia. cbn [bind]. set (t1 := with_io t _ _).
      assert (Es : aget (td_sector t1) slot = Ok id) by (unfold aget, t1; cbn [td_sector with_io]; now rewrite (io_data _ _ Io _ _ Fi)).
      rewrite Es. cbn [bind].
      assert (Inf : Permutation (inflight_ids t) (id :: inflight_ids t1)) by (unfold inflight_ids, t1; cbn [td_inflight with_io]; now apply inflight_drop).
      assert (H1 : dinv t1 I (pending ++ id :: inflight_ids t1) E []) by (apply dinv_io; eapply dinv_perm; [apply H|]; now apply Permutation_app_head).
      destruct (absorb_spec t1 I pending id (inflight_ids t1) E [] H1) as (t2 & -> & H2 & Fr2). cbn [bind].
      assert (Inf2 : inflight_ids t2 = inflight_ids t1) by (unfold inflight_ids; now destruct Fr2 as (_ & _ & -> & _)).
      destruct (IH t2 (slot :: free) (I ++ [id])) as (t3 & f3 & I3 & -> & H3 & Fr3 & In3 & Pr & _).
      { constructor; [now rewrite Inf2|]. eapply io_frame; [exact Fr2|]. constructor; unfold t1; cbn [td_inflight td_sector with_io].
        - rewrite upd_length. apply Io.
        - constructor; [|apply Io]. intros K. apply (io_free _ _ Io) in K. congruence.
        - intros s. rewrite nth_error_upd by assumption. destruct (Nat.eqb_spec (N.to_nat slot) (N.to_nat s)) as [Ess|Ns].
          + split; [reflexivity|]. intros _. left. lia.
          + rewrite <- (io_free _ _ Io). split; [|now right]. intros [->|K]; [contradiction|assumption].
        - intros s i. rewrite nth_error_upd by assumption. destruct (Nat.eqb_spec (N.to_nat slot) s); [discriminate|]. apply Io. }
      exists t3, f3, I3. split; [reflexivity|]. split; [assumption|]. split.
      { eapply frame_io_trans; [|exact Fr3]. eapply frame_io_trans; [|apply frame_weak, Fr2]. unfold t1. repeat split; cbn; now rewrite upd_length. }
      split; [intros z Hz; apply In3, in_or_app; now left|].
      unfold progress in *. rewrite Inf2, app_length in Pr. rewrite (Permutation_length Inf). cbn [length] in *. split; [lia|intros; lia].
    - cbn [bind]. destruct (IH t free I H) as (t3 & f3 & I3 & -> & H3 & Fr3 & In3 & Pr & St). exists t3, f3, I3. repeat (split; [assumption || reflexivity|]).
      intros x [<-|Hx] K; [contradiction|eauto].
  Qed.
  Lemma has_inflight_ids t : has_inflight t = true <-> inflight_ids t <> [].
  Proof.
    unfold has_inflight, inflight_ids. induction (td_inflight t) as [|[i|] l IH]; cbn [existsb flat_map orb app].
    - split; [discriminate|congruence].
    - split; [discriminate|reflexivity].
    - exact IH.
  Qed.
  Lemma refill_and_submit_spec src fuel p I : pinv (pp_td p) (pp_free p) (pp_pending p) I (pp_expanded p) -> M < fuel + length (pp_expanded p) ->
    exists p' I', refill_and_submit fuel d src p = Done (Ok p') /\ pinv (pp_td p') (pp_free p') (pp_pending p') I' (pp_expanded p')
      /\ frame_io (pp_td p) (pp_td p') /\ incl I I' /\ progress (pp_td p) I <= progress (pp_td p') I' /\ length (pp_expanded p) <= length (pp_expanded p')
      /\ (pp_free p <> [] -> pp_pending p <> [] \/ has_unexpanded_node (td_front (pp_td p)) = true ->
          progress (pp_td p) I + length (pp_expanded p) < progress (pp_td p') I' + length (pp_expanded p')).
  Proof.
    intros H Hf. unfold refill_and_submit. destruct (refill_spec fuel p I H Hf) as (p1 & -> & H1 & Fe & Fr & Le & Lt & more & Em).
    destruct (submit_spec src (pp_expanded p1) (pp_pending p1) (pp_td p1) (pp_free p1) I H1) as (t2 & f2 & pd2 & I2 & -> & H2 & Fr2 & In2 & Pr & Pr').
    cbn [bind]. eexists _, I2. split; [reflexivity|]. cbn [pp_td pp_free pp_pending pp_expanded]. split; [assumption|].
    split; [eapply frame_io_trans; [apply frame_weak, Fr|exact Fr2]|]. split; [assumption|].
    assert (Inf : inflight_ids (pp_td p1) = inflight_ids (pp_td p)) by (unfold inflight_ids; now destruct Fr as (_ & _ & -> & _)).
    unfold progress in *. rewrite Inf in *. split; [assumption|]. split; [assumption|].
    intros Nf [Np|Un].
    - assert (pp_pending p1 <> []) by (rewrite Em; destruct (pp_pending p); [contradiction|discriminate]).
      specialize (Pr' H0 ltac:(now rewrite Fe)). lia.
    - destruct (pp_pending p) as [|a l] eqn:Ep; [specialize (Lt eq_refl Nf Un); lia|].
      assert (pp_pending p1 <> []) by (rewrite Em; discriminate). specialize (Pr' H0 ltac:(now rewrite Fe)). lia.
  Qed.
  Lemma all_free t free : io_inv t free -> has_inflight t = false -> 0 < length (td_inflight t) -> free <> [].
  Proof.
    intros Io Hi Hl K. subst free. destruct (td_inflight t) as [|[i|] l] eqn:El; [cbn in Hl; lia| |].
    - unfold has_inflight in Hi. rewrite El in Hi. discriminate Hi.
    - pose proof (proj2 (io_free _ _ Io 0%N)) as K. rewrite El in K. now apply K.
  Qed.
  Lemma pipe_loop_spec src events : (forall round ids, ids <> [] -> exists x, In x ids /\ In x (events round ids)) ->
    forall fuel round p I, pinv (pp_td p) (pp_free p) (pp_pending p) I (pp_expanded p) -> 0 < length (td_inflight (pp_td p)) -> In (d_medoid d) I ->
    3 * M < fuel + progress (pp_td p) I + length (pp_expanded p) ->
    exists p' I', pipe_loop fuel d src events round p = Done (Ok p') /\ dinv (pp_td p') I' [] (pp_expanded p') [] /\ frame_io (pp_td p) (pp_td p')
      /\ In (d_medoid d) I' /\ has_unexpanded_node (td_front (pp_td p')) = false.
  Proof.
    intros Ev. induction fuel as [|k IH]; intros round p I H Hl Hm Hf; cbn [pipe_loop].
    - exfalso. destruct (dinv_count _ _ _ _ _ (pv_inv _ _ _ _ _ H)) as [A B]. rewrite app_length in A. unfold progress in Hf. lia.
    - destruct (has_inflight (pp_td p) || negb (is_nil (pp_pending p)) || has_unexpanded_node (td_front (pp_td p))) eqn:Go.
      2:{ apply orb_false_iff in Go as [Go Un]. apply orb_false_iff in Go as [Hi Pe]. exists p, I. split; [reflexivity|].
          assert (Ei : inflight_ids (pp_td p) = []).
          { destruct (inflight_ids (pp_td p)) eqn:E; [reflexivity|]. assert (K : has_inflight (pp_td p) = true) by (apply has_inflight_ids; congruence). congruence. }
          assert (Ep : pp_pending p = []) by (destruct (pp_pending p); [reflexivity|discriminate]).
          pose proof (pv_inv _ _ _ _ _ H) as D. rewrite Ei, Ep in D. split; [assumption|]. split; [repeat split|auto]. }
      assert (Step : exists t free I1,
         (if has_inflight (pp_td p) then complete d (pp_td p) (pp_free p) (events round (inflight_ids (pp_td p))) else Ok (pp_td p, pp_free p)) = Ok (t, free)
         /\ pinv t free (pp_pending p) I1 (pp_expanded p) /\ frame_io (pp_td p) t /\ incl I I1 /\ progress (pp_td p) I <= progress t I1
         /\ (has_inflight (pp_td p) = true -> progress (pp_td p) I < progress t I1) /\ (has_inflight (pp_td p) = false -> t = pp_td p /\ free = pp_free p /\ I1 = I)).
      { destruct (has_inflight (pp_td p)) eqn:Hi.
        - destruct (complete_spec (pp_pending p) (pp_expanded p) (events round (inflight_ids (pp_td p))) (pp_td p) (pp_free p) I H) as (t & f & I1 & E1 & H1 & Fr & In1 & Pr & St).
          exists t, f, I1. repeat (split; [assumption|]). split; [|discriminate]. intros _.
          destruct (Ev round (inflight_ids (pp_td p)) ltac:(now apply has_inflight_ids)) as (x & X1 & X2). eauto.
        - exists (pp_td p), (pp_free p), I. split; [reflexivity|]. split; [assumption|]. split; [repeat split|]. split; [apply incl_refl|]. split; [lia|]. split; [discriminate|auto]. }
      destruct Step as (t & free & I1 & -> & H1 & Fr1 & In1 & Pr1 & St1 & Id1).
      destruct (refill_and_submit_spec src (S k) {| pp_td := t; pp_free := free; pp_pending := pp_pending p; pp_expanded := pp_expanded p |} I1)
        as (p2 & I2 & -> & H2 & Fr2 & In2 & Pr2 & Le2 & St2); cbn [pp_td pp_free pp_pending pp_expanded] in *.
      { assumption. }
      { destruct (dinv_count _ _ _ _ _ (pv_inv _ _ _ _ _ H)) as [A B]. rewrite app_length in A. unfold progress in Hf. lia. }
      destruct (IH (round + 1) p2 I2 H2) as (p3 & I3 & -> & H3 & Fr3 & R).
      { destruct Fr2 as (_ & _ & -> & _). destruct Fr1 as (_ & _ & -> & _). assumption. }
      { auto. }
      { enough (progress (pp_td p) I + length (pp_expanded p) < progress (pp_td p2) I2 + length (pp_expanded p2)) by lia.
        destruct (has_inflight (pp_td p)) eqn:Hi; [specialize (St1 eq_refl); lia|].
        destruct (Id1 eq_refl) as (-> & -> & ->). apply St2.
        - eapply all_free; eauto. apply H.
        - destruct (pp_pending p) eqn:Ep; [right|left; discriminate]. cbn [is_nil negb orb] in Go. exact Go. }
      exists p3, I3. split; [reflexivity|]. split; [assumption|]. split; [|assumption]. eapply frame_io_trans; [exact Fr1|]. eapply frame_io_trans; eauto.
  Qed.
  Lemma pipe_search_spec src events fuel t I : (forall round ids, ids <> [] -> exists x, In x ids /\ In x (events round ids)) ->
    dinv t I [] [] [] -> In (d_medoid d) I -> (forall s, In s (td_inflight t) -> s = None) -> length (td_inflight t) = length (td_sector t) ->
    0 < length (td_sector t) -> 3 * M < fuel ->
    exists t' I' E, pipe_search fuel d src events t = Done (Ok (t', E)) /\ dinv t' I' [] E [] /\ frame_io t t' /\ In (d_medoid d) I'
      /\ has_unexpanded_node (td_front t') = false.
  Proof.
    intros Ev H Hm Hn Hl Hs Hf. unfold pipe_search.
    assert (Hns : n_page_slots t = length (td_inflight t)) by (unfold n_page_slots; lia).
    assert (Ei : inflight_ids t = []).
    { unfold inflight_ids. clear - Hn. induction (td_inflight t) as [|x l IH]; [reflexivity|]. cbn. rewrite (Hn x (or_introl eq_refl)). apply IH. intros s Hs. apply Hn. now right. }
    assert (P0 : pinv t (rev (map N.of_nat (seq 0 (n_page_slots t)))) [] I []).
    { constructor; [now rewrite Ei|]. constructor.
      - assumption.
      - apply NoDup_rev, FinFun.Injective_map_NoDup; [|apply seq_NoDup]. intros i j E. lia.
      - intros s. rewrite <- in_rev, in_map_iff. split.
        + intros (i & <- & Hi). apply in_seq in Hi. rewrite Nat2N.id. destruct (nth_error (td_inflight t) i) as [x|] eqn:E; [|apply nth_error_None in E; lia].
          f_equal. apply Hn. eapply nth_error_In; eauto.
        + intros E. exists (N.to_nat s). split; [lia|]. apply in_seq. assert (N.to_nat s < length (td_inflight t)) by (apply nth_error_Some; congruence). lia.
      - intros s id E. apply nth_error_In, Hn in E. discriminate. }
    destruct (refill_and_submit_spec src fuel {| pp_td := t; pp_free := rev (map N.of_nat (seq 0 (n_page_slots t))); pp_pending := []; pp_expanded := [] |} I P0)
      as (p & I1 & -> & H1 & Fr1 & In1 & Pr1 & _); cbn [pp_td pp_free pp_pending pp_expanded length] in *; [lia|].
    destruct (pipe_loop_spec src events Ev fuel 0 p I1 H1) as (p2 & I2 & -> & H2 & Fr2 & R).
    { destruct Fr1 as (_ & _ & -> & _). lia. } { auto. } { lia. }
    exists (pp_td p2), I2, (pp_expanded p2). split; [reflexivity|]. split; [assumption|]. split; [eapply frame_io_trans; eauto|assumption].
  Qed.
End Disk.

(** ** The scratch between searches *)
Record td_ok (max degree lists : N) (t : thread_data) : Prop := {
  tk_vis : exists mem, vis_inv max (td_visited t) mem;
  tk_exact : length (td_exact t) = N.to_nat max;
  tk_exact_in : forall id, In id (td_exact_dirty t) -> (id < max)%N;
  tk_exact_dirty : forall id z, nth_error (td_exact t) (N.to_nat id) = Some (Some z) -> In id (td_exact_dirty t);
  tk_degree : td_slot_len t = degree;
  tk_buf : length (td_buf t) = N.to_nat (lists * degree);
  tk_off : length (td_offsets t) = N.to_nat max;
  tk_dirty_in : forall id, In id (td_dirty t) -> (id < max)%N;
  tk_dirty : forall id o, nth_error (td_offsets t) (N.to_nat id) = Some o -> o <> (0, 0)%N -> In id (td_dirty t);
  tk_io : length (td_inflight t) = length (td_sector t);
  tk_some : 0 < length (td_sector t);
}.
Lemma put_all_ok {A} (x : A) ids : forall v, (forall id, In id ids -> (id < N.of_nat (length v))%N) ->
  exists v', put_all v ids x = Ok v' /\ length v' = length v
    /\ forall i y, nth_error v' (N.to_nat i) = Some y -> y = x \/ ~ In i ids /\ nth_error v (N.to_nat i) = Some y.
Proof.
  induction ids as [|a ids IH]; intros v B; cbn [put_all].
  - exists v. split; [reflexivity|]. split; [reflexivity|]. intros i y H. right. split; [intros []|assumption].
  - rewrite aput_ok by (apply B; now left). cbn [bind].
    destruct (IH (upd v (N.to_nat a) x)) as (v' & -> & L & Hv); [intros id Hid; rewrite upd_length; apply B; now right|].
    exists v'. split; [reflexivity|]. rewrite upd_length in L. split; [assumption|]. intros i y H.
    destruct (Hv i y H) as [->|[Ni E]]; [now left|]. rewrite nth_error_upd in E by (specialize (B a (or_introl eq_refl)); lia).
    destruct (Nat.eqb_spec (N.to_nat a) (N.to_nat i)) as [Ei|Ei]; [left; congruence|]. right. split; [|assumption]. intros [->|K]; [contradiction|contradiction].
Qed.
Lemma reset_query_spec nbrs max degree lists t cap : td_ok max degree lists t ->
  exists t', reset_query t cap = Ok t' /\ vis_inv max (td_visited t') (fun _ => false) /\ q_inv cap (td_front t') /\ q_list (td_front t') = []
    /\ lists_inv nbrs max degree (N.to_nat lists) t' [] [] /\ (forall s, In s (td_inflight t') -> s = None)
    /\ length (td_exact t') = N.to_nat max /\ td_exact_dirty t' = [] /\ (forall id, (id < max)%N -> nth_error (td_exact t') (N.to_nat id) = Some None)
    /\ length (td_inflight t') = length (td_inflight t) /\ length (td_sector t') = length (td_sector t).
Proof.
  intros [(mem & V) Le Ei Ed Dg Bf Lo Di Dd Io So]. unfold reset_query.
  destruct (vis_clear _ _ _ V) as (v & -> & Vc). cbn [bind]. unfold reset_exact_dists. cbn [td_exact td_exact_dirty with_visited].
  destruct (put_all_ok None (td_exact_dirty t) (td_exact t)) as (e & -> & Lee & He); [intros id Hid; specialize (Ei id Hid); lia|].
  cbn [bind]. unfold reset_neighbors. cbn [td_offsets td_dirty td_slot_len td_buf with_exact with_visited].
  destruct (put_all_ok (0, 0)%N (td_dirty t) (td_offsets t)) as (off & -> & Loff & Hoff); [intros id Hid; specialize (Di id Hid); lia|].
  cbn [bind]. eexists. split; [reflexivity|]. unfold clear_inflight.
  cbn [td_visited td_front td_exact td_exact_dirty td_inflight td_sector with_front with_io with_lists with_exact with_visited].
  split; [assumption|]. split.
  { constructor; unfold npq_reserve, npq_clear, q_entries; cbn [q_size q_cur q_cap q_data firstn]; try lia.
    - rewrite app_length, repeat_length. lia.
    - intros i j a b _ H. now destruct i.
    - intros i c H. now destruct i. }
  split; [reflexivity|]. split.
  { constructor; cbn [td_offsets td_slot_len td_buf td_free td_dirty with_front with_io with_lists]; try (now intros ? []); try (now intros ? ? []).
    - congruence.
    - assumption.
    - rewrite Bf. now rewrite N2Nat.id.
    - constructor.
    - cbn [map app]. rewrite Dg. destruct (N.eqb_spec degree 0); [constructor|]. rewrite Bf, N2Nat.id, N.div_mul by assumption. apply Permutation_refl.
    - intros id Hid _. destruct (nth_error off (N.to_nat id)) as [o|] eqn:Eo; [|apply nth_error_None in Eo; lia].
      destruct (Hoff id o Eo) as [->|[Ni Eo']]; [reflexivity|]. f_equal.
      destruct o as [a b]. destruct (N.eq_dec a 0) as [->|Na]; [destruct (N.eq_dec b 0) as [->|Nb]; [reflexivity|]|];
        exfalso; apply Ni, (Dd id _ Eo'); congruence. }
  split. { intros s Hs. apply in_map_iff in Hs as (x & <- & _). reflexivity. }
  split; [congruence|]. split; [reflexivity|]. split.
  { intros id Hid. destruct (nth_error e (N.to_nat id)) as [o|] eqn:Eo; [|apply nth_error_None in Eo; lia].
    destruct (He id o Eo) as [->|[Ni Eo']]; [reflexivity|]. destruct o as [z|]; [|reflexivity]. exfalso. apply Ni. eauto. }
  rewrite map_length. auto.
Qed.
Lemma alloc_ok slots max degree lists t : alloc_scratch slots max degree lists = Ok t -> td_ok max degree lists t.
Proof.
  unfold alloc_scratch, reset_neighbors. destruct (N.eqb_spec slots 0), (N.eqb_spec max 0); cbn [orb]; try discriminate.
  cbn [td_offsets td_dirty put_all bind]. intros E. injection E as <-.
  constructor; cbn [td_visited td_front td_exact td_exact_dirty td_buf td_offsets td_dirty td_slot_len td_free td_inflight td_sector with_lists];
    rewrite ?repeat_length; try reflexivity; try lia; try (now intros ? []).
  - eexists. apply vis_new.
  - intros id z H. apply nth_error_In, repeat_spec in H. discriminate.
  - intros id o H. apply nth_error_In, repeat_spec in H. contradiction.
Qed.
Lemma resize_ok max degree lists t max' : td_ok max degree lists t -> td_ok (N.max max max') degree lists (resize_slot_capacity t max').
Proof.
  intros H. destruct (tk_vis _ _ _ _ H) as (mem & V). unfold resize_slot_capacity. rewrite (vi_bits _ _ _ V).
  destruct (N.leb_spec max' max) as [L|L]; [now rewrite N.max_l by lia|]. rewrite N.max_r by lia.
  destruct H as [_ Le Ei Ed Dg Bf Lo Di Dd Io So].
  constructor; cbn [td_visited td_front td_exact td_exact_dirty td_buf td_offsets td_dirty td_slot_len td_free td_inflight td_sector];
    rewrite ?app_length, ?repeat_length; auto; try lia.
  - eexists. apply vis_new.
  - intros id Hid. specialize (Ei id Hid). lia.
  - intros id z E. destruct (Nat.lt_ge_cases (N.to_nat id) (length (td_exact t))); [rewrite nth_error_app1 in E by assumption; eauto|].
    rewrite nth_error_app2 in E by assumption. apply nth_error_In, repeat_spec in E. discriminate.
  - intros id Hid. specialize (Di id Hid). lia.
  - intros id o E Ne. destruct (Nat.lt_ge_cases (N.to_nat id) (length (td_offsets t))); [rewrite nth_error_app1 in E by assumption; eauto|].
    rewrite nth_error_app2 in E by assumption. apply nth_error_In, repeat_spec in E. contradiction.
Qed.

(** ** Results *)
Lemma take_live_filter deleted l : forall k, take_live deleted k l = firstn k (List.filter (fun e => negb (deleted (fst e))) l).
Proof.
  induction l as [|(id & x) l IH]; intros [|k]; cbn [take_live List.filter]; auto. cbn [fst].
  destruct (deleted id); cbn [negb]; [now rewrite IH|]. cbn [firstn]. now rewrite IH.
Qed.
Lemma front_list_is cap t : q_inv cap (td_front t) -> front_list t = map fst (q_list (td_front t)).
Proof.
  intros I. unfold front_list, npq_prefix, q_list, q_entries. now rewrite map_map.
Qed.

Lemma disk_lemma_full q t fuel max degree lists : dq_ok max degree lists q -> td_ok max degree lists t -> dq_fuel q <= fuel ->
  exists t' I e C, dq_run q fuel t = Done (Ok (take_live (d_deleted (dq_disk q)) (dq_top_k q) (map fst C), t', e)) /\ td_ok max degree lists t'
    /\ sinv (disk_edge (dq_disk q)) (eq (d_medoid (dq_disk q))) (d_dist (dq_disk q)) (dq_capacity q) I [] e [] C
    /\ In (d_medoid (dq_disk q)) I /\ (forall x, In x C -> snd x = true) /\ StronglySorted cand_lt (map fst C)
    /\ map fst C = closest (dq_disk q) (dq_capacity q) I
    /\ (dq_deterministic q = true -> best_first (dq_disk q) (dq_capacity q) [d_medoid (dq_disk q)] [] I e).
Proof.
  intros [Hp Hmd Hdg Hr Hs Hev] T Hf. unfold dq_fuel in Hf. unfold dq_run, disk_greedy_search. fold (dq_capacity q).
  set (d := dq_disk q) in *. set (cap := dq_capacity q) in *.
  destruct (reset_query_spec (d_nbrs d) max degree lists t cap T) as (t0 & -> & V0 & Q0 & C0 & L0 & N0 & Ex0 & Exd & Exn & Li0 & Ls0). cbn [bind].
  destruct (vis_mark max (td_visited t0) (fun _ => false) (d_medoid d) V0 Hmd) as (v & w & E1 & V1 & _). unfold vb_set. rewrite E1. cbn [bind].
  assert (D0 : dinv d max degree (N.to_nat lists) cap (with_visited t0 v) [] ([] ++ d_medoid d :: []) [] []).
  { constructor; cbn [app].
    - exists (fun p => N.eqb (d_medoid d) p || false). split; [exact V1|]. split.
      + intros p [<-|[]]. now rewrite N.eqb_refl.
      + intros p Hpp. left. left. rewrite orb_false_r in Hpp. now apply N.eqb_eq.
    - exact Q0.
    - cbn [td_front with_visited]. rewrite C0. change [d_medoid d] with ([] ++ [d_medoid d]). apply sinv_discover; [apply sinv_nil|now apply reach_start|intros []].
    - exists []. cbn [td_front with_visited]. rewrite C0. cbn [ids_of map]. eapply lists_same; [..|exact L0]; reflexivity.
    - cbn [td_front with_visited map]. rewrite <- q_list_content, C0. apply smallest_nil. }
  assert (Rm : cap <= N.to_nat lists) by lia.
  destruct (absorb_spec d max degree (N.to_nat lists) cap Hp Hmd Hdg Rm Hs _ _ _ _ _ _ _ D0) as (t1 & -> & D1 & Fr1). cbn [app] in D1.
  assert (Hs1 : 0 < length (td_sector t1)).
  { destruct Fr1 as (_ & _ & _ & ->). cbn [td_sector with_visited]. rewrite Ls0. apply T. }
  assert (Hi1 : length (td_inflight t1) = length (td_sector t1)).
  { destruct Fr1 as (_ & _ & -> & ->). cbn [td_sector td_inflight with_visited]. rewrite Ls0, Li0. apply T. }
  assert (R : exists t2 I E, (if dq_deterministic q then barrier_loop fuel d (dq_src q) t1 [] else pipe_search fuel d (dq_src q) (dq_events q) t1) = Done (Ok (t2, E))
     /\ dinv d max degree (N.to_nat lists) cap t2 I [] E [] /\ frame_io t1 t2 /\ In (d_medoid d) I /\ has_unexpanded_node (td_front t2) = false
     /\ (dq_deterministic q = true -> best_first d cap [d_medoid d] [] I E)).
  { destruct (dq_deterministic q).
    - destruct (barrier_spec d max degree (N.to_nat lists) cap Hp Hmd Hdg Rm Hs (dq_src q) fuel t1 [d_medoid d] [] D1 Hs1) as (t2 & I & E & R & D & Fr & Im & Un & B); [cbn; lia|now left|]. exists t2, I, E. auto 8.
    - destruct (pipe_search_spec d max degree (N.to_nat lists) cap Hp Hmd Hdg Rm Hs (dq_src q) (dq_events q) fuel t1 [d_medoid d] Hev D1) as (t2 & I & E & R); auto.
      + now left.
      + destruct Fr1 as (_ & _ & -> & _). exact N0.
      + lia.
      + destruct R as (R & D & Fr & Im & Un). exists t2, I, E. repeat (split; [assumption|]). discriminate. }
  destruct R as (t2 & I & E & -> & D2 & Fr2 & Im & Un & Bf). cbn [bind]. pose proof (closest_is _ _ _ _ _ _ _ _ _ _ D2) as Cl.
  destruct D2 as [(mem & V2 & _) Q2 S2 (U & L2) Sm2].
  exists t2, I, E, (q_list (td_front t2)). rewrite (front_list_is _ _ Q2). split; [reflexivity|]. split.
  { destruct Fr1 as (A1 & B1 & C1 & F1), Fr2 as (A2 & B2 & C2 & F2). cbn [td_exact td_exact_dirty td_inflight td_sector with_visited] in *. constructor.
    - eauto.
    - rewrite A2, A1. assumption.
    - rewrite B2, B1, Exd. intros ? [].
    - rewrite A2, A1, B2, B1. intros id z Ez. assert (N.to_nat id < length (td_exact t0)) by (apply nth_error_Some; congruence). rewrite Exn in Ez by lia. discriminate.
    - apply L2.
    - rewrite (li_buf _ _ _ _ _ _ _ L2). now rewrite N2Nat.id.
    - apply L2.
    - apply L2.
    - intros id o Eo Ne. assert (Li : N.to_nat id < length (td_offsets t2)) by (apply nth_error_Some; congruence). rewrite (li_len _ _ _ _ _ _ _ L2) in Li.
      destruct (in_dec N.eq_dec id (map fst U)) as [Hu|Hu]; [now apply (li_dirty _ _ _ _ _ _ _ L2)|].
      rewrite (li_hasnt _ _ _ _ _ _ _ L2 id ltac:(lia) Hu) in Eo. congruence.
    - congruence.
    - rewrite F2. assumption. }
  split; [assumption|]. split; [assumption|]. split; [eapply npq_all_expanded; eauto|].
  rewrite q_list_content. split; [unfold q_content; fold of_nbr; apply (q_sorted_strong _ (qi_sorted _ _ Q2))|]. split; [exact Cl|exact Bf].
Qed.
Lemma disk_lemma q t fuel max degree lists : dq_ok max degree lists q -> td_ok max degree lists t -> dq_fuel q <= fuel ->
  exists t' I e C, dq_run q fuel t = Done (Ok (take_live (d_deleted (dq_disk q)) (dq_top_k q) (map fst C), t', e)) /\ td_ok max degree lists t'
    /\ sinv (disk_edge (dq_disk q)) (eq (d_medoid (dq_disk q))) (d_dist (dq_disk q)) (dq_capacity q) I [] e [] C
    /\ In (d_medoid (dq_disk q)) I /\ (forall x, In x C -> snd x = true) /\ StronglySorted cand_lt (map fst C).
Proof.
  intros Q T F. destruct (disk_lemma_full q t fuel max degree lists Q T F) as (t' & I & e & C & R & T' & S & M & Fl & So & _). exists t', I, e, C. auto 8.
Qed.
Lemma history_td_ok degree lists max t : td_history degree lists max t -> td_ok max degree lists t.
Proof.
  induction 1 as [slots max t E|max t max' H IH|max t q hits t' e H IH Q R].
  - eapply alloc_ok; eauto.
  - now apply resize_ok.
  - destruct (disk_lemma q t (dq_fuel q) max degree lists Q IH (le_n _)) as (t2 & I & e2 & C & R2 & T & _). rewrite R in R2. now injection R2 as _ -> _.
Qed.

Lemma filter_sorted {A} (R : A -> A -> Prop) f l : StronglySorted R l -> StronglySorted R (List.filter f l).
Proof.
  induction 1 as [|a l S IH F]; cbn; [constructor|]. destruct (f a); [|assumption]. constructor; [assumption|].
  apply Forall_forall. intros y Hy. apply filter_In in Hy as [Hy _]. rewrite Forall_forall in F. auto.
Qed.
Lemma nodup_map_filter {A B} (g : A -> B) f l : NoDup (map g l) -> NoDup (map g (List.filter f l)).
Proof.
  induction l as [|a l IH]; cbn; auto. intros H. inversion H as [|? ? N ND]; subst. destruct (f a); cbn; auto. constructor; auto.
  intros K. apply N. apply in_map_iff in K as (y & <- & Hy). apply filter_In in Hy as [Hy _]. now apply in_map.
Qed.
Lemma filter_all {A} (f : A -> bool) l : (forall x, In x l -> f x = true) -> List.filter f l = l.
Proof. induction l as [|a l IH]; intros H; cbn; [reflexivity|]. rewrite (H a (or_introl eq_refl)), IH; auto. intros x Hx. apply H. now right. Qed.
Section Final.
  Variables (d : disk) (cap : nat) (I E : list N) (C : list entry).
  Hypothesis S : sinv (disk_edge d) (eq (d_medoid d)) (d_dist d) cap I [] E [] C.
  Hypothesis Hm : In (d_medoid d) I.
  Hypothesis Fl : forall x, In x C -> snd x = true.
  Hypothesis So : StronglySorted cand_lt (map fst C).
  Let live_of := List.filter (fun e : N * Z => negb (d_deleted d (fst e))) (map fst C).
  Lemma live_in id z : In (id, z) live_of <-> In (id, z) (map fst C) /\ d_deleted d id = false.
  Proof. unfold live_of. rewrite filter_In. cbn [fst]. now rewrite negb_true_iff. Qed.
  Lemma live_sorted : StronglySorted cand_lt live_of.
  Proof. now apply filter_sorted. Qed.
  Lemma lt_le l : StronglySorted cand_lt l -> StronglySorted (fun a b => (snd a <= snd b)%Z) l.
  Proof.
    induction 1 as [|a l S' IH F]; constructor; auto. apply Forall_forall. intros y Hy. rewrite Forall_forall in F. specialize (F y Hy). unfold cand_lt in F. lia.
  Qed.
  Lemma sorted_app_any {A} (R : A -> A -> Prop) (l l' : list A) : StronglySorted R (l ++ l') -> forall x y, In x l -> In y l' -> R x y.
  Proof.
    induction l as [|a l IH]; cbn [app]; intros H x y Hx Hy; [destruct Hx|]. inversion H as [|? ? H1 F]; subst. destruct Hx as [<-|Hx]; [|eauto].
    rewrite Forall_forall in F. apply F, in_or_app. now right.
  Qed.
  Lemma reach_live x : disk_reachable d x -> x = d_medoid d \/ d_deleted d x = false.
  Proof. destruct 1 as [x <-|x y _ (_ & _ & H)]; auto. Qed.
  Lemma disk_ranked k : ranked (live d) (d_dist d) k (firstn k live_of).
  Proof.
    pose proof live_sorted as L. rewrite <- (firstn_skipn k live_of) in L. apply sorted_app_l in L. constructor.
    - rewrite firstn_length. lia.
    - rewrite <- firstn_map. apply nodup_firstn. unfold live_of. apply nodup_map_filter. rewrite map_map. apply (kept_nodup _ _ _ _ _ _ _ _ _ S).
    - intros id z H. apply firstn_in, live_in in H as [H D]. apply in_map_iff in H as (e & Ee & He).
      destruct (kept_inserted _ _ _ _ _ _ _ _ _ _ S He) as [Hi Hd]. rewrite Ee in Hi, Hd. cbn [fst snd] in *. split; [|assumption]. split; [|assumption].
      apply (si_reach _ _ _ _ _ _ _ _ _ S), in_or_app. now left.
    - now apply lt_le.
  Qed.
  Lemma disk_cand_sorted k : StronglySorted cand_lt (firstn k live_of).
  Proof. pose proof live_sorted as L. rewrite <- (firstn_skipn k live_of) in L. now apply sorted_app_l in L. Qed.
  Lemma live_count : length C <= length live_of + (if d_deleted d (d_medoid d) then 1 else 0).
  Proof.
    unfold live_of. transitivity (length (map fst C)); [rewrite map_length; apply le_n|].
    assert (ND : NoDup (map fst (map fst C))) by (rewrite map_map; apply (kept_nodup _ _ _ _ _ _ _ _ _ S)).
    assert (M : forall x, In x (map fst (map fst C)) -> x = d_medoid d \/ d_deleted d x = false).
    { intros x Hx. rewrite map_map in Hx. apply in_map_iff in Hx as (e & <- & He). apply reach_live, (si_reach _ _ _ _ _ _ _ _ _ S), in_or_app. left.
      apply (kept_inserted _ _ _ _ _ _ _ _ _ _ S He). }
    set (l := map fst C) in *. clearbody l. clear -ND M.
    destruct (in_dec N.eq_dec (d_medoid d) (map fst l)) as [Hin|Hn].
    - apply in_map_iff in Hin as (e & Ee & He). apply in_split in He as (a & b & ->). rewrite filter_app, !app_length. cbn [List.filter length]. rewrite Ee.
      rewrite map_app in ND, M. cbn [map] in ND, M. rewrite Ee in ND. apply NoDup_remove_2 in ND.
      assert (A : List.filter (fun e0 : N * Z => negb (d_deleted d (fst e0))) a = a).
      { apply filter_all. intros x Hx. apply negb_true_iff. destruct (M (fst x)) as [K|K]; [apply in_or_app; left; now apply in_map| |assumption].
        exfalso. apply ND, in_or_app. left. rewrite <- K. now apply in_map. }
      assert (B : List.filter (fun e0 : N * Z => negb (d_deleted d (fst e0))) b = b).
      { apply filter_all. intros x Hx. apply negb_true_iff. destruct (M (fst x)) as [K|K]; [apply in_or_app; right; right; now apply in_map| |assumption].
        exfalso. apply ND, in_or_app. right. rewrite <- K. now apply in_map. }
      rewrite A, B. destruct (d_deleted d (d_medoid d)); cbn [negb length]; rewrite ?B; lia.
    - assert (A : List.filter (fun e0 : N * Z => negb (d_deleted d (fst e0))) l = l).
      { apply filter_all. intros x Hx. apply negb_true_iff. destruct (M (fst x)) as [K|K]; [now apply in_map| |assumption].
        exfalso. apply Hn. rewrite <- K. now apply in_map. }
      rewrite A. lia.
  Qed.
  Lemma disk_nearest_inserted k : k + (if d_deleted d (d_medoid d) then 1 else 0) <= cap \/ length I <= cap ->
    nearest (fun x => In x I /\ d_deleted d x = false) (d_dist d) k (firstn k live_of).
  Proof.
    intros Hk id [Hid Hd]. destruct (si_keep _ _ _ _ _ _ _ _ _ S) as (HL & rest & Pm & Fu & Far). rewrite map_length in HL, Fu.
    assert (Hin : In (id, d_dist d id) (map fst C ++ rest)) by (apply (Permutation_in _ Pm); now apply (in_map (fun i => (i, d_dist d i)))).
    apply in_app_or in Hin as [Hin|Hin].
    - assert (Hl : In (id, d_dist d id) live_of) by now apply live_in. rewrite <- (firstn_skipn k live_of) in Hl. apply in_app_or in Hl as [Hl|Hl]; [now left|]. right. split.
      + assert (length (skipn k live_of) <> 0) by (destruct (skipn k live_of); [destruct Hl|discriminate]). rewrite skipn_length in H. rewrite firstn_length. lia.
      + intros y Hy. pose proof live_sorted as L. rewrite <- (firstn_skipn k live_of) in L. pose proof (sorted_app_any _ _ _ (lt_le _ L) y _ Hy Hl) as K. exact K.
    - right. assert (FC : length C = cap) by (apply Fu; intros ->; destruct Hin). split.
      + pose proof live_count as LC. destruct Hk as [Hk|Hk]; [rewrite firstn_length; lia|]. exfalso.
        apply Permutation_length in Pm. unfold with_dist in Pm. rewrite app_length, !map_length in Pm. destruct rest; [destruct Hin|]. cbn [length] in Pm. unfold entry in *. lia.
      + intros y Hy. apply firstn_in in Hy. destruct y as [i z]. apply live_in in Hy as [Hy _]. apply (Far (i, z) (id, d_dist d id)); assumption.
  Qed.
  Lemma disk_all x : at_most cap (disk_reachable d) -> disk_reachable d x -> In (x, d_dist d x) (map fst C) /\ length I <= cap.
  Proof.
    intros A Hx. assert (LI : length I <= cap).
    { destruct A as (l & Ll & Hl). pose proof (si_nodup _ _ _ _ _ _ _ _ _ S) as ND. rewrite app_nil_r in ND.
      enough (length I <= length l) by lia. apply NoDup_incl_length; [assumption|]. intros y Hy. apply Hl, (si_reach _ _ _ _ _ _ _ _ _ S), in_or_app. now left. }
    split; [|assumption].
    assert (Hi : In x I) by (eapply final_closed; eauto; intros ? <-; assumption).
    destruct (si_keep _ _ _ _ _ _ _ _ _ S) as (HL & rest & Pm & Fu & Far). rewrite map_length in HL, Fu.
    assert (Hin : In (x, d_dist d x) (map fst C ++ rest)) by (apply (Permutation_in _ Pm); now apply (in_map (fun i => (i, d_dist d i)))).
    apply in_app_or in Hin as [Hin|Hin]; [assumption|]. exfalso. assert (FC : length C = cap) by (apply Fu; intros ->; destruct Hin).
    apply Permutation_length in Pm. unfold with_dist in Pm. rewrite app_length, !map_length in Pm. destruct rest; [destruct Hin|]. cbn [length] in Pm. unfold entry in *. lia.
  Qed.
  Lemma disk_exact k : at_most cap (disk_reachable d) -> nearest (live d) (d_dist d) k (firstn k live_of).
  Proof.
    intros A id [Hr Hd]. destruct (disk_all id A Hr) as [Hc Hl]. apply disk_nearest_inserted; [now right|]. split; [|assumption].
    apply in_map_iff in Hc as (e & Ee & He). replace id with (fst (fst e)) by (now rewrite Ee). apply (kept_inserted _ _ _ _ _ _ _ _ _ _ S He).
  Qed.
  Lemma disk_settles k : k + (if d_deleted d (d_medoid d) then 1 else 0) <= cap ->
    nearest (fun y => d_deleted d y = false /\ (y = d_medoid d \/ exists x z, In (x, z) (firstn k live_of) /\ disk_edge d x y)) (d_dist d) k (firstn k live_of).
  Proof.
    intros Hk id [Hd Hid]. apply disk_nearest_inserted; [now left|]. split; [|assumption].
    destruct Hid as [->|(x & z & Hx & Hy)]; [assumption|]. apply firstn_in, live_in in Hx as [Hx _]. apply in_map_iff in Hx as (e & Ee & He).
    assert (Hx : In x E) by (replace x with (fst (fst e)) by (now rewrite Ee); apply (si_flags _ _ _ _ _ _ _ _ _ S); auto).
    destruct (si_closed _ _ _ _ _ _ _ _ _ S _ _ Hx Hy) as [[]|K]. now rewrite app_nil_r in K.
  Qed.
End Final.
Lemma sorted_lt_unique l : forall l', StronglySorted cand_lt l -> StronglySorted cand_lt l' -> (forall x, In x l <-> In x l') -> l = l'.
Proof.
  induction l as [|a l IH]; intros [|b l'] H H' E; auto.
  - exfalso. apply (E b). now left.
  - exfalso. apply (E a). now left.
  - inversion H as [|? ? S F]; inversion H' as [|? ? S' F']; subst. rewrite Forall_forall in F, F'.
    assert (a = b).
    { destruct (proj1 (E a) (or_introl eq_refl)) as [K|K]; [auto|]. destruct (proj2 (E b) (or_introl eq_refl)) as [K'|K']; [auto|].
      exfalso. specialize (F b K'). specialize (F' a K). unfold cand_lt in *. lia. }
    subst b. f_equal. apply IH; auto. intros x. split; intros Hx.
    + destruct (proj1 (E x) (or_intror Hx)) as [<-|K]; [|assumption]. specialize (F a Hx). unfold cand_lt in F. lia.
    + destruct (proj2 (E x) (or_intror Hx)) as [<-|K]; [|assumption]. specialize (F' a Hx). unfold cand_lt in F'. lia.
Qed.
Lemma disk_same d cap cap' I I' E E' C C' :
  sinv (disk_edge d) (eq (d_medoid d)) (d_dist d) cap I [] E [] C -> In (d_medoid d) I -> (forall x, In x C -> snd x = true) -> StronglySorted cand_lt (map fst C) ->
  sinv (disk_edge d) (eq (d_medoid d)) (d_dist d) cap' I' [] E' [] C' -> In (d_medoid d) I' -> (forall x, In x C' -> snd x = true) -> StronglySorted cand_lt (map fst C') ->
  at_most cap (disk_reachable d) -> at_most cap' (disk_reachable d) -> map fst C = map fst C'.
Proof.
  intros H Hm Fl So H' Hm' Fl' So' A A'. apply sorted_lt_unique; auto. intros [x z].
  assert (Rw : forall cap I E C, sinv (disk_edge d) (eq (d_medoid d)) (d_dist d) cap I [] E [] C -> In (x, z) (map fst C) -> disk_reachable d x /\ z = d_dist d x).
  { intros c J F D SS K. apply in_map_iff in K as (e & Ee & He). destruct (kept_inserted _ _ _ _ _ _ _ _ _ _ SS He) as [Hi Hd]. rewrite Ee in Hi, Hd.
    split; [|exact Hd]. apply (si_reach _ _ _ _ _ _ _ _ _ SS), in_or_app. now left. }
  split; intros K; [destruct (Rw _ _ _ _ H K) as [R ->]|destruct (Rw _ _ _ _ H' K) as [R ->]]; eapply disk_all; eauto.
Qed.
