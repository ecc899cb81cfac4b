(** Property C27 of the search frontier (NeighborPriorityQueue), and the
    never-skip property (C26) of its cursor. *)
From Verif Require Import NpqModel NpqSpec PoolProofs NpqProofs.

(** After any insertions, expansions and resets, the queue holds exactly the
    [cap] smallest candidates inserted since the last reset, in order.  Each id
    is assumed to come with one distance, as it does in a search. *)
Theorem frontier_holds_smallest : forall cap ops, 0 < cap -> one_distance (candidates ops) ->
  exists q, run_q (npq_new cap) ops = Ok q /\ smallest cap (since_reset [] ops) (q_content q).
Proof. intros cap ops Hc OD. destruct (q_reached cap ops Hc OD) as (q & E & _ & S). eauto. Qed.
Print Assumptions frontier_holds_smallest.

(** No id occurs twice. *)
Theorem frontier_ids_distinct : forall cap ops q, 0 < cap -> one_distance (candidates ops) ->
  run_q (npq_new cap) ops = Ok q -> NoDup (map fst (q_content q)).
Proof.
  intros cap ops q Hc OD E. destruct (q_reached cap ops Hc OD) as (q' & E' & _ & S). rewrite E in E'. injection E' as <-.
  destruct S as (S & _ & I & _). assert (OD' : one_distance (q_content q)).
  { intros x y Hx Hy. apply I, since_in in Hx as [[]|Hx]. apply I, since_in in Hy as [[]|Hy]. now apply OD. }
  clear - S OD'. induction S as [|a l S IH F]; cbn [map]; constructor.
  - intros H. apply in_map_iff in H as (b & Eb & Hb). rewrite Forall_forall in F. specialize (F b Hb).
    assert (D : snd b = snd a) by (apply OD'; [now right|now left|exact Eb]). unfold cand_lt in F. lia.
  - apply IH. intros x y Hx Hy. apply OD'; now right.
Qed.
Print Assumptions frontier_ids_distinct.

(** The order of the insertions, repetitions and interleaved expansions do not
    matter: two runs inserting the same candidates end with the same contents. *)
Theorem frontier_order_independent : forall cap ops ops' q q', 0 < cap ->
  one_distance (candidates ops) -> one_distance (candidates ops') ->
  (forall x, In x (since_reset [] ops) <-> In x (since_reset [] ops')) ->
  run_q (npq_new cap) ops = Ok q -> run_q (npq_new cap) ops' = Ok q' -> q_content q = q_content q'.
Proof.
  intros cap ops ops' q q' Hc OD OD' Same E E'.
  destruct (q_reached cap ops Hc OD) as (r & Er & _ & S). destruct (q_reached cap ops' Hc OD') as (r' & Er' & _ & S').
  rewrite E in Er. rewrite E' in Er'. injection Er as <-. injection Er' as <-. eapply smallest_unique; eauto.
Qed.
Print Assumptions frontier_order_independent.

(** Two candidates at equal distance, one duplicate and more candidates than
    the capacity, in two orders. *)
Definition ex_q1 : list q_op := [Insert 9 1; Reset; Insert 5 30; Insert 6 10; Expand; Insert 4 10; Insert 6 10; Insert 8 (-4); Expand; Insert 7 50]%Z.
Definition ex_q2 : list q_op := [Insert 7 50; Insert 8 (-4); Insert 5 30; Insert 4 10; Expand; Insert 6 10]%Z.
Example frontier_example : match run_q (npq_new 3) ex_q1, run_q (npq_new 3) ex_q2 with
  | Ok q, Ok q' => q_content q = [(8%N, -4); (4%N, 10); (6%N, 10)]%Z /\ q_content q' = q_content q
  | _, _ => False end.
Proof. vm_compute. split; reflexivity. Qed.
Example one_distance_example : one_distance (candidates ex_q1).
Proof.
  intros x y Hx Hy. cbn in Hx, Hy.
  repeat match goal with H : _ \/ _ |- _ => destruct H as [<-|H] | H : False |- _ => destruct H end; cbn; intros E; try reflexivity; discriminate E.
Qed.

(** The id reported as evicted is the one that leaves the queue, and nothing
    is evicted while there is room. *)
Theorem frontier_eviction_reported : forall cap ops q id d r q', 0 < cap -> one_distance (candidates (ops ++ [Insert id d])) ->
  run_q (npq_new cap) ops = Ok q -> npq_insert q {| n_id := id; n_dist := d; n_exp := false |} = Ok (r, q') ->
  match r_inserted r, r_evicted r with
  | false, None => q' = q
  | false, Some _ => False
  | true, None => Permutation ((id, d) :: q_content q) (q_content q')
  | true, Some e => exists de, length (q_content q) = cap /\ In (e, de) (q_content q)
        /\ Permutation ((id, d) :: q_content q) ((e, de) :: q_content q')
  end.
Proof.
  intros cap ops q id d r q' Hc OD E Ei.
  assert (OD1 : one_distance (candidates ops)).
  { intros x y Hx Hy. apply OD; unfold candidates; rewrite flat_map_app; apply in_or_app; now left. }
  destruct (q_reached cap ops Hc OD1) as (q0 & E0 & I & S). rewrite E in E0. injection E0 as <-.
  assert (D : q_insert_does cap q (id, d) (npq_insert q {| n_id := id; n_dist := d; n_exp := false |})).
  { apply npq_insert_spec; auto. intros e He Eid. change (snd (of_nbr e) = snd (id, d)). apply OD; [| |exact Eid].
    - unfold candidates. rewrite flat_map_app. apply in_or_app. left.
      assert (H : In (of_nbr e) (since_reset [] ops)) by (apply S; unfold q_content; now apply (in_map of_nbr)).
      apply since_in in H as [[]|H]; exact H.
    - unfold candidates. rewrite flat_map_app. apply in_or_app. right. now left. }
  rewrite Ei in D. destruct D as [(Eq & _)|(q1 & lo & ev & Eq & _ & [Plo _] & Llo & K & EV)]; injection Eq as -> ->; cbn [r_inserted r_evicted not_inserted]; auto.
  assert (KC : q_content q1 = firstn cap (ins_at lo (id, d) (q_content q))).
  { unfold q_content. rewrite K, <- firstn_map, map_ins. reflexivity. }
  pose proof (entries_length _ _ I) as EL. assert (CL : length (q_content q) = q_size q) by (unfold q_content; now rewrite map_length).
  assert (PM : Permutation ((id, d) :: q_content q) (ins_at lo (id, d) (q_content q))).
  { unfold ins_at. rewrite <- (firstn_skipn lo (q_content q)) at 1. apply Permutation_middle. }
  assert (IL : length (ins_at lo (id, d) (q_content q)) = q_size q + 1) by (rewrite ins_at_length; lia).
  destruct ev as [e|].
  - destruct EV as (F & c & Ec & <-). exists (n_dist c).
    split; [lia|]. split; [apply (in_map of_nbr), (nth_error_In _ _ Ec)|].
    rewrite PM, KC. set (l := ins_at lo (id, d) (q_content q)) in *.
    assert (T : nth_error l cap = Some (of_nbr c)).
    { unfold l. rewrite nth_error_ins by lia. destruct (Nat.ltb_spec cap lo); [lia|]. destruct (Nat.eqb_spec cap lo); [lia|].
      unfold q_content. now apply (map_nth_error of_nbr). }
    assert (l = firstn cap l ++ [of_nbr c]).
    { rewrite <- (firstn_skipn cap l) at 1. f_equal. pose proof (nth_error_skipn l cap 0) as N0. rewrite Nat.add_0_r, T in N0.
      assert (SL : length (skipn cap l) = 1) by (rewrite skipn_length; lia). destruct (skipn cap l) as [|z [|]]; try discriminate. now injection N0 as ->. }
    rewrite H at 1. rewrite Permutation_app_comm. reflexivity.
  - rewrite KC, firstn_all2 by lia. exact PM.
Qed.
Print Assumptions frontier_eviction_reported.
Example frontier_eviction_example : exists r q', match run_q (npq_new 2) [Insert 1 5; Insert 2 7] with
  | Ok q => npq_insert q {| n_id := 3; n_dist := 6; n_exp := false |} = Ok (r, q') | _ => False end
  /\ r_evicted r = Some 2%N.
Proof. eexists _, _. split; vm_compute; reflexivity. Qed.

(** The cursor never skips: an expansion returns the smallest unexpanded entry,
    and has_unexpanded_node is false only when every entry is expanded. *)
Theorem frontier_never_skips : forall cap ops q, 0 < cap -> one_distance (candidates ops) ->
  run_q (npq_new cap) ops = Ok q ->
  (has_unexpanded_node q = false -> forall e, In e (q_entries q) -> n_exp e = true)
  /\ (has_unexpanded_node q = true -> exists e q', closest_unexpanded q = Ok (e, q')
        /\ In {| n_id := n_id e; n_dist := n_dist e; n_exp := false |} (q_entries q)
        /\ forall e', In e' (q_entries q) -> n_exp e' = false -> (n_id e', n_dist e') = (n_id e, n_dist e) \/ cand_lt (n_id e, n_dist e) (n_id e', n_dist e')).
Proof.
  intros cap ops q Hc OD E. destruct (q_reached cap ops Hc OD) as (q0 & E0 & I & _). rewrite E in E0. injection E0 as <-.
  unfold has_unexpanded_node. destruct (Nat.ltb_spec (q_cur q) (q_size q)) as [L|L]; split; try discriminate; intros _.
  - destruct (expand_spec cap q I L) as (id & d & q' & Ex & _ & Ec & _). eexists _, q'. split; [exact Ex|]. cbn [n_id n_dist].
    split; [eapply nth_error_In; eauto|]. intros e' He Hx. apply In_nth_error in He as [i Hi].
    destruct (qi_flags _ _ I i e' Hi) as (F & _). destruct (Nat.lt_trichotomy i (q_cur q)) as [Li|[->|Li]].
    + rewrite F in Hx by assumption. discriminate.
    + rewrite Ec in Hi. injection Hi as <-. now left.
    + right. apply (qi_sorted _ _ I _ _ _ _ Li Ec Hi).
  - intros e He. apply In_nth_error in He as [i Hi]. apply (qi_flags _ _ I i e Hi).
    assert (i < length (q_entries q)) by (apply nth_error_Some; congruence). rewrite (entries_length _ _ I) in H. lia.
Qed.
Print Assumptions frontier_never_skips.
Example frontier_never_skips_example : match run_q (npq_new 3) [Insert 1 5; Insert 2 7; Expand; Insert 3 4]%Z with
  | Ok q => has_unexpanded_node q = true /\ map n_exp (q_entries q) = [false; true; false] | _ => False end.
Proof. vm_compute. split; reflexivity. Qed.

(** Without that assumption the queue can hold an id twice: the binary search
    meets an equal id only by luck.  (Searches compute one distance per id.) *)
Theorem frontier_duplicate_id_refuted : exists ops q, run_q (npq_new 3) ops = Ok q /\ ~ NoDup (map fst (q_content q)).
Proof.
  exists [Insert 1 5; Insert 1 3]%Z. eexists. split; [vm_compute; reflexivity|]. vm_compute. intros N. inversion N as [|? ? N1 _]. apply N1. now left.
Qed.
Print Assumptions frontier_duplicate_id_refuted.
