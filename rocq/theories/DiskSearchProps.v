(** C28, the search on disk: disk_greedy_search terminates in both modes,
    wherever the nodes are found and in whatever order reads complete; it
    returns live nodes with their exact distances, closest first, expands no
    node twice, and is exact when its list can hold every reachable node. *)
From Verif Require Import DiskSearchModel DiskSearchSpec NpqProofs BitsetProofs FrontierProofs SearchProofs DiskSearchProofs.

Theorem disk_search_ranked : forall degree lists max t q fuel,
  td_history degree lists max t -> dq_ok max degree lists q -> dq_fuel q <= fuel ->
  exists hits t' e, dq_run q fuel t = Done (Ok (hits, t', e))
    /\ ranked (live (dq_disk q)) (d_dist (dq_disk q)) (dq_top_k q) hits /\ StronglySorted cand_lt hits.
Proof.
  intros degree lists max t q fuel T Q F.
  destruct (disk_lemma q t fuel max degree lists Q (history_td_ok _ _ _ _ T) F) as (t' & I & e & C & R & _ & S & M & Fl & So).
  exists (take_live (d_deleted (dq_disk q)) (dq_top_k q) (map fst C)), t', e. split; [exact R|]. rewrite take_live_filter.
  split; [eapply disk_ranked; eauto|now apply disk_cand_sorted].
Qed.
Print Assumptions disk_search_ranked.

Theorem disk_search_expands_once : forall degree lists max t q fuel hits t' e,
  td_history degree lists max t -> dq_ok max degree lists q -> dq_fuel q <= fuel -> dq_run q fuel t = Done (Ok (hits, t', e)) ->
  NoDup e /\ forall x, In x e -> disk_reachable (dq_disk q) x.
Proof.
  intros degree lists max t q fuel hits t' e T Q F R.
  destruct (disk_lemma q t fuel max degree lists Q (history_td_ok _ _ _ _ T) F) as (t2 & I & e2 & C & R2 & _ & S & M & Fl & So).
  rewrite R in R2. injection R2 as _ _ ->. split; [apply S|]. intros x Hx. apply (si_reach _ _ _ _ _ _ _ _ _ S), in_or_app. left. now apply (si_exp _ _ _ _ _ _ _ _ _ S).
Qed.
Print Assumptions disk_search_expands_once.

(** One place more than [top_k] is needed when the medoid is deleted: it takes
    a place in the list but is not returned. *)
Theorem disk_search_settled : forall degree lists max t q fuel hits t' e,
  td_history degree lists max t -> dq_ok max degree lists q -> dq_fuel q <= fuel -> dq_run q fuel t = Done (Ok (hits, t', e)) ->
  d_deleted (dq_disk q) (d_medoid (dq_disk q)) = false \/ dq_top_k q < dq_capacity q ->
  disk_settled q hits.
Proof.
  intros degree lists max t q fuel hits t' e T Q F R D.
  destruct (disk_lemma q t fuel max degree lists Q (history_td_ok _ _ _ _ T) F) as (t2 & I & e2 & C & R2 & _ & S & M & Fl & So).
  rewrite R in R2. injection R2 as -> _ _. rewrite take_live_filter. unfold disk_settled. eapply disk_settles; eauto.
  assert (dq_top_k q <= dq_capacity q) by (unfold dq_capacity; lia). destruct (d_deleted (dq_disk q) (d_medoid (dq_disk q))); [destruct D; [discriminate|]|]; lia.
Qed.
Print Assumptions disk_search_settled.

Theorem disk_search_exact : forall degree lists max t q fuel hits t' e,
  td_history degree lists max t -> dq_ok max degree lists q -> dq_fuel q <= fuel -> dq_run q fuel t = Done (Ok (hits, t', e)) ->
  at_most (dq_capacity q) (disk_reachable (dq_disk q)) ->
  nearest (live (dq_disk q)) (d_dist (dq_disk q)) (dq_top_k q) hits.
Proof.
  intros degree lists max t q fuel hits t' e T Q F R A.
  destruct (disk_lemma q t fuel max degree lists Q (history_td_ok _ _ _ _ T) F) as (t2 & I & e2 & C & R2 & _ & S & M & Fl & So).
  rewrite R in R2. injection R2 as -> _ _. rewrite take_live_filter. eapply disk_exact; eauto.
Qed.
Print Assumptions disk_search_exact.

(** Two searches of the same index for the same query, with lists that can hold
    every reachable node, return the same: whatever the mode, the caches, the
    order of completions, the list sizes and the scratch. *)
Theorem disk_search_same : forall degree lists max t degree' lists' max' t' q q' hits u e hits' u' e',
  td_history degree lists max t -> dq_ok max degree lists q -> dq_run q (dq_fuel q) t = Done (Ok (hits, u, e)) ->
  td_history degree' lists' max' t' -> dq_ok max' degree' lists' q' -> dq_run q' (dq_fuel q') t' = Done (Ok (hits', u', e')) ->
  dq_disk q = dq_disk q' -> dq_top_k q = dq_top_k q' ->
  at_most (dq_capacity q) (disk_reachable (dq_disk q)) -> at_most (dq_capacity q') (disk_reachable (dq_disk q)) ->
  hits = hits'.
Proof.
  intros degree lists max t degree' lists' max' t' q q' hits u e hits' u' e' T Q R T' Q' R' Ed Ek A A'.
  destruct (disk_lemma q t _ max degree lists Q (history_td_ok _ _ _ _ T) (le_n _)) as (t2 & I & e2 & C & R2 & _ & S & M & Fl & So).
  destruct (disk_lemma q' t' _ max' degree' lists' Q' (history_td_ok _ _ _ _ T') (le_n _)) as (t3 & I' & e3 & C' & R3 & _ & S' & M' & Fl' & So').
  rewrite R in R2. rewrite R' in R3. injection R2 as -> _ _. injection R3 as -> _ _. rewrite <- Ed in *. rewrite Ek. f_equal. eapply disk_same; eauto.
Qed.
Print Assumptions disk_search_same.

(** The deterministic mode is the textbook search, step by step: it expands the
    same nodes in the same order, wherever nodes are found and however many
    page slots there are. *)
Theorem disk_search_textbook : forall degree lists max t q fuel hits t' e,
  td_history degree lists max t -> dq_ok max degree lists q -> dq_fuel q <= fuel -> dq_deterministic q = true ->
  dq_run q fuel t = Done (Ok (hits, t', e)) -> textbook (dq_disk q) (dq_capacity q) (dq_top_k q) hits e.
Proof.
  intros degree lists max t q fuel hits t' e T Q F D R.
  destruct (disk_lemma_full q t fuel max degree lists Q (history_td_ok _ _ _ _ T) F) as (t2 & I & e2 & C & R2 & _ & S & M & Fl & So & Cl & Bf).
  rewrite R in R2. injection R2 as -> _ ->. exists I. split; [auto|]. now rewrite take_live_filter, Cl.
Qed.
Print Assumptions disk_search_textbook.
(** The textbook search has one result. *)
Theorem textbook_unique : forall d cap top_k hits e hits' e', textbook d cap top_k hits e -> textbook d cap top_k hits' e' -> hits = hits' /\ e = e'.
Proof.
  intros d cap top_k hits e hits' e' (f & B & ->) (f' & B' & ->). destruct (best_first_unique d cap _ _ _ _ B _ _ B') as [-> ->]. now split.
Qed.
Print Assumptions textbook_unique.

(** ** Examples: six nodes, node 2 deleted, node 5 not reachable. *)
Definition ex_disk : disk :=
  {| d_nbrs := fun x => match x with 0 => [1; 2; 9] | 1 => [2; 3; 0] | 3 => [4; 1] | 4 => [3] | 5 => [0] | _ => [] end%N;
     d_dist := fun x => match x with 0%N => 40 | 1%N => 25 | 2%N => 1 | 3%N => 7 | 4%N => 7 | _ => 3 end%Z;
     d_deleted := fun x => N.eqb x 2; d_points := 6; d_medoid := 0 |}.
Definition ex_src (x : N) : source := match x with 1%N => Cached | 4%N => Peeked | _ => Device end.
Definition ex_query (det : bool) : disk_query :=
  {| dq_disk := ex_disk; dq_src := ex_src; dq_events := fun _ ids => rev ids; dq_deterministic := det; dq_top_k := 3; dq_list_size := 4 |}.
Definition ex_td : thread_data := match alloc_scratch 2 6 3 4 with Ok t => t | _ => {| td_visited := vb_resize 0; td_front := npq_new 0; td_exact := [];
  td_exact_dirty := []; td_buf := []; td_offsets := []; td_dirty := []; td_slot_len := 0; td_free := []; td_inflight := []; td_sector := [] |} end.
Definition ex_hits (r : fuelled (list (N * Z) * thread_data * list N)) : option (list (N * Z) * list N) :=
  match r with Done (Ok (h, _, e)) => Some (h, e) | _ => None end.
Example disk_search_example :
  ex_hits (dq_run (ex_query true) 22 ex_td) = Some ([(3, 7%Z); (4, 7%Z); (1, 25%Z)], [0; 1; 3; 4])%N
  /\ ex_hits (dq_run (ex_query false) 22 ex_td) = Some ([(3, 7%Z); (4, 7%Z); (1, 25%Z)], [0; 1; 3; 4])%N.
Proof. split; vm_compute; reflexivity. Qed.
Example disk_search_textbook_example : textbook ex_disk 4 3 [(3, 7%Z); (4, 7%Z); (1, 25%Z)]%N [0; 1; 3; 4]%N.
Proof.
  exists [0; 1; 3; 4]%N. split; [|reflexivity].
  apply bf_step with (x := 0%N); [reflexivity|]. apply bf_step with (x := 1%N); [reflexivity|]. apply bf_step with (x := 3%N); [reflexivity|].
  apply bf_step with (x := 4%N); [reflexivity|]. apply bf_stop. reflexivity.
Qed.
Example ex_td_history : td_history 3 4 6 ex_td.
Proof. apply (td_new 3 4 2 6). vm_compute. reflexivity. Qed.
Lemma ex_nbrs_len x : (N.of_nat (length (d_nbrs ex_disk x)) <= 3)%N.
Proof. cbn. destruct x as [|[[[p|p|]|[p|p|]|]|[[p|p|]|[p|p|]|]|]]; cbn; lia. Qed.
Example ex_query_ok det : dq_ok 6 3 4 (ex_query det).
Proof.
  constructor; try (cbn; lia).
  - apply ex_nbrs_len.
  - intros rd ids H. destruct ids as [|a l]; [contradiction|]. exists a. split; [now left|]. apply -> in_rev. now left.
Qed.
Lemma ex_edges x y : disk_edge ex_disk x y -> In y [0; 1; 3; 4]%N.
Proof.
  intros (H & Hp & Hd). assert (In y [0; 1; 2; 3; 4; 9]%N).
  { cbn in H. destruct x as [|[[[p|p|]|[p|p|]|]|[[p|p|]|[p|p|]|]|]]; cbn in H; cbn; tauto. }
  cbn in H0. destruct H0 as [<-|[<-|[<-|[<-|[<-|[<-|[]]]]]]]; cbn in *; try tauto; try discriminate; try lia.
Qed.
(** The capacity is 4 and four nodes are reachable: the search is exact. *)
Example ex_query_exact det : at_most (dq_capacity (ex_query det)) (disk_reachable ex_disk).
Proof. exists [0; 1; 3; 4]%N. split; [cbn; lia|]. intros x Hx. destruct Hx as [x <-|x y _ Hy]; [now left|]. now apply ex_edges in Hy. Qed.

(** ** Where the code falls short *)

(** A deleted medoid that is closer than all else takes the only place: a live
    reachable node is not returned although fewer than [top_k] are. *)
Theorem disk_search_deleted_medoid_refuted : exists degree lists max t q hits t' e,
  td_history degree lists max t /\ dq_ok max degree lists q /\ dq_run q (dq_fuel q) t = Done (Ok (hits, t', e))
  /\ ~ nearest (fun y => d_deleted (dq_disk q) y = false /\ disk_edge (dq_disk q) (d_medoid (dq_disk q)) y) (d_dist (dq_disk q)) (dq_top_k q) hits.
Proof.
  set (q := {| dq_disk := {| d_nbrs := fun x => if N.eqb x 0 then [1%N] else [0%N]; d_dist := fun x => if N.eqb x 0 then 1%Z else 5%Z;
                             d_deleted := fun x => N.eqb x 0; d_points := 2; d_medoid := 0 |};
               dq_src := fun _ => Device; dq_events := fun _ ids => ids; dq_deterministic := true; dq_top_k := 1; dq_list_size := 1 |}).
  destruct (alloc_scratch 1 2 1 1) as [t| | |] eqn:Et; try (vm_compute in Et; discriminate).
  assert (T : td_history 1 1 2 t) by (eapply td_new; eauto).
  assert (Q : dq_ok 2 1 1 q).
  { constructor; try (cbn; lia).
    - intros x. cbn. destruct (N.eqb x 0); cbn; lia.
    - intros rd ids H. destruct ids as [|a l]; [contradiction|]. exists a. split; now left. }
  destruct (dq_run q (dq_fuel q) t) as [|[[[hits t'] e]| | |]] eqn:R.
  2:{ exists 1%N, 1%N, 2%N, t, q, hits, t', e. split; [assumption|]. split; [assumption|]. split; [assumption|].
      vm_compute in Et. injection Et as <-. vm_compute in R. injection R as <- _ _. intros K.
      destruct (K 1%N) as [[]|[K1 _]]; [|discriminate K1]. split; [reflexivity|]. repeat split. now left. }
  all: vm_compute in Et; injection Et as <-; vm_compute in R; discriminate R.
Qed.
Print Assumptions disk_search_deleted_medoid_refuted.

(** A list longer than the scratch has room for makes the search throw. *)
Theorem disk_search_scratch_refuted : exists degree lists max t q,
  td_history degree lists max t /\ (d_points (dq_disk q) <= max)%N /\ (d_medoid (dq_disk q) < max)%N
  /\ (forall x, (N.of_nat (length (d_nbrs (dq_disk q) x)) <= degree)%N) /\ dq_run q (dq_fuel q) t = Done Throws.
Proof.
  exists 3%N, 2%N, 6%N, (match alloc_scratch 2 6 3 2 with Ok t => t | _ => ex_td end), (ex_query true).
  split; [apply (td_new 3 2 2 6); vm_compute; reflexivity|]. split; [cbn; lia|]. split; [cbn; lia|]. split; [apply ex_nbrs_len|].
  vm_compute. reflexivity.
Qed.
Print Assumptions disk_search_scratch_refuted.

(** The pipelined mode is not the textbook search, and its results depend on
    the order in which reads complete although no two distances are equal.
    beam_search.hpp:35-43 and 180-182 say that only equally distant nodes may
    be ordered differently and that both modes give identical recall. *)
Definition cx_disk : disk :=
  {| d_nbrs := fun x => match x with 0 => [1; 2] | 1 => [3; 4] | 2 => [5] | _ => [] end%N;
     d_dist := fun x => match x with 0%N => 100 | 1%N => 10 | 2%N => 11 | 3%N => 1 | 4%N => 2 | 5%N => 0 | _ => 50 end%Z;
     d_deleted := fun _ => false; d_points := 6; d_medoid := 0 |}.
Definition cx_query (det : bool) (events : nat -> list N -> list N) : disk_query :=
  {| dq_disk := cx_disk; dq_src := fun _ => Device; dq_events := events; dq_deterministic := det; dq_top_k := 1; dq_list_size := 2 |}.
Definition cx_td : thread_data := match alloc_scratch 2 6 2 2 with Ok t => t | _ => ex_td end.
Example cx_td_history : td_history 2 2 6 cx_td.
Proof. apply (td_new 2 2 2 6). vm_compute. reflexivity. Qed.
Lemma cx_query_ok det events : (forall round ids, ids <> [] -> exists x, In x ids /\ In x (events round ids)) -> dq_ok 6 2 2 (cx_query det events).
Proof.
  intros Ev. constructor; try (cbn; lia); try exact Ev.
  intros x. cbn. destruct x as [|[[p|p|]|[p|p|]|]]; cbn; lia.
Qed.
Definition one_by_one (pick : list N -> list N) (round : nat) (ids : list N) : list N := firstn 1 (pick ids).
Theorem disk_search_refuted_completion_order : exists degree lists max t q q' qd hits u e hits' u' e' hitsd ud ed,
  td_history degree lists max t /\ dq_ok max degree lists q /\ dq_ok max degree lists q' /\ dq_ok max degree lists qd
  /\ (dq_disk q = dq_disk qd /\ dq_src q = dq_src qd /\ dq_top_k q = dq_top_k qd /\ dq_list_size q = dq_list_size qd /\ dq_events q = dq_events qd)
  /\ (dq_disk q = dq_disk q' /\ dq_src q = dq_src q' /\ dq_top_k q = dq_top_k q' /\ dq_list_size q = dq_list_size q')
  /\ dq_deterministic q = false /\ dq_deterministic q' = false /\ dq_deterministic qd = true
  /\ (forall x y, (x < d_points (dq_disk q))%N -> (y < d_points (dq_disk q))%N -> d_dist (dq_disk q) x = d_dist (dq_disk q) y -> x = y)
  /\ dq_run q (dq_fuel q) t = Done (Ok (hits, u, e)) /\ dq_run q' (dq_fuel q') t = Done (Ok (hits', u', e')) /\ dq_run qd (dq_fuel qd) t = Done (Ok (hitsd, ud, ed))
  /\ hits <> hits' /\ hits <> hitsd.
Proof.
  set (q := cx_query false (one_by_one (fun l => l))). set (q' := cx_query false (one_by_one (@rev N))). set (qd := cx_query true (one_by_one (fun l => l))).
  assert (Ev : forall (round : nat) ids, ids <> [] -> exists x, In x ids /\ In x (one_by_one (fun l => l) round ids)).
  { intros round [|a l] H; [contradiction|]. exists a. split; now left. }
  exists 2%N, 2%N, 6%N, cx_td, q, q', qd. do 9 eexists.
  split; [apply cx_td_history|]. split; [now apply cx_query_ok|]. split.
  { apply cx_query_ok. intros round ids H. unfold one_by_one. destruct (rev ids) as [|a l] eqn:Er; [|exists a; split; [|now left]].
    - destruct ids; [contradiction|]. cbn in Er. now apply app_eq_nil in Er as [_ ?].
    - apply in_rev. rewrite Er. now left. }
  split; [now apply cx_query_ok|]. split; [repeat split|]. split; [repeat split|]. repeat (split; [reflexivity|]). split.
  { intros x y Hx Hy. cbn in Hx, Hy.
    assert (L : forall z, (z < 6)%N -> z = 0%N \/ z = 1%N \/ z = 2%N \/ z = 3%N \/ z = 4%N \/ z = 5%N) by lia.
    destruct (L x Hx) as [->|[->|[->|[->|[->| ->]]]]], (L y Hy) as [->|[->|[->|[->|[->| ->]]]]]; cbn; congruence. }
  split; [vm_compute; reflexivity|]. split; [vm_compute; reflexivity|]. split; [vm_compute; reflexivity|]. split; discriminate.
Qed.
Print Assumptions disk_search_refuted_completion_order.
