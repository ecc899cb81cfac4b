(** C85, the searches run as coroutines: without quantization they expand the
    same nodes in the same order as the deterministic search and return the
    same, whatever is cached; with quantization they return live nodes with
    their true distances, closest first, and agree with the deterministic
    search when nothing is cached and the beam fits the page slots. *)
From Verif Require Import CoroSearchModel CoroSearchSpec NpqProofs BitsetProofs FrontierProofs SearchProofs DiskSearchProofs PqSearchProofs CoroSearchProofs DiskSearchProps PqSearchProps.

(** ** Without quantization *)
Theorem coro_search_textbook : forall degree lists max t q wave fuel,
  coro_history degree lists max t -> dq_ok max degree lists q -> dq_fuel q <= fuel ->
  exists hits t' e, coro_run degree q wave fuel t = Done (Ok (hits, t', e)) /\ textbook (dq_disk q) (dq_capacity q) (dq_top_k q) hits e.
Proof.
  intros degree lists max t q wave fuel T Q F.
  destruct (coro_lemma q t wave fuel max degree lists Q (coro_td_ok _ _ _ _ T) F) as (t2 & I & f & e & C & R & _ & S & M & Fl & So & Cl & Bf).
  eexists _, t2, e. split; [exact R|]. exists f. split; [assumption|]. now rewrite take_live_filter, Cl.
Qed.
Print Assumptions coro_search_textbook.

(** It returns live nodes, closest first, and is exact when its list can hold
    every reachable node. *)
Theorem coro_search_ranked : forall degree lists max t q wave fuel hits t' e,
  coro_history degree lists max t -> dq_ok max degree lists q -> dq_fuel q <= fuel -> coro_run degree q wave fuel t = Done (Ok (hits, t', e)) ->
  ranked (live (dq_disk q)) (d_dist (dq_disk q)) (dq_top_k q) hits /\ StronglySorted cand_lt hits /\ NoDup e
  /\ (at_most (dq_capacity q) (disk_reachable (dq_disk q)) -> nearest (live (dq_disk q)) (d_dist (dq_disk q)) (dq_top_k q) hits).
Proof.
  intros degree lists max t q wave fuel hits t' e T Q F R.
  destruct (coro_lemma q t wave fuel max degree lists Q (coro_td_ok _ _ _ _ T) F) as (t2 & I & f & e2 & C & R2 & _ & S & M & Fl & So & Cl & Bf).
  rewrite R in R2. injection R2 as -> _ ->. rewrite take_live_filter.
  split; [eapply disk_ranked; eauto|]. split; [now apply disk_cand_sorted|]. split; [apply S|]. intros A. eapply disk_exact; eauto.
Qed.
Print Assumptions coro_search_ranked.

(** What is cached, the wave buffer, the scratch and the number of page slots
    make no difference between the coroutine and the deterministic search. *)
Theorem coro_search_same : forall degree lists max t q wave degree' lists' max' u q' hits t' e hits' u' e',
  coro_history degree lists max t -> dq_ok max degree lists q -> coro_run degree q wave (dq_fuel q) t = Done (Ok (hits, t', e)) ->
  coro_history degree' lists' max' u -> dq_ok max' degree' lists' q' -> dq_deterministic q' = true -> dq_run q' (dq_fuel q') u = Done (Ok (hits', u', e')) ->
  dq_disk q = dq_disk q' -> dq_top_k q = dq_top_k q' -> dq_capacity q = dq_capacity q' ->
  hits = hits' /\ e = e'.
Proof.
  intros degree lists max t q wave degree' lists' max' u q' hits t' e hits' u' e' T Q R T' Q' D R' Ed Ek Ec.
  destruct (coro_lemma q t wave _ max degree lists Q (coro_td_ok _ _ _ _ T) (le_n _)) as (t2 & I & f & e2 & C & R2 & _ & S & M & Fl & So & Cl & Bf).
  destruct (disk_lemma_full q' u _ max' degree' lists' Q' (coro_td_ok _ _ _ _ T') (le_n _)) as (t3 & I' & e3 & C' & R3 & _ & S' & M' & Fl' & So' & Cl' & Bf').
  rewrite R in R2. rewrite R' in R3. injection R2 as -> _ ->. injection R3 as -> _ ->. rewrite !take_live_filter, Cl, Cl'. specialize (Bf' D).
  rewrite Ed, Ek, Ec in *. destruct (best_first_unique _ _ _ _ _ _ Bf _ _ Bf') as [-> ->]. now split.
Qed.
Print Assumptions coro_search_same.

(** ** With quantization *)
Theorem coro_pq_ranked : forall degree lists max t q wave fuel,
  coro_history degree lists max t -> coro_pq_ok max q -> pq_fuel q <= fuel ->
  exists hits t' seen, coro_pq_run q wave fuel t = Done (Ok (hits, t', seen))
    /\ ranked (live (pq_disk q)) (d_dist (pq_disk q)) (pq_top_k q) hits /\ StronglySorted cand_lt hits.
Proof.
  intros degree lists max t q wave fuel T Q F.
  destruct (coro_pq_lemma q t wave fuel max degree lists Q (coro_td_ok _ _ _ _ T) F) as (t' & I & seen & C & R & _ & Sl & S & M & Fl & So).
  destruct (cands_final q I seen C S M Fl So) as (Ca & _).
  eexists _, t', seen. split; [exact R|].
  destruct (best_spec (d_dist (pq_disk q)) (pq_top_k q) _ (rk_distinct _ _ _ _ Ca)) as (Rk & _ & Srt).
  split; [|exact Srt]. eapply ranked_mono; [|exact Rk]. intros x Hx. apply in_map_iff in Hx as (e & <- & He).
  destruct e as [i z]. apply (rk_true _ _ _ _ Ca i z He).
Qed.
Print Assumptions coro_pq_ranked.

Theorem coro_pq_reads_once : forall degree lists max t q wave fuel hits t' seen,
  coro_history degree lists max t -> coro_pq_ok max q -> pq_fuel q <= fuel -> coro_pq_run q wave fuel t = Done (Ok (hits, t', seen)) ->
  NoDup seen /\ (forall x, In x seen -> disk_reachable (pq_disk q) x) /\ forall x z, In (x, z) hits -> In x seen.
Proof.
  intros degree lists max t q wave fuel hits t' seen T Q F R.
  destruct (coro_pq_lemma q t wave fuel max degree lists Q (coro_td_ok _ _ _ _ T) F) as (t2 & I & seen2 & C & R2 & _ & _ & S & M & Fl & So).
  rewrite R in R2. injection R2 as -> _ ->.
  destruct (cands_final q I seen2 C S M Fl So) as (Ca & _ & _ & Se).
  split; [apply S|]. split.
  - intros x Hx. apply (si_reach _ _ _ _ _ _ _ _ _ S), in_or_app. left. now apply (si_exp _ _ _ _ _ _ _ _ _ S).
  - intros x z Hx. destruct (best_spec (d_dist (pq_disk q)) (pq_top_k q) _ (rk_distinct _ _ _ _ Ca)) as (Rk & _).
    destruct (rk_true _ _ _ _ Rk x z Hx) as [Hc _]. apply in_map_iff in Hc as (e & <- & He). now apply Se.
Qed.
Print Assumptions coro_pq_reads_once.

(** The results are the [top_k] best by quantized distance, reordered by their
    true distances. *)
Theorem coro_pq_two_stages : forall degree lists max t q wave fuel hits t' seen,
  coro_history degree lists max t -> coro_pq_ok max q -> pq_fuel q <= fuel -> coro_pq_run q wave fuel t = Done (Ok (hits, t', seen)) ->
  exists cands, pq_candidates q cands /\ Permutation (map fst cands) (map fst hits)
    /\ (d_deleted (pq_disk q) (d_medoid (pq_disk q)) = false \/ pq_top_k q < pq_capacity q -> pq_settled q cands)
    /\ (at_most (pq_capacity q) (disk_reachable (pq_disk q)) -> nearest (live (pq_disk q)) (pq_dist q) (pq_top_k q) cands).
Proof.
  intros degree lists max t q wave fuel hits t' seen T Q F R.
  destruct (coro_pq_lemma q t wave fuel max degree lists Q (coro_td_ok _ _ _ _ T) F) as (t2 & I & seen2 & C & R2 & _ & _ & S & M & Fl & So).
  rewrite R in R2. injection R2 as -> _ ->.
  destruct (cands_final q I seen2 C S M Fl So) as (Ca & Ex & St & _).
  assert (Pool : pq_pool q = pq_top_k q) by (unfold pq_pool, pool_size; now rewrite (cp_rerank _ _ Q)).
  eexists. split; [exact Ca|]. split; [|split].
  - set (cands := take_live _ _ _) in *. rewrite firstn_all2.
    + rewrite <- sort_results_perm, map_map. reflexivity.
    + rewrite <- (Permutation_length (sort_results_perm _)), map_length, <- Pool. apply Ca.
  - intros D. apply St. rewrite Pool. assert (pq_top_k q <= pq_capacity q) by (unfold pq_capacity; lia).
    destruct (d_deleted (pq_disk q) (d_medoid (pq_disk q))); [destruct D; [discriminate|]|]; lia.
  - intros A. rewrite <- Pool. now apply Ex.
Qed.
Print Assumptions coro_pq_two_stages.

(** When every node is read from the device and there is a page slot for each
    read of a beam, the deterministic search processes the same nodes in the
    same order and returns the same. *)
Theorem coro_pq_same : forall degree lists max t q wave fuel hits t' seen n,
  coro_history degree lists max t -> coro_pq_ok max q -> pq_fuel q <= fuel ->
  (forall x, pq_src q x = Device) -> pq_is_deterministic (pq_opts q) = true -> (beam_of (pq_opts q) <= page_slots t)%N ->
  pq_run q fuel t = Done (Ok (hits, t', seen, n)) -> exists t'', coro_pq_run q wave fuel t = Done (Ok (hits, t'', seen)).
Proof.
  intros degree lists max t q wave fuel hits t' seen n T Q F Dev Det Sl R.
  exact (coro_pq_same_lemma q t wave fuel max degree lists hits t' seen n Q (coro_td_ok _ _ _ _ T) F Dev Det Sl R).
Qed.
Print Assumptions coro_pq_same.

(** With reranking, the default of SearchParams, every quantized coroutine
    search throws, while the same search by a thread returns. *)
Theorem coro_pq_rerank_throws : forall degree lists max t q wave fuel,
  scratch_history degree lists max t -> pq_ok max t q -> pq_fuel q <= fuel -> pq_rerank (pq_opts q) = true ->
  coro_pq_run q wave fuel t = Done Throws /\ exists hits t' seen, pq_run q fuel t = Done (Ok (hits, t', seen, 0)).
Proof.
  intros degree lists max t q wave fuel T Q F Rr. split; [unfold coro_pq_run, coro_pq_search; now rewrite Rr|].
  destruct (pq_search_ranked degree lists max t q fuel T Q F) as (hits & t' & seen & R & _). eauto.
Qed.
Print Assumptions coro_pq_rerank_throws.

(** ** Examples *)
Definition coro_hits (r : fuelled (list (N * Z) * thread_data * list N)) : option (list (N * Z) * list N) :=
  match r with Done (Ok (h, _, e)) => Some (h, e) | _ => None end.
Example coro_search_example :
  coro_hits (coro_run 3 (ex_query true) [] 22 ex_td) = Some ([(3, 7%Z); (4, 7%Z); (1, 25%Z)], [0; 1; 3; 4])%N
  /\ coro_hits (coro_pq_run (px_query true false 2) [] 8 px_td) = Some ([(3, 7%Z); (4, 8%Z)], [0; 1; 3; 4])%N.
Proof. split; vm_compute; reflexivity. Qed.
Example ex_coro_history : coro_history 3 4 6 ex_td.
Proof. apply ch_sync, (sh_new 3 4 2 6). vm_compute. reflexivity. Qed.
Example px_coro_history : coro_history 3 4 6 px_td.
Proof. apply ch_sync, px_td_history. Qed.
Example px_coro_ok det k : coro_pq_ok 6 (px_query det false k).
Proof. constructor; try reflexivity; unfold pq_capacity; cbn [pq_list_size px_query pq_disk px_disk d_points d_medoid]; lia. Qed.
(** Everything on the device, beam 2, two page slots. *)
Definition dx_query : pq_query :=
  {| pq_disk := px_disk; pq_dist := px_pq; pq_src := fun _ => Device; pq_events := fun _ ids => ids;
     pq_opts := {| pq_beam_width := 2; pq_rerank := false; pq_rerank_count := 0; pq_is_deterministic := true |}; pq_top_k := 2; pq_list_size := 4 |}.
Example dx_query_same : (beam_of (pq_opts dx_query) <= page_slots px_td)%N
  /\ px_hits (pq_run dx_query 8 px_td) = Some ([(3%N, 7%Z); (4%N, 8%Z)], [0; 1; 3; 4]%N, 0)
  /\ coro_hits (coro_pq_run dx_query [] 8 px_td) = Some ([(3, 7%Z); (4, 8%Z)], [0; 1; 3; 4])%N.
Proof. split; [vm_compute; discriminate|]. split; vm_compute; reflexivity. Qed.

(** ** Where the code falls short *)

(** The comment at beam_search_async.hpp:250-251 promises the results of the
    deterministic search when nothing is cached: not when the beam is wider
    than the page slots, although no two distances are equal and the quantized
    distances are the true ones. *)
Definition nx_query : pq_query :=
  {| pq_disk := sx_disk; pq_dist := d_dist sx_disk; pq_src := fun _ => Device; pq_events := fun _ ids => ids;
     pq_opts := {| pq_beam_width := 2; pq_rerank := false; pq_rerank_count := 0; pq_is_deterministic := true |}; pq_top_k := 1; pq_list_size := 2 |}.
Definition nx_td : thread_data := match alloc_scratch 1 7 2 2 with Ok t => t | _ => px_td end.
Theorem coro_pq_refuted_page_slots : exists degree lists max t q wave hits u s n hits' u' s',
  scratch_history degree lists max t /\ pq_ok max t q /\ coro_pq_ok max q
  /\ pq_is_deterministic (pq_opts q) = true /\ (forall x, pq_src q x = Device)
  /\ all_distances_differ q /\ (forall x, pq_dist q x = d_dist (pq_disk q) x)
  /\ pq_run q (pq_fuel q) t = Done (Ok (hits, u, s, n)) /\ coro_pq_run q wave (pq_fuel q) t = Done (Ok (hits', u', s'))
  /\ hits <> hits'.
Proof.
  exists 2%N, 2%N, 7%N, nx_td, nx_query, []. do 7 eexists.
  split; [apply (sh_new 2 2 1 7); vm_compute; reflexivity|]. split.
  { constructor; try (now left); try (cbn; lia).
    intros round [|a l] H; [contradiction|]. exists a. split; now left. }
  split; [constructor; try reflexivity; cbn; lia|].
  split; [reflexivity|]. split; [reflexivity|]. split.
  { intros x y Hx Hy. cbn in Hx, Hy.
    assert (L : forall z, (z < 7)%N -> z = 0%N \/ z = 1%N \/ z = 2%N \/ z = 3%N \/ z = 4%N \/ z = 5%N \/ z = 6%N) by lia.
    destruct (L x Hx) as [->|[->|[->|[->|[->|[->| ->]]]]]], (L y Hy) as [->|[->|[->|[->|[->|[->| ->]]]]]]; cbn; congruence. }
  split; [reflexivity|]. split; [vm_compute; reflexivity|]. split; [vm_compute; reflexivity|]. discriminate.
Qed.
Print Assumptions coro_pq_refuted_page_slots.

