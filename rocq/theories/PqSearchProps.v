(** C84, the search on disk with product quantization: it terminates in both
    modes, wherever the nodes are found and in whatever order reads complete;
    it returns live nodes, closest first, with their true distances (never the
    quantized ones, with or without rerank); it processes no node twice and
    needs no further reads to rerank; the results are the best by true distance
    of the candidates that are best by quantized distance. *)
From Verif Require Import PqSearchModel PqSearchSpec NpqProofs BitsetProofs FrontierProofs SearchProofs DiskSearchProofs PqSearchProofs.

Lemma cands_final q I seen C (k := pq_pool q) (cands := take_live (d_deleted (pq_disk q)) k (map fst C)) :
  sinv (disk_edge (pq_disk q)) (eq (d_medoid (pq_disk q))) (pq_dist q) (pq_capacity q) I [] seen [] C ->
  In (d_medoid (pq_disk q)) I -> (forall x, In x C -> snd x = true) -> StronglySorted cand_lt (map fst C) ->
  pq_candidates q cands
  /\ (at_most (pq_capacity q) (disk_reachable (pq_disk q)) -> nearest (live (pq_disk q)) (pq_dist q) k cands)
  /\ (k + (if d_deleted (pq_disk q) (d_medoid (pq_disk q)) then 1 else 0) <= pq_capacity q -> pq_settled q cands)
  /\ forall e, In e cands -> In (fst e) seen.
Proof.
  intros S Hm Fl So. unfold cands. rewrite take_live_filter. set (d' := pq_view (pq_disk q) (pq_dist q)).
  split; [exact (disk_ranked d' _ I seen C S So k)|].
  split; [intros A; exact (disk_exact d' _ I seen C S Hm Fl So k A)|].
  split; [intros Hk; exact (disk_settles d' _ I seen C S Hm Fl So k Hk)|].
  intros e He. apply firstn_in, filter_In in He as [He _]. apply in_map_iff in He as (c & <- & Hc). apply (si_flags _ _ _ _ _ _ _ _ _ S); auto.
Qed.
Lemma ranked_mono (P Q : N -> Prop) f k l : (forall x, P x -> Q x) -> ranked P f k l -> ranked Q f k l.
Proof. intros H []. constructor; auto. intros id z Hz. destruct (rk_true id z Hz). auto. Qed.

Theorem pq_search_ranked : forall degree lists max t q fuel,
  scratch_history degree lists max t -> pq_ok max t q -> pq_fuel q <= fuel ->
  exists hits t' seen, pq_run q fuel t = Done (Ok (hits, t', seen, 0))
    /\ ranked (live (pq_disk q)) (d_dist (pq_disk q)) (pq_top_k q) hits /\ StronglySorted cand_lt hits
    /\ page_slots t' = page_slots t.
Proof.
  intros degree lists max t q fuel T Q F.
  destruct (pq_lemma q t fuel max degree lists Q (scratch_td_ok _ _ _ _ T) F) as (t' & I & seen & C & R & _ & Sl & S & M & Fl & So).
  destruct (cands_final q I seen C S M Fl So) as (Ca & _).
  eexists _, t', seen. split; [exact R|].
  destruct (best_spec (d_dist (pq_disk q)) (pq_top_k q) _ (rk_distinct _ _ _ _ Ca)) as (Rk & _ & Srt).
  split; [|split; [exact Srt|unfold page_slots; congruence]]. eapply ranked_mono; [|exact Rk]. intros x Hx. apply in_map_iff in Hx as (e & <- & He).
  destruct e as [i z]. apply (rk_true _ _ _ _ Ca i z He).
Qed.
Print Assumptions pq_search_ranked.

(** Every node is processed at most once, and a node returned was processed:
    its distance was computed from its record. *)
Theorem pq_search_reads_once : forall degree lists max t q fuel hits t' seen n,
  scratch_history degree lists max t -> pq_ok max t q -> pq_fuel q <= fuel -> pq_run q fuel t = Done (Ok (hits, t', seen, n)) ->
  n = 0 /\ NoDup seen /\ (forall x, In x seen -> disk_reachable (pq_disk q) x) /\ forall x z, In (x, z) hits -> In x seen.
Proof.
  intros degree lists max t q fuel hits t' seen n T Q F R.
  destruct (pq_lemma q t fuel max degree lists Q (scratch_td_ok _ _ _ _ T) F) as (t2 & I & seen2 & C & R2 & _ & _ & S & M & Fl & So).
  rewrite R in R2. injection R2 as -> _ -> ->.
  destruct (cands_final q I seen2 C S M Fl So) as (Ca & _ & _ & Se).
  split; [reflexivity|]. split; [apply S|]. split.
  - intros x Hx. apply (si_reach _ _ _ _ _ _ _ _ _ S), in_or_app. left. now apply (si_exp _ _ _ _ _ _ _ _ _ S).
  - intros x z Hx. destruct (best_spec (d_dist (pq_disk q)) (pq_top_k q) _ (rk_distinct _ _ _ _ Ca)) as (Rk & _).
    destruct (rk_true _ _ _ _ Rk x z Hx) as [Hc _]. apply in_map_iff in Hc as (e & <- & He). now apply Se.
Qed.
Print Assumptions pq_search_reads_once.

(** Two stages: the candidates by quantized distance, from which the search may
    stop, then the best of them by true distance. *)
Theorem pq_search_two_stages : forall degree lists max t q fuel hits t' seen n,
  scratch_history degree lists max t -> pq_ok max t q -> pq_fuel q <= fuel -> pq_run q fuel t = Done (Ok (hits, t', seen, n)) ->
  exists cands, pq_candidates q cands /\ best_of q cands hits
    /\ (pq_pool q + (if d_deleted (pq_disk q) (d_medoid (pq_disk q)) then 1 else 0) <= pq_capacity q -> pq_settled q cands)
    /\ (at_most (pq_capacity q) (disk_reachable (pq_disk q)) -> nearest (live (pq_disk q)) (pq_dist q) (pq_pool q) cands).
Proof.
  intros degree lists max t q fuel hits t' seen n T Q F R.
  destruct (pq_lemma q t fuel max degree lists Q (scratch_td_ok _ _ _ _ T) F) as (t2 & I & seen2 & C & R2 & _ & _ & S & M & Fl & So).
  rewrite R in R2. injection R2 as -> _ -> ->.
  destruct (cands_final q I seen2 C S M Fl So) as (Ca & Ex & St & _).
  eexists. split; [exact Ca|]. split; [|split; assumption].
  destruct (best_spec (d_dist (pq_disk q)) (pq_top_k q) _ (rk_distinct _ _ _ _ Ca)) as (Rk & Nr & _). split; assumption.
Qed.
Print Assumptions pq_search_two_stages.

(** However bad the quantized distances are: the search is exact when its list
    can hold every reachable node and all live ones are reranked. *)
Theorem pq_search_exact : forall degree lists max t q fuel hits t' seen n,
  scratch_history degree lists max t -> pq_ok max t q -> pq_fuel q <= fuel -> pq_run q fuel t = Done (Ok (hits, t', seen, n)) ->
  at_most (pq_capacity q) (disk_reachable (pq_disk q)) -> at_most (pq_pool q) (live (pq_disk q)) ->
  nearest (live (pq_disk q)) (d_dist (pq_disk q)) (pq_top_k q) hits.
Proof.
  intros degree lists max t q fuel hits t' seen n T Q F R A (l & Ll & Hl).
  destruct (pq_search_two_stages degree lists max t q fuel hits t' seen n T Q F R) as (cands & Ca & (_ & Nr) & _ & Ex). specialize (Ex A).
  intros id Hid. apply Nr. destruct (Ex id Hid) as [K|[Full _]]; [change id with (fst (id, pq_dist q id)); now apply in_map|].
  destruct (in_dec N.eq_dec id (map fst cands)) as [K|K]; [assumption|]. exfalso.
  assert (length (id :: map fst cands) <= length l).
  { apply NoDup_incl_length; [constructor; [assumption|apply Ca]|]. intros x [<-|Hx]; [now apply Hl|]. apply in_map_iff in Hx as ((i & z) & <- & He).
    apply Hl. apply (rk_true _ _ _ _ Ca i z He). }
  cbn [length] in H. rewrite map_length in H. lia.
Qed.
Print Assumptions pq_search_exact.

(** Two searches of the same index for the same query, with lists that can hold
    every reachable node, return the same: whatever the modes, the caches, the
    order of completions, the beam widths, the list sizes and the scratch. *)
Theorem pq_search_same : forall degree lists max t degree' lists' max' t' q q' hits u s n hits' u' s' n',
  scratch_history degree lists max t -> pq_ok max t q -> pq_run q (pq_fuel q) t = Done (Ok (hits, u, s, n)) ->
  scratch_history degree' lists' max' t' -> pq_ok max' t' q' -> pq_run q' (pq_fuel q') t' = Done (Ok (hits', u', s', n')) ->
  pq_disk q = pq_disk q' -> pq_dist q = pq_dist q' -> pq_top_k q = pq_top_k q' -> pq_pool q = pq_pool q' ->
  at_most (pq_capacity q) (disk_reachable (pq_disk q)) -> at_most (pq_capacity q') (disk_reachable (pq_disk q)) ->
  hits = hits'.
Proof.
  intros degree lists max t degree' lists' max' t' q q' hits u s n hits' u' s' n' T Q R T' Q' R' Ed Eq Ek Ep A A'.
  destruct (pq_lemma q t _ max degree lists Q (scratch_td_ok _ _ _ _ T) (le_n _)) as (t2 & I & s2 & C & R2 & _ & _ & S & M & Fl & So).
  destruct (pq_lemma q' t' _ max' degree' lists' Q' (scratch_td_ok _ _ _ _ T') (le_n _)) as (t3 & I' & s3 & C' & R3 & _ & _ & S' & M' & Fl' & So').
  rewrite R in R2. rewrite R' in R3. injection R2 as -> _ _ _. injection R3 as -> _ _ _. rewrite <- Ed, <- Eq in *. rewrite Ek, Ep.
  assert (EC : map fst C = map fst C').
  { apply (disk_same (pq_view (pq_disk q) (pq_dist q)) (pq_capacity q) (pq_capacity q') I I' s2 s3 C C'); assumption. }
  now rewrite EC.
Qed.
Print Assumptions pq_search_same.

(** ** Example: six nodes, node 2 deleted, node 5 not reachable; by quantized
    distance node 4 comes before node 3. *)
Definition px_disk : disk :=
  {| d_nbrs := fun x => match x with 0 => [1; 2; 9] | 1 => [2; 3; 0] | 3 => [4; 1] | 4 => [3] | 5 => [0] | _ => [] end%N;
     d_dist := fun x => match x with 0%N => 40 | 1%N => 25 | 2%N => 1 | 3%N => 7 | 4%N => 8 | _ => 3 end%Z;
     d_deleted := fun x => N.eqb x 2; d_points := 6; d_medoid := 0 |}.
Definition px_pq (x : N) : Z := match x with 0%N => 42 | 1%N => 24 | 3%N => 9 | 4%N => 6 | _ => 2 end%Z.
Definition px_src (x : N) : source := match x with 1%N => Cached | 4%N => Peeked | _ => Device end.
Definition px_query (det rr : bool) (k : nat) : pq_query :=
  {| pq_disk := px_disk; pq_dist := px_pq; pq_src := px_src; pq_events := fun _ ids => rev ids;
     pq_opts := {| pq_beam_width := 2; pq_rerank := rr; pq_rerank_count := 0; pq_is_deterministic := det |}; pq_top_k := k; pq_list_size := 4 |}.
Definition px_td : thread_data := match alloc_scratch 2 6 3 4 with Ok t => t | _ => {| td_visited := vb_resize 0; td_front := npq_new 0; td_exact := [];
  td_exact_dirty := []; td_buf := []; td_offsets := []; td_dirty := []; td_slot_len := 0; td_free := []; td_inflight := []; td_sector := [] |} end.
Definition px_hits (r : fuelled (list (N * Z) * thread_data * list N * nat)) : option (list (N * Z) * list N * nat) :=
  match r with Done (Ok (h, _, s, n)) => Some (h, s, n) | _ => None end.
Example pq_search_example :
  px_hits (pq_run (px_query true true 2) 8 px_td) = Some ([(3%N, 7%Z); (4%N, 8%Z)], [0; 1; 3; 4]%N, 0)
  /\ px_hits (pq_run (px_query false true 2) 8 px_td) = Some ([(3%N, 7%Z); (4%N, 8%Z)], [0; 1; 3; 4]%N, 0)
  /\ px_hits (pq_run (px_query true false 1) 8 px_td) = Some ([(4%N, 8%Z)], [0; 1; 3; 4]%N, 0).
Proof. repeat split; vm_compute; reflexivity. Qed.
Example px_td_history : scratch_history 3 4 6 px_td.
Proof. apply (sh_new 3 4 2 6). vm_compute. reflexivity. Qed.
Example px_query_ok det rr k : pq_ok 6 px_td (px_query det rr k).
Proof.
  constructor; try (cbn; lia).
  - unfold pq_capacity. cbn [pq_list_size px_query]. lia.
  - right. unfold page_slots. vm_compute. discriminate.
  - intros rd ids H. destruct ids as [|a l]; [contradiction|]. exists a. split; [now left|]. apply -> in_rev. now left.
Qed.
Lemma px_edges x y : disk_edge px_disk x y -> In y [0; 1; 3; 4]%N.
Proof.
  intros (H & Hp & Hd). assert (In y [0; 1; 2; 3; 4; 9]%N).
  { cbn in H. destruct x as [|[[[p|p|]|[p|p|]|]|[[p|p|]|[p|p|]|]|]]; cbn in H; cbn; tauto. }
  cbn in H0. destruct H0 as [<-|[<-|[<-|[<-|[<-|[<-|[]]]]]]]; cbn in *; try tauto; try discriminate; try lia.
Qed.
(** The list holds 4 and 6 are reranked; four nodes are reachable. *)
Example px_query_exact det : at_most (pq_capacity (px_query det true 2)) (disk_reachable px_disk) /\ at_most (pq_pool (px_query det true 2)) (live px_disk).
Proof.
  assert (R : forall x, disk_reachable px_disk x -> In x [0; 1; 3; 4]%N) by (intros x Hx; destruct Hx as [x <-|x y _ Hy]; [now left|]; now apply px_edges in Hy).
  split; exists [0; 1; 3; 4]%N; (split; [cbn; lia|]); [exact R|]. intros x [Hx _]. auto.
Qed.

(** ** Where the code falls short *)

(** With a rerank_count below top_k fewer than top_k results are returned
    although the search has found more live nodes. *)
Theorem pq_search_refuted_rerank_count : exists degree lists max t q hits t' seen n,
  scratch_history degree lists max t /\ pq_ok max t q /\ pq_run q (pq_fuel q) t = Done (Ok (hits, t', seen, n))
  /\ at_most (pq_capacity q) (disk_reachable (pq_disk q))
  /\ length hits < pq_top_k q /\ exists x, In x seen /\ live (pq_disk q) x /\ ~ In x (map fst hits).
Proof.
  set (q := {| pq_disk := px_disk; pq_dist := px_pq; pq_src := px_src; pq_events := fun _ ids => ids;
     pq_opts := {| pq_beam_width := 2; pq_rerank := true; pq_rerank_count := 1; pq_is_deterministic := true |}; pq_top_k := 3; pq_list_size := 4 |}).
  destruct (pq_run q (pq_fuel q) px_td) as [|[[[[hits t'] seen] n]| | |]] eqn:R.
  2:{ exists 3%N, 4%N, 6%N, px_td, q, hits, t', seen, n. split; [apply px_td_history|]. split.
      { constructor; try (cbn; lia); try (now left). intros rd ids H. destruct ids as [|a l]; [contradiction|]. exists a. split; now left. }
      split; [assumption|]. split; [apply (px_query_exact true)|]. vm_compute in R. injection R as <- _ <- _. split; [cbn; lia|]. exists 3%N. split; [cbn; tauto|]. split.
      - split; [|reflexivity]. apply (reach_edge _ _ 1%N); [apply (reach_edge _ _ 0%N); [now apply reach_start|]|]; repeat split; cbn; tauto.
      - cbn. intros [K|[]]. discriminate. }
  all: vm_compute in R; discriminate R.
Qed.
Print Assumptions pq_search_refuted_rerank_count.

(** A beam wider than the scratch has page slots makes every asynchronous
    search whose entry point is not cached throw.  (A scratch has at most 1024
    slots, diskann_index.hpp:373-374, whatever beam_width is.) *)
Theorem pq_search_refuted_wide_beam : forall degree lists max t q fuel,
  scratch_history degree lists max t -> (d_medoid (pq_disk q) < max)%N -> 0 < pq_capacity q ->
  pq_is_deterministic (pq_opts q) = false -> pq_src q (d_medoid (pq_disk q)) = Device ->
  (page_slots t < beam_of (pq_opts q))%N -> 0 < fuel ->
  pq_run q fuel t = Done Throws.
Proof.
  intros degree lists max t q fuel T Hmd Hs Det Src Wide Hf. pose proof (scratch_td_ok _ _ _ _ T) as Tk.
  unfold pq_run, pq_beam_search. fold (pq_capacity q). set (cap := pq_capacity q) in *. set (d := pq_disk q) in *.
  destruct (reset_query_spec (d_nbrs d) max degree lists t cap Tk) as (t0 & -> & V0 & Q0 & C0 & _ & _ & _ & _ & _ & Li0 & _). cbn [bind].
  destruct (vis_mark max (td_visited t0) (fun _ => false) (d_medoid d) V0 Hmd) as (v & w & E1 & _ & _). unfold vb_set. rewrite E1. cbn [bind].
  cbn [insert_tile]. destruct (npq_insert_new cap (td_front t0) (d_medoid d) (pq_dist q (d_medoid d)) Hs Q0) as [(_ & _ & K)|(q' & out & -> & Q' & _ & Pm & Out & Sub)].
  { rewrite C0. intros []. }
  { rewrite C0 in K. cbn in K. lia. }
  cbn [bind]. rewrite Det.
  rewrite C0 in Pm, Out, Sub. destruct out as [|o out]; [|destruct (Sub o (or_introl eq_refl))]. rewrite app_nil_r in Pm. apply Permutation_length_1_inv in Pm.
  set (t1 := with_front _ _).
  assert (Un : has_unexpanded_node q' = true).
  { destruct (has_unexpanded_node q') eqn:Un; [reflexivity|]. pose proof (npq_all_expanded _ _ Q' Un ((d_medoid d, pq_dist q (d_medoid d)), false)) as K.
    rewrite Pm in K. discriminate (K (or_introl eq_refl)). }
  destruct (npq_pop_rel cap q' Q' Un) as (e & q2 & Ep & _ & PR).
  assert (Ee : n_id e = d_medoid d).
  { destruct PR as (b & a & z & Eb & _). rewrite Pm in Eb. destruct b as [|b0 b]; [now injection Eb as ->|]. injection Eb as _ K. destruct b; discriminate. }
  unfold flight_search. destruct fuel as [|k]; [lia|]. cbn [fill_pipe bp_free bp_td bp_seen].
  destruct (N.to_nat (beam_of (pq_opts q))) as [|b] eqn:Eb; [unfold page_slots in Wide; lia|].
  rewrite seq_S, map_app, rev_app_distr. cbn [map rev app]. change (td_front t1) with q'. rewrite Un, Ep. cbn [bind]. cbv zeta. rewrite Ee, Src.
  unfold set_inflight. cbn [td_inflight with_front]. change (td_inflight t1) with (td_inflight t0).
  rewrite Nat.add_0_l. destruct (N.leb_spec (N.of_nat (length (td_inflight t0))) (N.of_nat b)) as [_|K]; [reflexivity|]. exfalso. unfold page_slots in Wide. rewrite Li0 in K. lia.
Qed.
Print Assumptions pq_search_refuted_wide_beam.
Example wide_beam_example : pq_run {| pq_disk := px_disk; pq_dist := px_pq; pq_src := px_src; pq_events := fun _ ids => ids;
     pq_opts := {| pq_beam_width := 3; pq_rerank := true; pq_rerank_count := 0; pq_is_deterministic := false |}; pq_top_k := 2; pq_list_size := 4 |} 8 px_td = Done Throws.
Proof. vm_compute. reflexivity. Qed.

(** Two searches that differ only in where the nodes are found. *)
Definition same_but_source (q q' : pq_query) : Prop :=
  pq_disk q = pq_disk q' /\ pq_dist q = pq_dist q' /\ pq_opts q = pq_opts q' /\ pq_top_k q = pq_top_k q' /\ pq_list_size q = pq_list_size q' /\ pq_events q = pq_events q'.
(** Two searches that differ only in when reads complete. *)
Definition same_but_events (q q' : pq_query) : Prop :=
  pq_disk q = pq_disk q' /\ pq_dist q = pq_dist q' /\ pq_opts q = pq_opts q' /\ pq_top_k q = pq_top_k q' /\ pq_list_size q = pq_list_size q' /\ pq_src q = pq_src q'.
Definition rx_disk : disk :=
  {| d_nbrs := fun x => match x with 0 => [1; 2] | 1 => [3] | 2 => [4; 5] | 3 => [6] | _ => [] end%N;
     d_dist := fun x => match x with 0%N => 100 | 1%N => 10 | 2%N => 11 | 3%N => 9 | 4%N => 1 | 5%N => 2 | _ => 0 end%Z;
     d_deleted := fun _ => false; d_points := 7; d_medoid := 0 |}.
Definition rx_query (det : bool) (src : N -> source) (events : nat -> list N -> list N) : pq_query :=
  {| pq_disk := rx_disk; pq_dist := d_dist rx_disk; pq_src := src; pq_events := events;
     pq_opts := {| pq_beam_width := 2; pq_rerank := true; pq_rerank_count := 0; pq_is_deterministic := det |}; pq_top_k := 1; pq_list_size := 2 |}.
Definition rx_td : thread_data := match alloc_scratch 2 7 2 2 with Ok t => t | _ => px_td end.
Definition all_distances_differ (q : pq_query) : Prop :=
  forall x y, (x < d_points (pq_disk q))%N -> (y < d_points (pq_disk q))%N -> d_dist (pq_disk q) x = d_dist (pq_disk q) y -> x = y.
Lemma below_7 x : (x < 7)%N -> In x [0; 1; 2; 3; 4; 5; 6]%N.
Proof. intros H. cbn. lia. Qed.

(** "Only the tie-ordering of equally-good candidates differs"
    (beam_search.hpp:618-621): no.  Although all distances differ and the
    quantized distances are the true ones, the order in which reads complete
    decides which node is returned. *)
Theorem pq_search_refuted_completion_order : exists degree lists max t q q' hits u s n hits' u' s' n',
  scratch_history degree lists max t /\ pq_ok max t q /\ pq_ok max t q' /\ same_but_events q q'
  /\ all_distances_differ q /\ (forall x, pq_dist q x = d_dist (pq_disk q) x)
  /\ pq_run q (pq_fuel q) t = Done (Ok (hits, u, s, n)) /\ pq_run q' (pq_fuel q') t = Done (Ok (hits', u', s', n'))
  /\ hits <> hits'.
Proof.
  set (q := rx_query false (fun _ => Device) (fun _ ids => firstn 1 ids)). set (q' := rx_query false (fun _ => Device) (fun _ ids => firstn 1 (rev ids))).
  destruct (pq_run q (pq_fuel q) rx_td) as [|[[[[hits u] s] n]| | |]] eqn:R; try (vm_compute in R; discriminate R).
  destruct (pq_run q' (pq_fuel q') rx_td) as [|[[[[hits' u'] s'] n']| | |]] eqn:R'; try (vm_compute in R'; discriminate R').
  exists 2%N, 2%N, 7%N, rx_td, q, q', hits, u, s, n, hits', u', s', n'.
  split; [apply (sh_new 2 2 2 7); vm_compute; reflexivity|].
  split. { constructor; try (cbn; lia); [right; vm_compute; discriminate|]. intros rd ids H. destruct ids as [|a l]; [contradiction|]. exists a. split; now left. }
  split. { constructor; try (cbn; lia); [right; vm_compute; discriminate|]. intros rd ids H. exists (hd 0%N (rev ids)). cbn [pq_events q' rx_query].
           destruct (rev ids) as [|a l] eqn:E; [apply (f_equal (@rev N)) in E; rewrite rev_involutive in E; contradiction|].
           split; [apply in_rev; rewrite E; now left|now left]. }
  split; [repeat split|]. split.
  { intros x y Hx Hy. apply below_7 in Hx, Hy. cbn in Hx, Hy.
    repeat destruct Hx as [<-|Hx]; try contradiction; repeat destruct Hy as [<-|Hy]; try contradiction; intros E; try reflexivity; vm_compute in E; discriminate E. }
  split; [reflexivity|]. split; [exact R|]. split; [exact R'|].
  vm_compute in R, R'. injection R as <- _ _ _. injection R' as <- _ _ _. discriminate.
Qed.
Print Assumptions pq_search_refuted_completion_order.

Definition sx_disk : disk :=
  {| d_nbrs := fun x => match x with 0 => [1; 2] | 1 => [3; 4] | 2 => [5] | _ => [] end%N;
     d_dist := fun x => match x with 0%N => 100 | 1%N => 10 | 2%N => 11 | 3%N => 1 | 4%N => 2 | 5%N => 0 | _ => 50 end%Z;
     d_deleted := fun _ => false; d_points := 7; d_medoid := 0 |}.
Definition sx_query (src : N -> source) : pq_query :=
  {| pq_disk := sx_disk; pq_dist := d_dist sx_disk; pq_src := src; pq_events := fun _ ids => ids;
     pq_opts := {| pq_beam_width := 1; pq_rerank := true; pq_rerank_count := 0; pq_is_deterministic := true |}; pq_top_k := 1; pq_list_size := 2 |}.
(** The deterministic mode is not reproducible on an index with a page cache:
    a page peeked from it counts as no read, so the batch grows and other nodes
    are expanded.  A search fills the page cache (search_fill_page): asked
    twice, the same query may be answered differently. *)
Theorem pq_search_refuted_deterministic : exists degree lists max t q q' hits u s n hits' u' s' n',
  scratch_history degree lists max t /\ pq_ok max t q /\ pq_ok max t q' /\ same_but_source q q'
  /\ pq_is_deterministic (pq_opts q) = true /\ (forall x, pq_src q x = Device) /\ (forall x, pq_src q' x = Peeked)
  /\ all_distances_differ q /\ (forall x, pq_dist q x = d_dist (pq_disk q) x)
  /\ pq_run q (pq_fuel q) t = Done (Ok (hits, u, s, n)) /\ pq_run q' (pq_fuel q') t = Done (Ok (hits', u', s', n'))
  /\ hits <> hits'.
Proof.
  set (q := sx_query (fun _ => Device)). set (q' := sx_query (fun _ => Peeked)).
  destruct (pq_run q (pq_fuel q) rx_td) as [|[[[[hits u] s] n]| | |]] eqn:R; try (vm_compute in R; discriminate R).
  destruct (pq_run q' (pq_fuel q') rx_td) as [|[[[[hits' u'] s'] n']| | |]] eqn:R'; try (vm_compute in R'; discriminate R').
  exists 2%N, 2%N, 7%N, rx_td, q, q', hits, u, s, n, hits', u', s', n'.
  assert (Ev : forall (ids : list N), ids <> [] -> exists x, In x ids /\ In x ids) by (intros [|a l] H; [contradiction|]; exists a; split; now left).
  split; [apply (sh_new 2 2 2 7); vm_compute; reflexivity|].
  split. { constructor; try (now left); try (cbn; lia). intros rd ids H. now apply Ev. }
  split. { constructor; try (now left); try (cbn; lia). intros rd ids H. now apply Ev. }
  split; [repeat split|]. split; [reflexivity|]. split; [reflexivity|]. split; [reflexivity|]. split.
  { intros x y Hx Hy. apply below_7 in Hx, Hy. cbn in Hx, Hy.
    repeat destruct Hx as [<-|Hx]; try contradiction; repeat destruct Hy as [<-|Hy]; try contradiction; intros E; try reflexivity; vm_compute in E; discriminate E. }
  split; [reflexivity|]. split; [exact R|]. split; [exact R'|].
  vm_compute in R, R'. injection R as <- _ _ _. injection R' as <- _ _ _. discriminate.
Qed.
Print Assumptions pq_search_refuted_deterministic.
