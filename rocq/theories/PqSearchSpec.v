(** What the search on disk with product quantization should return. *)
From Verif Require Export PqSearchModel DiskSearchSpec.

(** A search: the index, the quantized distances, where the nodes are found,
    when reads complete and what is asked. *)
Record pq_query := { pq_disk : disk; pq_dist : N -> Z; pq_src : N -> source; pq_events : nat -> list N -> list N; pq_opts : pq_params;
                     pq_top_k : nat; pq_list_size : nat }.
Definition pq_capacity (q : pq_query) : nat := Nat.max (pq_list_size q) (pq_top_k q).
(** How many candidates are taken by quantized distance. *)
Definition pq_pool (q : pq_query) : nat := pool_size (pq_opts q) (pq_top_k q).
Definition page_slots (t : thread_data) : N := N.of_nat (length (td_inflight t)).
(** It fits the scratch: ids below [max]; a page slot per read in flight; the
    waits for completed reads are not in vain. *)
Record pq_ok (max : N) (t : thread_data) (q : pq_query) : Prop := {
  po_points : (d_points (pq_disk q) <= max)%N;
  po_medoid : (d_medoid (pq_disk q) < max)%N;
  po_some : 0 < pq_capacity q;
  po_slots : pq_is_deterministic (pq_opts q) = true \/ (beam_of (pq_opts q) <= page_slots t)%N;
  po_events : forall round ids, ids <> [] -> exists x, In x ids /\ In x (pq_events q round ids);
}.
Definition pq_run (q : pq_query) (fuel : nat) (t : thread_data) :=
  pq_beam_search fuel (pq_disk q) (pq_dist q) (pq_src q) (pq_events q) (pq_opts q) t (pq_top_k q) (pq_list_size q).
(** Enough fuel: no node is processed twice. *)
Definition pq_fuel (q : pq_query) : nat := N.to_nat (d_points (pq_disk q)) + 2.
(** A thread's scratch after any searches, with and without quantization, and
    growths of the index. *)
Inductive scratch_history (degree lists : N) : N -> thread_data -> Prop :=
| sh_new slots max t : alloc_scratch slots max degree lists = Ok t -> scratch_history degree lists max t
| sh_grow max t max' : scratch_history degree lists max t -> scratch_history degree lists (N.max max max') (resize_slot_capacity t max')
| sh_greedy max t q hits t' e : scratch_history degree lists max t -> dq_ok max degree lists q ->
    dq_run q (dq_fuel q) t = Done (Ok (hits, t', e)) -> scratch_history degree lists max t'
| sh_pq max t q hits t' seen n : scratch_history degree lists max t -> pq_ok max t q ->
    pq_run q (pq_fuel q) t = Done (Ok (hits, t', seen, n)) -> scratch_history degree lists max t'.

(** The candidates of a search: at most [pq_pool] live nodes, the nearest by
    quantized distance among those the candidates lead to. *)
Definition pq_candidates (q : pq_query) (cands : list (N * Z)) : Prop :=
  ranked (live (pq_disk q)) (pq_dist q) (pq_pool q) cands.
Definition pq_settled (q : pq_query) (cands : list (N * Z)) : Prop :=
  nearest (fun y => d_deleted (pq_disk q) y = false /\ (y = d_medoid (pq_disk q) \/ exists x z, In (x, z) cands /\ disk_edge (pq_disk q) x y))
    (pq_dist q) (pq_pool q) cands.
(** The results are the [top_k] candidates of smallest true distance. *)
Definition best_of (q : pq_query) (cands hits : list (N * Z)) : Prop :=
  ranked (fun x => In x (map fst cands)) (d_dist (pq_disk q)) (pq_top_k q) hits
  /\ nearest (fun x => In x (map fst cands)) (d_dist (pq_disk q)) (pq_top_k q) hits.
