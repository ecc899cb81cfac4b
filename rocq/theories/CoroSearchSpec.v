(** What the coroutine searches should return: what the synchronous ones do. *)
From Verif Require Export CoroSearchModel PqSearchSpec.

(** The same searches as DiskSearchSpec's and PqSearchSpec's, run by a
    coroutine with any wave buffer; [degree] is the index's maximum degree. *)
Definition coro_run (degree : N) (q : disk_query) (wave : list N) (fuel : nat) (t : thread_data) :=
  coro_greedy_search fuel (dq_disk q) (dq_src q) degree t wave (dq_top_k q) (dq_list_size q).
Definition coro_pq_run (q : pq_query) (wave : list N) (fuel : nat) (t : thread_data) :=
  coro_pq_search fuel (pq_disk q) (pq_dist q) (pq_src q) (pq_opts q) t wave (pq_top_k q) (pq_list_size q).
(** A quantized search that fits the scratch and does not rerank. *)
Record coro_pq_ok (max : N) (q : pq_query) : Prop := {
  cp_points : (d_points (pq_disk q) <= max)%N;
  cp_medoid : (d_medoid (pq_disk q) < max)%N;
  cp_some : 0 < pq_capacity q;
  cp_rerank : pq_rerank (pq_opts q) = false;
}.
(** A thread data after any searches, by threads and by coroutines, and growths. *)
Inductive coro_history (degree lists : N) : N -> thread_data -> Prop :=
| ch_sync max t : scratch_history degree lists max t -> coro_history degree lists max t
| ch_grow max t max' : coro_history degree lists max t -> coro_history degree lists (N.max max max') (resize_slot_capacity t max')
| ch_greedy max t q wave hits t' e : coro_history degree lists max t -> dq_ok max degree lists q ->
    coro_run degree q wave (dq_fuel q) t = Done (Ok (hits, t', e)) -> coro_history degree lists max t'
| ch_pq max t q wave hits t' seen : coro_history degree lists max t -> coro_pq_ok max q ->
    coro_pq_run q wave (pq_fuel q) t = Done (Ok (hits, t', seen)) -> coro_history degree lists max t'.
