(** What a greedy graph search should return. *)
From Coq Require Export Permutation Sorting.Sorted.
From Verif Require Export SearchModel NpqSpec PoolSpec.

(** The nodes that can be reached from the start nodes along the edges. *)
Inductive reachable (edge : N -> N -> Prop) (start : N -> Prop) : N -> Prop :=
| reach_start x : start x -> reachable edge start x
| reach_edge x y : reachable edge start x -> edge x y -> reachable edge start y.

(** At most [k] different members with their distances, closest first. *)
Record ranked (member : N -> Prop) (dist : N -> Z) (k : nat) (res : list (N * Z)) : Prop := {
  rk_count : length res <= k;
  rk_distinct : NoDup (map fst res);
  rk_true : forall id d, In (id, d) res -> member id /\ d = dist id;
  rk_sorted : StronglySorted (fun a b => (snd a <= snd b)%Z) res;
}.
(** No member that is left out is closer than a returned one, and members are
    left out only when [k] are returned. *)
Definition nearest (member : N -> Prop) (dist : N -> Z) (k : nat) (res : list (N * Z)) : Prop :=
  forall id, member id -> In (id, dist id) res \/ (length res = k /\ forall y, In y res -> (snd y <= dist id)%Z).
(** The search may stop: every start node and every node a returned node leads
    to is returned, or no closer than the returned ones. *)
Definition settled (edge : N -> N -> Prop) (start : N -> Prop) (dist : N -> Z) (k : nat) (res : list (N * Z)) : Prop :=
  nearest (fun y => start y \/ exists x d, In (x, d) res /\ edge x y) dist k res.
(** [n] nodes suffice to list the members. *)
Definition at_most (n : nat) (member : N -> Prop) : Prop :=
  exists l, length l <= n /\ forall x, member x -> In x l.

(** ** The graph of VamanaGreedySearch: one list of neighbours per node *)
Definition adjacent (graph : list (list N)) (x y : N) : Prop :=
  exists row, nth_error graph (N.to_nat x) = Some row /\ In y row.
(** All neighbours are nodes. *)
Definition graph_ok (graph : list (list N)) : Prop :=
  forall row y, In row graph -> In y row -> (y < N.of_nat (length graph))%N.
Record vamana_query := { vq_graph : list (list N); vq_start : N; vq_dist : N -> Z; vq_top_k : nat; vq_list_size : nat }.
Definition vq_ok (q : vamana_query) : Prop :=
  graph_ok (vq_graph q) /\ (vq_start q < N.of_nat (length (vq_graph q)))%N /\ 0 < vq_top_k q <= vq_list_size q.
Definition vq_reachable (q : vamana_query) : N -> Prop := reachable (adjacent (vq_graph q)) (eq (vq_start q)).
Definition vq_run (q : vamana_query) (fuel : nat) (s : vamana_scratch) :=
  vamana_search fuel (vq_graph q) (vq_start q) (vq_dist q) s (vq_top_k q) (vq_list_size q).
(** The scratch of a thread after a sequence of searches, possibly on
    different graphs; each search may have as much fuel as it needs. *)
Inductive vamana_history : list vamana_query -> vamana_scratch -> Prop :=
| history_new : vamana_history [] vamana_scratch_new
| history_search qs s q fuel hits s' e : vamana_history qs s ->
    vq_run q fuel s = Done (Ok (hits, s', e)) -> vamana_history (qs ++ [q]) s'.

(** ** The graph of GraphSearchJob: rows of [max] ids ended by -1 *)
Definition listed (max : N) (row : list N) (y : N) : Prop :=
  exists i, i < N.to_nat max /\ nth_error row i = Some y
    /\ forall j, j <= i -> nth_error row j <> Some kInvalidId.
(** A removed node leads to the nodes recorded for it, any other node to the
    ids in its row. *)
Definition leads_to (g : graph) (removed : N -> option (list N)) (x y : N) : Prop :=
  match removed x with
  | Some l => In y l
  | None => exists row, nth_error (g_rows g) (N.to_nat x) = Some row /\ listed (g_max_nbrs g) row y
  end.
(** [n] nodes with full rows; every id is a node. *)
Record rows_ok (n : N) (g : graph) (removed : N -> option (list N)) : Prop := {
  ro_rows : length (g_rows g) = N.to_nat n;
  ro_full : forall row, In row (g_rows g) -> N.to_nat (g_max_nbrs g) <= length row;
  ro_nodes : forall x y, (x < n)%N -> leads_to g removed x y -> (y < n)%N;
}.
(** The edges of one level of the overlay. *)
Definition overlay_edge (o : overlay) (level : N) (x y : N) : Prop :=
  exists row, nth_error (ov_lists o) (N.to_nat x) = Some row
    /\ listed (ov_max_nbrs o) (skipn (N.to_nat ((level - 1) * ov_max_nbrs o)) row) y.
(** Every node has full rows for all its levels, and the ids on a level are
    nodes of that level.  (The tables have room for the whole capacity of the
    graph, which may exceed the [n] nodes.) *)
Record overlay_ok (n : N) (o : overlay) : Prop := {
  oo_ep : (ov_ep o < n)%N;
  oo_levels : N.to_nat n <= length (ov_levels o);
  oo_rows : forall x row level, nth_error (ov_lists o) (N.to_nat x) = Some row -> nth_error (ov_levels o) (N.to_nat x) = Some level ->
    N.to_nat (level * ov_max_nbrs o) <= length row;
  oo_lists : N.to_nat n <= length (ov_lists o);
  oo_nodes : forall level x y lx, (0 < level)%N -> nth_error (ov_levels o) (N.to_nat x) = Some lx -> (level <= lx)%N ->
    overlay_edge o level x y -> (y < n)%N /\ exists ly, nth_error (ov_levels o) (N.to_nat y) = Some ly /\ (level <= ly)%N;
}.
(** Some edge of some level. *)
Definition any_overlay_edge (o : overlay) (x y : N) : Prop := exists level, (0 < level)%N /\ overlay_edge o level x y.
