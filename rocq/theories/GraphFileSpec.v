(** What graph files and merged graphs should hold. *)
From Coq Require Export Permutation Sorting.Sorted.
From Verif Require Export GraphFileModel.

(** ** Graph files *)

(** A navigation graph: some nodes, every node with at least one
    and at most [gd_max_degree] neighbours, all of them nodes other than the
    node itself, and an entry point that is a node. *)
Record navigable (g : graph_data) : Prop := {
  nav_degree : (0 < gd_max_degree g < 2 ^ 32)%N;
  nav_start : (gd_start g < N.of_nat (length (gd_rows g)))%N;
  nav_row : forall i adj, nth_error (gd_rows g) i = Some adj ->
    adj <> [] /\ (N.of_nat (length adj) <= gd_max_degree g)%N
    /\ forall v, In v adj -> (v < N.of_nat (length (gd_rows g)))%N /\ v <> N.of_nat i;
}.

(** ** Shards *)

(** A shard before it is written: node [i] of the shard is node [nth i ids] of
    the whole, and its neighbours are positions in [ids]. *)
Record shard_graph := { sg_ids : list N; sg_rows : list (list N); sg_medoid : nat; sg_degree : N }.
Record shard_ok (s : shard_graph) : Prop := {
  so_ids : StronglySorted N.lt (sg_ids s);
  so_small : Forall (fun g => g < 2 ^ 32 - 1)%N (sg_ids s);
  so_rows : length (sg_rows s) = length (sg_ids s);
  so_medoid : sg_medoid s < length (sg_ids s);
  so_row : forall adj, In adj (sg_rows s) ->
    (N.of_nat (length adj) < 2 ^ 32)%N /\ forall l, In l adj -> (l < N.of_nat (length (sg_ids s)))%N;
  so_degree : (sg_degree s < 2 ^ 32)%N;
}.
(** Its two files: the graph, and the ids as [count, 1, ids]. *)
Definition graph_file (s : shard_graph) : bytes := save_graph (sg_rows s) (sg_degree s) (N.of_nat (sg_medoid s)) 0.
Definition idmap_file (s : shard_graph) : bytes :=
  le_enc 4 (N.of_nat (length (sg_ids s))) ++ le_enc 4 1 ++ flat_map (le_enc 4) (sg_ids s).

(** Some shard has [b] among the neighbours of [a]. *)
Definition gives (shards : list shard_graph) (a b : N) : Prop :=
  exists s i l adj, In s shards /\ nth_error (sg_ids s) i = Some a /\ nth_error (sg_rows s) i = Some adj
    /\ In (N.of_nat l) adj /\ nth_error (sg_ids s) l = Some b.
Definition holds (shards : list shard_graph) (a : N) : Prop := exists s, In s shards /\ In a (sg_ids s).

(** The merged row of node [a] under the degree bound [R]. *)
Record merged_row (shards : list shard_graph) (R a : N) (row : list N) : Prop := {
  mr_nodup : NoDup row;
  mr_no_self : ~ In a row;
  mr_bound : (N.of_nat (length row) <= R)%N;
  mr_given : forall b, In b row -> gives shards a b;
  mr_all : forall b, gives shards a b -> b <> a -> In b row \/ N.of_nat (length row) = R;
}.
(** All rows: one for every id up to the largest. *)
Definition merged (shards : list shard_graph) (R : N) (rows : list (list N)) : Prop :=
  (forall a, holds shards a -> (a < N.of_nat (length rows))%N)
  /\ holds shards (N.of_nat (length rows) - 1)%N
  /\ forall a row, nth_error rows a = Some row -> merged_row shards R (N.of_nat a) row.
