(** Graph files and merged graphs: the properties. *)
From Verif Require Import GraphFileSpec GraphFileProofs.

(** C57: a saved navigation graph loads back unchanged, entry point included.
    Missing: graphs with a node without neighbours, for which it is false
    (graph_file_isolated_refuted). *)
Theorem graph_file_round_trip_partial : forall g, navigable g -> (N.of_nat (length (gd_rows g)) <= 2 ^ 32)%N ->
  (N.of_nat (length (save_graph (gd_rows g) (gd_max_degree g) (gd_start g) 0)) < 2 ^ 64)%N ->
  load_graph (save_graph (gd_rows g) (gd_max_degree g) (gd_start g) 0) = Ok g.
Proof. exact load_save. Qed.
Print Assumptions graph_file_round_trip_partial.

(** C57: whatever file loads, the graph loaded is a navigation graph. *)
Theorem graph_file_loaded_valid : forall file g, Forall is_byte file -> load_graph file = Ok g -> navigable g.
Proof. intros file g HB E. exact (proj1 (load_inv file g HB E)). Qed.
Print Assumptions graph_file_loaded_valid.

(** C57: no file loads but the one that saving the loaded graph would write:
    any change to a saved file is rejected or changes the graph. *)
Theorem graph_file_canonical : forall file g, Forall is_byte file -> load_graph file = Ok g ->
  file = save_graph (gd_rows g) (gd_max_degree g) (gd_start g) 0.
Proof. intros file g HB E. exact (proj2 (load_inv file g HB E)). Qed.
Print Assumptions graph_file_canonical.

(** A graph of three nodes. *)
Definition three : graph_data := {| gd_rows := [[1; 2]; [0]; [1; 0]]%N; gd_max_degree := 2; gd_start := 1 |}.
Example three_navigable : navigable three.
Proof.
  split; cbn [gd_rows gd_max_degree gd_start three]; [lia|cbn; lia|].
  intros [|[|[|i]]] adj; cbn; intros [= <-] || (now destruct i); (split; [discriminate|]); (split; [cbn; lia|]);
    intros v Hv; cbn in Hv; intuition (subst; lia).
Qed.
Example three_loads : load_graph (save_graph (gd_rows three) 2 1 0) = Ok three.
Proof. apply (graph_file_round_trip_partial three three_navigable); vm_compute; congruence. Qed.
Example three_truncated : load_graph (firstn 40 (save_graph (gd_rows three) 2 1 0)) = Throws.
Proof. reflexivity. Qed.

(** C57 fails for graphs with a node without neighbours: they are saved, but
    do not load. *)
Theorem graph_file_isolated_refuted : exists rows R start,
  (forall adj, In adj rows -> (N.of_nat (length adj) <= R)%N /\ forall v, In v adj -> (v < N.of_nat (length rows))%N)
  /\ (start < N.of_nat (length rows))%N
  /\ load_graph (save_graph rows R start 0) = Throws.
Proof.
  exists [[1]; [0]; []]%N, 2%N, 0%N. split; [|split; [cbn; lia|reflexivity]].
  intros adj [<-|[<-|[<-|[]]]]; (split; [cbn; lia|]); intros v Hv; cbn in Hv; intuition (subst; cbn; lia).
Qed.
Print Assumptions graph_file_isolated_refuted.

(** C30: merging shard files written by save_graph, with ascending ids, gives
    a file holding for every node a list without duplicates or self loops,
    within the bound, of neighbours that some shard gave the node, and all of
    them unless the bound was reached; and a file with the shards' medoids.
    [shuffle gid] is what std::shuffle did for node [gid]. *)
Theorem merge_shards_exact : forall shuffle shards R medoid frozen,
  (forall gid l, Permutation l (shuffle gid l)) -> shards <> [] -> Forall shard_ok shards ->
  exists rows,
    merge_shards shuffle (map graph_file shards) (map idmap_file shards) R medoid frozen
    = Ok (save_graph rows R medoid frozen,
          le_enc 4 (N.of_nat (length shards) mod 2 ^ 32) ++ le_enc 4 1
          ++ flat_map (le_enc 4) (map (fun s => nth (sg_medoid s) (sg_ids s) 0%N) shards))
    /\ merged shards R rows.
Proof. intros shuffle shards R medoid frozen HS. exact (merge_shards_ok shuffle HS shards R medoid frozen). Qed.
Print Assumptions merge_shards_exact.

(** C30 with C57: if every id has some neighbour, the merged file loads and the
    loaded rows are the merged ones. *)
Theorem merged_graph_loads : forall shuffle shards R medoid,
  (forall gid l, Permutation l (shuffle gid l)) -> Forall shard_ok shards -> (0 < R < 2 ^ 32)%N -> holds shards medoid ->
  (forall a b, holds shards b -> (a <= b)%N -> exists c, c <> a /\ gives shards a c) ->
  exists file medoids g,
    merge_shards shuffle (map graph_file shards) (map idmap_file shards) R medoid 0 = Ok (file, medoids)
    /\ ((N.of_nat (length file) < 2 ^ 64)%N -> load_graph file = Ok g)
    /\ merged shards R (gd_rows g) /\ gd_max_degree g = R /\ gd_start g = medoid.
Proof.
  intros shuffle shards R medoid HS OK HR HM Hall.
  assert (NE : shards <> []) by (intros ->; destruct HM as (s & [] & _)).
  destruct (merge_shards_ok shuffle HS shards R medoid 0 NE OK) as (rows & E & M). rewrite E.
  pose proof M as (Hin & Hlast & _).
  destruct (merged_navigable shards R rows medoid OK M HR (Hin _ HM)) as [Nav L].
  { intros a Ha. apply (Hall a _ Hlast). lia. }
  do 2 eexists. exists {| gd_rows := rows; gd_max_degree := R; gd_start := medoid |}. split; [reflexivity|].
  split; [|split; [exact M|split; reflexivity]]. intros HL. apply (graph_file_round_trip_partial _ Nav); cbn [gd_rows gd_max_degree gd_start]; [lia|exact HL].
Qed.
Print Assumptions merged_graph_loads.

(** Two shards sharing node 2. *)
Definition shard_a : shard_graph := {| sg_ids := [0; 2; 3]; sg_rows := [[1; 2]; [0; 2]; [1]]; sg_medoid := 1; sg_degree := 2 |}%N.
Definition shard_b : shard_graph := {| sg_ids := [1; 2]; sg_rows := [[1]; [0]]; sg_medoid := 0; sg_degree := 2 |}%N.
Example shards_fine : Forall shard_ok [shard_a; shard_b].
Proof.
  repeat (apply Forall_cons || apply Forall_nil); split; cbn [sg_ids sg_rows sg_medoid sg_degree shard_a shard_b];
    try (repeat constructor; lia); try reflexivity; try (cbn; lia).
  - intros adj Hin. cbn in Hin. split; [intuition (subst; cbn; lia)|]. intros l Hl. cbn. intuition (subst; cbn in Hl; intuition lia).
  - intros adj Hin. cbn in Hin. split; [intuition (subst; cbn; lia)|]. intros l Hl. cbn. intuition (subst; cbn in Hl; intuition lia).
Qed.
Example shards_merged : exists m,
  merge_shards (fun _ l => rev l) (map graph_file [shard_a; shard_b]) (map idmap_file [shard_a; shard_b]) 2 0 0
  = Ok (save_graph [[3; 2]; [2]; [1; 3]; [2]]%N 2 0 0, m).
Proof. eexists. vm_compute. reflexivity. Qed.

(** C30 fails when an idmap repeats an id, which the sortedness check lets
    pass: all later nodes of the shard lose their neighbours. *)
Theorem merge_repeated_id_refuted : exists s rows m,
  StronglySorted N.le (sg_ids s)
  /\ merge_shards (fun _ l => l) [graph_file s] [idmap_file s] 4 0 0 = Ok (save_graph rows 4 0 0, m)
  /\ gives [s] 2 0 /\ nth_error rows 2 = Some [].
Proof.
  exists {| sg_ids := [0; 1; 1; 2]; sg_rows := [[1]; [0]; [0]; [0]]; sg_medoid := 0; sg_degree := 4 |}%N.
  exists [[1]; [0]; []]%N. eexists. split; [repeat constructor; lia|]. split; [vm_compute; reflexivity|].
  split; [|reflexivity]. eexists _, 3, 0, [0%N]. split; [now left|]. repeat split; try reflexivity; now left.
Qed.
Print Assumptions merge_repeated_id_refuted.

(** C30 fails when a shard's graph file is cut within the last list: the merge
    succeeds, with a neighbour that no shard gave. *)
Theorem merge_truncated_refuted : exists s rows m,
  shard_ok s
  /\ merge_shards (fun _ l => l) [firstn (length (graph_file s) - 4) (graph_file s)] [idmap_file s] 4 0 0 = Ok (save_graph rows 4 0 0, m)
  /\ (exists row, nth_error rows 2 = Some row /\ In 0%N row) /\ ~ gives [s] 2 0.
Proof.
  exists {| sg_ids := [0; 1; 2]; sg_rows := [[1]; [2]; [1]]; sg_medoid := 0; sg_degree := 4 |}%N.
  exists [[1]; [2]; [0]]%N. eexists. split; [|split; [vm_compute; reflexivity|split]].
  - split; cbn [sg_ids sg_rows sg_medoid sg_degree]; try (repeat constructor; lia); try reflexivity; try (cbn; lia).
    intros adj Hin. cbn in Hin. split; [intuition (subst; cbn; lia)|]. intros l Hl. cbn. intuition (subst; cbn in Hl; intuition lia).
  - eexists. split; [reflexivity|now left].
  - intros (s & i & l & adj & [<-|[]] & Hi & Hr & Hl & Hb). cbn [sg_ids sg_rows] in *.
    destruct i as [|[|[|i]]]; cbn in Hi; try discriminate; [|now destruct i].
    cbn in Hr. injection Hr as <-. destruct Hl as [Hl|[]]. assert (l = 1) by lia. subst l. discriminate.
Qed.
Print Assumptions merge_truncated_refuted.

(** An id that is in no shard gets an empty list, and then the merged file
    does not load. *)
Theorem merged_gap_refuted : exists shards file m, Forall shard_ok shards
  /\ merge_shards (fun _ l => l) (map graph_file shards) (map idmap_file shards) 4 0 0 = Ok (file, m)
  /\ load_graph file = Throws.
Proof.
  exists [{| sg_ids := [0; 2]; sg_rows := [[1]; [0]]; sg_medoid := 0; sg_degree := 4 |}%N].
  do 2 eexists. split; [|split; [vm_compute; reflexivity|reflexivity]].
  apply Forall_cons; [|apply Forall_nil].
  split; cbn [sg_ids sg_rows sg_medoid sg_degree]; try (repeat constructor; lia); try reflexivity; try (cbn; lia).
  intros adj Hin. cbn in Hin. split; [intuition (subst; cbn; lia)|]. intros l Hl. cbn. intuition (subst; cbn in Hl; intuition lia).
Qed.
Print Assumptions merged_gap_refuted.
