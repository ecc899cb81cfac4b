(** The cache of node records: it holds the nodes closest to the medoid, with
    the bytes the disk file has, and every update and reload keeps it so. *)
From Verif Require Import LayoutProofs LayoutProps NodeCacheProofs.
From Verif Require Export NodeCacheSpec.
Local Open Scope N_scope.

(** C86, the choice: generate keeps the nodes the fewest hops from the medoid,
    nearest first; as many as asked for, or all that can be reached. *)
Theorem node_cache_closest vs graph dim degree medoid want :
  layout_fits dim degree (N.of_nat (length graph)) -> N.of_nat (length graph) <= 2 ^ 32 ->
  layout_input vs (cut degree graph) dim degree -> medoid < N.of_nat (length graph) ->
  exists c, generate graph (concat vs) medoid (N.of_nat (length graph)) dim degree want = Ok c
    /\ closest_nodes graph medoid (N.to_nat (N.min want (N.of_nat (length graph)))) (nc_ids c).
Proof.
  intros F L I M. destruct (compute_ok _ _ _ F ltac:(lia)) as (g & EG & G).
  destruct (generate_ok dim degree _ g F L G EG vs graph _ I eq_refl ltac:(lia) medoid want M) as (c & E & CN & _). now exists c.
Qed.

(** C86, the updates: whatever is inserted, relinked, dropped, or saved and
    loaded again, a lookup finds exactly the last record of its node, complete,
    or nothing; and the size counts these nodes. *)
Theorem node_cache_refines vs graph dim degree medoid want limit ops :
  layout_fits dim degree limit -> limit <= 2 ^ 32 -> N.of_nat (length graph) <= limit ->
  layout_input vs (cut degree graph) dim degree -> medoid < N.of_nat (length graph) -> Forall (op_ok dim degree limit) ops ->
  exists c0 c, generate graph (concat vs) medoid (N.of_nat (length graph)) dim degree want = Ok c0
    /\ cache_run dim degree c0 ops = Ok c
    /\ shows degree c (fold_left spec_op ops (generated degree vs graph (nc_ids c0))).
Proof.
  intros F L Hn I M HO. destruct (compute_ok _ _ _ F ltac:(lia)) as (g & EG & G).
  destruct (generate_ok dim degree _ g F L G EG vs graph _ I eq_refl Hn medoid want M) as (c0 & E & _ & CI).
  destruct (run_rep dim degree limit g F L G EG ops c0 _ HO CI) as (c & ER & CR).
  exists c0, c. split; [exact E|]. split; [exact ER|]. exact (cinv_shows dim degree limit g L G c _ CR).
Qed.

(** C86, the same bytes: a search that hits the cache sees what it would read
    from the file write_disk_layout made. *)
Theorem node_cache_matches_disk vs graph dim degree medoid want :
  layout_fits dim degree (N.of_nat (length graph)) -> N.of_nat (length graph) <= 2 ^ 32 ->
  layout_input vs graph dim degree -> medoid < N.of_nat (length graph) ->
  exists g file c, compute dim degree = Ok g
    /\ write_disk_layout (concat vs) graph (N.of_nat (length graph)) dim degree medoid = Ok file
    /\ generate graph (concat vs) medoid (N.of_nat (length graph)) dim degree want = Ok c
    /\ forall x, lookup_record c x = if existsb (N.eqb x) (nc_ids c)
                                     then let* r := read_at file (file_offset g x) (g_len g) in Ok (Some r) else Ok None.
Proof.
  intros F L I M. assert (EC : cut degree graph = graph).
  { unfold cut. rewrite <- (map_id graph) at 2. apply map_ext_in. intros a Ha. apply firstn_all2. destruct (li_nbrs _ _ _ _ I a Ha). lia. }
  destruct (layout_read_back vs graph dim degree medoid F I M L) as (g & file & EG & EW & _ & RB).
  destruct (node_cache_refines vs graph dim degree medoid want _ [] F L ltac:(lia) ltac:(rewrite EC; exact I) M ltac:(constructor)) as (c & c' & E & [= <-] & S & _).
  destruct (node_cache_closest vs graph dim degree medoid want F L ltac:(rewrite EC; exact I) M) as (c1 & E1 & CN). rewrite E in E1. injection E1 as <-.
  exists g, file, c. split; [exact EG|]. split; [exact EW|]. split; [exact E|]. intros x. rewrite S. cbn [fold_left generated ct_node].
  destruct (existsb (N.eqb x) (nc_ids c)) eqn:X; cbn [option_map fst snd]; [|reflexivity].
  assert (Hx : x < N.of_nat (length graph)).
  { apply existsb_in in X. destruct (cn_reached _ _ _ _ CN x X) as [k H]. destruct H; [exact M|assumption]. }
  rewrite EC. destruct (RB (N.to_nat x) (nth (N.to_nat x) vs []) (nth (N.to_nat x) graph [])) as (r & ER & -> & _).
  - apply nth_error_nth'. rewrite (li_vectors _ _ _ _ I). lia.
  - apply nth_error_nth'. lia.
  - unfold node_first in ER. rewrite Nnat.N2Nat.id in ER. rewrite ER. reflexivity.
Qed.

(** C86, damaged files: files that load, and whose node length is not zero,
    never make a lookup read outside the cache. *)
Theorem node_cache_load_checked c ids_file nodes_file c1 c2 dim degree :
  nc_load c ids_file nodes_file = Ok c1 -> configure_geometry c1 dim degree = Ok c2 ->
  nc_len c1 <> 0 -> N.of_nat (length ids_file) * nc_len c1 < 2 ^ 64 ->
  forall x, exists r, lookup_record c2 x = Ok r /\ (r <> None <-> In x (nc_ids c2)) /\ forall b, r = Some b -> N.of_nat (length b) = nc_len c2.
Proof. exact (load_lemma c ids_file nodes_file c1 c2 dim degree). Qed.

(** C86 fails for a node length of zero: the files load, the geometry is
    accepted (zero stands for "not set yet"), and a lookup reads outside. *)
Theorem node_cache_refuted_zero_length : exists ids_file nodes_file c1 c2 x,
  nc_load nc_new ids_file nodes_file = Ok c1 /\ configure_geometry c1 2 2 = Ok c2 /\ lookup_record c2 x = OutOfBounds.
Proof.
  exists (le_enc 8 1 ++ le_enc 4 7), (le_enc 8 1 ++ le_enc 8 0). do 2 eexists. exists 7.
  split; [vm_compute; reflexivity|]. split; [vm_compute; reflexivity|]. vm_compute. reflexivity.
Qed.

(** Five nodes, one of them out of reach, a row longer than the degree bound
    and an entry that is no node. *)
Definition nc_graph : list (list N) := [[2; 9]; [0]; [3; 0; 1]; [2]; [0]].
Definition nc_vs : list (list N) := [[1; 2]; [3; 4]; [5; 6]; [7; 8]; [9; 10]].
Definition nc_ops : list cache_op := [SetNeighbors 3 [0; 1]; Upsert 6 [11; 12] [3]; Reload; Upsert 7 [13; 14] [6]; Upsert 3 [15; 16] []; DropDiskBacked; SetNeighbors 6 [7]].
Example node_cache_example :
  layout_fits 2 2 8 /\ layout_input nc_vs (cut 2 nc_graph) 2 2 /\ Forall (op_ok 2 2 8) nc_ops
  /\ exists c0 c, generate nc_graph (concat nc_vs) 2 5 2 2 3 = Ok c0 /\ nc_ids c0 = [2; 3; 0]
     /\ cache_run 2 2 c0 nc_ops = Ok c /\ nc_ids c = [2; 3; 0; 6] /\ nc_size c = 4
     /\ lookup_record c 3 = Ok (Some (record_bytes 2 [15; 16] [])) /\ lookup_record c 6 = Ok (Some (record_bytes 2 [11; 12] [7]))
     /\ lookup_record c 7 = Ok None.
Proof.
  split; [unfold layout_fits; vm_compute; repeat split; reflexivity|]. split.
  { constructor; [reflexivity| |]; apply Forall_forall; repeat (constructor; [split; [vm_compute; (reflexivity || discriminate)|repeat constructor]|]); constructor. }
  split; [repeat constructor; cbn; lia|].
  do 2 eexists. repeat (split; [vm_compute; reflexivity|]). vm_compute. reflexivity.
Qed.
Example node_cache_all_example : exists c, generate nc_graph (concat nc_vs) 2 5 2 2 5 = Ok c /\ nc_ids c = [2; 3; 0; 1].
Proof. eexists. split; vm_compute; reflexivity. Qed.
Example node_cache_load_example : exists c1 c2,
  nc_load nc_new (le_enc 8 1 ++ le_enc 4 7) (le_enc 8 1 ++ le_enc 8 20 ++ record_bytes 2 [1; 2] [5]) = Ok c1 /\ configure_geometry c1 2 2 = Ok c2
  /\ nc_len c1 <> 0 /\ N.of_nat (length (le_enc 8 1 ++ le_enc 4 7)) * nc_len c1 < 2 ^ 64 /\ lookup_record c2 7 = Ok (Some (record_bytes 2 [1; 2] [5])).
Proof. do 2 eexists. repeat (split; [vm_compute; try reflexivity; discriminate|]). vm_compute. reflexivity. Qed.

Print Assumptions node_cache_closest.
Print Assumptions node_cache_refines.
Print Assumptions node_cache_matches_disk.
Print Assumptions node_cache_load_checked.
Print Assumptions node_cache_refuted_zero_length.
