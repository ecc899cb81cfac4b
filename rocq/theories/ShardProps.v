(** Shards: the properties. *)
From Verif Require Import ShardSpec ShardProofs ShardFileProofs ShardMergeProofs GraphFileProofs.
Import ListNotations.

(** C79: if the distances are numbers and at least [k] of them below FLT_MAX,
    every vector goes to the [k] nearest centres, of which there is one list
    only; every shard's two files hold the vectors it was given and their
    numbers, in ascending order, whatever the block size. *)
Theorem shard_assignment_exact : forall dim vecs dist k centers,
  vectors dim vecs -> 0 < k <= centers ->
  (forall g v, nth_error vecs g = Some v -> length (dist g v) = centers /\ measured k (dist g v)) ->
  exists near, (forall g v, nth_error vecs g = Some v -> nearest_k k (dist g v) (near g))
    /\ forall fuel block, length vecs < fuel -> 0 < block ->
       exists files, shard_data fuel dist (fbin dim vecs) centers k block = Done (Ok files) /\ length files = centers
         /\ forall s f, nth_error files s = Some f -> holds_shard dim vecs (members near (length vecs) s) f.
Proof.
  intros dim vecs dist k centers HV Hk HD. exists (fun g => closest k (dist g (nth g vecs []))).
  assert (NK : forall g v, nth_error vecs g = Some v -> nearest_k k (dist g v) (closest k (dist g (nth g vecs [])))).
  { intros g v Hv. assert (Ev : @nth bytes g vecs [] = v) by (now apply nth_error_nth). rewrite Ev. apply closest_nearest; [lia|]. exact (proj2 (HD g v Hv)). }
  split; [exact NK|]. intros fuel block Hf Hb. set (near := fun g => closest k (dist g (nth g vecs []))) in *.
  assert (EL : forall s, log vecs dist k s (length vecs) = members near (length vecs) s).
  { intros s. apply log_members; [lia|]. intros g v Hv. split; [exact (proj2 (HD g v Hv))|exact (NK g v Hv)]. }
  assert (SM : forall s, (N.of_nat (length (members near (length vecs) s)) < 2 ^ 32)%N).
  { intros s. pose proof (members_length near (length vecs) s). pose proof (v_count _ _ HV). lia. }
  eexists. split; [|split].
  - rewrite <- (app_nil_r (fbin dim vecs)). apply (shard_data_run dim vecs HV dist k centers block fuel Hk Hb Hf (fun g v Hv => proj1 (HD g v Hv))).
    intros s _. rewrite EL. apply SM.
  - now rewrite map_length, seq_length.
  - intros s f Hs. rewrite nth_error_map in Hs. destruct (nth_error (seq 0 centers) s) as [t|] eqn:Et; [|discriminate].
    apply nth_error_seq in Et. subst t. inversion Hs; subst f. rewrite EL. apply finalize_holds, SM.
Qed.
Print Assumptions shard_assignment_exact.

(** C79: the nearest centres are determined by the distances. *)
Theorem nearest_centres_unique : forall k row a b, nearest_k k row a -> nearest_k k row b -> a = b.
Proof. exact nearest_k_unique. Qed.
Print Assumptions nearest_centres_unique.

(** C79: every vector is in exactly [k] shards. *)
Theorem shard_replication : forall k row ids, nearest_k k row ids -> NoDup ids /\ length ids = k.
Proof. intros k row ids H. split; [exact (sorted_nodup _ (before_irrefl row) ids (nk_sorted _ _ _ H))|exact (nk_length _ _ _ H)]. Qed.
Print Assumptions shard_replication.

(** C79: whatever the distances (NaN, infinite), no write is out of bounds and
    the shards hold [k] entries for each vector in all; the block size does
    not matter. *)
Theorem shard_assignment_safe : forall dim vecs dist k centers,
  vectors dim vecs -> 0 < k <= centers -> (N.of_nat (length vecs * k) < 2 ^ 32)%N ->
  (forall g v, nth_error vecs g = Some v -> length (dist g v) = centers) ->
  exists files, length files = centers /\ fold_right N.add 0%N (map f_count files) = N.of_nat (length vecs * k)
    /\ forall fuel block, length vecs < fuel -> 0 < block -> shard_data fuel dist (fbin dim vecs) centers k block = Done (Ok files).
Proof.
  intros dim vecs dist k centers HV Hk HN HD. pose proof HV as [D SV CV WV].
  assert (Hw : forall v, In v vecs -> length v = N.to_nat dim * 4) by (intros v Hv; rewrite WV by exact Hv; lia).
  pose proof (logs_total vecs dist k centers ltac:(lia) HD CV _ Hw (length vecs) ltac:(lia)) as T.
  assert (B : forall s, s < centers -> (N.of_nat (length (log vecs dist k s (length vecs))) < 2 ^ 32)%N).
  { intros s Hs. assert (G : forall (l : list (list nat)) x, In x l -> length x <= list_sum (map (@length nat) l)).
    { clear. induction l as [|y l IH]; intros x; [intros []|]. unfold list_sum in *. cbn [map fold_right]. intros [->|H]; [lia|]. specialize (IH x H). lia. }
    assert (In (log vecs dist k s (length vecs)) (logs vecs dist k centers (length vecs))) as I by (apply (in_map (fun s => log vecs dist k s (length vecs))), in_seq; lia).
    apply G in I. lia. }
  exists (map (fun s => finalize dim (mk vecs (log vecs dist k s (length vecs)))) (seq 0 centers)).
  split; [now rewrite map_length, seq_length|]. split.
  - rewrite map_map. cbn [f_count finalize o_count mk]. rewrite <- T. unfold logs. rewrite map_map.
    assert (G : forall l, (forall s, In s l -> s < centers) -> fold_right N.add 0%N (map (fun s => (N.of_nat (length (log vecs dist k s (length vecs))) mod 2 ^ 32)%N) l)
      = N.of_nat (list_sum (map (fun s => length (log vecs dist k s (length vecs))) l))).
    { induction l as [|s l IH]; intros Hl; [reflexivity|]. unfold list_sum in *. cbn [map fold_right]. rewrite IH by (intros; apply Hl; now right).
      rewrite N.mod_small by (apply B, Hl; now left). lia. }
    apply G. intros s Hs. apply in_seq in Hs. lia.
  - intros fuel block Hf Hb. rewrite <- (app_nil_r (fbin dim vecs)). exact (shard_data_run dim vecs HV dist k centers block fuel Hk Hb Hf HD B []).
Qed.
Print Assumptions shard_assignment_safe.

(** C79: files that are cut short are never accepted. *)
Theorem shard_input_complete : forall fuel dist file centers k block files,
  Forall is_byte file -> shard_data fuel dist file centers k block = Done (Ok files) ->
  exists num dim rest, file = le_enc 4 num ++ le_enc 4 dim ++ rest /\ (0 < num < 2 ^ 32)%N /\ (0 < dim < 2 ^ 32)%N
    /\ N.to_nat num * (4 * N.to_nat dim) <= length rest.
Proof. exact shard_data_complete. Qed.
Print Assumptions shard_input_complete.

(** Three vectors of one dimension and three centres. *)
Definition three_vecs : list bytes := [[1; 0; 0; 0]; [2; 0; 0; 0]; [3; 0; 0; 0]]%N.
Example three_vectors : vectors 1 three_vecs.
Proof. split; [lia|discriminate|cbn; lia|]. intros v Hv. cbn in Hv. intuition (subst; reflexivity). Qed.
Definition three_dist (g : nat) (v : bytes) : list fl :=
  nth g [[Some 1; Some 4; Some 4]; [Some 9; Some 0; Some 2]; [Some 7; Some 7; Some 7]]%Z [].
Example three_measured : forall g v, nth_error three_vecs g = Some v -> length (three_dist g v) = 3 /\ measured 2 (three_dist g v).
Proof.
  intros g v Hv. assert (g < 3) by (apply (nth_error_Some three_vecs g); congruence).
  assert (E : g = 0 \/ g = 1 \/ g = 2) by lia. destruct E as [->|[->| ->]]; (split; [reflexivity|]); split; try (intros d Hd; cbn in Hd; intuition (subst; discriminate));
    exists [0; 1]; (split; [repeat constructor; cbn; lia|]); (split; [reflexivity|]); intros c Hc; cbn in Hc; destruct Hc as [<-|[<-|[]]]; eexists; (split; [reflexivity|]); reflexivity.
Qed.
Example three_nearest : closest 2 (three_dist 0 []) = [0; 1] /\ closest 2 (three_dist 1 []) = [1; 2] /\ closest 2 (three_dist 2 []) = [0; 1].
Proof. repeat split. Qed.
Example three_sharded : exists f0 f1 f2, shard_data 10 three_dist (fbin 1 three_vecs) 3 2 2 = Done (Ok [f0; f1; f2])
  /\ f_ids f0 = idfile [0; 2] /\ f_data f1 = fbin 1 three_vecs /\ f_ids f2 = idfile [1].
Proof. do 3 eexists. split; [vm_compute; reflexivity|]. repeat split. Qed.
Example three_cut : shard_data 10 three_dist (firstn 19 (fbin 1 three_vecs)) 3 2 2 = Done Throws.
Proof. reflexivity. Qed.

(** C79 fails for distances that overflow: a vector at infinite distance from all
    centres is written twice to shard 0, and the check of the total passes.
    (2139095040 is +infinity.) *)
Theorem shard_replication_refuted_infinite : exists dim vecs dist f0 f1 f2,
  vectors dim vecs /\ (forall g v, nth_error vecs g = Some v -> dist g v = repeat (Some 2139095040%Z) 3)
  /\ shard_data 10 dist (fbin dim vecs) 3 2 10 = Done (Ok [f0; f1; f2])
  /\ f_ids f0 = idfile [0; 0] /\ f_ids f1 = idfile [] /\ f_ids f2 = idfile [].
Proof.
  exists 1%N, [[1; 2; 3; 4]]%N, (fun _ _ => repeat (Some 2139095040%Z) 3). do 3 eexists. split.
  { split; [lia|discriminate|cbn; lia|]. intros v [<-|[]]. reflexivity. }
  split; [reflexivity|]. split; [vm_compute; reflexivity|]. repeat split.
Qed.
Print Assumptions shard_replication_refuted_infinite.

(** C79 fails for NaNs, even with k numbers among the distances: a NaN takes the
    last place, and everything after the NaN takes it too. *)
Theorem shard_nearest_refuted_nan : exists row, nth_error row 0 = Some (Some 5%Z) /\ nth_error row 1 = Some (Some 6%Z)
  /\ nth_error row 2 = Some None /\ nth_error row 3 = Some (Some 9%Z) /\ closest 2 row = [0; 3].
Proof. exists [Some 5; Some 6; None; Some 9]%Z. repeat split. Qed.
Print Assumptions shard_nearest_refuted_nan.

(** C79: a block size of zero makes the assignment run for ever. *)
Theorem shard_zero_block_refuted : forall dim vecs dist k centers, vectors dim vecs -> 0 < k <= centers ->
  forall fuel, shard_data fuel dist (fbin dim vecs) centers k 0 = OutOfFuel.
Proof.
  intros dim vecs dist k centers [[D0 D1] SV CV WV] Hk fuel. unfold shard_data. rewrite (proj2 (Nat.eqb_neq centers 0)), (proj2 (Nat.eqb_neq k 0)) by lia.
  destruct (Nat.ltb_spec centers k) as [|_]; [lia|]. cbn [orb]. rewrite <- (app_nil_r (fbin dim vecs)). rewrite (fbin_read dim vecs [] (conj D0 D1) CV).
  assert (L0 : 0 < length vecs) by (destruct vecs; [congruence|cbn; lia]).
  rewrite (proj2 (N.eqb_neq _ 0)) by lia. rewrite Nat2N.id. cbn [Nat.min]. now rewrite shard_loop_stuck by exact L0.
Qed.
Print Assumptions shard_zero_block_refuted.

(** C80: if every shard is among the two nearest of some vector, the build shard
    by shard gives, for any graphs that the shards' builder makes, a file with
    one row for every vector, and the rows are the union of what the shards
    gave, cut to [R]. *)
Theorem partitioned_build_exact : forall dim R vecs dist near parts build shuffle fuel block medoid,
  vectors dim vecs -> (R < 2 ^ 32)%N -> 2 <= parts ->
  (forall g v, nth_error vecs g = Some v -> length (dist g v) = parts /\ measured 2 (dist g v) /\ nearest_k 2 (dist g v) (near g)) ->
  (forall s, s < parts -> exists g, g < length vecs /\ In s (near g)) ->
  (forall s ids graph medoid, s < parts -> ids = members near (length vecs) s ->
     build s (map (fun g => nth g vecs []) ids) = (graph, medoid) -> graph_on (length ids) graph medoid) ->
  (forall gid l, Permutation l (shuffle gid l)) -> length vecs < fuel -> 0 < block ->
  exists shards rows medoids,
    partition_merge fuel dist build shuffle (fbin dim vecs) dim R parts block medoid = Done (Ok (save_graph rows R medoid 0, medoids))
    /\ length shards = parts
    /\ (forall s sh, nth_error shards s = Some sh -> sg_ids sh = map N.of_nat (members near (length vecs) s)
          /\ sg_rows sh = fst (build s (map (fun g => nth g vecs []) (members near (length vecs) s))))
    /\ merged shards R rows /\ length rows = length vecs.
Proof.
  intros dim R vecs dist near parts build shuffle fuel block medoid HV HR HP HD HE HB HS Hf Hb.
  destruct (partition_ok dim R vecs HV dist near parts HD HP build HR) with (shuffle := shuffle) (fuel := fuel) (block := block) (medoid := medoid) as (rows & E & M & L).
  - intros s Hs. apply (HB s); [exact Hs|reflexivity|]. apply surjective_pairing.
  - exact HS.
  - intros s Hs Ep. destruct (HE s Hs) as (g & Hg & Hi). assert (I : In g (part vecs near s)) by (apply members_in; auto). rewrite Ep in I. destruct I.
  - exact Hf.
  - exact Hb.
  - do 3 eexists. split; [exact E|]. split; [|split; [|split; [exact M|exact L]]]; [now rewrite map_length, seq_length|].
    intros s sh Hs. rewrite nth_error_map in Hs. destruct (nth_error (seq 0 parts) s) as [t|] eqn:Et; [|discriminate].
    apply nth_error_seq in Et. subst t. inversion Hs; subst sh. split; reflexivity.
Qed.
Print Assumptions partitioned_build_exact.

(** C80 fails if some shard is not among the two nearest of any vector: the whole
    build throws, whatever the rest. *)
Theorem partitioned_build_refuted_empty_shard : forall dim R vecs dist near parts build shuffle fuel block medoid,
  vectors dim vecs -> 2 <= parts ->
  (forall g v, nth_error vecs g = Some v -> length (dist g v) = parts /\ measured 2 (dist g v) /\ nearest_k 2 (dist g v) (near g)) ->
  (exists s, s < parts /\ forall g, g < length vecs -> ~ In s (near g)) -> length vecs < fuel -> 0 < block ->
  partition_merge fuel dist build shuffle (fbin dim vecs) dim R parts block medoid = Done Throws.
Proof.
  intros dim R vecs dist near parts build shuffle fuel block medoid HV HP HD (s & Hs & HE) Hf Hb. unfold partition_merge.
  rewrite <- (app_nil_r (fbin dim vecs)), (shard_data_parts dim vecs HV dist near parts HD HP fuel block [] Hf Hb). cbn [bind].
  rewrite (build_shards_empty dim R vecs HV near build parts 0); [reflexivity|]. exists s. split; [lia|].
  destruct (part vecs near s) as [|g l] eqn:Ep; [reflexivity|]. exfalso. assert (I : In g (part vecs near s)) by (rewrite Ep; now left).
  apply members_in in I. exact (HE g (proj1 I) (proj2 I)).
Qed.
Print Assumptions partitioned_build_refuted_empty_shard.

(** The three vectors above have all three shards among their nearest ones; and
    two of them leave the third shard empty. *)
Definition ring (s : nat) (vecs : list bytes) : list (list N) * N :=
  (map (fun i => [(N.of_nat (S i) mod N.of_nat (length vecs))%N]) (seq 0 (length vecs)), 0%N).
Example three_built : exists file m, partition_merge 10 three_dist ring (fun _ l => l) (fbin 1 three_vecs) 1 4 3 2 1 = Done (Ok (file, m))
  /\ file = save_graph [[2; 1]; [2]; [0]]%N 4 1 0.
Proof. do 2 eexists. split; [vm_compute; reflexivity|reflexivity]. Qed.
Example two_fail : partition_merge 10 (fun g => three_dist (2 * g)) ring (fun _ l => l) (fbin 1 (firstn 2 three_vecs)) 1 4 3 2 1 = Done Throws.
Proof. vm_compute. reflexivity. Qed.

(** C80: the entry point of the merged graph is a point nearest to the centroid,
    however the points are divided among blocks and threads and in whatever
    order the threads finish, if one distance at all is a number below
    DBL_MAX. *)
Theorem medoid_streaming_nearest : forall dist blocks n,
  Permutation (concat (map (@concat nat) blocks)) (seq 0 n) ->
  (exists p x, p < n /\ dist p = Some x /\ (x < dbl_max)%Z) ->
  let m := medoid_streaming dist blocks in
  m < n /\ exists x, dist m = Some x /\ forall q y, q < n -> dist q = Some y -> (x <= y)%Z.
Proof.
  intros dist blocks n HP (p & x & Hp & Ep & Lx) m.
  assert (IN : forall q, In q (concat (map (@concat nat) blocks)) <-> q < n).
  { intros q. split; intros H; [apply (Permutation_in _ HP), in_seq in H; lia|apply (Permutation_in _ (Permutation_sym HP)), in_seq; lia]. }
  pose proof (looked_blocks dist blocks [] _ (looked_nil dist)) as H. cbn [app] in H. subst m. unfold medoid_streaming.
  destruct H as [[-> H]|(q & y & -> & Hq & Eq & Ly & H)].
  - exfalso. specialize (H p x (proj2 (IN p) Hp) Ep). lia.
  - cbn [snd]. split; [now apply IN|]. exists y. split; [exact Eq|]. intros r z Hr. apply H. now apply IN.
Qed.
Print Assumptions medoid_streaming_nearest.

(** C80: whatever the distances, the entry point is one of the points. *)
Theorem medoid_streaming_in_range : forall dist blocks n, 0 < n ->
  Permutation (concat (map (@concat nat) blocks)) (seq 0 n) -> medoid_streaming dist blocks < n.
Proof.
  intros dist blocks n Hn HP. pose proof (looked_blocks dist blocks [] _ (looked_nil dist)) as H. cbn [app] in H. unfold medoid_streaming.
  destruct H as [[-> _]|(q & y & -> & Hq & _)]; [exact Hn|]. cbn [snd]. apply (Permutation_in _ HP), in_seq in Hq. lia.
Qed.
Print Assumptions medoid_streaming_in_range.
Definition dists4 (p : nat) : fl := nth p [Some 8; None; Some 2; Some 5]%Z None.
Example medoid4 : medoid_streaming dists4 [[[1]; [0]]; [[3]; [2]]] = 2 /\ Permutation (concat (map (@concat nat) [[[1]; [0]]; [[3]; [2]]])) (seq 0 4).
Proof. split; [reflexivity|]. cbn. apply perm_trans with [0; 1; 3; 2]; repeat constructor. Qed.

(** C81: the number of parts is the smallest one tried for which all shards fit
    the budget; the call throws if there is none. *)
Theorem num_parts_least : forall rams num_train num_test max_parts budget fuel,
  (0 < budget)%Z -> 0 < num_train -> 0 < num_test -> (forall p r, In r (rams p) -> r <> None) -> max_parts < fuel ->
  (exists p, determine_num_parts fuel rams num_train num_test max_parts (Some budget) = Done (Ok p)
     /\ tried num_train max_parts p /\ fits rams budget p
     /\ forall q, q < p -> tried num_train max_parts q -> ~ fits rams budget q)
  \/ (determine_num_parts fuel rams num_train num_test max_parts (Some budget) = Done Throws
     /\ forall q, tried num_train max_parts q -> ~ fits rams budget q).
Proof.
  intros rams num_train num_test max_parts budget fuel HB HT1 HT2 HN Hf. unfold determine_num_parts.
  assert (Z0 : fge (Some 0%Z) (Some budget) = false) by (cbn; apply Z.leb_gt; exact HB). rewrite Z0. rewrite (proj2 (Nat.eqb_neq num_train 0)), (proj2 (Nat.eqb_neq num_test 0)) by lia. cbn [orb].
  pose proof (grow_parts_ok rams num_train max_parts budget ltac:(lia) HN fuel 3 ltac:(lia) ltac:(lia)) as H1.
  assert (TO : forall q, tried num_train max_parts q -> exists i, q = 3 + 2 * i /\ q <= max_parts /\ q <= num_train).
  { intros q ((j & Ej) & A & B). exists (j - 1). lia. }
  destruct (grow_parts fuel rams num_train max_parts (Some budget) 3) as [|[q| | |]]; try (exfalso; exact H1).
  - left. exists q. destruct H1 as ((i & Ei) & A1 & A2 & A3 & A4). split; [reflexivity|]. split; [split; [exists (S i); lia|lia]|]. split; [exact A3|].
    intros r Hr Tr F. destruct (TO r Tr) as (j & Ej & B1 & B2). subst r. destruct (A4 j Hr) as (x & Hx & Lx). specialize (F x Hx). lia.
  - right. split; [reflexivity|]. intros r Tr F. destruct (TO r Tr) as (j & Ej & B1 & B2). subst r. destruct (H1 j B1 B2) as (x & Hx & Lx). specialize (F x Hx). lia.
Qed.
Print Assumptions num_parts_least.
Definition halving (p : nat) : list fl := repeat (Some (1000 / Z.of_nat p)%Z) p.
Example halving_parts : determine_num_parts 30 halving 100 100 20 (Some 150%Z) = Done (Ok 7) /\ determine_num_parts 30 halving 5 100 20 (Some 150%Z) = Done Throws.
Proof. split; vm_compute; reflexivity. Qed.
