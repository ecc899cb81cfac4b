(** What searches of an updatable disk index see of the updates. *)
From Verif Require Import LayoutProofs MirrorProofs.
From Verif Require Export MirrorSpec.
Local Open Scope N_scope.

(** C87: at every moment a search reads of each node the vector and neighbours
    last written, whether from the cache of records, the page cache or the
    disk; as long as the index is only closed after a flush. *)
Theorem search_reads_latest_partial vs graph medoid dim degree want limit ops :
  layout_fits dim degree limit -> limit <= 2 ^ 32 -> N.of_nat (length graph) <= limit ->
  layout_input vs graph dim degree -> medoid < N.of_nat (length graph) ->
  Forall (mop_ok dim degree limit) ops -> closed_clean true ops ->
  exists st0 st, built_index vs graph medoid dim degree want = Ok st0 /\ mirror_run dim degree st0 ops = Ok st
    /\ forall x peek, search_read dim st peek x = Ok (fold_left latest_step ops (built vs graph) x).
Proof.
  intros F L Hn I M HO HC. destruct (compute_ok _ _ _ F ltac:(lia)) as (g & EG & G).
  destruct (built_ok dim degree limit g F L G EG vs graph medoid want I Hn M) as (st0 & E0 & I0).
  destruct (mirror_run_ok dim degree limit g F L G EG ops true st0 _ HO HC I0) as (st & cl & E & I1).
  exists st0, st. split; [exact E0|]. split; [exact E|]. intros x peek. exact (read_ok_latest dim degree limit g F L G cl st _ peek x I1).
Qed.

Definition mi_graph : list (list N) := [[1]; [0]; [0]].
Definition mi_vs : list (list N) := [[1; 2]; [3; 4]; [5; 6]].
Definition mi_ops : list mirror_op :=
  [Reopen; Relink 0 [1; 2]; Insert 3 [7; 8] [0]; WriteBack [2; 3]; Relink 2 [3]; FlushPages; Relink 3 [2]; Flush; FlushPages; Reopen; Relink 0 []].
Example search_reads_latest_example :
  layout_fits 2 2 8 /\ layout_input mi_vs mi_graph 2 2 /\ Forall (mop_ok 2 2 8) mi_ops /\ closed_clean true mi_ops
  /\ exists st0 st, built_index mi_vs mi_graph 0 2 2 1 = Ok st0 /\ mirror_run 2 2 st0 mi_ops = Ok st
     /\ search_read 2 st false 0 = Ok (Some ([1; 2], [])) /\ search_read 2 st false 3 = Ok (Some ([7; 8], [2]))
     /\ mi_disk st 0 = Some ([1; 2], [1; 2]) /\ nc_ids (mi_cache st) = [0].
Proof.
  split; [unfold layout_fits; vm_compute; repeat split; reflexivity|]. split.
  { constructor; [reflexivity| |]; apply Forall_forall; repeat (constructor; [split; [vm_compute; (reflexivity || discriminate)|repeat constructor]|]); constructor. }
  split; [repeat constructor; cbn; lia|]. split; [cbn; tauto|].
  do 2 eexists. repeat (split; [vm_compute; reflexivity|]). vm_compute. reflexivity.
Qed.

(** C87 fails after flush_pages, the "lightweight durability point": the pages
    are on disk, but the cache files are not written.  After reopening the
    searches see the old record of a cached node, although the disk and the
    page cache have the new one. *)
Theorem search_reads_refuted_flush_pages : exists vs graph medoid dim degree want ops st0 st x old new,
  layout_input vs graph dim degree /\ Forall (mop_ok dim degree 8) ops /\ (exists before, ops = before ++ [FlushPages; Reopen])
  /\ built_index vs graph medoid dim degree want = Ok st0 /\ mirror_run dim degree st0 ops = Ok st
  /\ fold_left latest_step ops (built vs graph) x = Some new /\ mi_disk st x = Some new
  /\ (forall peek, search_read dim st peek x = Ok (Some old)) /\ old <> new.
Proof.
  exists mi_vs, mi_graph, 0, 2, 2, 1, [Relink 0 [2]; FlushPages; Reopen]. do 2 eexists. exists 0, ([1; 2], [1]), ([1; 2], [2]).
  split; [apply search_reads_latest_example|]. split; [repeat constructor; cbn; lia|]. split; [now exists [Relink 0 [2]]|].
  repeat (split; [vm_compute; reflexivity|]). discriminate.
Qed.

Print Assumptions search_reads_latest_partial.
Print Assumptions search_reads_refuted_flush_pages.
