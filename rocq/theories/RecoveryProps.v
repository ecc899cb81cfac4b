(** Properties C04, C05, C06 of crash recovery. *)
From Verif Require Import WalModel WalSpec WalProofs RecoveryModel RecoverySpec RecoveryProofs.

(** A small index used in the examples: the contents are the inserted
    payloads; removing an absent payload throws. *)
Definition toy_eqb (a b : bytes) : bool := if list_eq_dec N.eq_dec a b then true else false.
Definition toy_apply (s : list bytes) (m : mutation) (pl : bytes) : option (list bytes) :=
  match m with
  | kInsert | kUpsert => Some (s ++ [pl])
  | _ => if existsb (toy_eqb pl) s then Some (filter (fun x => negb (toy_eqb pl x)) s) else None
  end.

(** A history with completed, failing and interrupted operations, completed
    and interrupted checkpoints, and interrupted restarts. *)
Definition ex_history : list event :=
  [ EOp kInsert [1]; EOp kRemoveByItemId [9]; EOp kInsert [2];
    ECheckpointCrash 11 5; ELoad 12; EOp kInsert [3]; EOpCrash kInsert [4] 29; ELoadCrash 13 2;
    ELoadCrash 14 5; ELoad 15; EOp kRemoveByItemId [1]; ECheckpoint 16; EOp kInsert [5];
    EOpCrash kInsert [6] 57; ELoad 17 ]%N.

(** C04.  After a restart the next operation id exceeds every id in the log
    and the id recorded in the snapshot.  (Ids are below 2^64 - 1; the C++
    counter would wrap there.) *)
Theorem restart_op_ids_fresh : forall (S : Type) (apply : S -> mutation -> bytes -> option S)
    (d : disk S) cs p n f,
  Forall op_id_ok cs -> do_calls None cs = Ret (d_wal d) ->
  open_and_replay apply d = Some (p, n, f) ->
  (forall c, In c cs -> (call_id c < p_next p)%N)
  /\ (forall id a, current_snapshot d = Some (id, a) -> (a < p_next p)%N).
Proof. exact @next_id_lemma. Qed.
Print Assumptions restart_op_ids_fresh.

Example restart_op_ids_fresh_example :
  exists w p, do_calls None [Prepare {| op_id := 8; mut := kInsert; payload := [] |}] = Ret w /\
  open_and_replay toy_apply
    {| d_current := Some 1%N; d_snaps := [(1%N, {| sn_data := Some []; sn_manifest := Some 7%N |})];
       d_wal := w; d_base := [] |} = Some (p, 0, true) /\ p_next p = 9%N.
Proof. eexists. eexists. split; [vm_compute; reflexivity|]. split; vm_compute; reflexivity. Qed.

(** C04 for the public RecoveryManager::next_operation_id is false: after a
    checkpoint has removed the log it ignores the snapshot's id. *)
Theorem next_operation_id_refuted :
  exists (d : disk (list bytes)) id a,
    current_snapshot d = Some (id, a)
    /\ exists p, open_and_replay toy_apply d = Some (p, 0, true)
    /\ exists nx, next_operation_id d = Some nx /\ (nx <= a)%N.
Proof.
  exists {| d_current := Some 1%N; d_snaps := [(1%N, {| sn_data := Some []; sn_manifest := Some 7%N |})];
       d_wal := None; d_base := [] |}, 1%N, 7%N.
  split; [reflexivity|]. eexists. split; [vm_compute; reflexivity|].
  exists 1%N. split; [reflexivity|]. discriminate.
Qed.
Print Assumptions next_operation_id_refuted.

(** C05.  Take any directory [d] from which a restart would give the contents
    of the running process [p], where [p_committed] covers the operations in
    the log.  If publishing a snapshot under a fresh directory name crashes
    after any number [k] of file-system steps, a restart succeeds and gives
    the same contents. *)
Theorem publish_crash_atomic : forall (S : Type) (apply : S -> mutation -> bytes -> option S)
    (d : disk S) p p0 n f id k recs mx,
  open_and_replay apply d = Some (p0, n, f) -> p_mem p0 = p_mem p ->
  replayable_records (d_wal d) 0 = Some (recs, mx) ->
  (forall r, In r recs -> (op_id r <= p_committed p)%N) ->
  d_current d <> Some id ->
  exists p' n' f',
    open_and_replay apply
      (run_steps (firstn k (checkpoint_steps d id (p_mem p) (p_committed p))) d) = Some (p', n', f')
    /\ p_mem p' = p_mem p.
Proof. exact @publish_crash_lemma. Qed.
Print Assumptions publish_crash_atomic.

Definition ex_disk : world (list bytes) := run toy_apply (fresh_world [] 1%N) (firstn 3 ex_history).
Example publish_crash_atomic_example :
  exists p p0 recs mx, fst ex_disk = Some p /\ open_and_replay toy_apply (snd ex_disk) = Some (p0, 2, true)
  /\ p_mem p0 = p_mem p /\ p_mem p = [[1]; [2]]%N
  /\ replayable_records (d_wal (snd ex_disk)) 0 = Some (recs, mx)
  /\ map op_id recs = [1; 3]%N /\ p_committed p = 3%N /\ d_current (snd ex_disk) <> Some 11%N.
Proof.
  eexists. eexists. eexists. eexists. split; [vm_compute; reflexivity|].
  split; [vm_compute; reflexivity|]. split; [vm_compute; reflexivity|]. split; [vm_compute; reflexivity|].
  split; [vm_compute; reflexivity|]. split; [vm_compute; reflexivity|]. split; [vm_compute; reflexivity|].
  vm_compute. discriminate.
Qed.

(** Directory names are millisecond timestamps.  If two checkpoints fall in
    the same millisecond the current snapshot is overwritten in place, and a
    crash while the components are being written leaves nothing loadable. *)
Theorem publish_same_name_refuted :
  exists (d : disk (list bytes)) p p0 n f id k recs mx,
    open_and_replay toy_apply d = Some (p0, n, f) /\ p_mem p0 = p_mem p
    /\ replayable_records (d_wal d) 0 = Some (recs, mx)
    /\ (forall r, In r recs -> (op_id r <= p_committed p)%N)
    /\ d_current d = Some id
    /\ open_and_replay toy_apply
         (run_steps (firstn k (checkpoint_steps d id (p_mem p) (p_committed p))) d) = None.
Proof.
  exists (fresh_disk [] 1%N), {| p_mem := []; p_next := 1; p_committed := 0 |}%N.
  eexists. eexists. eexists. exists 1%N, 2. eexists. eexists.
  split; [vm_compute; reflexivity|]. split; [reflexivity|].
  split; [vm_compute; reflexivity|]. split; [intros ? []|]. split; reflexivity.
Qed.
Print Assumptions publish_same_name_refuted.

(** C06.  Full statement: after every history the running index has the
    contents of the specification.  Proved for histories in which crashes do
    not tear a log frame; [NoDup]: snapshot directory names are distinct. *)
Theorem recovery_history_partial : forall (S : Type) (apply : S -> mutation -> bytes -> option S)
    (c : S) id0 h,
  (N.of_nat (length h) < 2 ^ 64)%N ->
  Forall frame_atomic h ->
  NoDup (id0 :: flat_map snap_id_of h) ->
  option_map p_mem (fst (run apply (fresh_world c id0) h)) =
  (let '(alive, s) := spec_run apply c h in if alive then Some s else None).
Proof.
  intros S apply c id0 h H1 H2 H3.
  pose proof (recovery_lemma apply c id0 h H1 H2 H3) as HG. unfold Good in HG.
  destruct (spec_run apply c h) as [al s]. cbn [fst snd] in HG.
  destruct (fst (run apply (fresh_world c id0) h)) as [p|].
  - destruct HG as [-> (es & c' & a & HP)]. cbn [option_map]. f_equal. apply HP.
  - destruct HG as [-> _]. reflexivity.
Qed.
Print Assumptions recovery_history_partial.

Example recovery_history_example :
  Forall frame_atomic ex_history /\ NoDup (1%N :: flat_map snap_id_of ex_history) /\
  spec_run toy_apply [] ex_history = (true, [[2]; [3]; [5]; [6]]%N).
Proof.
  split; [|split].
  - repeat constructor; unfold op_bytes; cbn; lia.
  - vm_compute. repeat constructor; cbn; intuition discriminate.
  - vm_compute. reflexivity.
Qed.

(** C06 is false when a crash tears a frame: the first operation after fit()
    crashes after 10 bytes of its prepare frame; the restart finds nothing to
    replay and keeps the torn log; the operation acknowledged next is lost at
    the following restart. *)
Theorem recovery_history_refuted :
  exists h, NoDup (1%N :: flat_map snap_id_of h)
    /\ spec_run toy_apply [] h = (true, [[7]]%N)
    /\ option_map p_mem (fst (run toy_apply (fresh_world [] 1%N) h)) = Some [].
Proof.
  exists [EOpCrash kInsert [5]%N 10; ELoad 2; EOp kInsert [7]%N; EKill; ELoad 3].
  split; [vm_compute; repeat constructor; cbn; intuition discriminate|].
  split; vm_compute; reflexivity.
Qed.
Print Assumptions recovery_history_refuted.
