(** Properties C01, C02, C03 of the write-ahead log. *)
From Verif Require Import WalModel WalSpec WalProofs.

(** A concrete log used in the examples: operation 1 is prepared and
    committed, operation 2 is prepared only, operation 3 is prepared twice and
    committed; the payload of operation 1 contains the frame magic. *)
Definition ex_calls : list call :=
  [ Prepare {| op_id := 1; mut := kInsert; payload := le_enc 4 kWalFrameMagic |};
    Prepare {| op_id := 3; mut := kUpsert; payload := [9] |};
    Commit 1 kInsert;
    Prepare {| op_id := 2; mut := kInsert; payload := [8] |};
    Prepare {| op_id := 3; mut := kUpsert; payload := [7; 7] |};
    Commit 3 kUpsert ]%N.

(** C01.  For every sequence of prepare/commit calls on a fresh log, replay
    terminates and returns the durable operations newer than [a], sorted by
    id, and the largest id in the log. *)
Theorem wal_replay_exact : forall cs a f,
  Forall op_id_ok cs -> do_calls None cs = Ret f ->
  exists recs mx, replayable_records f a = Some (recs, mx)
    /\ replay_of a cs recs /\ largest_id a cs mx.
Proof. exact wal_replay_exact_lemma. Qed.
Print Assumptions wal_replay_exact.

Example wal_replay_exact_example :
  Forall op_id_ok ex_calls /\
  exists f, do_calls None ex_calls = Ret f /\
    replayable_records f 0 =
      Some ([ {| op_id := 1; mut := kInsert; payload := le_enc 4 kWalFrameMagic |};
              {| op_id := 3; mut := kUpsert; payload := [7; 7] |} ]%N, 3%N).
Proof.
  split; [repeat constructor|]. eexists. split; [vm_compute; reflexivity|]. vm_compute. reflexivity.
Qed.

(** C01, the specification in one line: an operation is durable iff a commit
    of the same id and kind occurs whose most recent earlier call for that id
    is the prepare of that operation. *)
Theorem wal_durable_iff : forall cs r,
  In r (durable_ops cs) <->
  exists before after, cs = before ++ Commit (op_id r) (mut r) :: after
    /\ last_call (op_id r) before = Some (Prepare r).
Proof. exact (fun cs r => durable_from_In cs [] r). Qed.
Print Assumptions wal_durable_iff.

Example wal_durable_iff_example :
  In {| op_id := 3; mut := kUpsert; payload := [7; 7]%N |} (durable_ops ex_calls)
  /\ ~ In {| op_id := 3; mut := kUpsert; payload := [9]%N |} (durable_ops ex_calls).
Proof.
  split; [vm_compute; auto|]. vm_compute. intros [H|[H|[]]]; discriminate H.
Qed.

(** C02.  Cut the log after any number [n] of bytes: replay returns what it
    would return for the largest number [k] of calls whose frames fit in the
    first [n] bytes. *)
Theorem wal_torn_tail : forall cs a f n,
  Forall op_id_ok cs -> do_calls None cs = Ret f ->
  exists k recs mx fk,
    do_calls None (firstn k cs) = Ret fk
    /\ length (file_bytes fk) <= n
    /\ (k = length cs \/
        exists fk1, do_calls None (firstn (S k) cs) = Ret fk1 /\ n < length (file_bytes fk1))
    /\ replayable_records (Some (firstn n (file_bytes f))) a = Some (recs, mx)
    /\ replay_of a (firstn k cs) recs /\ largest_id a (firstn k cs) mx.
Proof. exact wal_torn_lemma. Qed.
Print Assumptions wal_torn_tail.

(** Cutting the example inside its last commit frame loses operation 3 only. *)
Example wal_torn_tail_example :
  exists f, do_calls None ex_calls = Ret f /\ length (file_bytes f) = 176 /\
    replayable_records (Some (firstn 175 (file_bytes f))) 0 =
      Some ([ {| op_id := 1; mut := kInsert; payload := le_enc 4 kWalFrameMagic |} ]%N, 3%N).
Proof. eexists. split; [vm_compute; reflexivity|]. split; vm_compute; reflexivity. Qed.

(** C03.  Full statement: operations committed after reopening a log with a
    torn tail are replayed.  It is false: the torn bytes stay in the file, new
    frames are appended behind them, and the scan stops at the torn frame. *)
Theorem wal_append_after_torn_refuted :
  exists cs1 f1 n cs2 f2 r,
    Forall op_id_ok cs1 /\ Forall op_id_ok cs2
    /\ do_calls None cs1 = Ret f1
    /\ do_calls (Some (firstn n (file_bytes f1))) cs2 = Ret f2
    /\ In r (durable_ops cs2)
    /\ replayable_records f2 0 = Some ([], 0%N).
Proof.
  exists [Prepare {| op_id := 1; mut := kInsert; payload := [5]%N |}].
  eexists. exists 10.
  exists [Prepare {| op_id := 2; mut := kInsert; payload := [6]%N |}; Commit 2 kInsert].
  eexists. exists {| op_id := 2; mut := kInsert; payload := [6]%N |}.
  split; [repeat constructor|]. split; [repeat constructor|].
  split; [vm_compute; reflexivity|]. split; [vm_compute; reflexivity|].
  split; [vm_compute; auto|]. vm_compute. reflexivity.
Qed.
Print Assumptions wal_append_after_torn_refuted.

(** C03, partial: it holds when the file ends at a frame boundary (missing:
    files whose last frame is torn). *)
Theorem wal_append_after_boundary_partial : forall cs1 cs2 a f1 f2,
  Forall op_id_ok cs1 -> Forall op_id_ok cs2 ->
  do_calls None cs1 = Ret f1 -> do_calls f1 cs2 = Ret f2 ->
  exists recs mx, replayable_records f2 a = Some (recs, mx)
    /\ replay_of a (cs1 ++ cs2) recs.
Proof. exact wal_append_boundary_lemma. Qed.
Print Assumptions wal_append_after_boundary_partial.

Example wal_append_after_boundary_example :
  exists f1 f2, do_calls None (firstn 2 ex_calls) = Ret f1 /\ do_calls f1 (skipn 2 ex_calls) = Ret f2
   /\ option_map (fun p => length (fst p)) (replayable_records f2 0) = Some 2.
Proof.
  eexists. eexists. split; [vm_compute; reflexivity|]. split; [vm_compute; reflexivity|]. vm_compute. reflexivity.
Qed.
