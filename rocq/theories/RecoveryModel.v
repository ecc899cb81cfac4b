(** Model of crash recovery: include/recovery/recovery_manager.hpp and the
    durable operations of python/include/index.hpp.

    The contents of an index (vectors, graph, scalar data) are an abstract
    type [S] and a mutation is a partial function [apply] on it ([None] when
    the C++ call throws).  Assumptions recorded in DESIGN.md: [apply] is
    deterministic and leaves the contents unchanged when it throws; a
    snapshot's component files, once completely written, load back as the
    contents that were saved. *)
From Verif Require Export WalModel.

Section Recovery.
Context {S : Type} (apply : S -> mutation -> bytes -> option S).

(** A directory snapshots/<id>: the component files (graph, data, quant,
    rocksdb checkpoint; index.hpp:276-284), [None] while missing, partially
    written or partially deleted, and the applied-through id of manifest.txt
    (recovery_manager.hpp:90-91), [None] while it does not exist.
    Simplified: the manifest text is abstracted to that number (the text
    format is modelled in SnapshotManifestModel.v). *)
Record snapshot := { sn_data : option S; sn_manifest : option N }.

(** The recovery directory: CURRENT (recovery_manager.hpp:35), snapshots/
    (34), wal.bin (36); [d_base] are the index files at the path the user
    passes to load (index.hpp:516-518). *)
Record disk := {
  d_current : option N;
  d_snaps : list (N * snapshot);
  d_wal : wal_file;
  d_base : S;
}.

(** The directory snapshots/<id>, if it exists: the lookups at
    recovery_manager.hpp:65-73, 106-131. *)
Fixpoint snap_get (id : N) (l : list (N * snapshot)) : option snapshot :=
  match l with
  | [] => None
  | (k, s) :: l' => if N.eqb k id then Some s else snap_get id l'
  end.
(** Removing snapshots/<id>: recovery_manager.hpp:204-205. *)
Definition snap_del (id : N) (l : list (N * snapshot)) : list (N * snapshot) :=
  filter (fun ks => negb (N.eqb (fst ks) id)) l.
(** Creating or changing snapshots/<id>: recovery_manager.hpp:65-73, 90-91. *)
Definition snap_set (id : N) (s : snapshot) (l : list (N * snapshot)) : list (N * snapshot) :=
  (id, s) :: snap_del id l.

(** Replacing one part of the recovery directory (paths at
    recovery_manager.hpp:33-36). *)
Definition with_snaps (d : disk) l : disk :=
  {| d_current := d_current d; d_snaps := l; d_wal := d_wal d; d_base := d_base d |}.
Definition with_wal (d : disk) w : disk :=
  {| d_current := d_current d; d_snaps := d_snaps d; d_wal := w; d_base := d_base d |}.
Definition with_current (d : disk) c : disk :=
  {| d_current := c; d_snaps := d_snaps d; d_wal := d_wal d; d_base := d_base d |}.

(** current_snapshot, recovery_manager.hpp:106-131: the id named by CURRENT
    and the applied-through id of its manifest; nothing if either is missing. *)
Definition current_snapshot (d : disk) : option (N * N) :=
  match d_current d with
  | None => None
  | Some id => match snap_get id (d_snaps d) with
               | None => None
               | Some s => match sn_manifest s with None => None | Some a => Some (id, a) end
               end
  end.

(** The file-system steps of checkpoint_recovery_snapshot (index.hpp:255-297)
    and publish_snapshot (recovery_manager.hpp:87-98), in order.  Each element
    is one atomic change of the directory; a crash can happen between any two. *)
Definition step := disk -> disk.

(** create_snapshot_dir, recovery_manager.hpp:65-73: create_directories keeps
    an existing directory. *)
Definition step_create_dir (id : N) : step := fun d =>
  match snap_get id (d_snaps d) with
  | Some _ => d
  | None => with_snaps d (snap_set id {| sn_data := None; sn_manifest := None |} (d_snaps d))
  end.

(** Opening a component for writing truncates it: index.hpp:276-284. *)
Definition step_begin_components (id : N) : step := fun d =>
  match snap_get id (d_snaps d) with
  | Some s => with_snaps d (snap_set id {| sn_data := None; sn_manifest := sn_manifest s |} (d_snaps d))
  | None => d
  end.

(** All components written: index.hpp:276-284. *)
Definition step_end_components (id : N) (c : S) : step := fun d =>
  match snap_get id (d_snaps d) with
  | Some s => with_snaps d (snap_set id {| sn_data := Some c; sn_manifest := sn_manifest s |} (d_snaps d))
  | None => d
  end.

(** write_text_atomically (recovery_manager.hpp:244-262) of manifest.txt
    (recovery_manager.hpp:91): the temporary file is invisible, the rename is
    the atomic step. *)
Definition step_manifest (id : N) (applied : N) : step := fun d =>
  match snap_get id (d_snaps d) with
  | Some s => with_snaps d (snap_set id {| sn_data := sn_data s; sn_manifest := Some applied |} (d_snaps d))
  | None => d
  end.

(** write_text_atomically of CURRENT, recovery_manager.hpp:92 *)
Definition step_current (id : N) : step := fun d => with_current d (Some id).

(** wal_.truncate(), recovery_manager.hpp:96 *)
Definition step_truncate : step := fun d => with_wal d (truncate (d_wal d)).

(** remove_all of one old snapshot directory, recovery_manager.hpp:204-205:
    files disappear first (partially deleted directory), then the directory. *)
Definition step_wipe (id : N) : step := fun d =>
  match snap_get id (d_snaps d) with
  | Some _ => with_snaps d (snap_set id {| sn_data := None; sn_manifest := None |} (d_snaps d))
  | None => d
  end.
Definition step_rmdir (id : N) : step := fun d => with_snaps d (snap_del id (d_snaps d)).

(** remove_old_snapshots, recovery_manager.hpp:189-214: every directory other
    than the current one, in directory order. *)
Definition remove_old_steps (keep : N) (ids : list N) : list step :=
  flat_map (fun id => if N.eqb id keep then [] else [step_wipe id; step_rmdir id]) ids.

Definition checkpoint_steps (d : disk) (id : N) (contents : S) (applied : N) : list step :=
  [ step_create_dir id;
    step_begin_components id;
    step_end_components id contents;
    step_manifest id applied;
    step_current id;
    step_truncate ]
  ++ remove_old_steps id (id :: map fst (d_snaps d)).

Definition run_steps (l : list step) (d : disk) : disk := fold_left (fun d f => f d) l d.

(** In-memory state of an open index: contents, next_recovery_op_id_ and
    last_committed_recovery_op_id_ (python/include/index.hpp members). *)
Record process := { p_mem : S; p_next : N; p_committed : N }.

(** replay_record over the replayable records, index.hpp:463-478, with
    replay_record (408-461) abstracted to [apply]; [None] = replay throws. *)
Fixpoint replay_all (s : S) (committed : N) (rs : list wal_record) : option (S * N) :=
  match rs with
  | [] => Some (s, committed)
  | r :: rs' =>
      match apply s (mut r) (payload r) with
      | None => None
      | Some s' => replay_all s' (N.max committed (op_id r)) rs'
      end
  end.

(** initialize_recovery, index.hpp:144-162: (next id, last committed id). *)
Definition initialize_recovery (d : disk) : option (N * N) :=
  match replayable_records (d_wal d) 0 with
  | None => None
  | Some (_, max_seen) =>
      let committed := match current_snapshot d with Some (_, a) => a | None => 0%N end in
      Some (N.max max_seen committed + 1, committed)%N
  end.

(** The part of load up to and including the replay, index.hpp:513-550 with
    initialize_recovery run by the constructor: the resulting process, the
    number of replayed records and whether a snapshot was found.  [None]: load
    throws (missing or damaged components, failing replay). *)
Definition open_and_replay (d : disk) : option (process * nat * bool) :=
  match initialize_recovery d with
  | None => None
  | Some (next0, committed0) =>
      match (match current_snapshot d with
             | Some (id, a) =>
                 match snap_get id (d_snaps d) with
                 | Some s => match sn_data s with Some c => Some (c, a, true) | None => None end
                 | None => None
                 end
             | None => Some (d_base d, 0%N, false)
             end) with
      | None => None
      | Some (c, a, found) =>
          match replayable_records (d_wal d) a with
          | None => None
          | Some (recs, last_seen) =>
              match replay_all c committed0 recs with
              | None => None
              | Some (mem, committed) =>
                  Some ({| p_mem := mem; p_next := N.max next0 (last_seen + 1);
                           p_committed := committed |}, length recs, found)
              end
          end
      end
  end.

(** load, index.hpp:513-558: after the replay a new snapshot with id [id] is
    published if anything was replayed or there was no snapshot (551-555).
    [k] is the number of checkpoint steps performed before a crash; [None] for
    no crash. *)
Definition load (d : disk) (id : N) (crash : option nat) : option (option process) * disk :=
  match open_and_replay d with
  | None => (None, d)
  | Some (p, replayed, found) =>
      let steps := if (negb (Nat.eqb replayed 0) || negb found)%bool
                   then checkpoint_steps d id (p_mem p) (p_committed p) else [] in
      match crash with
      | None => (Some (Some p), run_steps steps d)
      | Some k => (Some None, run_steps (firstn k steps) d)
      end
  end.

(** insert / upsert / remove of an open index, index.hpp:705-716, 731-742,
    748-758, 763-773: prepare, apply, commit.  The result is the process and
    disk after the call returned or threw. *)
Definition mutate (p : process) (d : disk) (m : mutation) (pl : bytes) : process * disk :=
  let op := p_next p in
  let p1 := {| p_mem := p_mem p; p_next := op + 1; p_committed := p_committed p |}%N in
  match append_prepare (d_wal d) {| op_id := op; mut := m; payload := pl |} with
  | Throw => (p1, d)
  | Ret w1 =>
      match apply (p_mem p) m pl with
      | None => (p1, with_wal d w1)
      | Some s' =>
          match append_commit w1 op m with
          | Throw => (p1, with_wal d w1)
          | Ret w2 => ({| p_mem := s'; p_next := op + 1; p_committed := op |}%N, with_wal d w2)
          end
      end
  end.

(** The process dies inside such a call when [n] of the bytes the call would
    have appended to the log have reached the file. *)
Definition mutate_crash (p : process) (d : disk) (m : mutation) (pl : bytes) (n : nat) : disk :=
  let full := d_wal (snd (mutate p d m pl)) in
  with_wal d (match d_wal d, file_bytes full with
              | None, _ => if Nat.eqb n 0 then None else Some (firstn n (file_bytes full))
              | Some b, fb => Some (firstn (length b + n) fb)
              end).

(** Histories. *)
Inductive event :=
| EOp (m : mutation) (pl : bytes)              (* an operation that returns or throws *)
| EOpCrash (m : mutation) (pl : bytes) (n : nat) (* crash inside an operation *)
| ECheckpoint (id : N)                         (* save() *)
| ECheckpointCrash (id : N) (k : nat)          (* crash after k steps of save() *)
| EKill                                        (* crash while idle *)
| ELoad (id : N)                               (* restart *)
| ELoadCrash (id : N) (k : nat).               (* crash during restart *)

(** State of the world: the running process, if any, and the disk. *)
Definition world := (option process * disk)%type.

(** Events that need a running process are ignored when there is none, and
    vice versa. *)
Definition world_step (w : world) (e : event) : world :=
  match w, e with
  | (Some p, d), EOp m pl => let '(p', d') := mutate p d m pl in (Some p', d')
  | (Some p, d), EOpCrash m pl n => (None, mutate_crash p d m pl n)
  | (Some p, d), ECheckpoint id =>
      (Some p, run_steps (checkpoint_steps d id (p_mem p) (p_committed p)) d)
  | (Some p, d), ECheckpointCrash id k =>
      (None, run_steps (firstn k (checkpoint_steps d id (p_mem p) (p_committed p))) d)
  | (Some p, d), EKill => (None, d)
  | (None, d), ELoad id =>
      match load d id None with (Some (Some p), d') => (Some p, d') | (_, d') => (None, d') end
  | (None, d), ELoadCrash id k => (None, snd (load d id (Some k)))
  | _, _ => w
  end.

Definition run (w : world) (h : list event) : world := fold_left world_step h w.

(** An index right after fit() in a fresh recovery directory
    (index.hpp:560-689): contents [c], published as snapshot [id0]. *)
Definition fresh_disk (c : S) (id0 : N) : disk :=
  {| d_current := Some id0;
     d_snaps := [(id0, {| sn_data := Some c; sn_manifest := Some 0%N |})];
     d_wal := None; d_base := c |}.
Definition fresh_world (c : S) (id0 : N) : world :=
  (Some {| p_mem := c; p_next := 1; p_committed := 0 |}%N, fresh_disk c id0).

(** RecoveryManager::next_operation_id, recovery_manager.hpp:55-63: the
    manifest's value is stored in [max_seen] and then overwritten by
    replayable_records. *)
Definition next_operation_id (d : disk) : option N :=
  match replayable_records (d_wal d) 0 with
  | None => None
  | Some (_, max_seen) => Some (max_seen + 1)%N
  end.

End Recovery.
Arguments snapshot S : clear implicits.
Arguments disk S : clear implicits.
Arguments process S : clear implicits.
Arguments world S : clear implicits.
Arguments step S : clear implicits.
