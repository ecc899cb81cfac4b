(** Specification of crash recovery: what a user expects the contents of the
    index to be after any history of operations, checkpoints and crashes.

    The only state is the contents and whether a process is running.  A
    completed operation takes effect iff it does not throw.  An operation
    interrupted by a crash takes effect iff its commit record reached the log
    completely.  Nothing else changes the contents. *)
From Verif Require Import RecoveryModel.

Section Spec.
Context {S : Type} (apply : S -> mutation -> bytes -> option S).

Definition too_big (pl : bytes) : bool := N.ltb (2 ^ 30) (N.of_nat (length pl)).

(** Effect of a completed operation. *)
Definition effect (s : S) (m : mutation) (pl : bytes) : S :=
  if too_big pl then s else match apply s m pl with Some s' => s' | None => s end.

(** Number of log bytes of an operation: two 28-byte frames and the payload. *)
Definition op_bytes (pl : bytes) : nat := 28 + length pl + 28.

Definition spec_step (w : bool * S) (e : event) : bool * S :=
  match w, e with
  | (true, s), EOp m pl => (true, effect s m pl)
  | (true, s), EOpCrash m pl n =>
      (false, if Nat.leb (op_bytes pl) n then effect s m pl else s)
  | (true, s), ECheckpoint _ => (true, s)
  | (true, s), ECheckpointCrash _ _ => (false, s)
  | (true, s), EKill => (false, s)
  | (false, s), ELoad _ => (true, s)
  | (false, s), ELoadCrash _ _ => (false, s)
  | _, _ => w
  end.

Definition spec_run (s : S) (h : list event) : bool * S := fold_left spec_step h (true, s).

(** Snapshot directory names used by a history (millisecond timestamps). *)
Definition snap_id_of (e : event) : list N :=
  match e with
  | ECheckpoint id | ECheckpointCrash id _ | ELoad id | ELoadCrash id _ => [id]
  | _ => []
  end.

(** A crash never leaves a torn frame: nothing, the whole prepare frame, or
    everything the call appends was written. *)
Definition frame_atomic (e : event) : Prop :=
  match e with
  | EOpCrash _ pl n => n = 0 \/ n = 28 + length pl \/ op_bytes pl <= n
  | _ => True
  end.
End Spec.
