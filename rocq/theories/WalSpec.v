(** Specification of the write-ahead log, independent of the scanning code.

    A log is written by a sequence of calls.  A commit of operation [id] with
    kind [m] makes an operation durable exactly when the most recent earlier
    call for the same id is a prepare of the same kind; the operation is the
    prepared record.  Replay must return the durable operations newer than the
    snapshot, ordered by id. *)
From Verif Require Import WalModel.
From Coq Require Import Sorting.Sorted Sorting.Permutation.

(** The two kinds of calls a client makes. *)
Inductive call :=
| Prepare (r : wal_record)
| Commit (id : N) (m : mutation).

Definition call_id (c : call) : N :=
  match c with Prepare r => op_id r | Commit id _ => id end.

(** Ids are 64-bit. *)
Definition op_id_ok (c : call) : Prop := (call_id c < 2 ^ 64)%N.

(** Perform a call / a sequence of calls on the file. *)
Definition do_call (f : wal_file) (c : call) : outcome wal_file :=
  match c with
  | Prepare r => append_prepare f r
  | Commit id m => append_commit f id m
  end.
Fixpoint do_calls (f : wal_file) (cs : list call) : outcome wal_file :=
  match cs with
  | [] => Ret f
  | c :: cs' => match do_call f c with Throw => Throw | Ret f' => do_calls f' cs' end
  end.

(** The most recent call for [id] in a history (oldest first). *)
Definition last_call (id : N) (hist : list call) : option call :=
  find (fun c => N.eqb (call_id c) id) (rev hist).

(** What call [c], made after history [hist], makes durable. *)
Definition made_durable (hist : list call) (c : call) : list wal_record :=
  match c with
  | Prepare _ => []
  | Commit id m =>
      match last_call id hist with
      | Some (Prepare r) => if mutation_eqb (mut r) m then [r] else []
      | _ => []
      end
  end.

(** Operations made durable by [cs] after history [hist], in commit order. *)
Fixpoint durable_from (hist cs : list call) : list wal_record :=
  match cs with
  | [] => []
  | c :: cs' => made_durable hist c ++ durable_from (hist ++ [c]) cs'
  end.

Definition durable_ops (cs : list call) : list wal_record := durable_from [] cs.

Definition newer_than (a : N) (r : wal_record) : bool := N.ltb a (op_id r).

(** [out] is what a replay above [applied] must return for the calls [cs]. *)
Definition replay_of (applied : N) (cs : list call) (out : list wal_record) : Prop :=
  Permutation out (filter (newer_than applied) (durable_ops cs))
  /\ Sorted (fun a b => (op_id a <= op_id b)%N) out.

(** Largest id occurring in the log, at least [applied]. *)
Definition largest_id (applied : N) (cs : list call) (m : N) : Prop :=
  (applied <= m)%N /\ (forall c, In c cs -> (call_id c <= m)%N)
  /\ (m = applied \/ exists c, In c cs /\ call_id c = m).
