(** What the locks promise. *)
From Verif Require Export LockModel.

(** At most one thread is inside. *)
Definition one_inside (s : spin) : Prop :=
  forall t u, nth_error (spinners s) t = Some Holding -> nth_error (spinners s) u = Some Holding -> t = u.
(** [t] holds the shared lock: exclusively, or at all. *)
Definition holds_exclusively (s : lock) (t : nat) : Prop := nth_error (clients s) t = Some Exclusive.
Definition holds (s : lock) (t : nat) : Prop := nth_error (clients s) t = Some Shared \/ nth_error (clients s) t = Some Exclusive.
(** A thread that holds it exclusively is alone. *)
Definition excludes (s : lock) : Prop := forall t u, holds_exclusively s t -> holds s u -> t = u.
(** The schedule does not upgrade or degrade. *)
Definition plain (schedule : list (nat * act)) : Prop := forall t a, In (t, a) schedule -> match a with Degrade _ | Upgrade _ => False | _ => True end.
(** compare_exchange_weak does not fail for no reason in an upgrade or degrade, and
    a thread upgrades only when no other thread holds the lock. *)
Fixpoint careful (asserts : bool) (s : lock) (schedule : list (nat * act)) : Prop :=
  match schedule with
  | [] => True
  | (t, a) :: rest =>
      match a with
      | Degrade spurious => spurious = false
      | Upgrade spurious => spurious = false /\ forall u, holds s u -> u = t
      | _ => True
      end /\
      match step asserts s t a with Some (Ok s') => careful asserts s' rest | _ => True end
  end.
