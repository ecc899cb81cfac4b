(** The locks of include/utils/locks.hpp: SpinLock (79-92), SpinLockGuard (94-107)
    and SharedLock (108-165).

    A step is one operation on the atomic variable of the lock, or the decision of
    a thread to call a function of it.  A schedule says which thread takes the next
    step and, where the thread is a client of the lock, what it calls.  A thread
    unlocks only what it has locked.  The memory orders are left out: the steps of
    one atomic variable are totally ordered under every one of them. *)
From Verif Require Export Arr.

(** Where a thread is, from its own point of view: it holds nothing, it is in lock,
    lock has returned *)
Inductive spin_pc := Outside | Spinning | Holding.
(** flag_ and the threads *)
Record spin := { flag : bool; spinners : list spin_pc }.
(** lock is called, 81; one test_and_set of its loop, 82; try_lock, 87; unlock, 89 *)
Inductive spin_act := CallLock | TestAndSet | TryLock | Unlock.
Definition spin_step (s : spin) (t : nat) (a : spin_act) : option spin :=
  match nth_error (spinners s) t, a with
  | Some Outside, CallLock => Some {| flag := flag s; spinners := upd (spinners s) t Spinning |}
  | Some Spinning, TestAndSet => Some {| flag := true; spinners := upd (spinners s) t (if flag s then Spinning else Holding) |}
  | Some Outside, TryLock => Some {| flag := true; spinners := upd (spinners s) t (if flag s then Outside else Holding) |}
  | Some Holding, Unlock => Some {| flag := false; spinners := upd (spinners s) t Outside |}
  | _, _ => None
  end.
(** A schedule: [None] when it asks for a step that the thread cannot take *)
Fixpoint spin_run (s : spin) (schedule : list (nat * spin_act)) : option spin :=
  match schedule with
  | [] => Some s
  | (t, a) :: rest => match spin_step s t a with Some s' => spin_run s' rest | None => None end
  end.
(** ATOMIC_FLAG_INIT, 91 *)
Definition spin_start (threads : nat) : spin := {| flag := false; spinners := repeat Outside threads |}.

(** Where a client of the shared lock is: it holds nothing; in lock_shared, about to
    load, 119-124, or about to compare and exchange, 125; lock_shared has returned;
    in lock, 135; lock has returned *)
Inductive pc := Free | Loading | Counting (expected : Z) | Shared | Claiming | Exclusive.
(** state_, the threads; an assertion failed and the process is gone *)
Record lock := { state : Z; clients : list pc; aborted : bool }.
(** What a thread does.  compare_exchange_weak may fail though the values agree:
    [spurious].  reset (140) is not part of the protocol. *)
Inductive act :=
| CallShared                    (* lock_shared is called, 117 *)
| CallExclusive                 (* lock is called, 133 *)
| Go (spurious : bool)          (* the next step of the call *)
| UnlockShared                  (* 129 *)
| UnlockExclusive               (* 143 *)
| Degrade (spurious : bool)     (* 146-150 *)
| Upgrade (spurious : bool).    (* 153-157 *)
(** compare_exchange_weak *)
Definition exchange (s : Z) (expected desired : Z) (spurious : bool) : Z * bool :=
  if Z.eqb s expected && negb spurious then (desired, true) else (s, false).
(** The largest int *)
Definition int_max : Z := 2 ^ 31 - 1.
(** One step.  [asserts]: the build has assertions (NDEBUG is not defined); without
    them upgrade_lock and degrade_lock return though they have done nothing.
    [OutOfBounds] stands for the overflow of expected + 1, 125, which is undefined.
    (fetch_sub, 129, wraps; a thread that holds the lock shared finds at least 1
    there unless an upgrade or degrade failed, and -1 is then decremented, not
    wrapped.) *)
Definition step (asserts : bool) (s : lock) (t : nat) (a : act) : option (res lock) :=
  let go st p := Some (Ok {| state := st; clients := upd (clients s) t p; aborted := false |}) in
  let die := Some (Ok {| state := state s; clients := clients s; aborted := true |}) in
  if aborted s then None
  else match nth_error (clients s) t, a with
       | Some Free, CallShared => go (state s) Loading
       | Some Free, CallExclusive => go (state s) Claiming
       | Some Loading, Go _ => go (state s) (if Z.eqb (state s) (-1) then Loading else Counting (state s))
       | Some (Counting expected), Go spurious =>
           if Z.eqb expected int_max then Some OutOfBounds
           else let (st, ret) := exchange (state s) expected (expected + 1) spurious in go st (if ret then Shared else Loading)
       | Some Claiming, Go spurious =>
           let (st, ret) := exchange (state s) 0 (-1) spurious in go st (if ret then Exclusive else Claiming)
       | Some Shared, UnlockShared => go (state s - 1) Free
       | Some Exclusive, UnlockExclusive => go 0 Free
       | Some Exclusive, Degrade spurious =>
           let (st, ret) := exchange (state s) (-1) 1 spurious in
           if asserts && negb ret then die else go st Shared
       | Some Shared, Upgrade spurious =>
           let (st, ret) := exchange (state s) 1 (-1) spurious in
           if asserts && negb ret then die else go st Exclusive
       | _, _ => None
       end%Z.
Fixpoint run (asserts : bool) (s : lock) (schedule : list (nat * act)) : option (res lock) :=
  match schedule with
  | [] => Some (Ok s)
  | (t, a) :: rest => match step asserts s t a with
                      | Some (Ok s') => run asserts s' rest
                      | other => other
                      end
  end.
(** The constructor, 110 *)
Definition start (threads : nat) : lock := {| state := 0; clients := repeat Free threads; aborted := false |}.
