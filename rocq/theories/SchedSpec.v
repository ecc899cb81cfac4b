(** What the scheduler promises. *)
From Verif Require Export SchedModel.

(** The worker is in the coroutine of task [t]. *)
Definition in_task (s : state) (w t : nat) : Prop :=
  exists x i, nth_error (workers s) w = Some x /\ (at_ x = Running i t \/ exists u, at_ x = Spawning i t u).
Definition stopped (s : state) (w : nat) : Prop := exists x, nth_error (workers s) w = Some x /\ at_ x = Stopped.
(** Every worker has stopped: join returns, scheduler.hpp 150-158. *)
Definition all_stopped (s : state) : Prop := forall w x, nth_error (workers s) w = Some x -> at_ x = Stopped.
(** Every task created has completed, once. *)
Definition all_completed (s : state) : Prop := NoDup (completed s) /\ forall t, In t (completed s) <-> t < created s.
(** Only the tasks themselves create tasks while the workers run, and none of them
    awaits scheduler.schedule(). *)
Definition closed (schedule : list event) : Prop := forall e, In e schedule -> match e with Work _ Requeue | Count | Push => False | _ => True end.
