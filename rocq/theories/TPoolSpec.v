(** What the thread pool promises. *)
From Verif Require Export TPoolModel.

(** Every task enqueued so far has been run to its end, once. *)
Definition all_finished (s : state) : Prop := NoDup (finished s) /\ forall t, In t (finished s) <-> t < enqueued s.
Definition executes (s : state) (w t : nat) : Prop := nth_error (workers s) w = Some (Executing t).
(** The number of tasks a caller must wait for: those enqueued since reset_task was
    called, when every task had then been counted. *)
Definition outstanding (s : state) : nat := enqueued s - base s.
(** No thread can do anything unless it calls a function or is woken for no reason. *)
Definition stuck (s : state) : Prop :=
  (forall w v, work s w v = None) /\ (forall c a s', call s c a = Some s' -> nth_error (clients s) c = Some Idle).
