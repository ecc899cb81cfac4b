(** What the gate promises. *)
From Verif Require Export GateModel.

(** The coroutine has the object: it holds it or is being resumed with it. *)
Definition has (s : gate) (c x : nat) : Prop :=
  nth_error (coroutines s) c = Some (Holding x) \/ nth_error (coroutines s) c = Some (Scheduled x) \/ nth_error (coroutines s) c = Some (Granted x).
Definition suspended (s : gate) (c : nat) : Prop :=
  nth_error (coroutines s) c = Some Parked \/ exists x, nth_error (coroutines s) c = Some (Granted x) \/ nth_error (coroutines s) c = Some (Scheduled x).
(** How many coroutines hold an object *)
Definition holding (p : pc) : bool := match p with Holding _ => true | _ => false end.
(** Objects are added only before the first acquire, and not dropped. *)
Definition steady (schedule : list event) : Prop := forall e, In e schedule -> match e with Add _ | Clear => False | _ => True end.
(** The thread pool takes every coroutine. *)
Definition accepting (schedule : list event) : Prop := forall c, ~ In (Resume c false) schedule.
(** Every holder has released, and every resumption that has been asked for has
    happened. *)
Definition quiescent (s : gate) : Prop :=
  forall c, match nth_error (coroutines s) c with Some (Holding _) | Some (Scheduled _) | Some (Handing _) => False | _ => True end.
