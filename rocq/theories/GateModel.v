(** The coroutine gate: AsyncGate (include/utils/coro_gate.hpp 38-125), the pool of
    search buffers of DiskANNIndex (include/index/graph/diskann/diskann_index.hpp
    1146-1160, 2359).

    A step is what a coroutine does under the mutex of the gate, or a call of the
    thread pool.  A schedule says which coroutine takes the next step.  Coroutines
    and objects are numbers.  A coroutine releases only what it holds. *)
From Verif Require Export Threads.

(** Where a coroutine is *)
Inductive pc :=
| Out                           (* holds nothing *)
| Parked                        (* suspended in acquire, 61-65 *)
| Granted (x : nat)             (* suspended; item_ has been set, 93 *)
| Scheduled (x : nat)           (* in the thread pool, to be resumed, 99 *)
| Holding (x : nat)             (* back from acquire, 68 *)
| Handing (w : nat).            (* in release, between 94 and 99, for [w] *)
(** free_, waiters_ and the coroutines; and, to talk about them: who was suspended
    and who was handed an object, in these orders *)
Record gate := { free : list nat; waiters : list nat; coroutines : list pc; arrivals : list nat; grants : list nat }.
Inductive event :=
| Acquire (c : nat)             (* await_suspend, 55-66 *)
| Release (c : nat)             (* 85-94 *)
| Resume (c : nat) (accepts : bool)     (* 99-101: pool.resume *)
| Run (w : nat)                 (* the thread pool resumes the coroutine *)
| Add (x : nat)                 (* 46-49 *)
| Clear.                        (* 106-109 *)
Definition step (s : gate) (e : event) : option gate :=
  match e with
  | Acquire c =>
      match nth_error (coroutines s) c with
      | Some Out =>
          match rev (free s) with
          | x :: rest => Some {| free := rev rest; waiters := waiters s; coroutines := upd (coroutines s) c (Holding x); arrivals := arrivals s; grants := grants s |}
          | [] => Some {| free := free s; waiters := waiters s ++ [c]; coroutines := upd (coroutines s) c Parked; arrivals := arrivals s ++ [c]; grants := grants s |}
          end
      | _ => None
      end
  | Release c =>
      match nth_error (coroutines s) c with
      | Some (Holding x) =>
          match waiters s with
          | [] => Some {| free := free s ++ [x]; waiters := []; coroutines := upd (coroutines s) c Out; arrivals := arrivals s; grants := grants s |}
          | w :: rest => Some {| free := free s; waiters := rest; coroutines := upd (upd (coroutines s) w (Granted x)) c (Handing w); arrivals := arrivals s; grants := grants s ++ [w] |}
          end
      | _ => None
      end
  | Resume c accepts =>
      match nth_error (coroutines s) c with
      | Some (Handing w) =>
          match nth_error (coroutines s) w with
          | Some (Granted x) => Some {| free := free s; waiters := waiters s; coroutines := upd (if accepts then upd (coroutines s) w (Scheduled x) else coroutines s) c Out; arrivals := arrivals s; grants := grants s |}
          | _ => None
          end
      | _ => None
      end
  | Run w =>
      match nth_error (coroutines s) w with
      | Some (Scheduled x) => Some {| free := free s; waiters := waiters s; coroutines := upd (coroutines s) w (Holding x); arrivals := arrivals s; grants := grants s |}
      | _ => None
      end
  | Add x => Some {| free := free s ++ [x]; waiters := waiters s; coroutines := coroutines s; arrivals := arrivals s; grants := grants s |}
  | Clear => Some {| free := []; waiters := waiters s; coroutines := coroutines s; arrivals := arrivals s; grants := grants s |}
  end.
Fixpoint run (s : gate) (schedule : list event) : option gate :=
  match schedule with
  | [] => Some s
  | e :: rest => match step s e with Some s' => run s' rest | None => None end
  end.
(** The objects have been added (the setup phase, 44-49) *)
Definition start (items : list nat) (n : nat) : gate := {| free := items; waiters := []; coroutines := repeat Out n; arrivals := []; grants := [] |}.
