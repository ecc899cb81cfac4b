(** The coroutine scheduler: Worker::run (include/executor/worker.hpp 99-124),
    Scheduler (include/executor/scheduler.hpp) and TaskQueue
    (include/executor/task_queue.hpp).

    A step is one access to something shared: the queue, a counter, a coroutine.  A
    schedule says which worker takes the next step and, where that is not determined
    by the code, how it goes: what the coroutine does next, which task the queue
    hands out.  Tasks are numbered in the order in which they are created.

    Simplified: the lock of the enqueuing functions (scheduler.hpp 174, 189) is left
    out, which allows more schedules; the counters do not wrap (fewer than 2^64
    tasks); task_counter_ of the queue is never read and left out;
    run_on_current_cpu (worker.hpp 136-145), which nothing calls, is left out. *)
From Verif Require Export Threads.

(** Where a worker is *)
Inductive pc :=
| Top                                   (* 105-108 *)
| Popping (i : nat)                     (* handle is local_tasks_[i] and null, 109 *)
| Missed                                (* 111, before the loads *)
| FinishFirst (n : nat)                 (* 111, total_finish_cnt_ was [n] *)
| TotalFirst (n : nat)                  (* 111, total_task_cnt_ was [n] *)
| Resuming (i t : nat)                  (* 117 *)
| Running (i t : nat)                   (* in the coroutine *)
| Spawning (i t u : nat)                (* the coroutine calls schedule for [u]: between scheduler.hpp 175 and 176 *)
| Adding                                (* 120 *)
| Stopped.
Record worker := { at_ : pc; navigator : N; slots : list (option nat) }.
(** The queue, the two counters and the workers; and, to talk about them, the number
    of tasks created, the tasks that have completed, in that order, and the task
    that a thread other than the workers is about to enqueue *)
Record state := {
  queue : list nat;
  total : nat;
  finish : nat;
  workers : list worker;
  created : nat;
  completed : list nat;
  client : option nat;
}.
(** How a step goes.  try_dequeue of the queue may miss an element that is there, and
    may hand out any of its elements (the order holds only per producer). *)
Inductive how :=
| Plainly
| Swapped                           (* 111: C++ does not say which operand of == is evaluated first *)
| Miss | Take (k : nat)             (* of the queue *)
| Suspend                           (* the coroutine executes co_await std::suspend_always *)
| Complete                          (* the coroutine ends *)
| Spawn                             (* the coroutine calls schedule(handle) for a new task, scheduler.hpp 172-177 *)
| Requeue.                          (* the coroutine executes co_await scheduler.schedule(), scheduler.hpp 70-73, 187-191 *)
(** A step of a worker, or one of the two steps of a call of schedule(handle), by
    another thread, for a new task *)
Inductive event := Work (w : nat) (h : how) | Count | Push.

(** The worker continues at [p], with [sl] for its slots *)
Definition move (s : state) (w : nat) (x : worker) (p : pc) (sl : list (option nat)) : state :=
  {| queue := queue s; total := total s; finish := finish s; workers := upd (workers s) w {| at_ := p; navigator := navigator x; slots := sl |};
     created := created s; completed := completed s; client := client s |}.
Definition set_queue (s : state) (q : list nat) : state :=
  {| queue := q; total := total s; finish := finish s; workers := workers s; created := created s; completed := completed s; client := client s |}.
(** A new task is counted, scheduler.hpp 175 *)
Definition counted (s : state) : state :=
  {| queue := queue s; total := S (total s); finish := finish s; workers := workers s; created := S (created s); completed := completed s; client := client s |}.
(** 120 *)
Definition add_finish (s : state) : state :=
  {| queue := queue s; total := total s; finish := S (finish s); workers := workers s; created := created s; completed := completed s; client := client s |}.
Definition complete (s : state) (t : nat) : state :=
  {| queue := queue s; total := total s; finish := finish s; workers := workers s; created := created s; completed := completed s ++ [t]; client := client s |}.
Definition set_client (s : state) (c : option nat) : state :=
  {| queue := queue s; total := total s; finish := finish s; workers := workers s; created := created s; completed := completed s; client := c |}.
(** The worker is in the coroutine *)
Definition runs (t : nat) (x : worker) : bool :=
  match at_ x with Running _ u | Spawning _ u _ => Nat.eqb u t | _ => false end.
(** resume is undefined for a coroutine that is not suspended, or is done *)
Definition resumable (s : state) (t : nat) : bool := negb (existsb (Nat.eqb t) (completed s)) && negb (existsb (runs t) (workers s)).
Definition without {A} (l : list A) (k : nat) : list A := firstn k l ++ skipn (S k) l.

(** One step of a worker.  [OutOfBounds] stands for undefined behaviour: a division
    by zero, 105, and a resume of a coroutine that cannot be resumed.  done() (118)
    and the reset of the handle (119) belong to the step in which the coroutine
    ends. *)
Definition work (s : state) (w : nat) (h : how) : option (res state) :=
  match nth_error (workers s) w with
  | None => None
  | Some x =>
      match at_ x, h with
      | Top, Plainly =>
          if Nat.eqb (length (slots x)) 0 then Some OutOfBounds
          else let i := N.to_nat (navigator x mod N.of_nat (length (slots x))) in
               let x' := {| at_ := Top; navigator := (navigator x + 1) mod 2 ^ 32; slots := slots x |} in
               match nth_error (slots x) i with
               | Some (Some t) => Some (Ok (move s w x' (Resuming i t) (slots x)))
               | Some None => Some (Ok (move s w x' (Popping i) (slots x)))
               | None => Some OutOfBounds
               end
      | Popping i, Miss => Some (Ok (move s w x Missed (slots x)))
      | Popping i, Take k =>
          match nth_error (queue s) k with
          | Some t => Some (Ok (move (set_queue s (without (queue s) k)) w x (Resuming i t) (upd (slots x) i (Some t))))
          | None => None
          end
      | Missed, Plainly => Some (Ok (move s w x (FinishFirst (finish s)) (slots x)))
      | Missed, Swapped => Some (Ok (move s w x (TotalFirst (total s)) (slots x)))
      | FinishFirst f, Plainly => Some (Ok (move s w x (if Nat.eqb f (total s) then Stopped else Top) (slots x)))
      | TotalFirst n, Plainly => Some (Ok (move s w x (if Nat.eqb (finish s) n then Stopped else Top) (slots x)))
      | Resuming i t, Plainly => Some (if resumable s t then Ok (move s w x (Running i t) (slots x)) else OutOfBounds)
      | Running i t, Suspend => Some (Ok (move s w x Top (slots x)))
      | Running i t, Complete => Some (Ok (move (complete s t) w x Adding (upd (slots x) i None)))
      | Running i t, Spawn => Some (Ok (move (counted s) w x (Spawning i t (created s)) (slots x)))
      | Running i t, Requeue => Some (Ok (move (set_queue s (queue s ++ [t])) w x Top (slots x)))
      | Spawning i t u, Plainly => Some (Ok (move (set_queue s (queue s ++ [u])) w x (Running i t) (slots x)))
      | Adding, Plainly => Some (Ok (move (add_finish s) w x Top (slots x)))
      | _, _ => None
      end
  end%N.
Definition step (s : state) (e : event) : option (res state) :=
  match e with
  | Work w h => work s w h
  | Count => match client s with None => Some (Ok (set_client (counted s) (Some (created s)))) | Some _ => None end
  | Push => match client s with Some u => Some (Ok (set_client (set_queue s (queue s ++ [u])) None)) | None => None end
  end.
Fixpoint run (s : state) (schedule : list event) : option (res state) :=
  match schedule with
  | [] => Some (Ok s)
  | e :: rest => match step s e with
                 | Some (Ok s') => run s' rest
                 | other => other
                 end
  end.
(** [tasks] tasks have been scheduled, scheduler.hpp 172-177, and the workers have
    been started, scheduler.hpp 130-143, worker.hpp 29-42 (local_task_cnt is 4
    there) *)
Definition start (threads local tasks : nat) : state :=
  {| queue := seq 0 tasks; total := tasks; finish := 0; workers := repeat {| at_ := Top; navigator := 0; slots := repeat None local |} threads;
     created := tasks; completed := []; client := None |}.
