(** The thread pool: ThreadPool (include/utils/thread_pool.hpp 17-148), used by
    HNSWBuilder (include/index/graph/hnsw/hnsw_builder.hpp 106-180) and NNDescent
    (include/index/graph/knng/nndescent.hpp 243-330).

    A step is what a thread does between taking queue_mutex_ and giving it back
    (waiting on a condition variable gives it back), or something it does without
    the mutex: running a task, notifying.  A schedule says which thread takes the
    next step and, for a notification, which of the sleeping threads is woken.
    Tasks are numbered in the order in which they are enqueued; a task does not use
    the pool, and an exception of it stays in its future (packaged_task, 75).  Left
    out: failing to start a thread. *)
From Verif Require Export Threads.

(** Where a worker is: about to test the predicate of its wait, 37-43; asleep in it;
    running a task, 47; about to count it, 48-52; gone, 42 *)
Inductive wpc := Testing | Asleep | Executing (t : nat) | Counting | Exited.
(** Where another thread is: doing something else; about to notify, 88; about to test
    the predicate of wait_until_all_tasks_completed, 113-115; asleep in it; back from
    it; in the destructor, 133, 134-136, and after it *)
Inductive cpc := Idle | Notifying | Checking (n : N) | Waiting (n : N) | Returned (n : N) | NotifyingAll | Joining | Destroyed.
(** tasks_, tasks_completed_ (uint32_t), stop_ and the threads; and, to talk about
    them: the number of tasks enqueued, the tasks that have been run, in that order,
    how many of them have been counted, and how many had been counted when
    reset_task was last called *)
Record state := {
  tasks : list nat;
  completed : N;
  stop : bool;
  workers : list wpc;
  clients : list cpc;
  enqueued : nat;
  finished : list nat;
  counted : nat;
  base : nat;
}.
(** What a client does *)
Inductive act :=
| Enqueue                   (* enqueue, 73-86 *)
| Notify (v : nat)          (* 88: worker [v] is woken *)
| Wait (n : N)              (* wait_until_all_tasks_completed is called, 111 *)
| Check                     (* 113-115 *)
| Leave                     (* it has returned *)
| Reset                     (* reset_task, 118-121 *)
| Destroy                   (* 130-132 *)
| NotifyAll                 (* 133 *)
| Join.                     (* 134-136 *)
(** [Wake]: a worker or a client wakes up though nobody notified it *)
Inductive event := Work (w : nat) (v : nat) | WakeWorker (w : nat) | Call (c : nat) (a : act) | WakeClient (c : nat).

Definition set_worker (s : state) (w : nat) (p : wpc) : state :=
  {| tasks := tasks s; completed := completed s; stop := stop s; workers := upd (workers s) w p; clients := clients s; enqueued := enqueued s; finished := finished s; counted := counted s; base := base s |}.
Definition set_client (s : state) (c : nat) (p : cpc) : state :=
  {| tasks := tasks s; completed := completed s; stop := stop s; workers := workers s; clients := upd (clients s) c p; enqueued := enqueued s; finished := finished s; counted := counted s; base := base s |}.
Definition set_workers (s : state) (ws : list wpc) : state :=
  {| tasks := tasks s; completed := completed s; stop := stop s; workers := ws; clients := clients s; enqueued := enqueued s; finished := finished s; counted := counted s; base := base s |}.
Definition set_clients (s : state) (cs : list cpc) : state :=
  {| tasks := tasks s; completed := completed s; stop := stop s; workers := workers s; clients := cs; enqueued := enqueued s; finished := finished s; counted := counted s; base := base s |}.
Definition set_tasks (s : state) (l : list nat) : state :=
  {| tasks := l; completed := completed s; stop := stop s; workers := workers s; clients := clients s; enqueued := enqueued s; finished := finished s; counted := counted s; base := base s |}.
(** 83-85 *)
Definition add_task (s : state) : state :=
  {| tasks := tasks s ++ [enqueued s]; completed := completed s; stop := stop s; workers := workers s; clients := clients s; enqueued := S (enqueued s); finished := finished s; counted := counted s; base := base s |}.
Definition add_finished (s : state) (t : nat) : state :=
  {| tasks := tasks s; completed := completed s; stop := stop s; workers := workers s; clients := clients s; enqueued := enqueued s; finished := finished s ++ [t]; counted := counted s; base := base s |}.
(** 50 *)
Definition add_completed (s : state) : state :=
  {| tasks := tasks s; completed := (completed s + 1) mod 2 ^ 32; stop := stop s; workers := workers s; clients := clients s; enqueued := enqueued s; finished := finished s; counted := S (counted s); base := base s |}%N.
(** 120 *)
Definition reset (s : state) : state :=
  {| tasks := tasks s; completed := 0; stop := stop s; workers := workers s; clients := clients s; enqueued := enqueued s; finished := finished s; counted := counted s; base := counted s |}%N.
(** 132 *)
Definition set_stop (s : state) : state :=
  {| tasks := tasks s; completed := completed s; stop := true; workers := workers s; clients := clients s; enqueued := enqueued s; finished := finished s; counted := counted s; base := base s |}.

(** notify_one wakes one of the threads that sleep: [v], if any does *)
Definition asleep (p : wpc) : bool := match p with Asleep => true | _ => false end.
Definition waiting (p : cpc) : bool := match p with Waiting _ => true | _ => false end.
Definition notify_worker (ws : list wpc) (v : nat) : option (list wpc) :=
  match nth_error ws v with
  | Some Asleep => Some (upd ws v Testing)
  | _ => if existsb asleep ws then None else Some ws
  end.
Definition notify_client (cs : list cpc) (v : nat) : option (list cpc) :=
  match nth_error cs v with
  | Some (Waiting n) => Some (upd cs v (Checking n))
  | _ => if existsb waiting cs then None else Some cs
  end.
(** One step: [None] when the thread cannot take it *)
Definition work (s : state) (w v : nat) : option state :=
  match nth_error (workers s) w with
  | Some Testing =>
      match stop s, tasks s with
      | false, [] => Some (set_worker s w Asleep)
      | true, [] => Some (set_worker s w Exited)
      | _, t :: rest => Some (set_worker (set_tasks s rest) w (Executing t))
      end
  | Some (Executing t) => Some (set_worker (add_finished s t) w Counting)
  | Some Counting =>
      match notify_client (clients s) v with
      | Some cs => Some (set_worker (set_clients (add_completed s) cs) w Testing)
      | None => None
      end
  | _ => None
  end.
Definition call (s : state) (c : nat) (a : act) : option state :=
  match nth_error (clients s) c, a with
  | Some Idle, Enqueue => Some (if stop s then s else set_client (add_task s) c Notifying)
  | Some Notifying, Notify v => match notify_worker (workers s) v with Some ws => Some (set_client (set_workers s ws) c Idle) | None => None end
  | Some Idle, Wait n => Some (set_client s c (Checking n))
  | Some (Checking n), Check => Some (set_client s c (if N.eqb (completed s) n then Returned n else Waiting n))
  | Some (Returned n), Leave => Some (set_client s c Idle)
  | Some Idle, Reset => Some (reset s)
  | Some Idle, Destroy => Some (set_client (set_stop s) c NotifyingAll)
  | Some NotifyingAll, NotifyAll => Some (set_client (set_workers s (map (fun p => if asleep p then Testing else p) (workers s))) c Joining)
  | Some Joining, Join => if forallb (fun p => match p with Exited => true | _ => false end) (workers s) then Some (set_client s c Destroyed) else None
  | _, _ => None
  end.
Definition step (s : state) (e : event) : option state :=
  match e with
  | Work w v => work s w v
  | WakeWorker w => match nth_error (workers s) w with Some Asleep => Some (set_worker s w Testing) | _ => None end
  | Call c a => call s c a
  | WakeClient c => match nth_error (clients s) c with Some (Waiting n) => Some (set_client s c (Checking n)) | _ => None end
  end.
Fixpoint run (s : state) (schedule : list event) : option state :=
  match schedule with
  | [] => Some s
  | e :: rest => match step s e with Some s' => run s' rest | None => None end
  end.
(** The constructor, 28-55, and [others] threads that use the pool *)
Definition start (threads others : nat) : state :=
  {| tasks := []; completed := 0; stop := false; workers := repeat Testing threads; clients := repeat Idle others; enqueued := 0; finished := []; counted := 0; base := 0 |}.
