(** C52: the scheduler runs every task to completion exactly once. *)
From Verif Require Import SchedProofs.

(** Whatever the interleaving: no coroutine is resumed that cannot be, so the run
    does not reach undefined behaviour; no task is run by two workers at once; a
    task that has completed is not run; and when every worker has stopped, every
    task ever created has completed, exactly once.  Missing: schedulers without a
    worker, tasks that await scheduler.schedule(), and tasks scheduled by other
    threads while the workers run, for which it does not hold (below). *)
Theorem scheduler_exact_partial : forall threads local tasks schedule r, 0 < threads -> 0 < local -> closed schedule -> run (start threads local tasks) schedule = Some r ->
  exists s, r = Ok s /\
    (forall v w t, in_task s v t -> in_task s w t -> v = w) /\
    (forall w t, in_task s w t -> ~ In t (completed s)) /\
    NoDup (completed s) /\
    (all_stopped s -> all_completed s).
Proof.
  intros n l k sch r N L C R. destruct (run_inv l sch _ r L (start_inv n l k N) C R) as (s & -> & I). exists s. split; [reflexivity|].
  assert (H : forall w t, in_task s w t -> exists x, nth_error (workers s) w = Some x /\ In t (held x)).
  { intros w t (x & i & X & D). exists x. split; [assumption|]. pose proof (iv_owner _ _ I x (nth_error_In _ _ X)) as O.
    destruct D as [D|[u D]]; [apply (owned_held x t i 0)|apply (owned_held x t i u)]; auto. }
  assert (ND : NoDup (completed s)) by (pose proof (nodup_places _ _ I) as P; apply NoDup_app_remove_l in P; now apply NoDup_app_remove_l in P).
  split; [|split; [|split; [assumption|]]].
  - intros v w t V W. destruct (H v t V) as (x & X & XI). destruct (H w t W) as (y & Y & YI). now apply (held_once l s v w x y t).
  - intros w t W. destruct (H w t W) as (x & X & XI). now apply (held_not_completed l s w x).
  - intro A. split; [assumption|]. assert (E : length (completed s) = created s).
    { apply (iv_quiet _ _ I). intros x X. destruct (In_nth_error _ _ X) as (w & W). unfold quiet. now rewrite (A w x W). }
    destruct (completed_all _ _ I E) as [Q F]. pose proof (iv_places _ _ I) as P. rewrite Q in P.
    replace (flat_map held (workers s)) with (@nil nat) in P.
    2:{ symmetry. clear -F. induction (workers s) as [|x l IH]; [reflexivity|]. cbn. rewrite (F x (or_introl eq_refl)). apply IH. intros y Y. apply F. now right. }
    cbn in P. intro t. split; intro T.
    + apply (Permutation_in _ P) in T. apply in_seq in T. lia.
    + apply (Permutation_in _ (Permutation_sym P)). apply in_seq. lia.
Qed.
(** A worker that has not stopped can always take a step. *)
Theorem scheduler_progress : forall threads local tasks schedule s w x, 0 < threads -> 0 < local -> closed schedule -> run (start threads local tasks) schedule = Some (Ok s) ->
  nth_error (workers s) w = Some x -> at_ x <> Stopped -> exists h s', h <> Requeue /\ step s (Work w h) = Some (Ok s').
Proof.
  intros n l k sch s w x N L C R X NS. destruct (run_inv l sch _ _ L (start_inv n l k N) C R) as (s1 & E & I). injection E as <-.
  assert (K : forall h, h <> Requeue -> work s w h <> None -> exists h s', h <> Requeue /\ step s (Work w h) = Some (Ok s')).
  { intros h NR NN. destruct (work s w h) as [r|] eqn:W; [|now destruct NN]. destruct (work_inv l s w h r L I NR W) as (s2 & -> & _). exists h, s2. now split. }
  destruct (at_ x) eqn:A; try (now destruct NS);
    [apply (K Plainly)|apply (K Miss)|apply (K Plainly)|apply (K Plainly)|apply (K Plainly)|apply (K Plainly)|apply (K Suspend)|apply (K Plainly)|apply (K Plainly)];
    try discriminate; unfold work; rewrite X, A; try discriminate.
  destruct (Nat.eqb (length (slots x)) 0); [discriminate|]. destruct (nth_error (slots x) _) as [[|]|]; discriminate.
Qed.

(** Two workers with two slots each and two tasks, the first of which creates a third
    one and is suspended once. *)
Definition sample : list event :=
  [Work 0 Plainly; Work 1 Plainly; Work 0 (Take 0); Work 0 Plainly; Work 0 Spawn; Work 1 (Take 0); Work 1 Plainly; Work 0 Plainly; Work 0 Suspend; Work 1 Complete;
   Work 1 Plainly; Work 1 Plainly; Work 1 (Take 0); Work 0 Plainly; Work 0 Miss; Work 0 Swapped; Work 0 Plainly; Work 1 Plainly; Work 1 Complete; Work 1 Plainly;
   Work 0 Plainly; Work 0 Plainly; Work 0 Complete; Work 0 Plainly; Work 0 Plainly; Work 0 Miss; Work 0 Swapped; Work 0 Plainly;
   Work 1 Plainly; Work 1 Miss; Work 1 Plainly; Work 1 Plainly].
Example ex_sample : closed sample /\ exists s, run (start 2 2 2) sample = Some (Ok s) /\ all_stopped s /\ completed s = [1; 2; 0] /\ created s = 3.
Proof.
  split; [intros e E; repeat (destruct E as [<-|E]; [exact Logic.I|]); destruct E|].
  eexists. split; [vm_compute; reflexivity|]. split; [|split; reflexivity].
  intros [|[|[|w]]] x X; cbn in X; try discriminate X; injection X as <-; reflexivity.
Qed.

(** With no worker, join returns at once and nothing has been run (batch_search of
    python/include/index.hpp, 1090-1115, called with num_threads = 0). *)
Theorem scheduler_no_worker_refuted : exists s, run (start 0 4 1) [] = Some (Ok s) /\ all_stopped s /\ ~ all_completed s.
Proof.
  eexists. split; [reflexivity|]. split; [intros w x X; destruct w; discriminate X|]. intros [_ H]. destruct (proj2 (H 0)). cbn. lia.
Qed.
(** A task that awaits scheduler.schedule() (scheduler.hpp 70-73) goes back to the
    queue while the worker keeps its handle (worker.hpp 118-121): it is resumed by
    two workers at once. *)
Theorem scheduler_await_refuted : exists schedule, ~ In Count schedule /\ run (start 2 4 1) schedule = Some OutOfBounds.
Proof.
  exists [Work 0 Plainly; Work 0 (Take 0); Work 0 Plainly; Work 0 Requeue; Work 1 Plainly; Work 1 (Take 0); Work 1 Plainly;
     Work 0 Plainly; Work 0 Miss; Work 0 Plainly; Work 0 Plainly; Work 0 Plainly; Work 0 Miss; Work 0 Plainly; Work 0 Plainly; Work 0 Plainly; Work 0 Miss; Work 0 Plainly; Work 0 Plainly;
     Work 0 Plainly; Work 0 Plainly].
  split; [|vm_compute; reflexivity]. intro H. repeat (destruct H as [H|H]; [discriminate H|]). exact H.
Qed.
(** A task that another thread schedules while the workers run may never run, though
    it was scheduled before the last of them stopped. *)
Theorem scheduler_late_refuted : exists schedule s, run (start 1 4 0) schedule = Some (Ok s) /\ all_stopped s /\ created s = 1 /\ queue s = [0] /\ completed s = [].
Proof.
  exists [Work 0 Plainly; Work 0 Miss; Work 0 Swapped; Count; Push; Work 0 Plainly]. eexists. split; [vm_compute; reflexivity|].
  split; [|split; [reflexivity|split; reflexivity]]. intros [|[|w]] x X; cbn in X; try discriminate X. injection X as <-. reflexivity.
Qed.

Print Assumptions scheduler_exact_partial.
Print Assumptions scheduler_progress.
Print Assumptions scheduler_no_worker_refuted.
Print Assumptions scheduler_await_refuted.
Print Assumptions scheduler_late_refuted.
