(** C53: waiting for the thread pool. *)
From Verif Require Import TPoolProofs.

(** Whatever the interleaving: no task is run twice, nor by two workers at once, and
    only tasks that were enqueued are run. *)
Theorem pool_once : forall threads others schedule s, run (start threads others) schedule = Some s ->
  NoDup (finished s) /\ (forall t, In t (finished s) -> t < enqueued s) /\
  (forall v w t, executes s v t -> executes s w t -> v = w) /\ (forall w t, executes s w t -> t < enqueued s /\ ~ In t (finished s)).
Proof.
  intros n m sch s R. pose proof (run_inv n m sch _ s (start_inv n m) R) as I. pose proof (iv_places _ _ _ I) as P.
  pose proof (Permutation_NoDup (Permutation_sym P) (seq_NoDup _ _)) as N.
  assert (F : forall t, In t (tasks s ++ flat_map exec (workers s) ++ finished s) -> t < enqueued s) by (intros t T; apply (Permutation_in _ P) in T; apply in_seq in T; lia).
  assert (ND : forall A (l k : list A), NoDup (l ++ k) -> NoDup k) by (intros A l; induction l as [|x l IH]; intros k H; [assumption|inversion H; now apply IH]).
  apply ND in N. split; [now apply ND in N|]. split; [intros t T; apply F; rewrite !in_app_iff; auto|].
  assert (E : forall w t, executes s w t -> In t (flat_map exec (workers s))) by (intros w t W; apply in_flat_map; exists (Executing t); split; [now apply nth_error_In with w|now left]).
  split.
  - intros v w t V W. clear -N V W. unfold executes in *. revert v w V W N. induction (workers s) as [|x l IH]; intros [|v] [|w] V W N; try discriminate V; try discriminate W; try reflexivity; cbn in V, W.
    + injection V as ->. cbn in N. inversion N as [|? ? K _]. exfalso. apply K. apply in_or_app. left. apply in_flat_map. exists (Executing t). split; [now apply nth_error_In with w|now left].
    + injection W as ->. cbn in N. inversion N as [|? ? K _]. exfalso. apply K. apply in_or_app. left. apply in_flat_map. exists (Executing t). split; [now apply nth_error_In with v|now left].
    + f_equal. apply IH; try assumption. cbn in N. destruct x; cbn in N; try assumption. now inversion N.
  - intros w t W. specialize (E w t W). split; [apply F; rewrite !in_app_iff; auto|]. intro T.
    destruct (in_split _ _ E) as (l1 & l2 & S1). rewrite S1, <- app_assoc in N. apply NoDup_remove_2 in N. apply N. rewrite !in_app_iff. auto.
Qed.
(** A wait for the outstanding tasks returns only when every task enqueued has been
    run to its end, once. *)
Theorem pool_wait : forall threads others schedule s c n s', run (start threads others) schedule = Some s ->
  nth_error (clients s) c = Some (Checking n) -> n = N.of_nat (outstanding s) -> (n < 2 ^ 32)%N ->
  step s (Call c Check) = Some s' -> nth_error (clients s') c = Some (Returned n) -> all_finished s'.
Proof.
  intros th m sch s c n s' R C E B S1 RT. pose proof (run_inv th m sch _ s (start_inv th m) R) as I. pose proof (step_inv _ _ _ _ _ I S1) as I'.
  cbn [step] in S1. unfold call in S1. rewrite C in S1. injection S1 as S1. assert (Q : completed s = n).
  { destruct (N.eqb_spec (completed s) n) as [Q|Q]; [assumption|]. subst s'. cbn [set_client clients] in RT. rewrite (nth_upd_same _ _ _ _ C) in RT. discriminate RT. }
  pose proof (places_length _ _ _ I) as L. pose proof (iv_counted _ _ _ I) as K. pose proof (iv_base _ _ _ I) as BA. pose proof (iv_completed _ _ _ I) as CO.
  assert (CE : counted s = enqueued s).
  { unfold outstanding in E. assert (LE : (counted s - base s <= enqueued s - base s)%nat) by lia. rewrite N.mod_small in CO; [lia|]. lia. }
  apply (done_all th m s' I'); subst s'; cbn [set_client tasks workers].
  - destruct (tasks s); [reflexivity|cbn in L; lia].
  - destruct (flat_map exec (workers s)); [reflexivity|cbn in L; lia].
Qed.
(** When the destructor has returned, every task enqueued has been run. *)
Theorem pool_destroyed : forall threads others schedule s c, 0 < threads -> run (start threads others) schedule = Some s ->
  nth_error (clients s) c = Some Destroyed -> all_finished s.
Proof.
  intros n m sch s c P R C. pose proof (run_inv n m sch _ s (start_inv n m) R) as I. pose proof (iv_destroyed _ _ _ I (nth_error_In _ _ C)) as D.
  apply (done_all n m s I).
  - apply (iv_exited _ _ _ I). pose proof (iv_workers _ _ _ I) as L. destruct (workers s) as [|x l]; [cbn in L; lia|]. left. now apply D; left.
  - apply flat_nil. intros x X. now rewrite (D x X).
Qed.
(** No lost wake-up: when one thread uses the pool and no thread can go on by itself,
    every task has been run, and that thread is neither waiting for the outstanding
    tasks nor joining. *)
Theorem pool_no_hang : forall threads schedule s, 0 < threads -> run (start threads 1) schedule = Some s -> (N.of_nat (enqueued s) < 2 ^ 32)%N -> stuck s ->
  all_finished s /\ nth_error (clients s) 0 <> Some (Waiting (N.of_nat (outstanding s))) /\ nth_error (clients s) 0 <> Some Joining.
Proof.
  intros n sch s P R B [SW SC]. pose proof (run_inv n 1 sch _ s (start_inv n 1) R) as I.
  pose proof (iv_clients _ _ _ I) as CL. destruct (clients s) as [|x [|? ?]] eqn:CS; try discriminate CL. clear CL.
  assert (CN : forall a, call s 0 a <> None -> x = Idle).
  { intros a H. destruct (call s 0 a) as [s'|] eqn:C; [|now destruct H]. specialize (SC 0 a s' C). cbn in SC. congruence. }
  assert (WN : forall p, In p (workers s) -> p = Asleep \/ p = Exited).
  { intros p PI. destruct (In_nth_error _ _ PI) as (w & W).
    assert (NC : exists cs, notify_client (clients s) 0 = Some cs) by (unfold notify_client; rewrite CS; cbn [nth_error existsb waiting orb]; destruct x; cbn [waiting orb]; eauto). destruct NC as (cs & NC).
    specialize (SW w 0). unfold work in SW. rewrite W in SW. destruct p; auto; exfalso; try discriminate SW.
    - destruct (stop s), (tasks s); discriminate SW.
    - rewrite NC in SW. discriminate SW. }
  assert (NN : x <> Notifying).
  { intros ->. enough (K : exists v, call s 0 (Notify v) <> None) by (destruct K as (v & K); specialize (CN _ K); discriminate CN).
    unfold call. rewrite CS. cbn [nth_error]. destruct (existsb asleep (workers s)) eqn:E.
    - apply existsb_exists in E. destruct E as (p & PI & PA). destruct (In_nth_error _ _ PI) as (w & W). exists w. unfold notify_worker. rewrite W. destruct p; try discriminate PA. discriminate.
    - exists 0. unfold notify_worker. rewrite E. destruct (nth_error (workers s) 0) as [[]|]; discriminate. }
  assert (T : tasks s = []).
  { destruct (tasks s) as [|t l] eqn:T; [reflexivity|exfalso]. destruct (iv_wake _ _ _ I P) as [(p & PI & PA)|H]; [now rewrite T| |].
    - destruct (WN p PI) as [->| ->]; discriminate PA.
    - rewrite CS in H. destruct H as [H|[]]. now destruct NN. }
  assert (E : flat_map exec (workers s) = []) by (apply flat_nil; intros p PI; destruct (WN p PI) as [->| ->]; reflexivity).
  split; [now apply (done_all n 1 s I)|]. cbn [nth_error]. split; intro X; injection X as ->.
  - assert (K0 : count is_counting (workers s) = 0) by (apply count_zero; intros t p PT; destruct (WN p (nth_error_In _ _ PT)) as [->| ->]; reflexivity).
    pose proof (places_length _ _ _ I) as L. rewrite T, E in L. cbn in L. pose proof (iv_counted _ _ _ I) as K. pose proof (iv_base _ _ _ I) as BA.
    apply (iv_waiting _ _ _ I eq_refl (N.of_nat (outstanding s))); [rewrite CS; now left|]. rewrite (iv_completed _ _ _ I). unfold outstanding. rewrite N.mod_small; [f_equal; lia|lia].
  - assert (ST : stop s = true) by (apply (iv_going _ _ _ I); right; left; rewrite CS; now left).
    destruct (iv_stop _ _ _ I ST) as [H|H]; [rewrite CS in H; destruct H as [H|[]]; discriminate H|].
    assert (C : call s 0 Join <> None); [|specialize (CN _ C); discriminate CN].
    unfold call. rewrite CS. cbn [nth_error]. replace (forallb _ (workers s)) with true; [discriminate|]. symmetry. apply forallb_forall. intros p PI. destruct (WN p PI) as [->| ->]; [now destruct H|reflexivity].
Qed.

(** Two workers; one thread enqueues two tasks, waits for both, resets the counter,
    enqueues another one, waits and destroys the pool. *)
Definition sample : list event :=
  [Work 0 0; Work 1 0; Call 0 Enqueue; Call 0 (Notify 1); Call 0 Enqueue; Work 1 0; Call 0 (Notify 0); Call 0 (Wait 2); Work 0 0; Call 0 Check; Work 0 0; Work 0 0;
   Call 0 Check; Work 1 0; Work 1 0; Call 0 Check; Call 0 Leave; Call 0 Reset; Work 1 0; Call 0 Enqueue; Call 0 (Notify 1); Call 0 (Wait 1); Work 0 0; Work 0 0; Work 0 0; Call 0 Check].
Example ex_sample : exists s s', run (start 2 1) (removelast sample) = Some s /\ clients s = [Checking (N.of_nat (outstanding s))] /\ step s (Call 0 Check) = Some s' /\ clients s' = [Returned 1] /\ finished s' = [1; 0; 2] /\ enqueued s' = 3.
Proof. eexists. eexists. split; [vm_compute; reflexivity|]. split; [reflexivity|]. split; [reflexivity|]. split; [reflexivity|]. split; reflexivity. Qed.
Example ex_destroyed : exists s, run (start 2 1) (sample ++ [Call 0 Leave; Call 0 Destroy; Work 0 0; Work 1 0; Call 0 NotifyAll; Call 0 Join]) = Some s /\ clients s = [Destroyed] /\ finished s = [1; 0; 2].
Proof. eexists. split; [vm_compute; reflexivity|]. split; reflexivity. Qed.
Example ex_stuck : exists s, run (start 2 1) [Work 0 0; Work 1 0; Call 0 Enqueue; Call 0 (Notify 1); Work 1 0; Work 1 0; Work 1 0; Work 1 0] = Some s /\ stuck s /\ finished s = [0].
Proof.
  eexists. split; [vm_compute; reflexivity|]. split; [|reflexivity]. split.
  - intros [|[|[|w]]] v; reflexivity.
  - intros [|[|c]] [] s' H; cbn in H; try discriminate H; reflexivity.
Qed.

(** Two threads wait for the one task: it wakes one of them only (notify_one, 51),
    the other one sleeps for ever. *)
Theorem pool_two_waiters_refuted : exists schedule s c, run (start 1 2) schedule = Some s /\ stuck s /\ all_finished s /\ nth_error (clients s) c = Some (Waiting (N.of_nat (outstanding s))).
Proof.
  exists [Call 0 Enqueue; Call 0 (Notify 0); Call 0 (Wait 1); Call 1 (Wait 1); Call 0 Check; Call 1 Check; Work 0 0; Work 0 0; Work 0 0; Work 0 0; Call 0 Check; Call 0 Leave].
  eexists. exists 1. split; [vm_compute; reflexivity|]. split; [|split; [|reflexivity]].
  - split; [intros [|[|w]] v; reflexivity|]. intros [|[|[|c]]] [] s' H; cbn in H; try discriminate H; reflexivity.
  - split; [repeat constructor; intros []|]. intro t. cbn. lia.
Qed.
(** A thread that resets the counter while a task still runs and then waits for the
    tasks it enqueued since: the wait returns though the last of them has not been
    run. *)
Theorem pool_reset_refuted : exists schedule s, run (start 2 1) schedule = Some s /\ clients s = [Returned 1] /\ enqueued s = 2 /\ finished s = [0].
Proof.
  exists [Call 0 Enqueue; Call 0 (Notify 0); Work 0 0; Call 0 Reset; Call 0 Enqueue; Call 0 (Notify 0); Work 1 0; Call 0 (Wait 1); Work 0 0; Work 0 0; Call 0 Check].
  eexists. split; [vm_compute; reflexivity|]. split; [reflexivity|split; reflexivity].
Qed.
(** A pool without threads never runs anything: the wait does not return, and the
    destructor drops the tasks.  (The callers in the project raise 0 to 1,
    include/utils/thread_config.hpp 35-38.) *)
Theorem pool_no_thread_refuted : exists schedule s, run (start 0 1) schedule = Some s /\ clients s = [Destroyed] /\ enqueued s = 1 /\ finished s = [].
Proof.
  exists [Call 0 Enqueue; Call 0 (Notify 0); Call 0 Destroy; Call 0 NotifyAll; Call 0 Join].
  eexists. split; [vm_compute; reflexivity|]. split; [reflexivity|split; reflexivity].
Qed.

Print Assumptions pool_once.
Print Assumptions pool_wait.
Print Assumptions pool_destroyed.
Print Assumptions pool_no_hang.
Print Assumptions pool_two_waiters_refuted.
Print Assumptions pool_reset_refuted.
Print Assumptions pool_no_thread_refuted.
