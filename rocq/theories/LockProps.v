(** C51: the locks exclude. *)
From Verif Require Import LockProofs.

(** At most one thread holds a spin lock. *)
Theorem spin_excludes : forall threads schedule s, spin_run (spin_start threads) schedule = Some s -> one_inside s.
Proof.
  intros n sch s R t u T U. pose proof (spin_run_inv _ _ _ (spin_start_inv n) R) as I. unfold spin_inv in I.
  destruct (Nat.eq_dec t u) as [E|NE]; [assumption|]. pose proof (count_two _ is_holding _ t u _ _ T U eq_refl eq_refl NE). destruct (flag s); cbn in I; lia.
Qed.
(** A spin lock that nobody holds can be taken by the next thread that tries. *)
Theorem spin_available : forall threads schedule s t, spin_run (spin_start threads) schedule = Some s -> (forall u, nth_error (spinners s) u <> Some Holding) ->
  nth_error (spinners s) t = Some Spinning -> exists s', spin_step s t TestAndSet = Some s' /\ nth_error (spinners s') t = Some Holding.
Proof.
  intros n sch s t R F T. pose proof (spin_run_inv _ _ _ (spin_start_inv n) R) as I. unfold spin_inv in I.
  rewrite count_zero in I by (intros u p U; destruct p; try reflexivity; now destruct (F u)). destruct (flag s) eqn:E; [discriminate I|].
  unfold spin_step. rewrite T, E. eexists. split; [reflexivity|]. now apply (nth_upd_same _ _ Spinning).
Qed.
(** Three threads, the second of which tries to take the lock while the first holds
    it; try_lock fails meanwhile. *)
Example ex_spin : exists s, spin_run (spin_start 3) [(0, CallLock); (1, CallLock); (0, TestAndSet); (1, TestAndSet); (2, TryLock); (0, Unlock); (1, TestAndSet)] = Some s
  /\ spinners s = [Outside; Holding; Outside].
Proof. eexists. split; reflexivity. Qed.

(** A shared lock held exclusively is held by nobody else, whatever the threads do
    with lock, unlock, lock_shared and unlock_shared; nothing overflows; and when
    nobody holds it it is free (no_lock, 162). *)
Theorem shared_excludes : forall asserts threads schedule r, (Z.of_nat threads <= int_max)%Z -> plain schedule -> run asserts (start threads) schedule = Some r ->
  exists s, r = Ok s /\ excludes s /\ ((forall t, ~ holds s t) -> state s = 0%Z).
Proof.
  intros asserts n sch r B P R. destruct (run_inv asserts n sch _ r B (start_inv n) (or_intror P) R) as (s & -> & I).
  exists s. split; [reflexivity|]. split; [now apply (inv_excludes n)|now apply inv_free with n].
Qed.
(** With upgrade_lock and degrade_lock: in a build with assertions.  (A failed
    assertion ends the process.) *)
Theorem shared_excludes_asserts : forall threads schedule r, (Z.of_nat threads <= int_max)%Z -> run true (start threads) schedule = Some r ->
  exists s, r = Ok s /\ excludes s /\ ((forall t, ~ holds s t) -> state s = 0%Z).
Proof.
  intros n sch r B R. destruct (run_inv true n sch _ r B (start_inv n) (or_introl eq_refl) R) as (s & -> & I).
  exists s. split; [reflexivity|]. split; [now apply (inv_excludes n)|now apply inv_free with n].
Qed.
(** Without assertions: as long as only the sole holder upgrades and no weak compare
    and exchange fails for no reason in an upgrade or degrade.  Missing: the other
    schedules, for which it does not hold. *)
Theorem shared_excludes_partial : forall asserts threads schedule r, (Z.of_nat threads <= int_max)%Z -> careful asserts (start threads) schedule -> run asserts (start threads) schedule = Some r ->
  exists s, r = Ok s /\ excludes s /\ aborted s = false /\ ((forall t, ~ holds s t) -> state s = 0%Z).
Proof.
  intros asserts n sch r B C R. destruct (run_careful asserts n sch _ r B (start_inv n) eq_refl C R) as (s & -> & I & A).
  exists s. split; [reflexivity|]. split; [now apply (inv_excludes n)|]. split; [assumption|now apply inv_free with n].
Qed.
(** Two readers, one of which leaves; the other upgrades, degrades and leaves; a
    writer waits meanwhile. *)
Definition sample : list (nat * act) :=
  [(0, CallShared); (1, CallShared); (0, Go false); (1, Go false); (0, Go false); (1, Go false); (1, Go false); (1, Go true); (1, Go false); (1, Go false);
   (2, CallExclusive); (2, Go false); (0, UnlockShared); (1, Upgrade false); (2, Go false); (1, Degrade false); (2, Go false); (1, UnlockShared); (2, Go false)].
Example ex_shared : careful false (start 3) sample /\ exists s, run false (start 3) sample = Some (Ok s) /\ state s = (-1)%Z /\ clients s = [Free; Free; Exclusive].
Proof.
  split; [|eexists; split; [vm_compute; reflexivity|split; reflexivity]]. vm_compute. do 13 (split; [exact Logic.I|]). split; [|repeat split].
  split; [reflexivity|]. intros [|[|[|u]]] [H|H]; try discriminate H; try reflexivity; destruct u; discriminate H.
Qed.
Example ex_plain : exists s, run true (start 2) [(0, CallShared); (1, CallExclusive); (0, Go false); (0, Go false); (1, Go false)] = Some (Ok s) /\ clients s = [Shared; Claiming].
Proof. eexists. split; reflexivity. Qed.

(** In a release build two readers that both upgrade both return from it: both hold
    the lock exclusively. *)
Theorem shared_upgrade_refuted : exists schedule s t u, run false (start 2) schedule = Some (Ok s) /\ t <> u /\ holds_exclusively s t /\ holds_exclusively s u.
Proof.
  exists [(0, CallShared); (0, Go false); (0, Go false); (1, CallShared); (1, Go false); (1, Go false); (0, Upgrade false); (1, Upgrade false)].
  eexists. exists 0, 1. split; [reflexivity|]. split; [discriminate|split; reflexivity].
Qed.
(** In a release build a writer whose degrade fails for no reason leaves the lock
    closed for ever: nobody holds it, and no sequence of steps of a thread in lock
    gets it. *)
Theorem shared_degrade_refuted : exists schedule s, run false (start 2) schedule = Some (Ok s) /\ (forall t, ~ holds s t) /\ nth_error (clients s) 1 = Some Claiming /\
  forall tries s', run false s (map (fun b => (1, Go b)) tries) = Some (Ok s') -> nth_error (clients s') 1 = Some Claiming.
Proof.
  exists [(0, CallExclusive); (0, Go false); (0, Degrade true); (0, UnlockShared); (1, CallExclusive)].
  exists {| state := (-2)%Z; clients := [Free; Claiming]; aborted := false |}. split; [reflexivity|]. split; [intros [|[|[|t]]] [H|H]; discriminate H|]. split; [reflexivity|].
  induction tries as [|b tries IH]; intros s' R; [cbn in R; injection R as <-; reflexivity|]. apply IH. destruct b; exact R.
Qed.

Print Assumptions spin_excludes.
Print Assumptions spin_available.
Print Assumptions shared_excludes.
Print Assumptions shared_excludes_asserts.
Print Assumptions shared_excludes_partial.
Print Assumptions shared_upgrade_refuted.
Print Assumptions shared_degrade_refuted.
