(** C54: the coroutine gate. *)
From Verif Require Import GateProofs.

Lemma hand_has : forall s c x, has s c x -> exists p, nth_error (coroutines s) c = Some p /\ hand p = [x].
Proof. intros s c x [H|[H|H]]; eexists; split; try exact H; reflexivity. Qed.
(** No object is given to two coroutines, nor is one in use on the free list; never
    more coroutines hold one than there are objects. *)
Theorem gate_exclusive : forall items n schedule s, NoDup items -> steady schedule -> run (start items n) schedule = Some s ->
  (forall c d x, has s c x -> has s d x -> c = d) /\ (forall c x, has s c x -> In x items /\ ~ In x (free s)) /\ count holding (coroutines s) <= length items.
Proof.
  intros items n sch s ND ST R. destruct (run_inv items n sch _ s (start_inv items n) ST R) as [I _]. pose proof (iv_items _ _ _ I) as P.
  pose proof (Permutation_NoDup (Permutation_sym P) ND) as N.
  assert (NR : forall A (l k : list A), NoDup (l ++ k) -> NoDup k) by (intros A l; induction l as [|z l IH]; intros k H; [assumption|inversion H; now apply IH]).
  assert (IN : forall c x, has s c x -> In x (flat_map hand (coroutines s))) by (intros c x H; destruct (hand_has s c x H) as (p & C & E); apply in_flat_map; exists p; rewrite E; split; [now apply nth_error_In with c|now left]).
  split; [|split].
  - intros c d x C D. destruct (hand_has s c x C) as (p & PC & PE). destruct (hand_has s d x D) as (q & QC & QE). apply NR in N. clear -N NR PC PE QC QE. revert c d PC QC N.
    induction (coroutines s) as [|z l IH]; intros [|c] [|d] PC QC N; try discriminate PC; try discriminate QC; try reflexivity; cbn in PC, QC.
    + exfalso. injection PC as ->. cbn in N. rewrite PE in N. inversion N as [|? ? K _]. apply K. apply in_flat_map. exists q. rewrite QE. split; [now apply nth_error_In with d|now left].
    + exfalso. injection QC as ->. cbn in N. rewrite QE in N. inversion N as [|? ? K _]. apply K. apply in_flat_map. exists p. rewrite PE. split; [now apply nth_error_In with c|now left].
    + f_equal. apply IH; try assumption. cbn in N. now apply (NR _ (hand z)).
  - intros c x C. specialize (IN c x C). split; [apply (Permutation_in _ P); rewrite in_app_iff; auto|]. intro F.
    destruct (in_split _ _ F) as (l1 & l2 & S1). rewrite S1, <- app_assoc in N. apply NoDup_remove_2 in N. apply N. rewrite !in_app_iff. auto.
  - pose proof (Permutation_length P) as L. rewrite app_length in L. enough (count holding (coroutines s) <= length (flat_map hand (coroutines s))) by lia.
    unfold count. clear. induction (coroutines s) as [|z l IH]; [cbn; lia|]. destruct z; cbn [filter holding flat_map hand app length]; lia.
Qed.
(** Waiters are served in the order of their arrival; and a coroutine gets an object
    without waiting only when nobody waits. *)
Theorem gate_fifo : forall items n schedule s, steady schedule -> run (start items n) schedule = Some s ->
  arrivals s = grants s ++ waiters s /\
  forall c s' x, step s (Acquire c) = Some s' -> nth_error (coroutines s') c = Some (Holding x) -> forall d, nth_error (coroutines s) d <> Some Parked.
Proof.
  intros items n sch s ST R. destruct (run_inv items n sch _ s (start_inv items n) ST R) as [I _]. split; [exact (iv_fifo _ _ _ I)|].
  intros c s' x E H d D. apply (iv_parked _ _ _ I) in D. assert (F : free s = []) by (apply (iv_free _ _ _ I); intro K; rewrite K in D; destruct D).
  cbn [step] in E. rewrite F in E. destruct (nth_error (coroutines s) c) as [[]|] eqn:C; try discriminate E. cbn [rev] in E. injection E as <-. cbn [coroutines] in H.
  rewrite (nth_upd_same _ _ _ _ C) in H. discriminate H.
Qed.
(** When every holder has released, no coroutine is left suspended.  Missing: gates
    to which objects are added later and thread pools that reject a coroutine, for
    which it does not hold (below). *)
Theorem gate_no_lost_waiter_partial : forall items n schedule s, items <> [] -> steady schedule -> accepting schedule -> run (start items n) schedule = Some s -> quiescent s ->
  forall c, ~ suspended s c.
Proof.
  intros items n sch s NE ST AC R Q. destruct (run_inv items n sch _ s (start_inv items n) ST R) as [I G].
  assert (GO : granted_ok s) by (apply G; [assumption|]; intros w x H; apply nth_repeat in H; discriminate H).
  assert (NG : forall c x, nth_error (coroutines s) c <> Some (Granted x)) by (intros c x H; destruct (GO c x H) as (d & D); specialize (Q d); rewrite D in Q; exact Q).
  intros c [H|(x & [H|H])]; [|now apply (NG c x)|specialize (Q c); rewrite H in Q; exact Q].
  apply (iv_parked _ _ _ I) in H. assert (F : free s = []) by (apply (iv_free _ _ _ I); intro K; rewrite K in H; destruct H).
  pose proof (iv_items _ _ _ I) as P. rewrite F in P. replace (flat_map hand (coroutines s)) with (@nil nat) in P; [now apply Permutation_nil in P|].
  symmetry. clear -Q NG. assert (K : forall p, In p (coroutines s) -> hand p = []).
  { intros p PI. destruct (In_nth_error _ _ PI) as (d & D). specialize (Q d). rewrite D in Q. destruct p; try reflexivity; try (now destruct Q). now destruct (NG d x). }
  clear -K. induction (coroutines s) as [|z l IH]; [reflexivity|]. cbn. rewrite (K z (or_introl eq_refl)). apply IH. intros p PI. apply K. now right.
Qed.

(** Two objects and four coroutines: two wait and are served in order. *)
Definition sample : list event :=
  [Acquire 0; Acquire 1; Acquire 3; Acquire 2; Release 1; Release 0; Resume 0 true; Acquire 0; Resume 1 true; Run 3; Run 2; Release 2; Resume 2 true; Run 0].
Example ex_sample : exists s, run (start [7; 8] 4) sample = Some s /\ steady sample /\ coroutines s = [Holding 8; Out; Out; Holding 7] /\ arrivals s = [3; 2; 0] /\ grants s = [3; 2; 0].
Proof.
  eexists. split; [vm_compute; reflexivity|]. split; [intros e E; repeat (destruct E as [<-|E]; [exact Logic.I|]); destruct E|]. split; [reflexivity|split; reflexivity].
Qed.
Example ex_quiescent : exists s, run (start [7; 8] 4) (sample ++ [Release 0; Release 3]) = Some s /\ quiescent s /\ accepting (sample ++ [Release 0; Release 3]) /\ free s = [8; 7].
Proof.
  eexists. split; [vm_compute; reflexivity|]. split; [intros [|[|[|[|[|c]]]]]; exact Logic.I|]. split; [|reflexivity].
  intros c H. repeat (destruct H as [H|H]; [discriminate H|]). exact H.
Qed.

(** When the thread pool rejects the resumption (99-101: only logged), the waiter is
    never resumed and its object is lost. *)
Theorem gate_rejected_refuted : exists schedule s, steady schedule /\ run (start [7] 2) schedule = Some s /\ quiescent s /\ suspended s 1 /\ free s = [].
Proof.
  exists [Acquire 0; Acquire 1; Release 0; Resume 0 false]. eexists. split; [intros e E; repeat (destruct E as [<-|E]; [exact Logic.I|]); destruct E|]. split; [vm_compute; reflexivity|].
  split; [intros [|[|[|c]]]; exact Logic.I|]. split; [right; exists 7; now left|reflexivity].
Qed.
(** An object that is added (46-49) while a coroutine waits does not wake it. *)
Theorem gate_add_refuted : exists schedule s, accepting schedule /\ run (start [] 1) schedule = Some s /\ quiescent s /\ suspended s 0 /\ free s = [7].
Proof.
  exists [Acquire 0; Add 7]. eexists. split; [intros c H; repeat (destruct H as [H|H]; [discriminate H|]); exact H|]. split; [vm_compute; reflexivity|].
  split; [intros [|[|c]]; exact Logic.I|]. split; [now left|reflexivity].
Qed.

Print Assumptions gate_exclusive.
Print Assumptions gate_fifo.
Print Assumptions gate_no_lost_waiter_partial.
Print Assumptions gate_rejected_refuted.
Print Assumptions gate_add_refuted.
