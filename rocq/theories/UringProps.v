(** C90: a batch read through the shared io_uring ends with exactly its own results. *)
From Verif Require Import UringModel UringSpec UringProofs.
From Coq Require Import List Lia.
Import ListNotations.

(** No completion is written into the frame of a batch that has ended, however
    batches, submissions, completions and reapers interleave. *)
Theorem uring_no_dangling : forall depth ring acts r,
  0 < depth <= ring -> run acts (start depth ring) = Some r -> exists s, r = Ok s.
Proof.
  intros depth ring acts r D E. destruct (run_inv acts _ _ _ (start_inv depth ring D) E) as (s & -> & _). now exists s.
Qed.
(** A batch that returned has every read answered once, holds these answers,
    and reports how many of them are not the size asked for. *)
Theorem uring_batch_result : forall depth ring acts s i w f,
  0 < depth <= ring -> run acts (start depth ring) = Some (Ok s) -> nth_error (r_waves s) i = Some w -> w_at w = Returned f ->
  length (w_results w) = length (w_sizes w) /\
  (forall k, k < length (w_sizes w) -> exists r, nth_error (w_results w) k = Some r /\ answered_once acts i k r) /\
  f = N.of_nat (short_reads (w_sizes w) (w_results w)).
Proof.
  intros depth ring acts s i w f D E EW PL. destruct (run_inv acts _ _ _ (start_inv depth ring D) E) as (s' & Q & IV). injection Q as <-.
  exact (returned_ok s _ i w f IV EW PL).
Qed.
(** Nothing of a batch that ended is left with the kernel, among the completions
    or in the hands of a reaper. *)
Theorem uring_ended_quiet : forall depth ring acts s i w k,
  0 < depth <= ring -> run acts (start depth ring) = Some (Ok s) -> nth_error (r_waves s) i = Some w -> ended w = true ->
  ~ In (i, k) (r_kernel s) /\ (forall r, ~ In ((i, k), r) (r_cq s)) /\ (forall r p, r_hand s <> Some ((i, k), r, p)).
Proof.
  intros depth ring acts s i w k D E EW EN. destruct (run_inv acts _ _ _ (start_inv depth ring D) E) as (s' & Q & IV). injection Q as <-.
  destruct (wi_quiet _ _ _ _ (in_waves _ _ IV i w EW) EN) as [K0 P0]. split; [|split].
  - intros H. apply idx_In in H. rewrite K0 in H. destruct H.
  - intros r H. assert (I : In k (idx i (map fst (r_cq s ++ hand_all (r_hand s))))); [|rewrite P0 in I; destruct I]. apply idx_In, in_map_iff. exists ((i, k), r). split; [reflexivity|]. apply in_or_app. now left.
  - intros r p H. assert (I : In k (idx i (map fst (r_cq s ++ hand_all (r_hand s))))); [|rewrite P0 in I; destruct I]. apply idx_In, in_map_iff. exists ((i, k), r). split; [reflexivity|]. apply in_or_app. right. rewrite H. now left.
Qed.
(** read_batch throws only if the kernel refused a submission. *)
Theorem uring_throws_only_refused : forall depth ring acts s i w,
  0 < depth <= ring -> run acts (start depth ring) = Some (Ok s) -> nth_error (r_waves s) i = Some w -> w_at w = Thrown -> refused acts.
Proof.
  intros depth ring acts s i w D E EW PL. destruct (run_inv acts _ _ _ (start_inv depth ring D) E) as (s' & Q & IV). injection Q as <-.
  pose proof (wi_place _ _ _ _ (in_waves _ _ IV i w EW)) as PO. unfold place_ok in PO. rewrite PL in PO.
  destruct (run_poison acts _ _ _ (start_inv depth ring D) E PO) as [P|R]; [discriminate|exact R].
Qed.
(** Without new batches and interrupted calls only finitely many steps are left,
    and when none is left every batch has ended. *)
Theorem uring_batches_end : forall depth ring acts s,
  0 < depth <= ring -> run acts (start depth ring) = Some (Ok s) ->
  (exists bound, forall more s', forallb counts more = true -> run more s = Some (Ok s') -> length more <= bound) /\
  ((forall a, counts a = true -> step a s = None) -> forall w, In w (r_waves s) -> ended w = true).
Proof.
  intros depth ring acts s D E. destruct (run_inv acts _ _ _ (start_inv depth ring D) E) as (s' & Q & IV). injection Q as <-. split.
  - exists (work s). intros more s' C R. pose proof (run_work more s _ s' IV R C). lia.
  - intros ST w Hw. apply In_nth_error in Hw. destruct Hw as [i EW]. destruct (ended w) eqn:EN; [reflexivity|].
    destruct (can_step s _ i w IV EW EN) as (a & CA & NS). exfalso. apply NS, ST, CA.
Qed.

(** Two batches through a queue of two: chunks taken in parts, an interrupted
    call, completions out of order, a short read and a failed one. *)
Definition ex_acts : list action :=
  [Arrive [4; 4; 4]%N; Arrive [8]%N; Enter 0; Submit 0 (Took 1); Submit 0 Eintr; Complete (0, 0) (4)%Z; Submit 0 (Took 1); Enter 1; Submit 1 (Took 1);
   Complete (1, 0) (3)%Z; Complete (0, 1) (4)%Z; Reap; Dispatch; Dispatch; Enter 0; Dispatch; Reap; Submit 0 (Took 1); Complete (0, 2) (-5)%Z; Dispatch; Dispatch; Dispatch;
   Reap; Dispatch; Dispatch; Dispatch; Resume 1; Reap; Dispatch; Dispatch; Dispatch; Resume 0].
Example uring_example :
  match run ex_acts (start 2 2) with
  | Some (Ok s) => map (fun w => (w_results w, w_at w)) (r_waves s) = [([4; 4; -5]%Z, Returned 1%N); ([3]%Z, Returned 1%N)]
  | _ => False
  end.
Proof. vm_compute. reflexivity. Qed.
(** A refused submission: the batch waits for the read already taken, then throws;
    the next one throws without submitting anything. *)
Definition ex_refused : list action :=
  [Arrive [4; 4]%N; Enter 0; Submit 0 (Took 1); Submit 0 Hard; Deduct 0; Arrive [4]%N; Enter 1; Deduct 1; Resume 1; Complete (0, 0) (4)%Z; Reap; Dispatch; Dispatch; Dispatch; Resume 0].
Example uring_refused_example :
  match run ex_refused (start 2 2) with
  | Some (Ok s) => map w_at (r_waves s) = [Thrown; Thrown]
  | _ => False
  end.
Proof. vm_compute. reflexivity. Qed.
Example uring_refused_waits : run (firstn 9 ex_refused ++ [Resume 0]) (start 2 2) = None.
Proof. vm_compute. reflexivity. Qed.

Print Assumptions uring_no_dangling.
Print Assumptions uring_batch_result.
Print Assumptions uring_ended_quiet.
Print Assumptions uring_throws_only_refused.
Print Assumptions uring_batches_end.
