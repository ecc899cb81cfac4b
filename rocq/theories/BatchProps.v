(** Property C50: batch searches with several threads. *)
From Verif Require Import BatchProofs.
From Verif Require Import BatchSpec.

(** ** C50 *)
(** When no search raises: whatever the schedule, each query is searched exactly
    once, the output is what each search gives, and the same as with one thread. *)
Theorem batch_exact c l d schedule s : call_ok c l d -> (forall q, ~ raises c q) -> completes c l d schedule s ->
  terminated s = false /\ first_error s = None /\ Permutation (searched s) (seq 0 (c_queries c))
  /\ filled fst c l (labels s) /\ (c_distances c = true -> filled snd c d (distances s))
  /\ one_thread c l d (seq 0 (c_queries c)) = Ok (labels s, distances s, None).
Proof.
  intros OK NR [R J]. destruct (run_inv c l d OK schedule _ _ (start_inv c l d) R) as (s' & [= <-] & I).
  assert (T : terminated s = false). { destruct (terminated s) eqn:T; [|reflexivity]. destruct (i_terminated _ _ _ _ I T) as (_ & q & Q & _ & E). exfalso. apply (NR q). now split. }
  destruct J as [J|J]; [|congruence]. assert (FE : first_error s = None). { destruct (first_error s) as [e|] eqn:FE; [|reflexivity]. destruct (i_error _ _ _ _ I e FE) as (_ & q & Q & _ & E). exfalso. apply (NR q). split; eauto. }
  destruct (end_clean c l d OK s I J FE T) as [NX D]. destruct (done_filled c l d s I D) as [FL FD].
  split; [exact T|]. split; [exact FE|]. split; [exact (end_searched c l d s I J NX)|]. split; [exact FL|]. split; [exact FD|].
  assert (HH : forall q, q < c_queries c -> exists h, c_search c q = Hits h). { intros q Q. destruct (c_search c q) as [h|e] eqn:E; [eauto|]. exfalso. apply (NR q). split; eauto. }
  assert (S0 : forall f b, sound f c b b) by (intros f b; split; [reflexivity|]; intros; now left).
  destruct (one_thread_right c l d OK (c_queries c) 0 l d eq_refl HH (S0 fst l) ltac:(intros q j Q; lia) ltac:(intros _; split; [apply S0|intros q j Q; lia]) ltac:(auto)) as (bl & bd & -> & F1 & F2 & F3).
  rewrite (filled_unique c fst l bl (labels s) (co_labels _ _ _ OK) F1 FL). destruct (c_distances c) eqn:CD.
  - rewrite (filled_unique c snd d bd (distances s) (co_distances _ _ _ OK CD) (F2 eq_refl) (FD eq_refl)). reflexivity.
  - rewrite (F3 eq_refl). destruct (i_distance _ _ _ _ I) as (_ & _ & E). rewrite (E CD). reflexivity.
Qed.
Print Assumptions batch_exact.
(** When a search raises, the batch search of a collection raises what one of the
    searches raised; no query was searched twice and nothing but results was
    written. *)
Theorem batch_raises c l d schedule s q : call_ok c l d -> c_variant c = Collection -> raises c q -> completes c l d schedule s ->
  terminated s = false /\ NoDup (searched s) /\ sound fst c l (labels s) /\ (c_distances c = true -> sound snd c d (distances s))
  /\ exists q' e, q' < c_queries c /\ In q' (searched s) /\ c_search c q' = Raises e /\ first_error s = Some e.
Proof.
  intros OK V [Q (e0 & E0)] [R J]. destruct (run_inv c l d OK schedule _ _ (start_inv c l d) R) as (s' & [= <-] & I).
  assert (T : terminated s = false). { destruct (terminated s) eqn:T; [|reflexivity]. destruct (i_terminated _ _ _ _ I T) as (V' & _). congruence. }
  destruct J as [J|J]; [|congruence]. split; [exact T|]. split.
  - pose proof (i_perm _ _ _ _ I) as P. assert (ND : NoDup (searched s ++ flat_map pending (threads s))) by (eapply Permutation_NoDup; [symmetry; exact P|apply seq_NoDup]).
    clear - ND. induction (searched s) as [|x l IH]; [constructor|]. cbn [app] in ND. inversion ND as [|? ? NI ND']; subst. constructor; [|now apply IH]. intros Hx. apply NI. apply in_or_app. now left.
  - split; [apply (i_label _ _ _ _ I)|]. split; [apply (i_distance _ _ _ _ I)|]. destruct (first_error s) as [e|] eqn:FE.
    + destruct (i_error _ _ _ _ I e FE) as (_ & q' & A & B & C). exists q', e. auto.
    + exfalso. destruct (end_clean c l d OK s I J FE T) as [NX D]. destruct (D q Q) as [(h & E) _]. congruence.
Qed.
Print Assumptions batch_raises.
(** There is always a thread that can go on, and every schedule ends: no deadlock
    and no endless loop, and no access outside the buffers. *)
Theorem batch_ends c l d schedule r : call_ok c l d -> run c (start c l d) schedule = Some r ->
  length schedule <= c_queries c * (6 + 2 * c_top_k c) + 2 * c_threads c
  /\ exists s, r = Ok s /\ (joined s = true \/ terminated s = true \/ exists w stale, step c s w stale <> None).
Proof.
  intros OK R. split.
  - pose proof (run_bound c l d OK schedule _ r (start_inv c l d) R). pose proof (measure_start c l d). lia.
  - destruct (run_inv c l d OK schedule _ _ (start_inv c l d) R) as (s & -> & I). exists s. split; [reflexivity|]. destruct (joined s) eqn:J; [now left|]. destruct (terminated s) eqn:T; [right; now left|]. right. right. exact (progress c l d s I T J).
Qed.
Print Assumptions batch_ends.

(** Three queries and two threads, the second of which stops in the middle of its
    first query; the first sees the flag late *)
Definition ex_call (search : nat -> found) (v : variant) : call := {| c_variant := v; c_queries := 3; c_top_k := 2; c_threads := 2; c_distances := true; c_search := search |}.
Definition ex_buffer : list N := repeat 99%N 6.
Definition turns (w m : nat) : list (nat * bool) := repeat (w, true) m.
Definition ex_hits (q : nat) : found := Hits (match q with 0 => [(10, 1); (11, 2); (12, 3)]%N | 1 => [(20, 5)]%N | _ => [(30, 0); (31, 7)]%N end).
Definition ex_fails (q : nat) : found := match q with 1 => Raises 7 | _ => ex_hits q end.
Definition ex_schedule : list (nat * bool) := turns 1 4 ++ turns 0 18 ++ turns 1 7.
Example ex_batch : exists s, completes (ex_call ex_hits Collection) ex_buffer ex_buffer ex_schedule s
  /\ call_ok (ex_call ex_hits Collection) ex_buffer ex_buffer /\ (forall q, ~ raises (ex_call ex_hits Collection) q)
  /\ labels s = [10; 11; 20; 99; 30; 31]%N /\ distances s = [1; 2; 5; 99; 0; 7]%N /\ searched s = [0; 1; 2].
Proof.
  eexists. split; [split; [vm_compute; reflexivity|left; reflexivity]|]. split; [constructor; cbn; try lia; reflexivity|]. split; [intros q (_ & e & E); discriminate E|]. repeat split; reflexivity.
Qed.

(** With DiskANN an exception in a thread ends the process. *)
Theorem diskann_raises_terminates c l d schedule s q : call_ok c l d -> c_variant c = DiskANN -> raises c q -> completes c l d schedule s -> terminated s = true.
Proof.
  intros OK V [Q (e0 & E0)] [R J]. destruct (run_inv c l d OK schedule _ _ (start_inv c l d) R) as (s' & [= <-] & I). destruct J as [J|J]; [|exact J]. destruct (terminated s) eqn:T; [reflexivity|]. exfalso.
  assert (FE : first_error s = None). { destruct (first_error s) as [e|] eqn:FE; [|reflexivity]. destruct (i_error _ _ _ _ I e FE) as (V' & _). congruence. }
  destruct (end_clean c l d OK s I J FE T) as [NX D]. destruct (D q Q) as [(h & E) _]. congruence.
Qed.
Print Assumptions diskann_raises_terminates.
(** One thread raises, and two threads end the process. *)
Example ex_raises : one_thread (ex_call ex_fails DiskANN) ex_buffer ex_buffer (seq 0 3) = Ok ([10; 11; 99; 99; 99; 99], [1; 2; 99; 99; 99; 99], Some 7)%N
  /\ raises (ex_call ex_fails DiskANN) 1 /\ call_ok (ex_call ex_fails DiskANN) ex_buffer ex_buffer
  /\ (exists s, completes (ex_call ex_fails DiskANN) ex_buffer ex_buffer (turns 1 4 ++ turns 0 2) s)
  /\ exists s, completes (ex_call ex_fails Collection) ex_buffer ex_buffer (turns 1 4 ++ turns 0 7 ++ turns 1 16) s /\ first_error s = Some 7%N /\ raises (ex_call ex_fails Collection) 1.
Proof.
  split; [vm_compute; reflexivity|]. split; [split; [cbn; lia|eexists; reflexivity]|]. split; [constructor; cbn; try lia; reflexivity|]. split; [eexists; split; [vm_compute; reflexivity|right; reflexivity]|].
  eexists. split; [split; [vm_compute; reflexivity|left; vm_compute; reflexivity]|]. split; [reflexivity|]. split; [cbn; lia|eexists; reflexivity].
Qed.
(** So the claim does not hold for DiskANN when a search raises. *)
Theorem diskann_raises_refuted : exists c l d e, call_ok c l d /\ c_variant c = DiskANN /\ (exists bl bd, one_thread c l d (seq 0 (c_queries c)) = Ok (bl, bd, Some e))
  /\ forall schedule s, completes c l d schedule s -> terminated s = true.
Proof.
  destruct ex_raises as (A & B & C & _). exists (ex_call ex_fails DiskANN), ex_buffer, ex_buffer, 7%N. split; [exact C|]. split; [reflexivity|]. split; [eauto|]. intros schedule s. now apply (diskann_raises_terminates _ _ _ _ _ 1 C eq_refl B).
Qed.
Print Assumptions diskann_raises_refuted.

(** With 2^32 - 1 queries the counter of DiskANN wraps: the thread that finds it at
    the end sets it back to 0, and the other one begins again. *)
Definition wrap_call (n : nat) : call := {| c_variant := DiskANN; c_queries := n; c_top_k := 1; c_threads := 2; c_distances := false; c_search := fun _ => Hits [] |}.
Definition wrap_state (n i : nat) : state :=
  {| next := N.of_nat i; aborted := false; mutex := None; first_error := None; labels := repeat 0%N n; distances := []; threads := [Fetch; Fetch]; terminated := false; searched := seq 0 i |}.
Lemma run_append c a b : forall s s', run c s a = Some (Ok s') -> run c s (a ++ b) = run c s' b.
Proof. induction a as [|[w st] a IH]; intros s s' H; cbn [run app] in *; [now injection H as ->|]. destruct (step c s w st) as [[s1| | |]|]; try discriminate H. now apply IH. Qed.
Lemma wrap_one n i : N.of_nat n = (2 ^ 32 - 1)%N -> i < n -> run (wrap_call n) (wrap_state n i) (turns 0 3) = Some (Ok (wrap_state n (S i))).
Proof.
  intros E L. unfold turns. cbn [repeat run]. unfold step at 1. cbn [wrap_state terminated threads nth_error next c_variant wrap_call c_queries]. destruct (N.leb_spec (N.of_nat n) (N.of_nat i)); [lia|].
  unfold modulus. rewrite N.mod_small by lia. rewrite Nat2N.id. unfold step at 1. cbn [set_thread set_next terminated threads upd nth_error c_search wrap_call c_variant]. unfold step at 1. cbn [set_thread set_next add_searched terminated threads upd nth_error firstn c_top_k c_distances c_variant again].
  unfold wrap_state. do 2 f_equal. unfold set_thread, set_next, add_searched. cbn [next aborted mutex first_error labels distances threads terminated searched upd again]. rewrite seq_S. cbn [plus]. replace (N.of_nat i + 1)%N with (N.of_nat (S i)) by lia. reflexivity.
Qed.
Lemma wrap_many n i : N.of_nat n = (2 ^ 32 - 1)%N -> i <= n -> exists schedule, run (wrap_call n) (wrap_state n 0) schedule = Some (Ok (wrap_state n i)).
Proof.
  intros E. induction i as [|i IH]; intros L; [exists []; reflexivity|]. destruct (IH ltac:(lia)) as (a & R). exists (a ++ turns 0 3). rewrite (run_append _ _ _ _ _ R). apply wrap_one; [exact E|lia].
Qed.
Theorem diskann_twice_refuted : exists c l d schedule s, c_variant c = DiskANN /\ N.of_nat (c_queries c) = (2 ^ 32 - 1)%N /\ length l = c_queries c * c_top_k c
  /\ run c (start c l d) schedule = Some (Ok s) /\ ~ NoDup (searched s).
Proof.
  assert (X : exists n, N.of_nat n = (2 ^ 32 - 1)%N) by (exists (N.to_nat (2 ^ 32 - 1)); apply N2Nat.id). destruct X as (n & E). destruct (wrap_many n n E ltac:(lia)) as (a & R).
  assert (R2 : exists s, run (wrap_call n) (wrap_state n n) [(0, true); (1, true); (1, true)] = Some (Ok s) /\ searched s = seq 0 n ++ [0]).
  { cbn [run]. unfold step at 1. cbn [wrap_state terminated threads nth_error next c_variant wrap_call c_queries]. rewrite N.leb_refl. replace ((N.of_nat n + 1) mod modulus DiskANN)%N with 0%N by (rewrite E; reflexivity).
    unfold step at 1. cbn [set_thread set_next terminated threads upd nth_error c_search wrap_call c_variant c_queries next]. destruct (N.leb_spec (N.of_nat n) 0); [lia|]. change (N.to_nat 0) with 0.
    unfold step at 1. cbn [set_thread set_next add_searched terminated threads upd nth_error c_search wrap_call c_variant firstn c_top_k next]. eexists. split; [reflexivity|]. reflexivity. }
  destruct R2 as (s & R2 & SS). exists (wrap_call n), (repeat 0%N n), [], (a ++ [(0, true); (1, true); (1, true)]), s. split; [reflexivity|]. split; [exact E|]. split; [cbn; rewrite repeat_length; lia|]. split.
  - change (start (wrap_call n) (repeat 0%N n) []) with (wrap_state n 0). rewrite (run_append _ _ _ _ _ R). exact R2.
  - rewrite SS. intros ND. assert (L : 0 < n) by lia. apply NoDup_remove_2 in ND. apply ND. rewrite app_nil_r. apply in_seq. lia.
Qed.
Print Assumptions diskann_twice_refuted.
