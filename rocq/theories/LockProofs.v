(** Proofs about the locks. *)
From Verif Require Export Threads LockSpec.

(** The spin lock *)
Definition is_holding (p : spin_pc) : bool := match p with Holding => true | _ => false end.
Definition spin_inv (s : spin) : Prop := count is_holding (spinners s) = b2n (flag s).
Lemma spin_step_inv : forall s t a s', spin_inv s -> spin_step s t a = Some s' -> spin_inv s'.
Proof.
  intros s t a s' I. unfold spin_step, spin_inv in *.
  destruct (nth_error (spinners s) t) as [[]|] eqn:E; destruct a; intro H; try discriminate H; injection H as <-; cbn [spinners flag];
    match goal with |- count is_holding (upd _ _ ?q) = _ => pose proof (count_upd _ is_holding _ t _ q E) as U end; destruct (flag s); cbn [b2n is_holding] in *; lia.
Qed.
Lemma spin_run_inv : forall sch s s', spin_inv s -> spin_run s sch = Some s' -> spin_inv s'.
Proof.
  induction sch as [|[t a] sch IH]; intros s s' I R; cbn in R; [congruence|].
  destruct (spin_step s t a) as [s1|] eqn:E; [|discriminate R]. apply (IH s1 s'); [|assumption]. now apply (spin_step_inv s t a).
Qed.
Lemma spin_start_inv : forall n, spin_inv (spin_start n).
Proof. intro n. unfold spin_inv, spin_start. now apply (count_repeat _ is_holding Outside). Qed.

(** The shared lock *)
Definition is_shared (p : pc) : bool := match p with Shared => true | _ => false end.
Definition is_exclusive (p : pc) : bool := match p with Exclusive => true | _ => false end.
Record inv (n : nat) (s : lock) : Prop := {
  iv_length : length (clients s) = n;
  iv_counting : forall t e, nth_error (clients s) t = Some (Counting e) -> (0 <= e < Z.of_nat n)%Z;
  iv_state : (state s = (-1)%Z /\ count is_exclusive (clients s) = 1 /\ count is_shared (clients s) = 0) \/
             (state s = Z.of_nat (count is_shared (clients s)) /\ count is_exclusive (clients s) = 0);
}.
Lemma start_inv : forall n, inv n (start n).
Proof.
  intro n. constructor; cbn [start clients state].
  - apply repeat_length.
  - intros t e H. apply nth_error_In in H. apply repeat_spec in H. discriminate H.
  - right. now rewrite !(count_repeat _ _ Free) by reflexivity.
Qed.
(** A step that keeps the invariant: [p] is replaced by [q]. *)
Lemma inv_upd : forall n s t p q st, inv n s -> nth_error (clients s) t = Some p ->
  (forall e, q = Counting e -> (0 <= e < Z.of_nat n)%Z) ->
  let x := (count is_exclusive (clients s) + b2n (is_exclusive q) - b2n (is_exclusive p))%nat in
  let h := (count is_shared (clients s) + b2n (is_shared q) - b2n (is_shared p))%nat in
  (st = -1 /\ x = 1%nat /\ h = 0%nat)%Z \/ (st = Z.of_nat h /\ x = 0%nat) ->
  inv n {| state := st; clients := upd (clients s) t q; aborted := false |}.
Proof.
  intros n s t p q st [L C S] T Q x h D.
  pose proof (count_upd _ is_exclusive _ t _ q T) as UX. pose proof (count_upd _ is_shared _ t _ q T) as UH.
  constructor; cbn [clients state].
  - now rewrite upd_length.
  - intros u e U. destruct (Nat.eq_dec u t) as [ -> |NE].
    + rewrite (nth_upd_same _ _ _ _ T) in U. apply Q. congruence.
    + rewrite (nth_upd_other _ _ _ _ _ T NE) in U. now apply (C u).
  - replace (count is_exclusive (upd (clients s) t q)) with x by (unfold x; lia).
    replace (count is_shared (upd (clients s) t q)) with h by (unfold h; lia). exact D.
Qed.
(** What a step needs to keep it: an upgrade or degrade succeeds, or the process
    is gone. *)
Definition gentle (asserts : bool) (s : lock) (a : act) : Prop :=
  match a with
  | Degrade sp => asserts = true \/ sp = false
  | Upgrade sp => asserts = true \/ (sp = false /\ state s = 1%Z)
  | _ => True
  end.
Lemma step_inv : forall asserts n s t a r, (Z.of_nat n <= int_max)%Z -> inv n s -> gentle asserts s a -> step asserts s t a = Some r -> exists s', r = Ok s' /\ inv n s' /\ (gentle false s a -> aborted s' = false).
Proof.
  intros asserts n s t a r B I G. pose proof I as [L C S]. unfold step. destruct (aborted s); [discriminate|].
  destruct (nth_error (clients s) t) as [p|] eqn:T; [|destruct a; discriminate].
  assert (PX := count_pos _ is_exclusive (clients s) t p T). assert (PH := count_pos _ is_shared (clients s) t p T).
  assert (LH := count_lt _ is_shared (clients s) t p T).
  destruct p; destruct a; try discriminate; cbn [is_exclusive is_shared] in PX, PH, LH.
  - intro H; injection H as <-. eexists; split; [reflexivity|]. split; [|reflexivity]. apply (inv_upd n s t Free); try assumption; [discriminate|]. cbn [is_exclusive is_shared b2n]. lia.
  - intro H; injection H as <-. eexists; split; [reflexivity|]. split; [|reflexivity]. apply (inv_upd n s t Free); try assumption; [discriminate|]. cbn [is_exclusive is_shared b2n]. lia.
  - intro H; injection H as <-. eexists; split; [reflexivity|]. split; [|reflexivity]. destruct (Z.eqb (state s) (-1)) eqn:E; apply (inv_upd n s t Loading); try assumption; try discriminate; cbn [is_exclusive is_shared b2n]; try lia.
    intros e X. injection X as <-. specialize (LH eq_refl). lia.
  - specialize (C t expected T). destruct (Z.eqb expected int_max) eqn:E; [lia|]. unfold exchange.
    destruct (Z.eqb (state s) expected && negb spurious) eqn:E2; intro H; injection H as <-; (eexists; split; [reflexivity|]); (split; [|reflexivity]); apply (inv_upd n s t (Counting expected)); try assumption; try discriminate; cbn [is_exclusive is_shared b2n]; lia.
  - intro H; injection H as <-. eexists; split; [reflexivity|]. split; [|reflexivity]. apply (inv_upd n s t Shared); try assumption; [discriminate|]. specialize (PH eq_refl). cbn [is_exclusive is_shared b2n]. lia.
  - unfold exchange. specialize (PH eq_refl). cbn [gentle] in G. destruct (Z.eqb (state s) 1 && negb spurious) eqn:E2; cbn [negb].
    + rewrite andb_false_r. intro H; injection H as <-. eexists; split; [reflexivity|]. split; [|reflexivity]. apply (inv_upd n s t Shared); try assumption; [discriminate|]. cbn [is_exclusive is_shared b2n]. lia.
    + assert (asserts = true) by (destruct G as [?|[-> K]]; [assumption|rewrite K in E2; discriminate E2]). subst. cbn. intro H; injection H as <-. eexists; split; [reflexivity|]. split; [now constructor|]. intros [K|[-> K]]; [discriminate K|]. rewrite K in E2. discriminate E2.
  - unfold exchange. destruct (Z.eqb (state s) 0 && negb spurious) eqn:E2; intro H; injection H as <-; (eexists; split; [reflexivity|]); (split; [|reflexivity]); apply (inv_upd n s t Claiming); try assumption; try discriminate; cbn [is_exclusive is_shared b2n]; lia.
  - intro H; injection H as <-. eexists; split; [reflexivity|]. split; [|reflexivity]. apply (inv_upd n s t Exclusive); try assumption; [discriminate|]. specialize (PX eq_refl). cbn [is_exclusive is_shared b2n]. lia.
  - unfold exchange. specialize (PX eq_refl). cbn [gentle] in G. destruct (Z.eqb (state s) (-1) && negb spurious) eqn:E2; cbn [negb].
    + rewrite andb_false_r. intro H; injection H as <-. eexists; split; [reflexivity|]. split; [|reflexivity]. apply (inv_upd n s t Exclusive); try assumption; [discriminate|]. cbn [is_exclusive is_shared b2n]. lia.
    + assert (asserts = true) by (destruct G as [?| ->]; [assumption|lia]). subst. cbn. intro H; injection H as <-. eexists; split; [reflexivity|]. split; [now constructor|]. intros [K| ->]; [discriminate K|lia].
Qed.
Lemma inv_excludes : forall n s, inv n s -> excludes s.
Proof.
  intros n s [_ _ S] t u X [U|U].
  - exfalso. pose proof (count_pos _ is_exclusive _ t _ X eq_refl). pose proof (count_pos _ is_shared _ u _ U eq_refl). lia.
  - destruct (Nat.eq_dec t u) as [E|NE]; [assumption|]. exfalso. pose proof (count_two _ is_exclusive _ t u _ _ X U eq_refl eq_refl NE). lia.
Qed.
Lemma inv_free : forall n s, inv n s -> (forall t, ~ holds s t) -> state s = 0%Z.
Proof.
  intros n s [_ _ S] F.
  assert (X : count is_exclusive (clients s) = 0) by (apply count_zero; intros t p P; destruct p; try reflexivity; destruct (F t); now right).
  assert (H : count is_shared (clients s) = 0) by (apply count_zero; intros t p P; destruct p; try reflexivity; destruct (F t); now left). lia.
Qed.
(** The only holder finds 1. *)
Lemma inv_alone : forall n s t, inv n s -> nth_error (clients s) t = Some Shared -> (forall u, holds s u -> u = t) -> state s = 1%Z.
Proof.
  intros n s t [_ _ S] T O. pose proof (count_pos _ is_shared _ t _ T eq_refl) as P.
  assert (count is_shared (clients s) < 2).
  { destruct (le_lt_dec 2 (count is_shared (clients s))) as [G|G]; [|assumption]. exfalso.
    pose proof (count_upd _ is_shared _ t _ Free T) as U. cbn [is_shared b2n] in U.
    destruct (count_some _ is_shared (upd (clients s) t Free) ltac:(lia)) as (u & p & Q & R). 
    destruct (Nat.eq_dec u t) as [ -> |E]; [rewrite (nth_upd_same _ _ _ _ T) in Q; injection Q as <-; discriminate R|].
    rewrite (nth_upd_other _ _ _ _ _ T E) in Q. destruct p; try discriminate R. apply E, O. now left. }
  lia.
Qed.
Lemma careful_gentle : forall asserts n s t a rest r, inv n s -> careful asserts s ((t, a) :: rest) -> step asserts s t a = Some r -> gentle false s a.
Proof.
  intros asserts n s t a rest r I K E. cbn in K. destruct K as [K _]. destruct a; cbn; auto. destruct K as [-> O].
  destruct (nth_error (clients s) t) as [[]|] eqn:T; try (unfold step in E; rewrite T in E; destruct (aborted s); discriminate E).
  right. split; [reflexivity|]. now apply (inv_alone n s t).
Qed.
Lemma gentle_weak : forall asserts s a, gentle false s a -> gentle asserts s a.
Proof. intros asserts s [] G; cbn in *; auto; (destruct G as [G|G]; [discriminate G|now right]). Qed.
Lemma run_inv : forall asserts n sch s r, (Z.of_nat n <= int_max)%Z -> inv n s -> (asserts = true \/ plain sch) -> run asserts s sch = Some r -> exists s', r = Ok s' /\ inv n s'.
Proof.
  intros asserts n. induction sch as [|[t a] sch IH]; intros s r B I G R; cbn in R.
  - injection R as <-. now exists s.
  - destruct (step asserts s t a) as [r1|] eqn:E; [|discriminate R].
    assert (GE : gentle asserts s a).
    { destruct G as [ -> |P]; [destruct a; cbn; auto|specialize (P t a (or_introl eq_refl)); destruct a; now try destruct P]. }
    destruct (step_inv asserts n s t a r1 B I GE E) as (s1 & -> & I1 & _). apply (IH s1); try assumption.
    destruct G as [ -> |P]; [now left|right; intros u b U; apply (P u b); now right].
Qed.
Lemma run_careful : forall asserts n sch s r, (Z.of_nat n <= int_max)%Z -> inv n s -> aborted s = false -> careful asserts s sch -> run asserts s sch = Some r -> exists s', r = Ok s' /\ inv n s' /\ aborted s' = false.
Proof.
  intros asserts n. induction sch as [|[t a] sch IH]; intros s r B I A G R; cbn in R.
  - injection R as <-. now exists s.
  - destruct (step asserts s t a) as [r1|] eqn:E; [|discriminate R].
    pose proof (careful_gentle _ _ _ _ _ _ _ I G E) as GE.
    destruct (step_inv asserts n s t a r1 B I (gentle_weak _ _ _ GE) E) as (s1 & -> & I1 & A1). apply (IH s1); try assumption; [auto|].
    cbn in G. rewrite E in G. now destruct G.
Qed.
