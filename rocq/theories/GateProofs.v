(** Proofs about the gate. *)
From Verif Require Export GateSpec.

Definition hand (p : pc) : list nat := match p with Holding x | Scheduled x | Granted x => [x] | _ => [] end.
Record inv (items : list nat) (n : nat) (s : gate) : Prop := {
  iv_length : length (coroutines s) = n;
  iv_items : Permutation (free s ++ flat_map hand (coroutines s)) items;
  iv_fifo : arrivals s = grants s ++ waiters s;
  iv_free : waiters s <> [] -> free s = [];
  iv_parked : forall c, nth_error (coroutines s) c = Some Parked <-> In c (waiters s);
  iv_nodup : NoDup (waiters s);
  iv_handing : forall c w, nth_error (coroutines s) c = Some (Handing w) -> exists x, nth_error (coroutines s) w = Some (Granted x);
  iv_one : forall c d w, nth_error (coroutines s) c = Some (Handing w) -> nth_error (coroutines s) d = Some (Handing w) -> c = d;
}.
(** Every granted coroutine is being resumed. *)
Definition granted_ok (s : gate) : Prop := forall w x, nth_error (coroutines s) w = Some (Granted x) -> exists c, nth_error (coroutines s) c = Some (Handing w).
Lemma nth_repeat : forall A (x y : A) n c, nth_error (repeat x n) c = Some y -> y = x.
Proof. intros A x y n c H. apply nth_error_In in H. now apply repeat_spec in H. Qed.
Lemma start_inv : forall items n, inv items n (start items n).
Proof.
  intros items n. constructor; cbn [start coroutines free waiters arrivals grants].
  - apply repeat_length.
  - replace (flat_map hand (repeat Out n)) with (@nil nat) by (induction n; cbn; auto). now rewrite app_nil_r.
  - reflexivity.
  - intros H. now destruct H.
  - intro c. split; [intro H; apply nth_repeat in H; discriminate H|intros []].
  - constructor.
  - intros c w H. apply nth_repeat in H. discriminate H.
  - intros c d w H. apply nth_repeat in H. discriminate H.
Qed.
Lemma nth_upd : forall A (l : list A) c p q d, nth_error l c = Some p -> nth_error (upd l c q) d = if Nat.eqb d c then Some q else nth_error l d.
Proof.
  intros A l c p q d H. destruct (Nat.eqb_spec d c) as [->|NE]; [now apply (nth_upd_same _ _ p)|now apply (nth_upd_other _ _ _ p)].
Qed.
Lemma step_inv : forall items n s e s', inv items n s -> match e with Add _ | Clear => False | _ => True end -> step s e = Some s' ->
  inv items n s' /\ ((forall c, e <> Resume c false) -> granted_ok s -> granted_ok s').
Proof.
  intros items n s e s' [A1 A2 A3 A4 A5 A6 A7 A8] ST. destruct e as [c|c|c accepts|w|x|]; try (now destruct ST); cbn [step].
  - (* Acquire *)
    destruct (nth_error (coroutines s) c) as [[]|] eqn:C; try discriminate. destruct (rev (free s)) as [|x rest] eqn:F; intro R; injection R as <-.
    + assert (FE : free s = []) by (rewrite <- (rev_involutive (free s)), F; reflexivity).
      assert (NC : ~ In c (waiters s)) by (intro H; apply A5 in H; congruence).
      split; [constructor|]; cbn [coroutines free waiters arrivals grants].
      * now rewrite upd_length.
      * destruct (upd_split hand _ _ _ C) as (r & P & Q). rewrite Q. rewrite P in A2. exact A2.
      * rewrite A3. now rewrite app_assoc.
      * auto.
      * intro d. rewrite (nth_upd _ _ _ _ _ _ C), in_app_iff. destruct (Nat.eqb_spec d c) as [->|NE]; [split; [intros _; right; now left|reflexivity]|].
        rewrite A5. split; [auto|intros [H|[H|[]]]; [assumption|congruence]].
      * apply (Permutation_NoDup (Permutation_cons_append (waiters s) c)). now constructor.
      * intros d w. rewrite (nth_upd _ _ _ _ _ _ C). destruct (Nat.eqb d c); [discriminate|]. intro H. destruct (A7 d w H) as (x & X). exists x.
        rewrite (nth_upd _ _ _ _ _ _ C). destruct (Nat.eqb_spec w c) as [->|]; [congruence|assumption].
      * intros d d' w. rewrite !(nth_upd _ _ _ _ _ _ C). destruct (Nat.eqb d c); [discriminate|]. destruct (Nat.eqb d' c); [discriminate|]. apply A8.
      * intros _ G w x. cbn [coroutines]. rewrite (nth_upd _ _ _ _ _ _ C). destruct (Nat.eqb w c); [discriminate|]. intro H. destruct (G w x H) as (d & D). exists d.
        rewrite (nth_upd _ _ _ _ _ _ C). destruct (Nat.eqb_spec d c) as [->|]; [congruence|assumption].
    + assert (FE : free s = rev rest ++ [x]) by (rewrite <- (rev_involutive (free s)), F; reflexivity).
      split; [constructor|]; cbn [coroutines free waiters arrivals grants]; try assumption.
      * now rewrite upd_length.
      * destruct (upd_split hand _ _ _ C) as (r & P & Q). rewrite Q. rewrite P, FE, <- app_assoc in A2. exact A2.
      * intro H. specialize (A4 H). rewrite FE in A4. destruct (rev rest); discriminate A4.
      * intro d. rewrite (nth_upd _ _ _ _ _ _ C). destruct (Nat.eqb_spec d c) as [->|NE]; [|apply A5]. rewrite <- A5, C. split; discriminate.
      * intros d w. rewrite (nth_upd _ _ _ _ _ _ C). destruct (Nat.eqb d c); [discriminate|]. intro H. destruct (A7 d w H) as (y & X). exists y.
        rewrite (nth_upd _ _ _ _ _ _ C). destruct (Nat.eqb_spec w c) as [->|]; [congruence|assumption].
      * intros d d' w. rewrite !(nth_upd _ _ _ _ _ _ C). destruct (Nat.eqb d c); [discriminate|]. destruct (Nat.eqb d' c); [discriminate|]. apply A8.
      * intros _ G w y. cbn [coroutines]. rewrite (nth_upd _ _ _ _ _ _ C). destruct (Nat.eqb w c); [discriminate|]. intro H. destruct (G w y H) as (d & D). exists d.
        rewrite (nth_upd _ _ _ _ _ _ C). destruct (Nat.eqb_spec d c) as [->|]; [congruence|assumption].
  - (* Release *)
    destruct (nth_error (coroutines s) c) as [[]|] eqn:C; try discriminate. destruct (waiters s) as [|w rest] eqn:W; intro R; injection R as <-.
    + split; [constructor|]; cbn [coroutines free waiters arrivals grants]; try assumption.
      * now rewrite upd_length.
      * destruct (upd_split hand _ _ _ C) as (r & P & Q). rewrite Q. rewrite P in A2. rewrite <- app_assoc. exact A2.
      * now intros [].
      * intro d. rewrite (nth_upd _ _ _ _ _ _ C). destruct (Nat.eqb_spec d c) as [->|NE]; [|apply A5]. split; [discriminate|intros []].
      * intros d w. rewrite (nth_upd _ _ _ _ _ _ C). destruct (Nat.eqb d c); [discriminate|]. intro H. destruct (A7 d w H) as (y & X). exists y.
        rewrite (nth_upd _ _ _ _ _ _ C). destruct (Nat.eqb_spec w c) as [->|]; [congruence|assumption].
      * intros d d' w. rewrite !(nth_upd _ _ _ _ _ _ C). destruct (Nat.eqb d c); [discriminate|]. destruct (Nat.eqb d' c); [discriminate|]. apply A8.
      * intros _ G w y. cbn [coroutines]. rewrite (nth_upd _ _ _ _ _ _ C). destruct (Nat.eqb w c); [discriminate|]. intro H. destruct (G w y H) as (d & D). exists d.
        rewrite (nth_upd _ _ _ _ _ _ C). destruct (Nat.eqb_spec d c) as [->|]; [congruence|assumption].
    + assert (PW : nth_error (coroutines s) w = Some Parked) by (apply A5; now left).
      assert (CW : c <> w) by congruence.
      assert (C' : nth_error (upd (coroutines s) w (Granted x)) c = Some (Holding x)) by (rewrite (nth_upd _ _ _ _ _ _ PW); destruct (Nat.eqb_spec c w); [congruence|assumption]).
      assert (NTH : forall d, nth_error (upd (upd (coroutines s) w (Granted x)) c (Handing w)) d = if Nat.eqb d c then Some (Handing w) else if Nat.eqb d w then Some (Granted x) else nth_error (coroutines s) d)
        by (intro d; rewrite (nth_upd _ _ _ _ _ _ C'), (nth_upd _ _ _ _ _ _ PW); reflexivity).
      assert (HW : forall d, nth_error (coroutines s) d <> Some (Handing w)) by (intros d D; destruct (A7 d w D) as (y & Y); congruence).
      split; [constructor|]; cbn [coroutines free waiters arrivals grants].
      * now rewrite !upd_length.
      * destruct (upd_split hand _ _ _ PW) as (r & P & Q). destruct (upd_split hand _ _ _ C') as (r' & P' & Q'). rewrite Q'. rewrite P in A2. cbn [hand app] in *.
        rewrite (Q (Granted x)) in P'. cbn [hand app] in P'. apply Permutation_cons_inv in P'. now rewrite <- P'.
      * rewrite A3. now rewrite <- app_assoc.
      * intro H. apply A4. discriminate.
      * intro d. rewrite NTH. destruct (Nat.eqb_spec d c) as [->|N1].
        -- split; [discriminate|]. intro H. assert (K : In c (w :: rest)) by now right. apply A5 in K. congruence.
        -- destruct (Nat.eqb_spec d w) as [->|N2]; [split; [discriminate|intro H; now inversion A6]|]. rewrite A5. cbn. split; [intros [H|H]; [congruence|assumption]|auto].
      * now inversion A6.
      * intros d v. rewrite NTH. destruct (Nat.eqb_spec d c) as [->|N1].
        -- intro H. injection H as <-. exists x. rewrite NTH. destruct (Nat.eqb_spec w c); [congruence|]. now rewrite Nat.eqb_refl.
        -- destruct (Nat.eqb_spec d w); [discriminate|]. intro H. destruct (A7 d v H) as (y & Y). exists y. rewrite NTH. destruct (Nat.eqb_spec v c); [congruence|]. destruct (Nat.eqb_spec v w); [congruence|assumption].
      * intros d d' v. rewrite !NTH. destruct (Nat.eqb_spec d c); destruct (Nat.eqb_spec d' c); destruct (Nat.eqb_spec d w); destruct (Nat.eqb_spec d' w); intros H K;
          first [congruence|discriminate|(assert (v = w) by congruence; subst v; now destruct (HW d'))|(assert (v = w) by congruence; subst v; now destruct (HW d))|now apply (A8 d d' v)].
      * intros _ G v y. cbn [coroutines]. rewrite NTH. destruct (Nat.eqb_spec v c); [discriminate|]. destruct (Nat.eqb_spec v w) as [->|].
        -- intros _. exists c. now rewrite NTH, Nat.eqb_refl.
        -- intro H. destruct (G v y H) as (d & D). exists d. rewrite NTH. destruct (Nat.eqb_spec d c); [congruence|]. destruct (Nat.eqb_spec d w); [congruence|assumption].
  - (* Resume *)
    destruct (nth_error (coroutines s) c) as [[]|] eqn:C; try discriminate. destruct (nth_error (coroutines s) w) as [[]|] eqn:W; try discriminate. intro R; injection R as <-.
    assert (CW : c <> w) by congruence.
    set (l := if accepts then upd (coroutines s) w (Scheduled x) else coroutines s).
    set (y := if accepts then Scheduled x else Granted x).
    assert (NL : forall d, nth_error l d = if Nat.eqb d w then Some y else nth_error (coroutines s) d).
    { intro d. unfold l, y. destruct accepts; [apply (nth_upd _ _ _ _ _ _ W)|]. destruct (Nat.eqb_spec d w) as [->|]; [assumption|reflexivity]. }
    assert (C' : nth_error l c = Some (Handing w)) by (rewrite NL; destruct (Nat.eqb_spec c w); [congruence|assumption]).
    assert (NTH : forall d, nth_error (upd l c Out) d = if Nat.eqb d c then Some Out else if Nat.eqb d w then Some y else nth_error (coroutines s) d)
      by (intro d; rewrite (nth_upd _ _ _ _ _ _ C'), NL; reflexivity).
    assert (YP : y <> Parked /\ (forall v, y <> Handing v) /\ (forall z, y = Granted z -> accepts = false)) by (unfold y; destruct accepts; repeat split; try discriminate; auto).
    destruct YP as (Y1 & Y2 & Y3).
    split; [constructor|]; cbn [coroutines free waiters arrivals grants]; try assumption.
    * rewrite upd_length. unfold l. destruct accepts; now rewrite ?upd_length.
    * destruct (upd_split hand _ _ _ C') as (r & P & Q). rewrite Q. cbn [hand app] in *. rewrite <- P. rewrite <- A2. apply Permutation_app_head. unfold l. destruct accepts; [|reflexivity].
      destruct (upd_split hand _ _ _ W) as (r' & P' & Q'). now rewrite P', Q'.
    * intro d. rewrite NTH. destruct (Nat.eqb_spec d c) as [->|N1]; [rewrite <- A5, C; split; discriminate|]. destruct (Nat.eqb_spec d w) as [->|N2]; [|apply A5].
      rewrite <- A5, W. split; congruence.
    * intros d v. rewrite NTH. destruct (Nat.eqb_spec d c) as [->|N1]; [discriminate|]. destruct (Nat.eqb_spec d w) as [->|N2]; [intro H; injection H as H; now destruct (Y2 v)|].
      intro H. destruct (A7 d v H) as (z & Z). exists z. rewrite NTH. destruct (Nat.eqb_spec v c); [congruence|]. destruct (Nat.eqb_spec v w) as [->|]; [|assumption].
      exfalso. apply N1. now apply (A8 d c w).
    * intros d d' v. rewrite !NTH. destruct (Nat.eqb_spec d c); [discriminate|]. destruct (Nat.eqb_spec d' c); [discriminate|].
      destruct (Nat.eqb_spec d w) as [->|]; [intro H; injection H as H; now destruct (Y2 v)|]. destruct (Nat.eqb_spec d' w) as [->|]; [intros _ H; injection H as H; now destruct (Y2 v)|]. apply A8.
    * intros NR G v z. cbn [coroutines]. rewrite NTH. destruct (Nat.eqb_spec v c); [discriminate|]. destruct (Nat.eqb_spec v w) as [->|NW].
      -- intro H. injection H as H. exfalso. apply (NR c). now rewrite (Y3 z H).
      -- intro H. destruct (G v z H) as (d & D). exists d. rewrite NTH. destruct (Nat.eqb_spec d c) as [->|]; [congruence|]. destruct (Nat.eqb_spec d w) as [->|]; [congruence|assumption].
  - (* Run *)
    destruct (nth_error (coroutines s) w) as [[]|] eqn:W; try discriminate. intro R; injection R as <-.
    split; [constructor|]; cbn [coroutines free waiters arrivals grants]; try assumption.
    * now rewrite upd_length.
    * destruct (upd_split hand _ _ _ W) as (r & P & Q). rewrite Q. rewrite P in A2. exact A2.
    * intro d. rewrite (nth_upd _ _ _ _ _ _ W). destruct (Nat.eqb_spec d w) as [->|NE]; [|apply A5]. rewrite <- A5, W. split; discriminate.
    * intros d v. rewrite (nth_upd _ _ _ _ _ _ W). destruct (Nat.eqb d w); [discriminate|]. intro H. destruct (A7 d v H) as (y & X). exists y.
      rewrite (nth_upd _ _ _ _ _ _ W). destruct (Nat.eqb_spec v w) as [->|]; [congruence|assumption].
    * intros d d' v. rewrite !(nth_upd _ _ _ _ _ _ W). destruct (Nat.eqb d w); [discriminate|]. destruct (Nat.eqb d' w); [discriminate|]. apply A8.
    * intros _ G v y. cbn [coroutines]. rewrite (nth_upd _ _ _ _ _ _ W). destruct (Nat.eqb v w); [discriminate|]. intro H. destruct (G v y H) as (d & D). exists d.
      rewrite (nth_upd _ _ _ _ _ _ W). destruct (Nat.eqb_spec d w) as [->|]; [congruence|assumption].
Qed.
Lemma run_inv : forall items n sch s s', inv items n s -> steady sch -> run s sch = Some s' -> inv items n s' /\ (accepting sch -> granted_ok s -> granted_ok s').
Proof.
  intros items n. induction sch as [|e sch IH]; intros s s' I S1 R; cbn in R; [injection R as <-; auto|].
  destruct (step s e) as [s1|] eqn:E; [|discriminate R]. destruct (step_inv items n s e s1 I (S1 e (or_introl eq_refl)) E) as [I1 G1].
  destruct (IH s1 s' I1 (fun e' E' => S1 e' (or_intror E')) R) as [I2 G2]. split; [assumption|]. intros A G. apply G2; [intros c H; apply (A c); now right|].
  apply G1; [|assumption]. intros c ->. apply (A c). now left.
Qed.
