(** Lists of threads, one of which takes a step: lemmas for the interleaving models. *)
From Coq Require Export Permutation.
From Verif Require Export Arr.

Lemma upd_split {A B} (f : A -> list B) l : forall w p, nth_error l w = Some p ->
  exists rest, Permutation (flat_map f l) (f p ++ rest) /\ forall p', Permutation (flat_map f (upd l w p')) (f p' ++ rest).
Proof.
  induction l as [|x l IH]; intros [|w] p H; cbn in H; try discriminate.
  - injection H as ->. exists (flat_map f l). split; reflexivity.
  - destruct (IH w p H) as (rest & P & Q). exists (f x ++ rest). cbn [flat_map upd]. split; [rewrite P|intros p'; rewrite Q]; rewrite !app_assoc; apply Permutation_app_tail; apply Permutation_app_comm.
Qed.
Lemma in_upd {A} (l : list A) : forall w p p', nth_error l w = Some p -> In p' (upd l w p').
Proof. induction l as [|x l IH]; intros [|w] p p' H; cbn in H; try discriminate; cbn [upd]; [now left|right; now apply (IH w p)]. Qed.
Lemma in_upd_old {A} (l : list A) : forall w p p' x, nth_error l w = Some p -> In x l -> x = p \/ In x (upd l w p').
Proof.
  induction l as [|y l IH]; intros [|w] p p' x H Hx; cbn in H; try discriminate; cbn [upd].
  - injection H as ->. destruct Hx as [->|Hx]; [now left|]. right. now right.
  - destruct Hx as [->|Hx]; [right; now left|]. destruct (IH w p p' x H Hx) as [->|]; [now left|right; now right].
Qed.
Lemma in_upd_inv {A} (l : list A) : forall w p' x, In x (upd l w p') -> x = p' \/ In x l.
Proof.
  induction l as [|y l IH]; intros [|w] p' x Hx; cbn [upd] in Hx; try (destruct Hx).
  - now left.
  - right. now right.
  - subst. right. now left.
  - destruct (IH w p' x H) as [->|]; [now left|right; now right].
Qed.
Lemma nth_upd_same {A} (l : list A) w p p' : nth_error l w = Some p -> nth_error (upd l w p') w = Some p'.
Proof. intros H. rewrite nth_error_upd; [now rewrite Nat.eqb_refl|]. apply nth_error_Some. congruence. Qed.
Lemma nth_upd_other {A} (l : list A) w v p p' : nth_error l w = Some p -> v <> w -> nth_error (upd l w p') v = nth_error l v.
Proof. intros H NE. rewrite nth_error_upd; [|apply nth_error_Some; congruence]. destruct (Nat.eqb_spec w v); [congruence|reflexivity]. Qed.

(** Counting threads *)
Definition b2n (b : bool) : nat := if b then 1 else 0.
Definition count {A} (f : A -> bool) (l : list A) : nat := length (filter f l).
Lemma count_upd : forall A (f : A -> bool) (l : list A) t p q, nth_error l t = Some p -> count f (upd l t q) + b2n (f p) = count f l + b2n (f q).
Proof.
  intros A f. induction l as [|x l IH]; intros [|t] p q H; try discriminate H.
  - cbn in H. injection H as <-. unfold count. cbn [upd filter]. destruct (f x), (f q); cbn [length b2n]; lia.
  - cbn in H. specialize (IH t p q H). unfold count in *. cbn [upd filter]. destruct (f x); cbn [length]; lia.
Qed.
Lemma count_repeat : forall A (f : A -> bool) x n, f x = false -> count f (repeat x n) = 0.
Proof. intros A f x n H. unfold count. induction n; cbn; [reflexivity|]. now rewrite H. Qed.
Lemma count_pos : forall A (f : A -> bool) l t p, nth_error l t = Some p -> f p = true -> 0 < count f l.
Proof.
  intros A f l t p H F. unfold count. assert (I : In p (filter f l)) by (apply filter_In; split; [now apply nth_error_In with t|assumption]).
  destruct (filter f l); [destruct I|cbn; lia].
Qed.
Lemma count_two : forall A (f : A -> bool) l t u p q, nth_error l t = Some p -> nth_error l u = Some q -> f p = true -> f q = true -> t <> u -> 2 <= count f l.
Proof.
  intros A f. induction l as [|x l IH]; intros [|t] [|u] p q H K P Q NE; try discriminate H; try discriminate K; try congruence; cbn in H, K; unfold count; cbn [filter].
  - injection H as <-. rewrite P. pose proof (count_pos _ f l u q K Q). unfold count in *. cbn. lia.
  - injection K as <-. rewrite Q. pose proof (count_pos _ f l t p H P). unfold count in *. cbn. lia.
  - assert (N : t <> u) by congruence. pose proof (IH t u p q H K P Q N). unfold count in *. destruct (f x); cbn; lia.
Qed.
Lemma count_zero : forall A (f : A -> bool) l, (forall t p, nth_error l t = Some p -> f p = false) -> count f l = 0.
Proof.
  intros A f l H. unfold count. destruct (filter f l) as [|x m] eqn:E; [reflexivity|].
  assert (I : In x (filter f l)) by (rewrite E; now left). apply filter_In in I. destruct I as [I F].
  destruct (In_nth_error _ _ I) as [t T]. rewrite (H t x T) in F. discriminate F.
Qed.
Lemma count_some : forall A (f : A -> bool) l, 0 < count f l -> exists t p, nth_error l t = Some p /\ f p = true.
Proof.
  intros A f l H. unfold count in H. destruct (filter f l) as [|x m] eqn:E; [cbn in H; lia|].
  assert (I : In x (filter f l)) by (rewrite E; now left). apply filter_In in I. destruct I as [I F].
  destruct (In_nth_error _ _ I) as [t T]. now exists t, x.
Qed.
Lemma count_le : forall A (f : A -> bool) l, count f l <= length l.
Proof. intros A f l. unfold count. induction l as [|x l IH]; cbn; [lia|]. destruct (f x); cbn; lia. Qed.
Lemma count_lt : forall A (f : A -> bool) l t p, nth_error l t = Some p -> f p = false -> count f l < length l.
Proof.
  intros A f. induction l as [|x l IH]; intros [|t] p H F; try discriminate H; cbn in H; unfold count; cbn [filter length].
  - injection H as ->. rewrite F. pose proof (count_le _ f l). unfold count in *. lia.
  - pose proof (IH t p H F). unfold count in *. destruct (f x); cbn; lia.
Qed.

