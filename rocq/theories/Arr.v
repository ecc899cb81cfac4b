(** Arrays with unchecked indexing: an access outside the array is undefined
    behaviour ([OutOfBounds]).  Used for std::vector::operator[] and raw
    pointers. *)
From Verif Require Export ScalarDataModel.

Section Arr.
Context {A : Type}.

Definition aget (l : list A) (i : N) : res A :=
  match nth_error l (N.to_nat i) with Some x => Ok x | None => OutOfBounds end.
Fixpoint upd (l : list A) (i : nat) (x : A) : list A :=
  match l, i with
  | [], _ => []
  | _ :: l', O => x :: l'
  | y :: l', S i' => y :: upd l' i' x
  end.
Definition aput (l : list A) (i : N) (x : A) : res (list A) :=
  if N.ltb i (N.of_nat (length l)) then Ok (upd l (N.to_nat i) x) else OutOfBounds.

Lemma upd_length l : forall i x, length (upd l i x) = length l.
Proof. induction l as [|y l IH]; intros [|i] x; cbn; auto. Qed.
Lemma nth_upd l : forall i x j d, i < length l -> nth j (upd l i x) d = if Nat.eqb i j then x else nth j l d.
Proof.
  induction l as [|y l IH]; intros i x j d H; [cbn in H; lia|]. destruct i as [|i], j as [|j]; cbn; auto.
  apply IH. cbn in H. lia.
Qed.
Lemma nth_error_upd l : forall i x j, i < length l -> nth_error (upd l i x) j = if Nat.eqb i j then Some x else nth_error l j.
Proof.
  induction l as [|y l IH]; intros i x j H; [cbn in H; lia|]. destruct i as [|i], j as [|j]; cbn; auto.
  apply IH. cbn in H. lia.
Qed.
Lemma upd_out l : forall i x, length l <= i -> upd l i x = l.
Proof. induction l as [|y l IH]; intros [|i] x H; cbn in *; auto; try lia. f_equal. apply IH. lia. Qed.
Lemma aget_nth l i d : (i < N.of_nat (length l))%N -> aget l i = Ok (nth (N.to_nat i) l d).
Proof. intros H. unfold aget. rewrite (nth_error_nth' _ d) by lia. reflexivity. Qed.
Lemma aget_out l i : (N.of_nat (length l) <= i)%N -> aget l i = OutOfBounds.
Proof. intros H. unfold aget. rewrite (proj2 (nth_error_None _ _)) by lia. reflexivity. Qed.
Lemma aget_Ok l i x : aget l i = Ok x -> (i < N.of_nat (length l))%N /\ nth_error l (N.to_nat i) = Some x.
Proof.
  unfold aget. destruct (nth_error l (N.to_nat i)) eqn:E; [|discriminate]. intros H. inversion H; subst. split; [|reflexivity].
  assert (N.to_nat i < length l) by (apply nth_error_Some; congruence). lia.
Qed.
Lemma aput_ok l i x : (i < N.of_nat (length l))%N -> aput l i x = Ok (upd l (N.to_nat i) x).
Proof. intros H. unfold aput. destruct (N.ltb_spec i (N.of_nat (length l))); [reflexivity|lia]. Qed.
Lemma list_eq_nth (a b : list A) : length a = length b -> (forall i, i < length a -> nth_error a i = nth_error b i) -> a = b.
Proof.
  revert b. induction a as [|x a IH]; intros [|y b] L H; try discriminate; [reflexivity|].
  pose proof (H 0 ltac:(cbn; lia)) as H0. cbn in H0. inversion H0. f_equal. apply IH; [cbn in L; congruence|].
  intros i Hi. apply (H (S i)). cbn. lia.
Qed.
End Arr.
