(** Byte strings and fixed-width little-endian integers.

    A byte is an [N]; byte strings are lists of [N].  The encoders below only
    produce values under 256 ([le_enc_bytes]).  The little-endian layout is
    what [memcpy] of an unsigned integer writes on the supported targets
    (x86-64 and AArch64, both little endian): include/utils/binary_io.hpp:26-32,
    include/recovery/write_ahead_log.hpp:331-334. *)
From Coq Require Export List NArith ZArith Lia Bool Arith.
From Coq Require Export ZifyBool ZifyNat ZifyN.
Export ListNotations.
Ltac Zify.zify_post_hook ::= Z.div_mod_to_equations.
Arguments N.add : simpl never.
Arguments N.mul : simpl never.
Arguments N.pow : simpl never.
Arguments N.div : simpl never.
Arguments N.modulo : simpl never.

Definition bytes := list N.

(** [n] bytes of [v], least significant first. *)
Fixpoint le_enc (n : nat) (v : N) : bytes :=
  match n with
  | O => []
  | S n' => (v mod 256)%N :: le_enc n' (v / 256)%N
  end.

(** Value of a little-endian byte string. *)
Fixpoint le_dec (l : bytes) : N :=
  match l with
  | [] => 0%N
  | b :: l' => (b + 256 * le_dec l')%N
  end.

(** [istream::read] of [n] bytes from a remaining input: [None] when fewer
    than [n] bytes remain (stream failure / eof). *)
Definition take_bytes (n : nat) (l : bytes) : option (bytes * bytes) :=
  if Nat.leb n (length l) then Some (firstn n l, skipn n l) else None.

Lemma le_enc_length n v : length (le_enc n v) = n.
Proof. revert v; induction n as [|n IH]; intros v; simpl; [reflexivity|]. now rewrite IH. Qed.

Lemma le_dec_enc_mod n v : le_dec (le_enc n v) = (v mod 2 ^ (8 * N.of_nat n))%N.
Proof.
  revert v; induction n as [|n IH]; intros v.
  - simpl. symmetry. apply N.mod_1_r.
  - cbn [le_enc le_dec]. rewrite IH.
    replace (8 * N.of_nat (S n))%N with (8 + 8 * N.of_nat n)%N by lia.
    rewrite N.pow_add_r. change (2 ^ 8)%N with 256%N.
    rewrite N.mod_mul_r; [reflexivity|lia|].
    apply N.pow_nonzero; lia.
Qed.

Lemma le_dec_enc n v : (v < 2 ^ (8 * N.of_nat n))%N -> le_dec (le_enc n v) = v.
Proof. intros H. rewrite le_dec_enc_mod. now apply N.mod_small. Qed.

Definition is_byte (b : N) : Prop := (b < 256)%N.

Lemma le_enc_bytes n v : Forall is_byte (le_enc n v).
Proof.
  revert v; induction n as [|n IH]; intros v; simpl; constructor; auto.
  unfold is_byte. apply N.mod_lt. lia.
Qed.

Lemma le_dec_bound l : Forall is_byte l -> (le_dec l < 2 ^ (8 * N.of_nat (length l)))%N.
Proof.
  induction 1 as [|b l Hb Hl IH]; [reflexivity|].
  cbn [le_dec length].
  replace (8 * N.of_nat (S (length l)))%N with (8 + 8 * N.of_nat (length l))%N by lia.
  rewrite N.pow_add_r. change (2 ^ 8)%N with 256%N. unfold is_byte in Hb.
  set (P := (2 ^ (8 * N.of_nat (length l)))%N) in *. clearbody P. lia.
Qed.

Lemma le_enc_dec l : Forall is_byte l -> le_enc (length l) (le_dec l) = l.
Proof.
  induction 1 as [|b l Hb Hl IH]; [reflexivity|].
  cbn [le_dec length le_enc]. unfold is_byte in Hb. f_equal.
  - rewrite N.mul_comm, N.mod_add by lia. now apply N.mod_small.
  - rewrite N.mul_comm, N.div_add by lia. rewrite N.div_small by assumption.
    rewrite N.add_0_l. exact IH.
Qed.

Lemma le_enc_inj n v w :
  (v < 2 ^ (8 * N.of_nat n))%N -> (w < 2 ^ (8 * N.of_nat n))%N ->
  le_enc n v = le_enc n w -> v = w.
Proof. intros Hv Hw H. rewrite <- (le_dec_enc n v), <- (le_dec_enc n w) by assumption. now rewrite H. Qed.

Lemma take_bytes_app n l r : length l = n -> take_bytes n (l ++ r) = Some (l, r).
Proof.
  intros H. unfold take_bytes. rewrite app_length.
  destruct (Nat.leb_spec n (length l + length r)); [|lia].
  subst n. rewrite firstn_app, Nat.sub_diag, firstn_all, skipn_app, Nat.sub_diag, skipn_all.
  simpl. now rewrite app_nil_r.
Qed.

Lemma take_bytes_exact l : take_bytes (length l) l = Some (l, []).
Proof. rewrite <- (app_nil_r l) at 2. now apply take_bytes_app. Qed.

Lemma take_bytes_short n l : length l < n -> take_bytes n l = None.
Proof. intros H. unfold take_bytes. destruct (Nat.leb_spec n (length l)); [lia|reflexivity]. Qed.

Lemma take_bytes_Some n l a r :
  take_bytes n l = Some (a, r) -> l = a ++ r /\ length a = n.
Proof.
  unfold take_bytes. destruct (Nat.leb_spec n (length l)); [|discriminate].
  intros E; inversion E; subst. rewrite firstn_skipn, firstn_length. split; [reflexivity|lia].
Qed.
