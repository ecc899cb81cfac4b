(** Properties C13 and C14: sortable key encodings. *)
From Coq Require Import String.
From Verif Require Import IndexEncodingModel ScalarDataSpec FilterSpec IndexEncodingProofs FilterProofs.

(** C13.  16 characters; decodes to the same integer; the byte order of the
    keys is the numeric order. *)
Theorem encode_int64_order : forall a b, int64_range a -> int64_range b ->
  length (encode_int64 a) = 16
  /\ decode_int64 (encode_int64 a) = Some a
  /\ (lex_lt (encode_int64 a) (encode_int64 b) <-> (a < b)%Z)
  /\ (encode_int64 a = encode_int64 b <-> a = b).
Proof.
  intros a b Ha Hb. split; [apply hexn_length|]. split; [now apply decode_encode_int64|]. split.
  - rewrite <- bytes_cmp_lt, encode_int64_cmp by assumption. apply Z.compare_lt_iff.
  - split; [now apply encode_int64_inj|congruence].
Qed.
Print Assumptions encode_int64_order.

Example encode_int64_example :
  int64_range (- 2 ^ 63) /\ int64_range (-1) /\ int64_range 5
  /\ encode_int64 (-1) = str "7fffffffffffffff" /\ encode_int64 5 = str "8000000000000005"
  /\ encode_int64 (- 2 ^ 63) = str "0000000000000000".
Proof. unfold int64_range. repeat split; try lia; vm_compute; reflexivity. Qed.

(** C14.  Doubles as bit patterns, compared by the numbers they stand for:
    decoding is exact on every pattern; the byte order of the keys is the
    numeric order for numbers that are not NaN and not both zero. *)
Theorem encode_double_order : forall a b, (a < 2 ^ 64)%N -> (b < 2 ^ 64)%N ->
  length (encode_double a) = 16
  /\ decode_double (encode_double a) = Some a
  /\ (encode_double a = encode_double b <-> a = b)
  /\ (dbl_val a <> DNan -> dbl_val b <> DNan -> ~ (dbl_val a = DNum 0 /\ dbl_val b = DNum 0) ->
      (lex_lt (encode_double a) (encode_double b) <-> dval_lt (dbl_val a) (dbl_val b))).
Proof.
  intros a b Ha Hb. split; [apply hexn_length|]. split; [now apply decode_encode_double|].
  split; [split; [now apply encode_double_inj|congruence]|].
  intros Na Nb Z. rewrite <- bytes_cmp_lt, <- dbl_ltb_spec.
  assert (nan : forall c, dbl_val c <> DNan -> dbl_is_nan c = false).
  { intros c Hc. destruct (dbl_val_cases c) as [(? & E)|[(_ & E & _)|(_ & E & _)]]; congruence. }
  assert (zero : forall c, is_zero c -> dbl_val c = DNum 0).
  { intros c Hc. destruct (dbl_val_cases c) as [(E & _)|[(E & _)|(_ & _ & E)]].
    - unfold dbl_is_nan in E. rewrite Hc in E. discriminate.
    - rewrite Hc in E. discriminate.
    - rewrite E. apply mnum_zero in Hc. rewrite Hc. now destruct (dbl_sign c). }
  apply encode_double_lt; auto. intros [H1 H2]. apply Z. auto.
Qed.
Print Assumptions encode_double_order.

(** -infinity, the least subnormal and 1.0 *)
Example encode_double_example :
  let a := 0xFFF0000000000000%N in let b := 1%N in let c := 0x3FF0000000000000%N in
  (a < 2 ^ 64)%N /\ dbl_val a = DInf true /\ dbl_val b = DNum 1
  /\ lex_lt (encode_double a) (encode_double b) /\ lex_lt (encode_double b) (encode_double c).
Proof.
  cbv zeta. repeat split.
  - apply bytes_cmp_lt. vm_compute. reflexivity.
  - apply bytes_cmp_lt. vm_compute. reflexivity.
Qed.

(** The excluded pair: the two zeros are equal numbers with different keys. *)
Theorem encode_double_zeros_differ : exists a b,
  dval_eq (dbl_val a) (dbl_val b) /\ encode_double a <> encode_double b.
Proof.
  exists 0%N, 0x8000000000000000%N. split; [reflexivity|]. intros H.
  apply (f_equal (fun l => bytes_eqb l (encode_double 0))) in H. vm_compute in H. discriminate.
Qed.
Print Assumptions encode_double_zeros_differ.
