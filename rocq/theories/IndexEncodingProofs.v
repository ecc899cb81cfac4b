From Coq Require Import String.
From Verif Require Import IndexEncodingModel ScalarDataSpec.

Lemma hex_digit_inj_cmp a b : (a < 16)%N -> (b < 16)%N ->
  N.compare (hex_digit a) (hex_digit b) = N.compare a b.
Proof.
  intros Ha Hb. unfold hex_digit.
  destruct (N.ltb_spec a 10), (N.ltb_spec b 10);
    destruct (N.compare_spec a b); 
    match goal with
    | |- _ = Eq => apply N.compare_eq_iff | |- _ = Lt => apply N.compare_lt_iff | |- _ = Gt => apply N.compare_gt_iff
    end; lia.
Qed.
Lemma hex_val_digit d : (d < 16)%N -> hex_val (hex_digit d) = Some d.
Proof.
  intros H. unfold hex_val, hex_digit. destruct (N.ltb_spec d 10).
  - replace (N.leb 48 (48 + d) && N.leb (48 + d) 57) with true by lia. f_equal. lia.
  - replace (N.leb 48 (87 + d) && N.leb (87 + d) 57) with false by lia.
    replace (N.leb 97 (87 + d) && N.leb (87 + d) 102) with true by lia. f_equal. lia.
Qed.

Lemma hexn_length k n : length (hexn k n) = k.
Proof. induction k; cbn [hexn length]; [reflexivity|]. now rewrite IHk. Qed.

Lemma pow16_pos k : (0 < 16 ^ k)%N.
Proof. assert (16 ^ k <> 0)%N by (apply N.pow_nonzero; lia). lia. Qed.

Lemma mod16_succ n k : (n mod 16 ^ N.of_nat (S k) = (n / 16 ^ N.of_nat k) mod 16 * 16 ^ N.of_nat k + n mod 16 ^ N.of_nat k)%N.
Proof.
  rewrite Nat2N.inj_succ, N.pow_succ_r', N.mul_comm.
  pose proof (pow16_pos (N.of_nat k)).
  rewrite N.mod_mul_r by lia. lia.
Qed.

Lemma hexn_cmp k a b : bytes_cmp (hexn k a) (hexn k b) = N.compare (a mod 16 ^ N.of_nat k) (b mod 16 ^ N.of_nat k).
Proof.
  induction k as [|k IH].
  - change (16 ^ N.of_nat 0)%N with 1%N. now rewrite !N.mod_1_r.
  - cbn [hexn bytes_cmp]. rewrite hex_digit_inj_cmp by (apply N.mod_lt; lia).
    rewrite IH, !mod16_succ.
    pose proof (pow16_pos (N.of_nat k)) as P.
    pose proof (N.mod_lt a (16 ^ N.of_nat k) ltac:(lia)). pose proof (N.mod_lt b (16 ^ N.of_nat k) ltac:(lia)).
    set (Q := (16 ^ N.of_nat k)%N) in *.
    set (x := ((a / Q) mod 16)%N). set (y := ((b / Q) mod 16)%N).
    set (u := (a mod Q)%N) in *. set (v := (b mod Q)%N) in *. clearbody Q x y u v.
    destruct (N.compare_spec x y) as [->|L|G]; symmetry.
    + destruct (N.compare_spec u v);
      [apply N.compare_eq_iff|apply N.compare_lt_iff|apply N.compare_gt_iff]; lia.
    + apply N.compare_lt_iff. nia.
    + apply N.compare_gt_iff. nia.
Qed.
Lemma hex16_cmp a b : (a < 2 ^ 64)%N -> (b < 2 ^ 64)%N -> bytes_cmp (hex16 a) (hex16 b) = N.compare a b.
Proof.
  intros Ha Hb. unfold hex16. rewrite hexn_cmp. change (16 ^ N.of_nat 16)%N with (2 ^ 64)%N.
  now rewrite !N.mod_small.
Qed.

Lemma unhex_hexn k n : forall acc, 
  (acc * 16 ^ N.of_nat k + n mod 16 ^ N.of_nat k < 2 ^ 64)%N ->
  unhex acc (hexn k n) = Some (acc * 16 ^ N.of_nat k + n mod 16 ^ N.of_nat k)%N.
Proof.
  induction k as [|k IH]; intros acc H.
  - change (16 ^ N.of_nat 0)%N with 1%N in *. rewrite N.mod_1_r in *. cbn [hexn unhex].
    destruct (N.ltb_spec acc (2 ^ 64)); [f_equal; lia|lia].
  - cbn [hexn unhex]. rewrite hex_val_digit by (apply N.mod_lt; lia).
    rewrite mod16_succ in *. rewrite Nat2N.inj_succ, N.pow_succ_r' in *.
    rewrite IH.
    + f_equal. lia.
    + eapply N.le_lt_trans; [|exact H]. lia.
Qed.
Lemma unhex_hex16 n : (n < 2 ^ 64)%N -> unhex 0 (hex16 n) = Some n.
Proof.
  intros H. unfold hex16. rewrite unhex_hexn; change (16 ^ N.of_nat 16)%N with (2 ^ 64)%N;
    rewrite N.mod_small by assumption; [f_equal; lia|lia].
Qed.

(** Flipping the sign bit. *)
Lemma land_low c : (c < 2 ^ 63)%N -> N.land c (2 ^ 63) = 0%N.
Proof.
  intros H. apply N.bits_inj_0. intros n. rewrite N.land_spec, N.pow2_bits_eqb.
  destruct (N.eqb_spec 63 n) as [<-|]; [|apply andb_false_r].
  rewrite andb_true_r. apply N.testbit_false. rewrite N.div_small by assumption. reflexivity.
Qed.
Lemma flip_low c : (c < 2 ^ 63)%N -> N.lxor c (2 ^ 63) = (c + 2 ^ 63)%N.
Proof. intros H. symmetry. apply N.add_nocarry_lxor. now apply land_low. Qed.
Lemma flip_high c : (2 ^ 63 <= c < 2 ^ 64)%N -> N.lxor c (2 ^ 63) = (c - 2 ^ 63)%N.
Proof.
  intros H. replace c with ((c - 2 ^ 63) + 2 ^ 63)%N at 1 by lia.
  rewrite <- flip_low by lia. rewrite N.lxor_assoc, N.lxor_nilpotent, N.lxor_0_r. reflexivity.
Qed.
Lemma flip_lt c : (c < 2 ^ 64)%N -> (N.lxor c (2 ^ 63) < 2 ^ 64)%N.
Proof.
  intros H. destruct (N.lt_ge_cases c (2 ^ 63)); [rewrite flip_low by assumption|rewrite flip_high by lia]; lia.
Qed.
Lemma flip_flip c : N.lxor (N.lxor c (2 ^ 63)) (2 ^ 63) = c.
Proof. now rewrite N.lxor_assoc, N.lxor_nilpotent, N.lxor_0_r. Qed.

(** Integers: the key is the value plus 2^63. *)
Lemma int_key v : int64_range v -> N.lxor (int64_bits v) (2 ^ 63) = Z.to_N (v + 2 ^ 63).
Proof.
  unfold int64_range, int64_bits. intros H. destruct (Z.lt_ge_cases v 0) as [Hn|Hp].
  - assert (v mod 2 ^ 64 = v + 2 ^ 64)%Z as ->.
    { symmetry. apply (Z.mod_unique _ _ (-1)); lia. }
    rewrite flip_high by lia. lia.
  - rewrite Z.mod_small by lia. rewrite flip_low by lia. lia.
Qed.

Lemma encode_int64_cmp a b : int64_range a -> int64_range b ->
  bytes_cmp (encode_int64 a) (encode_int64 b) = Z.compare a b.
Proof.
  intros Ha Hb. unfold encode_int64. rewrite !int_key by assumption. unfold int64_range in *.
  rewrite hex16_cmp by lia. 
  destruct (Z.compare_spec a b); [apply N.compare_eq_iff|apply N.compare_lt_iff|apply N.compare_gt_iff]; lia.
Qed.
Lemma int64_of_bits_bits v : int64_range v -> int64_of_bits (int64_bits v) = v.
Proof.
  unfold int64_range, int64_of_bits, int64_bits. intros H.
  destruct (Z.lt_ge_cases v 0) as [Hn|Hp].
  - assert (v mod 2 ^ 64 = v + 2 ^ 64)%Z as ->.
    { symmetry. apply (Z.mod_unique _ _ (-1)); lia. }
    destruct (N.ltb_spec (Z.to_N (v + 2 ^ 64)) (2 ^ 63)); lia.
  - rewrite Z.mod_small by lia. destruct (N.ltb_spec (Z.to_N v) (2 ^ 63)); lia.
Qed.
Lemma decode_encode_int64 v : int64_range v -> decode_int64 (encode_int64 v) = Some v.
Proof.
  intros H. unfold decode_int64, encode_int64. rewrite unhex_hex16.
  - cbn [option_map]. now rewrite flip_flip, int64_of_bits_bits.
  - rewrite int_key by assumption. unfold int64_range in H. lia.
Qed.

(** Doubles: the key is the signed magnitude shifted, with -0 just below +0. *)
Lemma shiftr63 b : (b < 2 ^ 64)%N -> N.eqb (N.shiftr b 63) 0 = N.ltb b (2 ^ 63).
Proof.
  intros H. rewrite N.shiftr_div_pow2. destruct (N.ltb_spec b (2 ^ 63)).
  - now rewrite N.div_small.
  - apply N.eqb_neq. intros E. apply N.div_small_iff in E; lia.
Qed.
Lemma dbl_sign_ltb b : (b < 2 ^ 64)%N -> dbl_sign b = negb (N.ltb b (2 ^ 63)).
Proof.
  intros H. unfold dbl_sign. rewrite <- shiftr63 by assumption.
  destruct (N.eqb_spec (N.shiftr b 63) 0) as [E|E]; cbn [negb].
  - apply N.testbit_false. rewrite N.shiftr_div_pow2 in E. now rewrite E.
  - apply N.testbit_true. rewrite N.shiftr_div_pow2 in E.
    assert (b / 2 ^ 63 < 2)%N by (apply N.div_lt_upper_bound; lia).
    assert (b / 2 ^ 63 = 1)%N as -> by lia. reflexivity.
Qed.
Lemma lnot64 b : (b < 2 ^ 64)%N -> N.lnot b 64 = (2 ^ 64 - 1 - b)%N.
Proof.
  intros H. destruct (N.eq_dec b 0) as [->|Hb]; [reflexivity|].
  rewrite N.lnot_sub_low.
  - rewrite N.ones_equiv. lia.
  - apply N.log2_lt_pow2; lia.
Qed.
Lemma sort_bits b : (b < 2 ^ 64)%N ->
  double_sort_bits b = if dbl_sign b then (2 ^ 63 - 1 - dbl_mag b)%N else (2 ^ 63 + dbl_mag b)%N.
Proof.
  intros H. unfold double_sort_bits. rewrite shiftr63, dbl_sign_ltb by assumption. unfold dbl_mag.
  destruct (N.ltb_spec b (2 ^ 63)); cbn [negb].
  - rewrite flip_low, N.mod_small by assumption. lia.
  - rewrite lnot64 by assumption.
    assert (b mod 2 ^ 63 = b - 2 ^ 63)%N as ->; [|lia].
    symmetry. apply (N.mod_unique _ _ 1); lia.
Qed.
Lemma sort_bits_lt b : (b < 2 ^ 64)%N -> (double_sort_bits b < 2 ^ 64)%N.
Proof.
  intros H. rewrite sort_bits by assumption. pose proof (dbl_mag_lt b).
  destruct (dbl_sign b); lia.
Qed.

Definition is_zero (b : N) : Prop := dbl_mag b = 0%N.
Lemma encode_double_cmp a b : (a < 2 ^ 64)%N -> (b < 2 ^ 64)%N ->
  bytes_cmp (encode_double a) (encode_double b) =
  N.compare (double_sort_bits a) (double_sort_bits b).
Proof. intros. apply hex16_cmp; now apply sort_bits_lt. Qed.

Lemma encode_double_lt a b : (a < 2 ^ 64)%N -> (b < 2 ^ 64)%N ->
  dbl_is_nan a = false -> dbl_is_nan b = false -> ~ (is_zero a /\ is_zero b) ->
  (bytes_cmp (encode_double a) (encode_double b) = Lt <-> dbl_ltb a b = true).
Proof.
  intros Ha Hb Na Nb Z. rewrite encode_double_cmp, N.compare_lt_iff, !sort_bits by assumption.
  unfold dbl_ltb. rewrite Na, Nb. cbn [negb andb]. rewrite Z.ltb_lt. unfold dbl_key, is_zero in *.
  pose proof (dbl_mag_lt a). pose proof (dbl_mag_lt b).
  destruct (dbl_sign a), (dbl_sign b); lia.
Qed.
Lemma sort_bits_inj a b : (a < 2 ^ 64)%N -> (b < 2 ^ 64)%N -> double_sort_bits a = double_sort_bits b -> a = b.
Proof.
  intros Ha Hb. rewrite !sort_bits by assumption. rewrite !dbl_sign_ltb by assumption.
  pose proof (dbl_mag_lt a). pose proof (dbl_mag_lt b). unfold dbl_mag in *.
  assert (M : forall c, (c < 2 ^ 64)%N -> (2 ^ 63 <= c)%N -> (c mod 2 ^ 63 = c - 2 ^ 63)%N).
  { intros c Hc Hd. symmetry. apply (N.mod_unique _ _ 1); lia. }
  assert (M' : forall c, (c < 2 ^ 63)%N -> (c mod 2 ^ 63 = c)%N) by (intros; now apply N.mod_small).
  destruct (N.ltb_spec a (2 ^ 63)), (N.ltb_spec b (2 ^ 63)); cbn [negb];
    rewrite ?(M a), ?(M b), ?(M' a), ?(M' b) in * by assumption; lia.
Qed.
Lemma encode_double_inj a b : (a < 2 ^ 64)%N -> (b < 2 ^ 64)%N -> encode_double a = encode_double b -> a = b.
Proof.
  intros Ha Hb H. apply sort_bits_inj; try assumption.
  apply N.compare_eq_iff. rewrite <- encode_double_cmp by assumption. apply bytes_cmp_eq. exact H.
Qed.
Lemma decode_encode_double b : (b < 2 ^ 64)%N -> decode_double (encode_double b) = Some b.
Proof.
  intros H. unfold decode_double, encode_double. rewrite unhex_hex16 by (now apply sort_bits_lt).
  cbn [option_map]. f_equal. pose proof (sort_bits_lt b H) as L.
  rewrite shiftr63 by assumption. unfold double_sort_bits in *. rewrite shiftr63 in * by assumption.
  destruct (N.ltb_spec b (2 ^ 63)); cbn [negb] in *.
  - rewrite flip_low in * by assumption. destruct (N.ltb_spec (b + 2 ^ 63) (2 ^ 63)); [lia|]. cbn [negb].
    rewrite <- flip_low by assumption. apply flip_flip.
  - rewrite lnot64 in * by assumption. destruct (N.ltb_spec (2 ^ 64 - 1 - b) (2 ^ 63)); [|lia]. cbn [negb].
    rewrite lnot64 by assumption. lia.
Qed.

Lemma encode_int64_inj a b : int64_range a -> int64_range b -> encode_int64 a = encode_int64 b -> a = b.
Proof.
  intros Ha Hb H. apply Z.compare_eq_iff. rewrite <- encode_int64_cmp by assumption. apply bytes_cmp_eq. exact H.
Qed.

(** Hexadecimal keys contain no separator. *)
Lemma hexn_no_us k n : ~ In us (hexn k n).
Proof.
  induction k as [|k IH]; cbn [hexn]; [easy|]. intros [H|H]; [|easy].
  unfold hex_digit, us in H. destruct (N.ltb_spec ((n / 16 ^ N.of_nat k) mod 16) 10); lia.
Qed.

(** The id at the end of a key. *)
Lemma after_last_us_app a b : ~ In us b -> after_last_us (a ++ us :: b) = Some b.
Proof.
  intros H.
  assert (N0 : after_last_us b = None).
  { induction b as [|c b IH]; [reflexivity|]. cbn. rewrite IH by (intros X; apply H; now right).
    destruct (N.eqb_spec c us); [exfalso; apply H; now left|reflexivity]. }
  induction a as [|c a IH]; cbn [app after_last_us].
  - rewrite N0. reflexivity.
  - now rewrite IH.
Qed.
Lemma dec_no_us n : ~ In us (dec n).
Proof.
  intros H. pose proof (dec_digits n) as F. rewrite Forall_forall in F. apply F in H. discriminate.
Qed.
Lemma digits_val_dec n : digits_val 0 (dec n) = Some n.
Proof. apply parse_digits_dec. Qed.
Lemma extract_id field enc id : extract_id_from_key (make_field_index_key field enc id) = Some id.
Proof.
  unfold extract_id_from_key, make_field_index_key.
  replace (str "f_" ++ field ++ [us] ++ enc ++ [us] ++ dec id)
    with ((str "f_" ++ field ++ [us] ++ enc) ++ us :: dec id) by (now rewrite <- !app_assoc).
  rewrite after_last_us_app by apply dec_no_us.
  pose proof (dec_nonempty id). destruct (dec id) eqn:E; [easy|]. rewrite <- E. apply digits_val_dec.
Qed.
