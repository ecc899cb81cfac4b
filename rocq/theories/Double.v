(** IEEE 754 binary64 numbers as 64-bit patterns: the comparisons the C++ code
    performs on [double], and the numeric value they are measured against. *)
From Verif Require Export Bytes.

Local Open Scope N_scope.

(** Fields of the pattern. *)
Definition dbl_sign (b : N) : bool := N.testbit b 63.
Definition dbl_mag (b : N) : N := b mod 2 ^ 63.
Definition dbl_exp (b : N) : N := dbl_mag b / 2 ^ 52.
Definition dbl_frac (b : N) : N := b mod 2 ^ 52.

Definition dbl_inf_mag : N := 2047 * 2 ^ 52.
Definition dbl_is_nan (b : N) : bool := N.ltb dbl_inf_mag (dbl_mag b).

(** Operators <, > and == on double, by sign and magnitude; false when an
    operand is NaN.  [dbl_key] maps both zeros to 0. *)
Definition dbl_key (b : N) : Z := if dbl_sign b then (- Z.of_N (dbl_mag b))%Z else Z.of_N (dbl_mag b).
Definition dbl_ltb (a b : N) : bool :=
  negb (dbl_is_nan a) && negb (dbl_is_nan b) && Z.ltb (dbl_key a) (dbl_key b).
Definition dbl_eqb (a b : N) : bool :=
  negb (dbl_is_nan a) && negb (dbl_is_nan b) && Z.eqb (dbl_key a) (dbl_key b).

(** ** Specification: the number a pattern stands for.  Every finite double is
    an integer multiple of 2^-1074; [dbl_num] is that integer (IEEE 754-2008,
    3.4: (-1)^s * 2^(e-1074-1) * (2^52 + f) for 1 <= e <= 2046, (-1)^s * f *
    2^-1074 for e = 0). *)
Inductive dval := DNan | DInf (neg : bool) | DNum (z : Z).
Definition dbl_val (b : N) : dval :=
  let s := dbl_sign b in
  let e := dbl_exp b in
  let f := dbl_frac b in
  if N.eqb e 2047 then if N.eqb f 0 then DInf s else DNan
  else let m := if N.eqb e 0 then f else (2 ^ 52 + f) * 2 ^ (e - 1) in
       DNum (if s then - Z.of_N m else Z.of_N m)%Z.

(** Order and equality of numbers; NaN is unrelated to everything. *)
Definition dval_lt (a b : dval) : Prop :=
  match a, b with
  | DNum x, DNum y => (x < y)%Z
  | DInf true, DNum _ | DInf true, DInf false | DNum _, DInf false => True
  | _, _ => False
  end.
Definition dval_eq (a b : dval) : Prop :=
  match a, b with
  | DNum x, DNum y => x = y
  | DInf s, DInf t => s = t
  | _, _ => False
  end.

(** ** Agreement *)
Lemma dbl_split b : dbl_mag b = dbl_exp b * 2 ^ 52 + dbl_frac b.
Proof.
  unfold dbl_exp, dbl_frac, dbl_mag.
  rewrite (N.div_mod (b mod 2 ^ 63) (2 ^ 52)) at 1 by lia.
  replace ((b mod 2 ^ 63) mod 2 ^ 52) with (b mod 2 ^ 52); [lia|].
  change (2 ^ 63) with (2 ^ 52 * 2 ^ 11). rewrite N.mod_mul_r by lia.
  rewrite N.add_mod, (N.mul_comm (2 ^ 52)), N.mod_mul, N.add_0_r by lia.
  now rewrite !N.mod_mod by lia.
Qed.
Lemma dbl_frac_lt b : dbl_frac b < 2 ^ 52.
Proof. apply N.mod_lt. lia. Qed.
Lemma dbl_mag_lt b : dbl_mag b < 2 ^ 63.
Proof. apply N.mod_lt. lia. Qed.
Lemma dbl_exp_lt b : dbl_exp b < 2048.
Proof. unfold dbl_exp. apply N.div_lt_upper_bound; [lia|]. apply dbl_mag_lt. Qed.

(** The magnitude number as a function of exponent and fraction. *)
Definition mant (e f : N) : N := if N.eqb e 0 then f else (2 ^ 52 + f) * 2 ^ (e - 1).
Lemma pow2_pos e : 1 <= 2 ^ e.
Proof. assert (2 ^ e <> 0) by (apply N.pow_nonzero; lia). lia. Qed.
Lemma mant_lower e f : e <> 0 -> 2 ^ 52 * 2 ^ (e - 1) <= mant e f.
Proof.
  intros H. unfold mant. destruct (N.eqb_spec e 0); [easy|]. apply N.mul_le_mono_r. lia.
Qed.
Lemma mant_upper e f : f < 2 ^ 52 -> mant e f < 2 ^ 52 * 2 ^ e.
Proof.
  intros H. unfold mant. destruct (N.eqb_spec e 0) as [->|He].
  - change (2 ^ 0) with 1. lia.
  - replace e with (N.succ (e - 1)) at 2 by lia. rewrite N.pow_succ_r'.
    pose proof (pow2_pos (e - 1)). set (P := 2 ^ (e - 1)) in *. clearbody P.
    set (Q := 2 ^ 52) in *. clearbody Q. nia.
Qed.
Lemma mant_lt e f e' f' : f < 2 ^ 52 -> f' < 2 ^ 52 ->
  e * 2 ^ 52 + f < e' * 2 ^ 52 + f' -> mant e f < mant e' f'.
Proof.
  intros Hf Hf' H. destruct (N.lt_ge_cases e e') as [He|He].
  - eapply N.lt_le_trans; [apply mant_upper; assumption|].
    eapply N.le_trans; [|apply mant_lower; lia].
    apply N.mul_le_mono_l. apply N.pow_le_mono_r; lia.
  - assert (e = e') by (set (Q := 2 ^ 52) in *; clearbody Q; nia). subst e'.
    assert (f < f') by lia. unfold mant. destruct (N.eqb e 0); [assumption|].
    apply N.mul_lt_mono_pos_r; [|lia]. pose proof (pow2_pos (e - 1)). lia.
Qed.
Lemma mant_zero e f : mant e f = 0 -> e = 0 /\ f = 0.
Proof.
  unfold mant. destruct (N.eqb_spec e 0); [auto|]. intros H. exfalso.
  apply N.eq_mul_0 in H as [H|H]; [lia|]. pose proof (pow2_pos (e - 1)). lia.
Qed.

Definition mnum (b : N) : N := mant (dbl_exp b) (dbl_frac b).
Lemma mnum_compare a b : N.compare (mnum a) (mnum b) = N.compare (dbl_mag a) (dbl_mag b).
Proof.
  destruct (N.compare_spec (dbl_mag a) (dbl_mag b)) as [E|L|G].
  - apply N.compare_eq_iff. unfold mnum. unfold dbl_exp. rewrite E.
    assert (F : dbl_frac a = dbl_frac b).
    { rewrite !dbl_split in E. unfold dbl_exp in E. pose proof E as E0.
      assert (dbl_mag a = dbl_mag b) by (rewrite !dbl_split; exact E0).
      rewrite H in E. lia. }
    now rewrite F.
  - apply N.compare_lt_iff. apply mant_lt; try apply dbl_frac_lt. now rewrite <- !dbl_split.
  - apply N.compare_gt_iff. apply mant_lt; try apply dbl_frac_lt. now rewrite <- !dbl_split.
Qed.
Lemma mnum_zero b : mnum b = 0 <-> dbl_mag b = 0.
Proof.
  split; intros H.
  - apply mant_zero in H as [H1 H2]. rewrite dbl_split, H1, H2. reflexivity.
  - rewrite dbl_split in H. unfold mnum. assert (dbl_exp b = 0 /\ dbl_frac b = 0) as [-> ->] by lia. reflexivity.
Qed.

(** Classification by magnitude. *)
Lemma dbl_val_cases b :
  (dbl_is_nan b = true /\ dbl_val b = DNan)
  \/ (dbl_mag b = dbl_inf_mag /\ dbl_is_nan b = false /\ dbl_val b = DInf (dbl_sign b))
  \/ (dbl_mag b < dbl_inf_mag /\ dbl_is_nan b = false
      /\ dbl_val b = DNum (if dbl_sign b then - Z.of_N (mnum b) else Z.of_N (mnum b))%Z).
Proof.
  pose proof (dbl_split b) as S. pose proof (dbl_frac_lt b) as F. pose proof (dbl_exp_lt b) as E.
  unfold dbl_is_nan, dbl_val, dbl_inf_mag.
  destruct (N.eqb_spec (dbl_exp b) 2047) as [He|He].
  - destruct (N.eqb_spec (dbl_frac b) 0) as [Hf|Hf].
    + right; left. split; [lia|]. split; [apply N.ltb_ge; lia|reflexivity].
    + left. split; [apply N.ltb_lt; lia|reflexivity].
  - right; right. split; [lia|]. split; [apply N.ltb_ge; lia|reflexivity].
Qed.

Theorem dbl_ltb_spec a b : dbl_ltb a b = true <-> dval_lt (dbl_val a) (dbl_val b).
Proof.
  unfold dbl_ltb.
  destruct (dbl_val_cases a) as [(Na & ->)|[(Ma & Na & ->)|(Ma & Na & ->)]];
    rewrite Na; cbn [negb andb]; [cbn; intuition discriminate| |];
  destruct (dbl_val_cases b) as [(Nb & ->)|[(Mb & Nb & ->)|(Mb & Nb & ->)]];
    rewrite Nb; cbn [negb andb];
    [destruct (dbl_sign a); cbn; intuition discriminate| | |cbn; intuition discriminate| |];
  rewrite Z.ltb_lt; unfold dbl_key.
  - rewrite Ma, Mb. unfold dbl_inf_mag. destruct (dbl_sign a), (dbl_sign b); cbn [dval_lt]; lia.
  - rewrite Ma. unfold dbl_inf_mag in *. destruct (dbl_sign a), (dbl_sign b); cbn [dval_lt]; lia.
  - rewrite Mb. unfold dbl_inf_mag in *. destruct (dbl_sign a), (dbl_sign b); cbn [dval_lt]; lia.
  - pose proof (mnum_compare a b) as C. pose proof (mnum_zero a) as Za. pose proof (mnum_zero b) as Zb.
    cbn [dval_lt].
    destruct (N.compare_spec (mnum a) (mnum b)), (N.compare_spec (dbl_mag a) (dbl_mag b)); try discriminate;
      destruct (dbl_sign a), (dbl_sign b); lia.
Qed.

Theorem dbl_eqb_spec a b : dbl_eqb a b = true <-> dval_eq (dbl_val a) (dbl_val b).
Proof.
  unfold dbl_eqb.
  destruct (dbl_val_cases a) as [(Na & ->)|[(Ma & Na & ->)|(Ma & Na & ->)]];
    rewrite Na; cbn [negb andb]; [cbn; intuition discriminate| |];
  destruct (dbl_val_cases b) as [(Nb & ->)|[(Mb & Nb & ->)|(Mb & Nb & ->)]];
    rewrite Nb; cbn [negb andb]; [cbn; intuition discriminate| | |cbn; intuition discriminate| |];
  rewrite Z.eqb_eq; unfold dbl_key.
  - rewrite Ma, Mb. unfold dbl_inf_mag. destruct (dbl_sign a), (dbl_sign b); cbn [dval_eq]; intuition (congruence || lia).
  - rewrite Ma. unfold dbl_inf_mag in *. destruct (dbl_sign a), (dbl_sign b); cbn [dval_eq]; lia.
  - rewrite Mb. unfold dbl_inf_mag in *. destruct (dbl_sign a), (dbl_sign b); cbn [dval_eq]; lia.
  - pose proof (mnum_compare a b) as C. pose proof (mnum_zero a) as Za. pose proof (mnum_zero b) as Zb.
    cbn [dval_eq].
    destruct (N.compare_spec (mnum a) (mnum b)), (N.compare_spec (dbl_mag a) (dbl_mag b)); try discriminate;
      destruct (dbl_sign a), (dbl_sign b); lia.
Qed.

(** Examples: 1.0 = 2^1074 units, -0.0 = 0, the smallest subnormal is 1 unit. *)
Example dbl_one : dbl_val 0x3FF0000000000000 = DNum (2 ^ 1074)%Z. Proof. vm_compute. reflexivity. Qed.
Example dbl_negzero : dbl_val 0x8000000000000000 = DNum 0. Proof. reflexivity. Qed.
Example dbl_min_sub : dbl_val 1 = DNum 1. Proof. reflexivity. Qed.
Example dbl_ninf : dbl_val 0xFFF0000000000000 = DInf true. Proof. reflexivity. Qed.
