(** Monotonicity of IEEE-754 arithmetic, from Flocq's correctness theorems. *)
From Coq Require Import ZArith Reals Lra Lia Bool.
From Flocq Require Import Core Plus_error IEEE754.BinarySingleNaN.

Section floats.
Context (prec emax : Z) (P : Prec_gt_0 prec) (L : Prec_lt_emax prec emax).
Notation fl := (binary_float prec emax).
Notation fexp := (SpecFloat.fexp prec emax).
Definition rnd (x : R) : R := round radix2 fexp (round_mode mode_NE) x.
Notation big := (bpow radix2 emax).

Local Instance fexp_valid : Valid_exp fexp := fexp_correct prec emax P.
Local Instance fexp_mono : Monotone_exp fexp := fexp_monotone prec emax.

Lemma rnd_le x y : (x <= y)%R -> (rnd x <= rnd y)%R.
Proof. intros H. unfold rnd. apply round_le; [typeclasses eauto|typeclasses eauto|exact H]. Qed.
Lemma rnd_id (x : fl) : rnd (B2R x) = B2R x.
Proof. unfold rnd. apply round_generic; [typeclasses eauto|apply generic_format_B2R]. Qed.
Lemma rnd_0 : rnd 0 = 0%R.
Proof. unfold rnd. apply round_0. typeclasses eauto. Qed.
Lemma rnd_between x (a b : fl) : (B2R a <= x <= B2R b)%R -> (B2R a <= rnd x <= B2R b)%R.
Proof. intros [H1 H2]. rewrite <- (rnd_id a), <- (rnd_id b). split; now apply rnd_le. Qed.
Lemma rnd_pos x : (0 <= x)%R -> (0 <= rnd x)%R.
Proof. intros H. rewrite <- rnd_0. now apply rnd_le. Qed.
Lemma rnd_lt_big x (b : fl) : (0 <= x <= B2R b)%R -> (Rabs (rnd x) < big)%R.
Proof.
  intros [H1 H2]. rewrite Rabs_pos_eq by now apply rnd_pos.
  apply Rle_lt_trans with (B2R b); [rewrite <- (rnd_id b); now apply rnd_le|].
  apply Rle_lt_trans with (Rabs (B2R b)); [apply Rle_abs|apply abs_B2R_lt_emax].
Qed.
(** Differences of different numbers are not rounded to 0. *)
Lemma rnd_sub_neq_0 (x y : fl) : B2R x <> B2R y -> rnd (B2R x - B2R y) <> 0%R.
Proof.
  intros H. unfold rnd, Rminus. apply round_plus_neq_0; try typeclasses eauto.
  - apply generic_format_B2R.
  - apply generic_format_opp, generic_format_B2R.
  - lra.
Qed.

Lemma sub_ok (x y : fl) : is_finite x = true -> is_finite y = true -> (Rabs (rnd (B2R x - B2R y)) < big)%R ->
  B2R (Bminus mode_NE x y) = rnd (B2R x - B2R y) /\ is_finite (Bminus mode_NE x y) = true.
Proof.
  intros FX FY B. pose proof (Bminus_correct prec emax P L mode_NE x y FX FY) as H.
  unfold rnd in *. rewrite Rlt_bool_true in H by exact B. tauto.
Qed.
Lemma sub_finite (x y : fl) : is_finite x = true -> is_finite y = true -> is_finite (Bminus mode_NE x y) = true ->
  (Rabs (rnd (B2R x - B2R y)) < big)%R.
Proof.
  intros FX FY F. pose proof (Bminus_correct prec emax P L mode_NE x y FX FY) as H. unfold rnd in *.
  destruct (Rlt_bool_spec (Rabs (round radix2 fexp (round_mode mode_NE) (B2R x - B2R y))) big) as [B|B]; [exact B|].
  destruct H as [H _]. destruct (Bminus mode_NE x y); cbn in *; try discriminate F; discriminate H.
Qed.
Lemma div_ok (x y : fl) : is_finite x = true -> B2R y <> 0%R -> (Rabs (rnd (B2R x / B2R y)) < big)%R ->
  B2R (Bdiv mode_NE x y) = rnd (B2R x / B2R y) /\ is_finite (Bdiv mode_NE x y) = true.
Proof.
  intros FX NZ B. pose proof (Bdiv_correct prec emax P L mode_NE x y NZ) as H.
  unfold rnd in *. rewrite Rlt_bool_true in H by exact B. destruct H as (H1 & H2 & _). rewrite H2. auto.
Qed.
Lemma mul_ok (x y : fl) : is_finite x = true -> is_finite y = true -> (Rabs (rnd (B2R x * B2R y)) < big)%R ->
  B2R (Bmult mode_NE x y) = rnd (B2R x * B2R y) /\ is_finite (Bmult mode_NE x y) = true.
Proof.
  intros FX FY B. pose proof (Bmult_correct prec emax P L mode_NE x y) as H.
  unfold rnd in *. rewrite Rlt_bool_true in H by exact B. destruct H as (H1 & H2 & _). rewrite H2, FX, FY. auto.
Qed.

Lemma trunc_le (x y : fl) : (B2R x <= B2R y)%R -> (Btrunc x <= Btrunc y)%Z.
Proof. intros H. apply le_IZR. rewrite !(Btrunc_correct _ _ L). apply round_le; [apply FIX_exp_valid|apply valid_rnd_ZR|exact H]. Qed.
Lemma trunc_real (x : fl) : Btrunc x = Ztrunc (B2R x).
Proof.
  apply eq_IZR. rewrite (Btrunc_correct _ _ L). unfold round, scaled_mantissa, cexp, FIX_exp, F2R. cbn [Fnum Fexp Z.opp bpow].
  now rewrite !Rmult_1_r.
Qed.

(** Integers up to 2^prec are exact. *)
Lemma of_int z s : (Z.abs z <= 2 ^ prec)%Z ->
  B2R (binary_normalize prec emax P L mode_NE z 0 s) = IZR z /\ is_finite (binary_normalize prec emax P L mode_NE z 0 s) = true.
Proof.
  intros H. pose proof (binary_normalize_correct prec emax P L mode_NE z 0 s) as C. cbn zeta in C.
  replace (F2R (Float radix2 z 0)) with (IZR z) in C by (unfold F2R; cbn; lra).
  assert (G : generic_format radix2 fexp (IZR z)).
  { destruct (Z.eq_dec (Z.abs z) (2 ^ prec)) as [E|NE].
    - assert (A : generic_format radix2 fexp (IZR (Z.abs z))).
      { rewrite E. change 2%Z with (radix_val radix2). rewrite IZR_Zpower by (unfold Prec_gt_0 in P; lia). apply generic_format_bpow.
        unfold SpecFloat.fexp, SpecFloat.emin. unfold Prec_gt_0, Prec_lt_emax in *. lia. }
      destruct (Z.abs_spec z) as [[_ K]|[_ K]]; rewrite K in A; [exact A|].
      rewrite <- (Z.opp_involutive z), opp_IZR. now apply generic_format_opp.
    - apply generic_format_FLT. exists (Float radix2 z 0); cbn.
      + unfold F2R. cbn. lra.
      + change (Z.pow_pos 2) with (Z.pow_pos 2). change 2%Z with (radix_val radix2) in *. lia.
      + unfold SpecFloat.emin. unfold Prec_gt_0, Prec_lt_emax in *. lia. }
  assert (E : round radix2 fexp (round_mode mode_NE) (IZR z) = IZR z) by (apply round_generic; [typeclasses eauto|exact G]).
  rewrite E, Rlt_bool_true in C; [tauto|].
  rewrite <- abs_IZR. apply Rle_lt_trans with (IZR (2 ^ prec)); [now apply IZR_le|].
  change 2%Z with (radix_val radix2). rewrite IZR_Zpower by (unfold Prec_gt_0 in P; lia). apply bpow_lt. exact L.
Qed.

(** m * 2^e is exact when m has at most [prec] bits and e is in range. *)
Lemma of_lit m e s : (Z.abs m < 2 ^ prec)%Z -> (3 - emax - prec <= e)%Z -> (prec + e <= emax)%Z ->
  B2R (binary_normalize prec emax P L mode_NE m e s) = F2R (Float radix2 m e) /\
  is_finite (binary_normalize prec emax P L mode_NE m e s) = true.
Proof.
  intros H E1 E2. pose proof (binary_normalize_correct prec emax P L mode_NE m e s) as C. cbn zeta in C.
  assert (G : generic_format radix2 fexp (F2R (Float radix2 m e))).
  { apply generic_format_FLT. exists (Float radix2 m e); cbn [Fnum Fexp]; [reflexivity|exact H|exact E1]. }
  rewrite (round_generic _ _ _ _ G), Rlt_bool_true in C; [tauto|].
  rewrite <- F2R_Zabs. unfold F2R. cbn [Fnum Fexp].
  apply Rlt_le_trans with (bpow radix2 prec * bpow radix2 e)%R.
  - apply Rmult_lt_compat_r; [apply bpow_gt_0|]. rewrite <- IZR_Zpower by (unfold Prec_gt_0 in P; lia). now apply IZR_lt.
  - rewrite <- bpow_plus. now apply bpow_le.
Qed.

Lemma leb_le (x y : fl) : is_finite x = true -> is_finite y = true -> (Bleb x y = true <-> (B2R x <= B2R y)%R).
Proof. intros FX FY. rewrite Bleb_correct by assumption. destruct (Rle_bool_spec (B2R x) (B2R y)); split; intros; try lra; try discriminate; reflexivity. Qed.
Lemma ltb_lt (x y : fl) : is_finite x = true -> is_finite y = true -> (Bltb x y = true <-> (B2R x < B2R y)%R).
Proof. intros FX FY. rewrite Bltb_correct by assumption. destruct (Rlt_bool_spec (B2R x) (B2R y)); split; intros; try lra; try discriminate; reflexivity. Qed.
Lemma eqb_eq (x y : fl) : is_finite x = true -> is_finite y = true -> (Beqb x y = true <-> B2R x = B2R y).
Proof. intros FX FY. rewrite Beqb_correct by assumption. destruct (Req_bool_spec (B2R x) (B2R y)); split; intros; try lra; try discriminate; reflexivity. Qed.
End floats.
