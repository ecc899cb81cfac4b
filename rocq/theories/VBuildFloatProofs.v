(** Float facts for the construction of Vamana graphs. *)
From Coq Require Import Reals Lra Floats.SpecFloat.
From Flocq Require Import Core IEEE754.BinarySingleNaN.
From Verif Require Import PruneModel PruneSpec PruneProofs VBuildSpec.

Lemma round_aux_same s m e l : SpecFloat.binary_round_aux 24 128 s m e l = BinarySingleNaN.binary_round_aux 24 128 mode_NE s m e l.
Proof.
  unfold SpecFloat.binary_round_aux, BinarySingleNaN.binary_round_aux.
  destruct (shr_fexp 24 128 m e l) as [r e1].
  assert (C : round_nearest_even (shr_m r) (loc_of_shr_record r) = choice_mode mode_NE s (shr_m r) (loc_of_shr_record r)).
  { destruct (loc_of_shr_record r) as [|[]]; cbn; try reflexivity; destruct (Z.even (shr_m r)); reflexivity. }
  rewrite C. destruct (shr_fexp 24 128 _ e1 loc_Exact) as [r2 e2]. destruct (shr_m r2); reflexivity.
Qed.
Lemma P24 : Prec_gt_0 24. Proof. reflexivity. Qed.
Lemma L24 : Prec_lt_emax 24 128. Proof. reflexivity. Qed.
Definition b32 := binary_float 24 128.
Lemma fdiv_Bdiv (x y : b32) : fdiv (B2SF x) (B2SF y) = B2SF (@Bdiv 24 128 P24 L24 mode_NE x y).
Proof.
  unfold fdiv. destruct x as [s|s| |s m e H], y as [s'|s'| |s' m' e' H']; try reflexivity.
  cbn [B2SF SFdiv Bdiv]. rewrite B2SF_SF2B. destruct (SFdiv_core_binary 24 128 (Z.pos m) e (Z.pos m') e') as [[mz ez] lz]. apply round_aux_same.
Qed.
Lemma fone_Bone : fone = B2SF (@Bone 24 128 P24 L24).
Proof. reflexivity. Qed.
Lemma fmul_Bmult (x y : b32) : fmul (B2SF x) (B2SF y) = B2SF (@Bmult 24 128 P24 L24 mode_NE x y).
Proof.
  unfold fmul. destruct x as [s|s| |s m e H], y as [s'|s'| |s' m' e' H']; try reflexivity.
  cbn [B2SF SFmul Bmult]. rewrite B2SF_SF2B. apply round_aux_same.
Qed.

(** A quotient of floats that exceeds one has a larger dividend. *)
Lemma fdiv_above_one a b lv : float32 a -> float32 b -> nonnegative a -> nonnegative b -> SFeqb b fzero = false ->
  SFleb fone lv = true -> SFltb lv (fdiv a b) = true -> SFltb b a = true.
Proof.
  intros Va Vb Na Nb Zb L1 L2. pose proof (leb_ltb_trans _ _ _ L1 L2) as L. clear lv L1 L2.
  destruct b as [s|s| |s m e]; try (now destruct Nb); cbn in Nb; subst; try (now destruct s).
  - (* infinite *) destruct a as [t|t| |t m' e']; cbn in *; try discriminate; try contradiction.
  - destruct a as [t|t| |t m' e']; cbn in Na; subst; try contradiction; try reflexivity; [discriminate L|].
    set (x := SF2B (S754_finite false m' e') Va : b32). set (y := SF2B (S754_finite false m e) Vb : b32).
    assert (Ex : B2SF x = S754_finite false m' e') by apply B2SF_SF2B. assert (Ey : B2SF y = S754_finite false m e) by apply B2SF_SF2B.
    rewrite <- Ex, <- Ey in *. rewrite fdiv_Bdiv, fone_Bone in L. change (Bltb (@Bone 24 128 P24 L24) (@Bdiv 24 128 P24 L24 mode_NE x y) = true) in L. change (Bltb y x = true).
    assert (Fx : is_finite x = true) by reflexivity. assert (Fy : is_finite y = true) by reflexivity.
    assert (Px : (0 < B2R x)%R) by (apply F2R_gt_0; reflexivity). assert (Py : (0 < B2R y)%R) by (apply F2R_gt_0; reflexivity).
    rewrite Bltb_correct by assumption. destruct (Rlt_bool_spec (B2R y) (B2R x)) as [|Le]; [reflexivity|exfalso].
    assert (Q : (B2R x / B2R y <= 1)%R) by (apply Rmult_le_reg_r with (B2R y); [lra|]; unfold Rdiv; rewrite Rmult_assoc, Rinv_l by lra; lra).
    assert (Q0 : (0 <= B2R x / B2R y)%R) by (apply Rlt_le; now apply Rdiv_lt_0_compat).
    pose proof (Bdiv_correct 24 128 P24 L24 mode_NE x y ltac:(lra)) as C.
    set (rn := round radix2 (SpecFloat.fexp 24 128) (round_mode mode_NE)) in *.
    assert (V : Valid_exp (SpecFloat.fexp 24 128)) by (apply (@fexp_correct 24 128 P24)).
    assert (G1 : generic_format radix2 (SpecFloat.fexp 24 128) 1%R).
    { rewrite <- (@Bone_correct 24 128 P24 L24). apply generic_format_B2R. }
    assert (R1 : (rn (B2R x / B2R y) <= 1)%R) by (apply round_le_generic; auto with typeclass_instances).
    assert (R0 : (0 <= rn (B2R x / B2R y))%R) by (apply round_ge_generic; auto with typeclass_instances; apply generic_format_0).
    rewrite Rlt_bool_true in C.
    2:{ rewrite Rabs_pos_eq by assumption. apply Rle_lt_trans with 1%R; [assumption|]. change 1%R with (bpow radix2 0). apply bpow_lt. reflexivity. }
    destruct C as (C1 & C2 & _). rewrite Fx in C2. rewrite Bltb_correct in L by (auto; reflexivity).
    rewrite C1, (@Bone_correct 24 128 P24 L24) in L. destruct (Rlt_bool_spec 1 (rn (B2R x / B2R y)%R)); [lra|discriminate].
Qed.

(** The integers order like the floats. *)
Lemma finite_range s m e : float32 (S754_finite s m e) -> (Z.pos m < 2 ^ 24 /\ -149 <= e <= 104)%Z.
Proof.
  unfold float32, valid_binary, bounded, canonical_mantissa, SpecFloat.fexp, SpecFloat.emin. rewrite andb_true_iff. intros [A B]. apply Zeq_bool_eq in A. apply Z.leb_le in B.
  assert (D : (Z.pos (digits2_pos m) <= 24)%Z) by lia. rewrite Zpos_digits2_pos in D. split; [|lia].
  pose proof (Zdigits_correct radix2 (Z.pos m)) as [_ Z2]. rewrite Z.abs_eq in Z2 by lia.
  eapply Z.lt_le_trans; [exact Z2|]. change (2 ^ 24)%Z with (Zpower radix2 24). now apply Zpower_le.
Qed.
Lemma order_key_lt f g : float32 f -> float32 g -> not_nan f -> not_nan g -> SFltb f g = true <-> (order_key f < order_key g)%Z.
Proof.
  intros Vf Vg Nf Ng. rewrite ltb_key. unfold not_nan in *.
  destruct f as [s|s| |s m e]; try congruence; destruct g as [s'|s'| |s' m' e']; try congruence;
    try (pose proof (finite_range _ _ _ Vf)); try (pose proof (finite_range _ _ _ Vg));
    try destruct s; try destruct s'; cbn [fkey klt order_key];
    change (2 ^ 24)%Z with 16777216%Z in *; change (2 ^ 40)%Z with 1099511627776%Z; (split; [intros (_ & _ & K)|intros K; split; [congruence|split; [congruence|]]]); try lia.
Qed.
Lemma order_key_eq f g : float32 f -> float32 g -> not_nan f -> not_nan g -> SFeqb f g = true <-> order_key f = order_key g.
Proof.
  intros Vf Vg Nf Ng. pose proof (order_key_lt f g Vf Vg Nf Ng) as A. pose proof (order_key_lt g f Vg Vf Ng Nf) as B.
  assert (D : SFltb f g = true \/ SFeqb f g = true \/ SFltb g f = true).
  { pose proof (compare_key f g Nf Ng) as C. unfold SFltb, SFeqb. destruct (SFcompare f g) as [[]|] eqn:E; auto.
    right. right. pose proof (compare_key g f Ng Nf) as C2. destruct (SFcompare g f) as [[]|]; auto; exfalso.
    - rewrite C2 in C. destruct (fkey f) as [[a1 a2] a3]. cbn in C. lia.
    - destruct (fkey f) as [[a1 a2] a3], (fkey g) as [[b1 b2] b3]. cbn in C, C2. lia. }
  assert (E1 : SFeqb f g = true -> SFltb f g = false /\ SFltb g f = false).
  { intros E. apply eqb_key in E as (_ & _ & E).
    split; [destruct (SFltb f g) eqn:K|destruct (SFltb g f) eqn:K]; auto; exfalso; apply ltb_key in K as (_ & _ & K); rewrite E in K;
      destruct (fkey g) as [[a1 a2] a3]; cbn in K; lia. }
  split.
  - intros E. destruct (E1 E) as [K1 K2]. destruct (Z.lt_trichotomy (order_key f) (order_key g)) as [K|[K|K]]; auto; exfalso.
    + apply A in K. congruence.
    + apply B in K. congruence.
  - intros E. destruct D as [K|[K|K]]; auto; exfalso; [apply A in K|apply B in K]; lia.
Qed.

(** 1.3 times a whole number is not below the number. *)
Lemma normalize_same z : (z <> 0)%Z -> SpecFloat.binary_normalize 24 128 z 0 false = B2SF (@BinarySingleNaN.binary_normalize 24 128 P24 L24 mode_NE z 0 false).
Proof.
  intros Nz. unfold SpecFloat.binary_normalize, BinarySingleNaN.binary_normalize. destruct z as [|m|m]; [congruence| |]; rewrite B2SF_SF2B;
    unfold SpecFloat.binary_round, BinarySingleNaN.binary_round, shl_align_fexp; destruct (shl_align m 0 _) as [mz ez]; apply round_aux_same.
Qed.
Lemma f1_3_real : exists x : b32, f1_3 = B2SF x /\ is_finite x = true /\ (1 <= B2R x <= 2)%R.
Proof.
  exists (SF2B f1_3 (eq_refl : valid_binary 24 128 f1_3 = true)). split; [symmetry; apply B2SF_SF2B|]. split; [reflexivity|].
  change (B2R (SF2B f1_3 (eq_refl : valid_binary 24 128 f1_3 = true))) with (IZR 10905190 * bpow radix2 (-23))%R.
  change (bpow radix2 (-23)) with (/ IZR 8388608)%R. lra.
Qed.
Lemma nat_of_float_ge (x : b32) n : is_finite x = true -> (INR n <= B2R x)%R -> n <= nat_of_float (B2SF x).
Proof.
  intros F H. destruct x as [s|s| |s m e Hx]; try discriminate; cbn [B2SF nat_of_float B2R] in *.
  - destruct n; [lia|]. pose proof (lt_0_INR (S n) ltac:(lia)). lra.
  - destruct s; cbn [cond_Zopp] in H.
    { destruct n as [|n]; [lia|]. exfalso. pose proof (lt_0_INR (S n) ltac:(lia)). assert (F2R (Float radix2 (- Z.pos m) e) < 0)%R by (apply F2R_lt_0; reflexivity). lra. }
    assert (K : (Z.of_nat n <= Z.shiftl (Z.pos m) e)%Z); [|lia].
    rewrite INR_IZR_INZ in H. unfold F2R in H. cbn [Fnum Fexp] in H.
    destruct (Z.le_gt_cases 0 e) as [He|He].
    + rewrite Z.shiftl_mul_pow2 by assumption. apply le_IZR. rewrite mult_IZR. replace (IZR (2 ^ e)) with (bpow radix2 e); [assumption|]. symmetry. apply (IZR_Zpower radix2 e He).
    + rewrite Z.shiftl_div_pow2 by lia. apply Z.div_le_lower_bound; [apply Z.pow_pos_nonneg; lia|]. apply le_IZR. rewrite mult_IZR.
      change (2 ^ - e)%Z with (Zpower radix2 (- e)). rewrite IZR_Zpower by lia.
      apply Rmult_le_compat_l with (r := bpow radix2 (- e)) in H; [|apply bpow_ge_0]. eapply Rle_trans; [exact H|].
      rewrite Rmult_comm, Rmult_assoc, <- bpow_plus. replace (e + - e)%Z with 0%Z by lia. cbn. lra.
Qed.
Lemma slack_ge R : (Z.of_nat R < 2 ^ 24)%Z -> R <= slack R.
Proof.
  intros HR. destruct R as [|r]; [lia|]. set (R := S r) in *. unfold slack, float_of_nat. rewrite normalize_same by lia.
  set (y := @BinarySingleNaN.binary_normalize 24 128 P24 L24 mode_NE (Z.of_nat R) 0 false).
  assert (V : Valid_exp (SpecFloat.fexp 24 128)) by (apply (@fexp_correct 24 128 P24)).
  assert (HI : F2R (Float radix2 (Z.of_nat R) 0) = INR R) by (rewrite INR_IZR_INZ; unfold F2R; cbn; lra).
  assert (G : generic_format radix2 (SpecFloat.fexp 24 128) (INR R)).
  { rewrite <- HI. apply (generic_format_FLT radix2 (SpecFloat.emin 24 128) 24). exists (Float radix2 (Z.of_nat R) 0); cbn [Fnum Fexp]; [reflexivity| |].
    - rewrite Z.abs_eq by lia. exact HR.
    - unfold SpecFloat.emin. lia. }
  assert (Big : (INR R < bpow radix2 24)%R) by (rewrite INR_IZR_INZ; change (bpow radix2 24) with (IZR (2 ^ 24)); now apply IZR_lt).
  assert (P0 : (0 <= INR R)%R) by apply pos_INR.
  assert (Y : B2R y = INR R /\ is_finite y = true).
  { pose proof (binary_normalize_correct 24 128 P24 L24 mode_NE (Z.of_nat R) 0 false) as C. cbn zeta in C. rewrite HI in C.
    rewrite round_generic in C by (auto with typeclass_instances; exact G). rewrite Rlt_bool_true in C; [tauto|].
    rewrite Rabs_pos_eq by assumption. apply Rlt_trans with (bpow radix2 24); [assumption|apply bpow_lt; reflexivity]. }
  destruct Y as [Y1 Y2]. destruct f1_3_real as (x & -> & X2 & X1). rewrite fmul_Bmult.
  pose proof (Bmult_correct 24 128 P24 L24 mode_NE x y) as C. rewrite Y1 in C.
  set (rn := round radix2 (SpecFloat.fexp 24 128) (round_mode mode_NE)) in *.
  assert (Lo : (INR R <= rn (B2R x * INR R)%R)%R) by (apply round_ge_generic; auto with typeclass_instances; nra).
  assert (Hi : (rn (B2R x * INR R)%R <= bpow radix2 25)%R).
  { apply round_le_generic; auto with typeclass_instances.
    - apply generic_format_bpow. unfold SpecFloat.fexp, SpecFloat.emin. lia.
    - change (bpow radix2 25) with (2 * bpow radix2 24)%R || replace (bpow radix2 25) with (2 * bpow radix2 24)%R by (cbn; lra). nra. }
  rewrite Rlt_bool_true in C.
  2:{ rewrite Rabs_pos_eq by lra. apply Rle_lt_trans with (bpow radix2 25); [assumption|apply bpow_lt; reflexivity]. }
  destruct C as (C1 & C2 & _). rewrite X2, Y2 in C2. apply nat_of_float_ge; [exact C2|]. rewrite C1. exact Lo.
Qed.
