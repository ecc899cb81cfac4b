From Coq Require Import ZArith Reals Lra Lia Bool List Arith.
From Flocq Require Import Core Plus_error Relative IEEE754.BinarySingleNaN.
From Verif Require Export QuantSpec.
From Verif Require Import FloatLemmas.

Notation rnd := (rnd f32_prec f32_emax).

Lemma nan_or_real (v : f32) : is_nan v = false -> v = B754_infinity true \/ v = B754_infinity false \/ is_finite v = true.
Proof. destruct v as [s|[]| |]; cbn; auto; discriminate. Qed.

Lemma of_small z : (0 <= z <= 255)%Z -> real (f32_of z) = IZR z /\ is_finite (f32_of z) = true.
Proof. intros H. apply of_int. change (2 ^ f32_prec)%Z with 16777216%Z. lia. Qed.

Lemma max_real : real f32_max = (bpow radix2 f32_emax - bpow radix2 (f32_emax - f32_prec))%R.
Proof.
  change (bpow radix2 f32_emax) with (IZR (2 ^ 128)). change (bpow radix2 (f32_emax - f32_prec)) with (IZR (2 ^ 104)).
  change (real f32_max) with (IZR (16777215) * IZR (2 ^ 104))%R. rewrite <- mult_IZR, <- minus_IZR. reflexivity.
Qed.
Lemma below_max (v : f32) : (real v <= real f32_max)%R /\ (- real f32_max <= real v)%R.
Proof.
  pose proof (abs_B2R_le_emax_minus_prec _ _ f32_prec_pos v) as H. rewrite <- max_real in H.
  change (B2R v) with (real v) in H. apply Rabs_le_inv in H. lra.
Qed.
Lemma lowest_real : real f32_lowest = (- real f32_max)%R.
Proof. apply B2R_Bopp. Qed.

(** Comparisons *)
Lemma leb_real (x y : f32) : is_finite x = true -> is_finite y = true -> (Bleb x y = true <-> (real x <= real y)%R).
Proof. apply leb_le. Qed.
Lemma ltb_real (x y : f32) : is_finite x = true -> is_finite y = true -> (Bltb x y = true <-> (real x < real y)%R).
Proof. apply ltb_lt. Qed.
Lemma eqb_real (x y : f32) : is_finite x = true -> is_finite y = true -> (Beqb x y = true <-> real x = real y).
Proof. apply eqb_eq. Qed.

(** The scaled value, over the reals *)
Definition scaled (top : Z) (v lo hi : f32) : R :=
  rnd (rnd (rnd (real v - real lo) / rnd (real hi - real lo)) * IZR top).

Section range.
Variables (lo hi : f32).
Hypothesis PR : proper lo hi.
Hypothesis W : width_fits lo hi.

Lemma width_pos : (0 < rnd (real hi - real lo))%R.
Proof.
  destruct PR as (F1 & F2 & LT).
  assert (H : (0 <= rnd (real hi - real lo))%R) by (apply (rnd_pos _ _ f32_prec_pos); lra).
  assert (NZ : rnd (real hi - real lo) <> 0%R) by (apply (rnd_sub_neq_0 _ _ f32_prec_pos); unfold real in *; lra). lra.
Qed.

Lemma ratio (v : f32) : (real lo <= real v <= real hi)%R -> (0 <= rnd (real v - real lo) / rnd (real hi - real lo) <= 1)%R.
Proof.
  intros H. pose proof width_pos as WP.
  assert (A : (0 <= rnd (real v - real lo))%R) by (apply (rnd_pos _ _ f32_prec_pos); lra).
  assert (B : (rnd (real v - real lo) <= rnd (real hi - real lo))%R) by (apply (rnd_le _ _ f32_prec_pos); lra).
  split; [apply Rmult_le_pos; [exact A|left; now apply Rinv_0_lt_compat]|].
  apply Rmult_le_reg_r with (rnd (real hi - real lo)); [exact WP|]. unfold Rdiv. rewrite Rmult_assoc, Rinv_l by lra. lra.
Qed.
Lemma one_real : real (f32_of 1) = 1%R. Proof. apply of_small. lia. Qed.

Lemma quotient (v : f32) : (real lo <= real v <= real hi)%R ->
  (0 <= rnd (rnd (real v - real lo) / rnd (real hi - real lo)) <= 1)%R.
Proof.
  intros H. pose proof (ratio v H) as [A B]. split; [now apply (rnd_pos _ _ f32_prec_pos)|].
  apply Rle_trans with (rnd (B2R (f32_of 1))).
  - apply (rnd_le _ _ f32_prec_pos). change (B2R (f32_of 1)) with (real (f32_of 1)). rewrite one_real. exact B.
  - rewrite rnd_id. change (B2R (f32_of 1)) with (real (f32_of 1)). rewrite one_real. lra.
Qed.

Lemma scaled_range top (v : f32) : (0 <= top <= 255)%Z -> (real lo <= real v <= real hi)%R -> (0 <= scaled top v lo hi <= IZR top)%R.
Proof.
  intros T H. pose proof (quotient v H) as [A B]. assert (T' : (0 <= IZR top)%R) by (apply IZR_le; lia).
  unfold scaled. split; [apply (rnd_pos _ _ f32_prec_pos), Rmult_le_pos; assumption|].
  destruct (of_small top T) as [E _].
  apply Rle_trans with (rnd (B2R (f32_of top))); [|rewrite rnd_id; change (B2R (f32_of top)) with (real (f32_of top)); rewrite E; lra].
  apply (rnd_le _ _ f32_prec_pos). change (B2R (f32_of top)) with (real (f32_of top)). rewrite E.
  replace (IZR top) with (1 * IZR top)%R at 2 by ring. now apply Rmult_le_compat_r.
Qed.

Lemma scaled_mono top (v w : f32) : (0 <= top <= 255)%Z ->
  (real lo <= real v)%R -> (real v <= real w)%R -> (scaled top v lo hi <= scaled top w lo hi)%R.
Proof.
  intros T H1 H2. pose proof width_pos as WP. assert (T' : (0 <= IZR top)%R) by (apply IZR_le; lia).
  unfold scaled. apply (rnd_le _ _ f32_prec_pos), Rmult_le_compat_r; [exact T'|].
  apply (rnd_le _ _ f32_prec_pos). unfold Rdiv. apply Rmult_le_compat_r; [left; now apply Rinv_0_lt_compat|].
  apply (rnd_le _ _ f32_prec_pos). lra.
Qed.

Lemma compute top (v : f32) : (0 <= top <= 255)%Z -> is_finite v = true -> (real lo <= real v <= real hi)%R ->
  let x := f32_mul (f32_div (f32_sub v lo) (f32_sub hi lo)) (f32_of top) in
  real x = scaled top v lo hi /\ is_finite x = true.
Proof.
  intros T F H x. destruct PR as (F1 & F2 & LT). pose proof width_pos as WP.
  destruct (sub_ok _ _ f32_prec_pos f32_prec_lt hi lo F2 F1) as [RE RF].
  { apply (rnd_lt_big _ _ f32_prec_pos _ f32_max). unfold width_fits, real in *. lra. }
  destruct (sub_ok _ _ f32_prec_pos f32_prec_lt v lo F F1) as [DE DF].
  { apply (rnd_lt_big _ _ f32_prec_pos _ f32_max). unfold width_fits, real in *. lra. }
  fold (f32_sub hi lo) in RE, RF. fold (f32_sub v lo) in DE, DF.
  destruct (div_ok _ _ f32_prec_pos f32_prec_lt (f32_sub v lo) (f32_sub hi lo) DF) as [QE QF].
  { rewrite RE. unfold real in *. lra. }
  { rewrite RE, DE. apply (rnd_lt_big _ _ f32_prec_pos _ (f32_of 1)).
    change (B2R (f32_of 1)) with (real (f32_of 1)). rewrite one_real. apply ratio. exact H. }
  fold (f32_div (f32_sub v lo) (f32_sub hi lo)) in QE, QF.
  destruct (of_small top T) as [TE TF].
  destruct (mul_ok _ _ f32_prec_pos f32_prec_lt (f32_div (f32_sub v lo) (f32_sub hi lo)) (f32_of top) QF TF) as [ME MF].
  { apply (rnd_lt_big _ _ f32_prec_pos _ (f32_of top)). rewrite QE, RE, DE. change (B2R (f32_of top)) with (real (f32_of top)). rewrite TE.
    pose proof (quotient v H) as [A B]. unfold real in A, B. assert (T' : (0 <= IZR top)%R) by (apply IZR_le; lia).
    split; [now apply Rmult_le_pos|]. replace (IZR top) with (1 * IZR top)%R at 2 by ring. now apply Rmult_le_compat_r. }
  split; [|exact MF]. unfold x, real, f32_mul. rewrite ME, QE, RE, DE. change (B2R (f32_of top)) with (real (f32_of top)). rewrite TE. reflexivity.
Qed.

Lemma cast_scaled top (v : f32) : (0 <= top <= 255)%Z -> is_finite v = true -> (real lo <= real v <= real hi)%R ->
  cast_u8 (f32_mul (f32_div (f32_sub v lo) (f32_sub hi lo)) (f32_of top)) = Ok (Z.to_N (Ztrunc (scaled top v lo hi))) /\
  (0 <= Ztrunc (scaled top v lo hi) <= top)%Z.
Proof.
  intros T F H. destruct (compute top v T F H) as [E FX]. pose proof (scaled_range top v T H) as [A B].
  assert (R : (0 <= Ztrunc (scaled top v lo hi) <= top)%Z).
  { pose proof (Ztrunc_le _ _ A) as A'. pose proof (Ztrunc_le _ _ B) as B'. rewrite Ztrunc_IZR in A', B'. lia. }
  split; [|exact R]. unfold cast_u8. rewrite FX, (trunc_real _ _ f32_prec_lt).
  change (B2R (f32_mul (f32_div (f32_sub v lo) (f32_sub hi lo)) (f32_of top)))
    with (real (f32_mul (f32_div (f32_sub v lo) (f32_sub hi lo)) (f32_of top))). rewrite E.
  replace (0 <=? Ztrunc (scaled top v lo hi))%Z with true by (symmetry; apply Z.leb_le; lia).
  replace (Ztrunc (scaled top v lo hi) <=? 255)%Z with true by (symmetry; apply Z.leb_le; lia). reflexivity.
Qed.

Lemma not_eqb : Beqb hi lo = false.
Proof. destruct PR as (F1 & F2 & LT). destruct (Beqb hi lo) eqn:E; [|reflexivity]. apply eqb_real in E; [|assumption..]. lra. Qed.

(** The result for each finite value *)
Lemma quantize_finite top (v : f32) : (0 <= top <= 255)%Z -> is_finite v = true ->
  (real hi <= real v)%R /\ quantize top v lo hi = Ok (Z.to_N top) \/
  (real v <= real lo)%R /\ quantize top v lo hi = Ok 0%N \/
  (real lo < real v < real hi)%R /\ quantize top v lo hi = Ok (Z.to_N (Ztrunc (scaled top v lo hi))).
Proof.
  intros T F. destruct PR as (F1 & F2 & LT). unfold quantize. rewrite not_eqb.
  destruct (Bleb hi v) eqn:E1.
  { left. apply leb_real in E1; [|assumption..]. auto. }
  assert (H1 : (real v < real hi)%R).
  { apply Rnot_le_lt. intros C. apply leb_real in C; [|assumption..]. rewrite C in E1. discriminate E1. }
  destruct (Bleb v lo) eqn:E2.
  { right; left. apply leb_real in E2; [|assumption..]. auto. }
  assert (H2 : (real lo < real v)%R).
  { apply Rnot_le_lt. intros C. apply leb_real in C; [|assumption..]. rewrite C in E2. discriminate E2. }
  right; right. split; [lra|]. apply cast_scaled; auto. lra.
Qed.
Lemma quantize_low top : quantize top (B754_infinity true) lo hi = Ok 0%N.
Proof.
  unfold quantize. rewrite not_eqb. destruct PR as (F1 & F2 & _).
  destruct hi as [[]|[]| |[]], lo as [[]|[]| |[]]; try discriminate F1; try discriminate F2; reflexivity.
Qed.
Lemma quantize_high top : quantize top (B754_infinity false) lo hi = Ok (Z.to_N top).
Proof.
  unfold quantize. rewrite not_eqb. destruct PR as (F1 & F2 & _).
  destruct hi as [[]|[]| |[]], lo as [[]|[]| |[]]; try discriminate F1; try discriminate F2; reflexivity.
Qed.

Lemma quantize_code top (v : f32) : (0 <= top <= 255)%Z -> is_nan v = false ->
  exists c, quantize top v lo hi = Ok c /\ (c <= Z.to_N top)%N.
Proof.
  intros T NN. destruct (nan_or_real v NN) as [ -> |[ -> |F]].
  - exists 0%N. rewrite quantize_low. split; [reflexivity|lia].
  - exists (Z.to_N top). rewrite quantize_high. split; [reflexivity|lia].
  - destruct (quantize_finite top v T F) as [[_ ->]|[[_ ->]|[H ->]]].
    + exists (Z.to_N top). split; [reflexivity|lia].
    + exists 0%N. split; [reflexivity|lia].
    + eexists. split; [reflexivity|]. destruct (cast_scaled top v T F) as [_ R]; [lra|]. lia.
Qed.

Lemma quantize_mono top (v w : f32) c d : (0 <= top <= 255)%Z -> Bleb v w = true ->
  quantize top v lo hi = Ok c -> quantize top w lo hi = Ok d -> (c <= d)%N.
Proof.
  intros T LE Qv Qw.
  assert (NV : is_nan v = false) by (destruct v as [| | |]; [reflexivity..| |reflexivity]; discriminate LE).
  assert (NW : is_nan w = false) by (destruct w as [| | |]; [reflexivity..| |reflexivity]; destruct v as [|[]| |]; discriminate LE).
  destruct (quantize_code top v T NV) as (c' & Ec & Bc). rewrite Qv in Ec. injection Ec as <-.
  destruct (nan_or_real v NV) as [ -> |[ -> |FV]].
  { rewrite quantize_low in Qv. injection Qv as <-. lia. }
  { assert (w = B754_infinity false) as ->.
    { destruct w as [|[]| |[]]; try discriminate LE; reflexivity. }
    rewrite Qv in Qw. injection Qw as <-. lia. }
  destruct (nan_or_real w NW) as [ -> |[ -> |FW]].
  { exfalso. destruct v as [|[]| |[]]; try discriminate LE; discriminate FV. }
  { rewrite quantize_high in Qw. injection Qw as <-. exact Bc. }
  apply leb_real in LE; [|assumption..].
  destruct (quantize_finite top v T FV) as [[Hv Ev]|[[Hv Ev]|[Hv Ev]]], (quantize_finite top w T FW) as [[Hw Ew]|[[Hw Ew]|[Hw Ew]]];
    rewrite Ev in Qv; injection Qv as <-; rewrite Ew in Qw; injection Qw as <-; try lia; destruct PR as (_ & _ & LT); try (exfalso; lra).
  pose proof (Ztrunc_le _ _ (scaled_mono top v w T ltac:(lra) LE)) as M.
  destruct (cast_scaled top v T FV ltac:(lra)) as [_ R]. lia.
Qed.

(** ** Accuracy *)
Notation u := (/ 16777216)%R.

Lemma rnd_error x : exists e h, (Rabs e <= u)%R /\ (Rabs h <= u * / 1000000)%R /\ rnd x = (x * (1 + e) + h)%R.
Proof.
  destruct (error_N_FLT radix2 (-149) 24 eq_refl (fun x => negb (Z.even x)) x) as (e & h & He & Hh & _ & E).
  exists e, h. split; [|split; [|exact E]].
  - eapply Rle_trans; [exact He|]. cbn. lra.
  - eapply Rle_trans; [exact Hh|].
    assert (B : (bpow radix2 (-149) <= bpow radix2 (-49))%R) by (apply bpow_le; lia).
    assert (C : (bpow radix2 (-49) <= u * / 1000000)%R).
    { cbn. rewrite <- Rinv_mult. apply Rinv_le; lra. }
    lra.
Qed.
Lemma rnd_sub_error (x y : f32) : exists e, (Rabs e <= u)%R /\ rnd (real x - real y) = ((real x - real y) * (1 + e))%R.
Proof.
  destruct (@FLT_plus_error_N_ex radix2 (-149) 24 f32_prec_pos (fun x => negb (Z.even x)) (real x) (- real y)) as (e & He & E).
  - apply (generic_format_B2R f32_prec f32_emax).
  - apply generic_format_opp. apply (generic_format_B2R f32_prec f32_emax).
  - exists e. split; [|exact E].
    eapply Rle_trans; [exact He|]. unfold u_ro. cbn. lra.
Qed.

Lemma bounds x a : (Rabs x <= a)%R -> (- a <= x <= a)%R.
Proof. apply Rabs_le_inv. Qed.

Lemma scaled_close top (v : f32) : (0 <= top <= 255)%Z -> (real lo <= real v <= real hi)%R ->
  (Rabs (scaled top v lo hi - place top v lo hi) <= / 1000)%R.
Proof.
  intros T H. destruct PR as (F1 & F2 & LT). unfold scaled, place.
  destruct (rnd_sub_error v lo) as (e1 & H1 & ->). destruct (rnd_sub_error hi lo) as (e2 & H2 & ->).
  set (t := ((real v - real lo) / (real hi - real lo))%R).
  assert (Ht : (0 <= t <= 1)%R).
  { unfold t. split; [apply Rmult_le_pos; [lra|left; apply Rinv_0_lt_compat; lra]|].
    apply Rmult_le_reg_r with (real hi - real lo)%R; [lra|]. unfold Rdiv. rewrite Rmult_assoc, Rinv_l; lra. }
  apply bounds in H1, H2.
  replace ((real v - real lo) * (1 + e1) / ((real hi - real lo) * (1 + e2)))%R with (t * ((1 + e1) / (1 + e2)))%R
    by (unfold t; field; split; lra).
  assert (K : (1 - 3 * u <= (1 + e1) / (1 + e2) <= 1 + 3 * u)%R).
  { split; [apply Rmult_le_reg_r with (1 + e2)%R; [lra|]; unfold Rdiv; rewrite Rmult_assoc, Rinv_l by lra; nra
           |apply Rmult_le_reg_r with (1 + e2)%R; [lra|]; unfold Rdiv; rewrite Rmult_assoc, Rinv_l by lra; nra]. }
  set (k := ((1 + e1) / (1 + e2))%R) in *.
  assert (Tk : (- (3 * u) <= t * k - t <= 3 * u)%R) by nra.
  destruct (rnd_error (t * k)) as (e3 & h3 & H3 & G3 & ->). apply bounds in H3, G3.
  set (q := (t * k * (1 + e3) + h3)%R).
  assert (Q : (- (6 * u) <= q - t <= 6 * u)%R) by (unfold q; nra).
  destruct (rnd_error (q * IZR top)) as (e4 & h4 & H4 & G4 & ->). apply bounds in H4, G4.
  assert (T' : (0 <= IZR top <= 255)%R) by (split; apply IZR_le; lia).
  assert (A : (- (6 * u) * 255 <= q * IZR top - IZR top * t <= 6 * u * 255)%R) by nra.
  assert (B : (- 1 <= q * IZR top <= 256)%R) by nra.
  apply Rabs_le. nra.
Qed.

Lemma quantize_close top (v : f32) c : (0 <= top <= 255)%Z -> is_finite v = true -> (real lo <= real v <= real hi)%R ->
  quantize top v lo hi = Ok c ->
  (IZR (Z.of_N c) - / 1000 <= place top v lo hi < IZR (Z.of_N c) + 1 + / 1000)%R.
Proof.
  intros T F H Q. destruct PR as (F1 & F2 & LT).
  assert (T' : (0 <= IZR top <= 255)%R) by (split; apply IZR_le; lia).
  destruct (quantize_finite top v T F) as [[Hv Ev]|[[Hv Ev]|[Hv Ev]]]; rewrite Ev in Q; injection Q as <-.
  - rewrite Z2N.id by lia. unfold place. replace (real v) with (real hi) by lra.
    replace ((real hi - real lo) / (real hi - real lo))%R with 1%R by (field; lra). lra.
  - unfold place. replace (real v - real lo)%R with 0%R by lra. unfold Rdiv. rewrite Rmult_0_l, Rmult_0_r. cbn. lra.
  - destruct (cast_scaled top v T F ltac:(lra)) as [_ R]. rewrite Z2N.id by lia.
    pose proof (scaled_close top v T H) as C. apply bounds in C. pose proof (scaled_range top v T H) as [A _].
    rewrite Ztrunc_floor by exact A. pose proof (Zfloor_lb (scaled top v lo hi)). pose proof (Zfloor_ub (scaled top v lo hi)). lra.
Qed.

End range.

(** ** fit *)
Lemma widen_low (col : list f32) (r : f32 * f32) : is_finite (fst r) = true -> is_finite (snd r) = true -> Forall (fun v : f32 => is_finite v = true) col ->
  let r' := fold_left widen col r in
  (fst r' = fst r \/ In (fst r') col) /\ (real (fst r') <= real (fst r))%R /\ (forall v, In v col -> (real (fst r') <= real v)%R) /\
  (snd r' = snd r \/ In (snd r') col) /\ (real (snd r) <= real (snd r'))%R /\ (forall v, In v col -> (real v <= real (snd r'))%R).
Proof.
  revert r. induction col as [|x col IH]; intros r F1 F2 Fc; cbn [fold_left]; cbn zeta.
  { split; [auto|]. split; [apply Rle_refl|]. split; [intros v []|]. split; [auto|]. split; [apply Rle_refl|intros v []]. }
  apply Forall_cons_iff in Fc as [Fx Fc].
  assert (A : is_finite (fst (widen r x)) = true) by (unfold widen; cbn [fst]; destruct (Bltb x (fst r)); assumption).
  assert (B : is_finite (snd (widen r x)) = true) by (unfold widen; cbn [snd]; destruct (Bltb (snd r) x); assumption).
  destruct (IH (widen r x) A B Fc) as (L1 & L2 & L3 & U1 & U2 & U3). cbn zeta in *.
  set (r' := fold_left widen col (widen r x)) in *.
  assert (C : (fst (widen r x) = fst r \/ fst (widen r x) = x) /\ (real (fst (widen r x)) <= real (fst r))%R /\ (real (fst (widen r x)) <= real x)%R).
  { unfold widen. cbn [fst]. destruct (Bltb x (fst r)) eqn:E.
    - apply ltb_real in E; [|assumption..]. split; [auto|]. lra.
    - split; [auto|]. split; [lra|]. apply Rnot_lt_le. intros K. apply ltb_real in K; [|assumption..]. rewrite K in E. discriminate E. }
  assert (D : (snd (widen r x) = snd r \/ snd (widen r x) = x) /\ (real (snd r) <= real (snd (widen r x)))%R /\ (real x <= real (snd (widen r x)))%R).
  { unfold widen. cbn [snd]. destruct (Bltb (snd r) x) eqn:E.
    - apply ltb_real in E; [|assumption..]. split; [auto|]. lra.
    - split; [auto|]. split; [lra|]. apply Rnot_lt_le. intros K. apply ltb_real in K; [|assumption..]. rewrite K in E. discriminate E. }
  destruct C as (C1 & C2 & C3), D as (D1 & D2 & D3).
  split. { destruct L1 as [L1|L1]; [|right; now right]. rewrite L1. destruct C1 as [C1|C1]; rewrite C1; [now left|right; now left]. }
  split. { lra. }
  split. { intros v [ <- |IN]; [lra|now apply L3]. }
  split. { destruct U1 as [U1|U1]; [|right; now right]. rewrite U1. destruct D1 as [D1|D1]; rewrite D1; [now left|right; now left]. }
  split. { lra. }
  intros v [ <- |IN]; [lra|now apply U3].
Qed.

Lemma max_unique (v : f32) : real v = real f32_max -> v = f32_max.
Proof.
  intros E. assert (P : (0 < real f32_max)%R).
  { change (real f32_max) with (IZR (16777215) * IZR (2 ^ 104))%R. apply Rmult_lt_0_compat; apply IZR_lt; reflexivity. }
  apply B2R_inj; [|reflexivity|exact E]. destruct v as [s|s| |s m e B]; try reflexivity; unfold real in E at 1; cbn [B2R] in E; lra.
Qed.
Lemma lowest_unique (v : f32) : real v = real f32_lowest -> v = f32_lowest.
Proof.
  intros E. assert (P : (0 < real f32_max)%R).
  { change (real f32_max) with (IZR (16777215) * IZR (2 ^ 104))%R. apply Rmult_lt_0_compat; apply IZR_lt; reflexivity. }
  pose proof lowest_real as LR.
  apply B2R_inj; [|reflexivity|exact E]. rewrite LR in E. destruct v as [s|s| |s m e B]; try reflexivity; unfold real in E at 1; cbn [B2R] in E; lra.
Qed.

Lemma widen_exact col : col <> [] -> Forall (fun v : f32 => is_finite v = true) col ->
  least (fun v => In v col) (fst (fold_left widen col (f32_max, f32_lowest))) /\
  largest (fun v => In v col) (snd (fold_left widen col (f32_max, f32_lowest))).
Proof.
  intros NE F. destruct (widen_low col (f32_max, f32_lowest) eq_refl eq_refl F) as (L1 & L2 & L3 & U1 & U2 & U3).
  cbn zeta in *. cbn [fst snd] in *.
  destruct col as [|x col]; [easy|].
  split; (split; [|assumption]).
  - destruct L1 as [L1|L1]; [|exact L1]. rewrite L1 in *. left. apply max_unique.
    pose proof (L3 x (or_introl eq_refl)). pose proof (below_max x). lra.
  - destruct U1 as [U1|U1]; [|exact U1]. rewrite U1 in *. left. apply lowest_unique.
    pose proof (U3 x (or_introl eq_refl)). pose proof (below_max x). pose proof lowest_real. lra.
Qed.

Lemma fit_row_nth q v j : length v = length q ->
  nth_error (fit_row q v) j = match nth_error q j, nth_error v j with Some r, Some x => Some (widen r x) | _, _ => None end.
Proof.
  revert v j. induction q as [|r q IH]; intros [|x v] [|j] E; try discriminate E; try reflexivity.
  cbn [fit_row nth_error]. apply IH. now injection E.
Qed.
Lemma fit_row_length q v : length v = length q -> length (fit_row q v) = length q.
Proof. revert v. induction q as [|r q IH]; intros [|x v] E; try discriminate E; try reflexivity. cbn [fit_row length]. rewrite IH; [reflexivity|now injection E]. Qed.

Lemma nth_some {A} (l : list A) j : j < length l -> exists x, nth_error l j = Some x.
Proof. intros H. destruct (nth_error l j) eqn:E; [eauto|]. apply nth_error_None in E. lia. Qed.

Lemma fit_nth dim data : vectors dim data -> forall q j r, length q = dim -> nth_error q j = Some r ->
  exists col, nth_error (fit q data) j = Some (fold_left widen col r) /\ length col = length data /\
    (forall v, In v col <-> column j data v).
Proof.
  unfold vectors. induction data as [|row data IH]; intros V q j r LQ N.
  { exists []. split; [exact N|]. split; [reflexivity|]. intros v. split; [intros []|intros (row & [] & _)]. }
  apply Forall_cons_iff in V as [[LR FR] V].
  assert (J : j < length row) by (rewrite LR, <- LQ; apply nth_error_Some; now rewrite N).
  destruct (nth_some row j J) as [x Nx].
  destruct (IH V (fit_row q row) j (widen r x)) as (col & E & LC & IC).
  { rewrite fit_row_length; congruence. }
  { rewrite fit_row_nth by congruence. now rewrite N, Nx. }
  exists (x :: col). split; [exact E|]. split; [cbn; now rewrite LC|].
  intros v. split.
  - intros [ <- |IN]; [exists row; split; [now left|exact Nx]|]. apply IC in IN as (row' & I' & N'). exists row'. split; [now right|exact N'].
  - intros (row' & [ <- |I'] & N'); [left; congruence|right; apply IC; exists row'; split; assumption].
Qed.

Lemma fit_length dim data : vectors dim data -> forall q, length q = dim -> length (fit q data) = dim.
Proof.
  unfold vectors. induction data as [|row data IH]; intros V q LQ; [exact LQ|].
  apply Forall_cons_iff in V as [[LR FR] V]. cbn [fit fold_left]. apply IH; [exact V|]. rewrite fit_row_length; congruence.
Qed.

Lemma column_finite dim data j v : vectors dim data -> column j data v -> is_finite v = true.
Proof.
  intros V (row & IN & N). eapply Forall_forall in V; [|exact IN]. destruct V as [_ F].
  eapply Forall_forall in F; [exact F|]. eapply nth_error_In, N.
Qed.

Lemma fit_column dim data j : vectors dim data -> data <> [] -> j < dim ->
  exists lo hi, nth_error (fit (new_quantizer dim) data) j = Some (lo, hi) /\ least (column j data) lo /\ largest (column j data) hi.
Proof.
  intros V NE J.
  destruct (fit_nth dim data V (new_quantizer dim) j (f32_max, f32_lowest)) as (col & E & LC & IC).
  { apply repeat_length. }
  { apply nth_error_repeat. exact J. }
  destruct (fold_left widen col (f32_max, f32_lowest)) as [lo hi] eqn:R. exists lo, hi. split; [exact E|].
  destruct (widen_exact col) as [[L1 L2] [U1 U2]].
  - intros ->. destruct data; [easy|discriminate LC].
  - apply Forall_forall. intros v IN. eapply column_finite; [exact V|]. now apply IC.
  - rewrite R in *. cbn [fst snd] in *. split; (split; [now apply IC|]); intros v Cv; [apply L2|apply U2]; now apply IC.
Qed.

(** ** encode *)
Lemma encode8_nth q : forall v codes, length v = length q -> encode8 q v = Ok codes ->
  length codes = length q /\
  forall j lo hi x, nth_error q j = Some (lo, hi) -> nth_error v j = Some x ->
    exists c, nth_error codes j = Some c /\ quantize 255 x lo hi = Ok c.
Proof.
  induction q as [|[a b] q IH]; intros [|y v] codes LV E; try discriminate LV; cbn [encode8] in E.
  { injection E as <-. split; [reflexivity|]. intros [|j] lo hi x N; discriminate N. }
  destruct (quantize 255 y a b) as [c| | |] eqn:Q; try discriminate E. cbn [bind] in E.
  destruct (encode8 q v) as [rest| | |] eqn:R; try discriminate E. cbn [bind] in E. injection E as <-.
  destruct (IH v rest ltac:(now injection LV) R) as [L N]. split; [cbn; now rewrite L|].
  intros [|j] lo hi x Nq Nv; cbn in Nq, Nv.
  - injection Nq as -> ->. injection Nv as ->. exists c. split; [reflexivity|exact Q].
  - eapply N; eassumption.
Qed.
Lemma encode8_total q : forall v, length v = length q ->
  (forall j lo hi x, nth_error q j = Some (lo, hi) -> nth_error v j = Some x -> exists c, quantize 255 x lo hi = Ok c) ->
  exists codes, encode8 q v = Ok codes.
Proof.
  induction q as [|[a b] q IH]; intros [|y v] LV H; try discriminate LV; cbn [encode8]; [eexists; reflexivity|].
  destruct (H 0 a b y eq_refl eq_refl) as (c & ->). cbn [bind].
  destruct (IH v ltac:(now injection LV)) as (rest & ->).
  { intros j lo hi x N1 N2. apply (H (S j) lo hi x); assumption. }
  cbn [bind]. eexists. reflexivity.
Qed.

Lemma quantize_bound15 x lo hi c : quantize 15 x lo hi = Ok c -> is_nan x = false -> proper lo hi \/ Beqb hi lo = true -> width_fits lo hi -> (c <= 15)%N.
Proof.
  intros Q NN [PR|E] W.
  - destruct (quantize_code lo hi PR W 15 x ltac:(lia) NN) as (c' & Q' & B). rewrite Q in Q'. injection Q' as <-. exact B.
  - unfold quantize in Q. rewrite E in Q. injection Q as <-. lia.
Qed.

Lemma nibbles a b : (a <= 15)%N -> (b <= 15)%N ->
  (N.lor (N.shiftl a 4 mod 256) b / 16 = a)%N /\ (N.lor (N.shiftl a 4 mod 256) b mod 16 = b)%N.
Proof.
  intros A B.
  assert (CA : In a (map N.of_nat (seq 0 16))) by (apply in_map_iff; exists (N.to_nat a); split; [lia|apply in_seq; lia]).
  assert (CB : In b (map N.of_nat (seq 0 16))) by (apply in_map_iff; exists (N.to_nat b); split; [lia|apply in_seq; lia]).
  cbn in CA, CB.
  repeat destruct CA as [ <- |CA]; try destruct CA; repeat destruct CB as [ <- |CB]; try destruct CB; split; reflexivity.
Qed.

(** The quantizer's range of each dimension can be used *)
Definition usable (q : quantizer) : Prop :=
  forall j lo hi, nth_error q j = Some (lo, hi) -> (proper lo hi \/ Beqb hi lo = true) /\ width_fits lo hi.

Lemma pair_ind {A} (P : list A -> Prop) : P [] -> (forall a, P [a]) -> (forall a b l, P l -> P (a :: b :: l)) -> forall l, P l.
Proof. intros H0 H1 H2. fix F 1. intros [|a [|b l]]; [exact H0|exact (H1 a)|exact (H2 a b l (F l))]. Qed.

Lemma usable_code (q : quantizer) j top x lo hi : usable q -> (0 <= top <= 255)%Z -> is_nan x = false -> nth_error q j = Some (lo, hi) ->
  exists c, quantize top x lo hi = Ok c /\ (c <= Z.to_N top)%N.
Proof.
  intros U T NN N. destruct (U j lo hi N) as [[PR|E] W]; [now apply quantize_code|].
  exists 0%N. unfold quantize. rewrite E. split; [reflexivity|lia].
Qed.
Lemma usable_tl2 r r' (q : quantizer) : usable (r :: r' :: q) -> usable q.
Proof. intros U j lo hi N. apply (U (S (S j)) lo hi N). Qed.

Lemma even_SS j : Nat.even (S (S j)) = Nat.even j. Proof. reflexivity. Qed.
Lemma half_SS j : S (S j) / 2 = S (j / 2).
Proof. replace (S (S j)) with (j + 1 * 2) by lia. rewrite Nat.div_add by lia. lia. Qed.
Lemma packed_SS b bytes j : packed (b :: bytes) (S (S j)) = packed bytes j.
Proof. unfold packed. rewrite half_SS. reflexivity. Qed.

Lemma encode4_ok q : forall v, usable q -> length v = length q -> Forall (fun x : f32 => is_nan x = false) v ->
  exists bytes, encode4 q v = Ok bytes /\ length bytes = (length q + 1) / 2 /\
    forall j lo hi x, nth_error q j = Some (lo, hi) -> nth_error v j = Some x ->
      exists c, packed bytes j = Some c /\ quantize 15 x lo hi = Ok c.
Proof.
  induction q as [|[a b]|[a b] [a' b'] q IH] using pair_ind; intros v U LV F.
  - destruct v; [|discriminate LV]. exists []. split; [reflexivity|]. split; [reflexivity|]. intros [|j] lo hi x N; discriminate N.
  - destruct v as [|y [|y' v]]; try discriminate LV. apply Forall_cons_iff in F as [Fy _].
    destruct (usable_code _ 0 15 y a b U ltac:(lia) Fy eq_refl) as (c & Q & B). cbn [encode4]. rewrite Q. cbn [bind].
    eexists. split; [reflexivity|]. split; [reflexivity|].
    intros [|[|j]] lo hi x Nq Nv; try discriminate Nq. injection Nq as <- <-. injection Nv as <-.
    exists c. split; [|exact Q]. unfold packed. cbn [Nat.div Nat.divmod fst nth_error Nat.even].
    destruct (nibbles c 0) as [E _]; [exact B|lia|]. now rewrite E.
  - destruct v as [|y [|y' v]]; try discriminate LV. apply Forall_cons_iff in F as [Fy F]. apply Forall_cons_iff in F as [Fy' F].
    destruct (usable_code _ 0 15 y a b U ltac:(lia) Fy eq_refl) as (c & Q & B).
    destruct (usable_code _ 1 15 y' a' b' U ltac:(lia) Fy' eq_refl) as (c' & Q' & B').
    destruct (IH v (usable_tl2 _ _ _ U) ltac:(cbn in LV; lia) F) as (rest & E & L & N).
    cbn [encode4]. rewrite Q, Q', E. cbn [bind]. destruct (nibbles c c' B B') as [E1 E2].
    eexists. split; [reflexivity|]. split.
    { cbn [length]. rewrite L. replace (S (S (length q)) + 1) with (length q + 1 + 1 * 2) by lia. rewrite Nat.div_add by lia. lia. }
    intros [|[|j]] lo hi x Nq Nv.
    + injection Nq as <- <-. injection Nv as <-. exists c. split; [|exact Q]. unfold packed. cbn [Nat.div Nat.divmod fst nth_error Nat.even]. now rewrite E1.
    + injection Nq as <- <-. injection Nv as <-. exists c'. split; [|exact Q']. unfold packed. cbn [Nat.div Nat.divmod fst nth_error Nat.even]. now rewrite E2.
    + rewrite packed_SS. eapply N; eassumption.
Qed.

(** The quantizer fitted to data is usable when the widths fit *)
Lemma fit_usable dim data : vectors dim data -> data <> [] ->
  (forall j v w, column j data v -> column j data w -> (real v - real w <= real f32_max)%R) ->
  usable (fit (new_quantizer dim) data).
Proof.
  intros V NE W j lo hi N.
  assert (J : j < dim).
  { rewrite <- (fit_length dim data V (new_quantizer dim)) by apply repeat_length. apply nth_error_Some. now rewrite N. }
  destruct (fit_column dim data j V NE J) as (lo' & hi' & E & [L1 L2] & [U1 U2]). rewrite N in E. injection E as <- <-.
  pose proof (column_finite _ _ _ _ V L1) as FL. pose proof (column_finite _ _ _ _ V U1) as FU.
  split; [|now apply W with j].
  pose proof (L2 hi U1) as LE. destruct (Req_dec (real lo) (real hi)) as [EQ|NEQ].
  - right. apply eqb_real; [assumption..|congruence].
  - left. split; [exact FL|]. split; [exact FU|]. lra.
Qed.
