From Coq Require Import ZArith Reals Lra Lia Bool List Arith.
From Flocq Require Import Core Plus_error Relative IEEE754.BinarySingleNaN.
From Verif Require Export SqDistSpec.
From Verif Require Import FloatLemmas QuantProofs.

Notation u := unit.
Lemma u_val : unit = (/ 16777216)%R. Proof. reflexivity. Qed.
Lemma u_pos : (0 < unit)%R. Proof. rewrite u_val. lra. Qed.
Lemma tiny_pos : (0 < tiny)%R. Proof. apply bpow_gt_0. Qed.
Lemma tiny_small : (tiny <= u * u * u)%R.
Proof.
  apply Rle_trans with (bpow radix2 (-72)); [apply bpow_le; lia|].
  replace u with (bpow radix2 (-24)) by (unfold unit; cbn; lra). rewrite <- !bpow_plus. apply Rle_refl.
Qed.

Lemma error (x : R) : exists e h, (- u <= e <= u)%R /\ (- tiny <= 2 * h <= tiny)%R /\ rnd x = (x * (1 + e) + h)%R.
Proof.
  destruct (error_N_FLT radix2 (-149) 24 eq_refl (fun x => negb (Z.even x)) x) as (e & h & He & Hh & _ & E).
  exists e, h. apply Rabs_le_inv in He, Hh. change (bpow radix2 (-149)) with tiny in Hh.
  split; [|split; [lra|exact E]]. unfold unit. cbn in He. lra.
Qed.
Lemma sub_error (x y : f32) : exists e, (- u <= e <= u)%R /\ rnd (real x - real y) = ((real x - real y) * (1 + e))%R.
Proof. destruct (rnd_sub_error x y) as (e & He & E). exists e. apply Rabs_le_inv in He. split; [exact He|exact E]. Qed.

Lemma add_error (x y : f32) : exists e, (- u <= e <= u)%R /\ rnd (real x + real y) = ((real x + real y) * (1 + e))%R.
Proof.
  destruct (sub_error x (Bopp y)) as (e & He & E). unfold real in E at 2 4. rewrite B2R_Bopp in E.
  change (B2R y) with (real y) in E. exists e. split; [exact He|].
  replace (real x + real y)%R with (real x - - real y)%R by ring. exact E.
Qed.

(** ** Finite results *)
Lemma mul_inv (x y : f32) : is_finite (f32_mul x y) = true ->
  is_finite x = true /\ is_finite y = true /\ real (f32_mul x y) = rnd (real x * real y).
Proof.
  intros F. pose proof (Bmult_correct _ _ f32_prec_pos f32_prec_lt mode_NE x y) as C.
  assert (FX : is_finite x = true /\ is_finite y = true).
  { destruct x as [| | |], y as [| | |]; try discriminate F; auto. }
  split; [apply FX|split; [apply FX|]].
  change (Bmult mode_NE x y) with (f32_mul x y) in C.
  destruct (Rlt_bool_spec (Rabs (round radix2 (SpecFloat.fexp f32_prec f32_emax) (round_mode mode_NE) (B2R x * B2R y))) (bpow radix2 f32_emax)); [apply C|].
  destruct (f32_mul x y); cbn in F, C; try discriminate F; discriminate C.
Qed.
Lemma add_inv (x y : f32) : is_finite (f32_add x y) = true ->
  is_finite x = true /\ is_finite y = true /\ real (f32_add x y) = rnd (real x + real y).
Proof.
  intros F.
  assert (FX : is_finite x = true /\ is_finite y = true).
  { destruct x as [|[]| |], y as [|[]| |]; try discriminate F; auto. }
  split; [apply FX|split; [apply FX|]].
  pose proof (Bplus_correct _ _ f32_prec_pos f32_prec_lt mode_NE x y (proj1 FX) (proj2 FX)) as C.
  change (Bplus mode_NE x y) with (f32_add x y) in C.
  destruct (Rlt_bool_spec (Rabs (round radix2 (SpecFloat.fexp f32_prec f32_emax) (round_mode mode_NE) (B2R x + B2R y))) (bpow radix2 f32_emax)); [apply C|].
  destruct C as [C _]. destruct (f32_add x y); cbn in F, C; try discriminate F; discriminate C.
Qed.
Lemma sub_inv (x y : f32) : is_finite x = true -> is_finite y = true -> is_finite (f32_sub x y) = true ->
  real (f32_sub x y) = rnd (real x - real y).
Proof.
  intros FX FY F. pose proof (sub_finite _ _ f32_prec_pos f32_prec_lt x y FX FY F) as B.
  destruct (sub_ok _ _ f32_prec_pos f32_prec_lt x y FX FY B) as [E _]. exact E.
Qed.

(** ** One dimension *)
Lemma inverse_ok top : (1 <= top <= 255)%Z ->
  is_finite (inverse top) = true /\ exists e, (- (2 * u) <= e <= 2 * u)%R /\ real (inverse top) = (/ IZR top * (1 + e))%R.
Proof.
  intros T. destruct (of_small top ltac:(lia)) as [E F]. pose proof one_real as E1.
  assert (TR : (1 <= IZR top <= 255)%R) by (split; apply IZR_le; lia).
  assert (Q : (real (f32_of 1) / real (f32_of top))%R = (/ IZR top)%R) by (rewrite E1, E; field; lra).
  assert (Q' : (0 <= / IZR top <= 1)%R).
  { split; [left; apply Rinv_0_lt_compat; lra|]. rewrite <- Rinv_1. apply Rinv_le; lra. }
  destruct (div_ok _ _ f32_prec_pos f32_prec_lt (f32_of 1) (f32_of top)) as [DE DF].
  - apply (of_small 1). lia.
  - unfold real in E. rewrite E. lra.
  - unfold real in Q. rewrite Q. apply (rnd_lt_big _ _ f32_prec_pos _ (f32_of 1)). unfold real in E1. rewrite E1. exact Q'.
  - split; [exact DF|]. unfold inverse, f32_div. unfold real at 1. rewrite DE. change (B2R (f32_of 1) / B2R (f32_of top))%R with (real (f32_of 1) / real (f32_of top))%R.
    rewrite Q. destruct (error (/ IZR top)) as (e & h & He & Hh & ->). exists (e + IZR top * h)%R.
    pose proof tiny_small as TS. pose proof u_pos. assert (tiny <= u / 1000)%R by (rewrite u_val in *; lra).
    split; [nra|]. field. lra.
Qed.

Lemma code_diff x y : (x <= 255)%N -> (y <= 255)%N ->
  is_finite (f32_sub (of_code x) (of_code y)) = true /\
  real (f32_sub (of_code x) (of_code y)) = (IZR (Z.of_N x) - IZR (Z.of_N y))%R.
Proof.
  intros HX HY. destruct (of_small (Z.of_N x) ltac:(lia)) as [EX FX]. destruct (of_small (Z.of_N y) ltac:(lia)) as [EY FY].
  assert (R : rnd (real (of_code x) - real (of_code y)) = (IZR (Z.of_N x) - IZR (Z.of_N y))%R).
  { unfold of_code. rewrite EX, EY, <- minus_IZR.
    destruct (of_int f32_prec f32_emax f32_prec_pos f32_prec_lt (Z.of_N x - Z.of_N y) false) as [E _].
    { change (2 ^ f32_prec)%Z with 16777216%Z. lia. }
    rewrite <- E. apply rnd_id. }
  destruct (sub_ok _ _ f32_prec_pos f32_prec_lt (of_code x) (of_code y) FX FY) as [E F].
  - change (B2R (of_code x) - B2R (of_code y))%R with (real (of_code x) - real (of_code y))%R. rewrite R, <- minus_IZR, <- abs_IZR.
    change (bpow radix2 f32_emax) with (IZR (2 ^ 128)). apply IZR_lt. lia.
  - split; [exact F|]. unfold f32_sub. unfold real at 1. rewrite E. exact R.
Qed.

Lemma square_algebra D b g e h : (- (6 * u) <= b <= 6 * u)%R -> (- (130 * tiny) <= g <= 130 * tiny)%R ->
  (- u <= e <= u)%R -> (- tiny <= 2 * h <= tiny)%R ->
  (Rabs ((D * (1 + b) + g) * (D * (1 + b) + g) * (1 + e) + h - D * D) <= 16 * u * (D * D) + tiny)%R.
Proof.
  intros Hb Hg He Hh. pose proof tiny_pos as TP. pose proof tiny_small as TS. pose proof u_pos as UP.
  assert (U1 : (u <= / 16777216)%R) by (rewrite u_val; lra).
  set (k := ((1 + b) * g)%R). assert (Hk : (- (131 * tiny) <= k <= 131 * tiny)%R) by (unfold k; nra).
  assert (TT : (tiny * tiny <= u * u * u * tiny)%R) by (apply Rmult_le_compat_r; lra).
  assert (K2 : (k * k <= 17161 * (u * u * u * tiny))%R) by nra.
  assert (G2 : (0 <= g * g <= tiny / 100)%R).
  { split; [nra|]. assert (g * g <= 16900 * (u * u * u * tiny))%R by nra.
    assert (u * u * u <= / 16777216 / 16777216)%R by nra. nra. }
  assert (KU : (k * k / u <= tiny / 100)%R).
  { apply Rmult_le_reg_r with u; [exact UP|]. unfold Rdiv at 1. rewrite Rmult_assoc, Rinv_l by lra.
    assert (17161 * (u * u * u * tiny) <= u * (tiny / 100))%R; [|lra].
    assert (u * u <= / 16777216 / 16777216)%R by nra. nra. }
  assert (C1 : (2 * D * k <= u * (D * D) + k * k / u)%R).
  { assert (S : (0 <= (u * D - k) * (u * D - k) / u)%R) by (apply Rmult_le_pos; [apply Rle_0_sqr|left; now apply Rinv_0_lt_compat]).
    replace ((u * D - k) * (u * D - k) / u)%R with (u * (D * D) - 2 * D * k + k * k / u)%R in S by (field; lra). lra. }
  assert (C2 : (- (u * (D * D) + k * k / u) <= 2 * D * k)%R).
  { assert (S : (0 <= (u * D + k) * (u * D + k) / u)%R) by (apply Rmult_le_pos; [apply Rle_0_sqr|left; now apply Rinv_0_lt_compat]).
    replace ((u * D + k) * (u * D + k) / u)%R with (u * (D * D) + 2 * D * k + k * k / u)%R in S by (field; lra). lra. }
  assert (D2 : (0 <= D * D)%R) by apply Rle_0_sqr.
  assert (B2 : (- (12 * u) <= (1 + b) * (1 + b) - 1 <= 13 * u)%R) by nra.
  set (X := ((D * (1 + b) + g) * (D * (1 + b) + g))%R).
  assert (XE : X = (D * D + (((1 + b) * (1 + b) - 1) * (D * D) + 2 * D * k + g * g))%R) by (unfold X, k; ring).
  set (d := (((1 + b) * (1 + b) - 1) * (D * D) + 2 * D * k + g * g)%R) in *.
  assert (Hd : (- (14 * u * (D * D) + tiny / 10) <= d <= 14 * u * (D * D) + tiny / 10)%R) by (unfold d; nra).
  rewrite XE. apply Rabs_le.
  replace ((D * D + d) * (1 + e) + h - D * D)%R with (d + d * e + (D * D) * e + h)%R by ring.
  assert (DE : (- (u * (14 * u * (D * D) + tiny / 10)) <= d * e <= u * (14 * u * (D * D) + tiny / 10))%R).
  { set (M := (14 * u * (D * D) + tiny / 10)%R) in *. assert (0 <= M)%R by (unfold M; nra). nra. }
  assert (UU : (u * (14 * u * (D * D) + tiny / 10) <= u * (D * D) / 2 + tiny / 10)%R).
  { assert (u * u * (D * D) <= / 16777216 * (u * (D * D)))%R by nra. nra. }
  split; nra.
Qed.

Lemma term_ok top lo hi x y : (1 <= top <= 255)%Z -> (x <= 255)%N -> (y <= 255)%N ->
  is_finite lo = true -> is_finite hi = true -> is_finite (l2_term top lo hi x y) = true ->
  let D := (decoded top lo hi x - decoded top lo hi y)%R in
  (Rabs (real (l2_term top lo hi x y) - D * D) <= 16 * u * (D * D) + tiny)%R.
Proof.
  intros T HX HY FL FH F D. unfold l2_term in *. cbn zeta in *.
  destruct (code_diff x y HX HY) as [FD ED]. destruct (inverse_ok top T) as (FI & e0 & H0 & EI).
  set (diff := f32_sub (of_code x) (of_code y)) in *. set (inv := inverse top) in *.
  destruct (mul_inv _ _ F) as (F1 & _ & ->). destruct (mul_inv _ _ F1) as (_ & F2 & ->).
  destruct (mul_inv _ _ F2) as (F3 & _ & ->). rewrite (sub_inv hi lo FH FL F3), ED, EI.
  destruct (sub_error hi lo) as (e1 & H1 & ->).
  assert (TR : (1 <= IZR top <= 255)%R) by (split; apply IZR_le; lia).
  destruct (error ((real hi - real lo) * (1 + e1) * (/ IZR top * (1 + e0)))) as (e2 & h2 & H2 & G2 & ->).
  set (d := (IZR (Z.of_N x) - IZR (Z.of_N y))%R).
  assert (Hd : (- 255 <= d <= 255)%R).
  { unfold d. assert (0 <= IZR (Z.of_N x) <= 255)%R by (split; apply IZR_le; lia). assert (0 <= IZR (Z.of_N y) <= 255)%R by (split; apply IZR_le; lia). lra. }
  set (s := ((real hi - real lo) * (1 + e1) * (/ IZR top * (1 + e0)) * (1 + e2) + h2)%R).
  destruct (error (d * s)) as (e3 & h3 & H3 & G3 & ->).
  set (z := (d * s * (1 + e3) + h3)%R).
  destruct (error (z * z)) as (e4 & h4 & H4 & G4 & ->).
  assert (ED' : D = (d * (real hi - real lo) / IZR top)%R) by (unfold D, d, decoded; field; lra).
  set (b := ((1 + e1) * (1 + e0) * (1 + e2) * (1 + e3) - 1)%R). set (g := (d * h2 * (1 + e3) + h3)%R).
  assert (Z : z = (D * (1 + b) + g)%R) by (unfold z, s, b, g; rewrite ED'; field; lra).
  pose proof tiny_pos as TP. pose proof u_pos as UP. assert (U1 : (u <= / 16777216)%R) by (rewrite u_val; lra).
  rewrite Z. apply square_algebra; [|  |exact H4|exact G4].
  - unfold b. assert (A : (- (31 / 10 * u) <= (1 + e1) * (1 + e0) - 1 <= 31 / 10 * u)%R) by nra.
    assert (B : (- (21 / 10 * u) <= (1 + e2) * (1 + e3) - 1 <= 21 / 10 * u)%R) by nra.
    replace ((1 + e1) * (1 + e0) * (1 + e2) * (1 + e3))%R with (((1 + e1) * (1 + e0)) * ((1 + e2) * (1 + e3)))%R by ring.
    set (p := ((1 + e1) * (1 + e0))%R) in *. set (q := ((1 + e2) * (1 + e3))%R) in *. nra.
  - unfold g. assert (A : (- (128 * tiny) <= d * h2 <= 128 * tiny)%R) by nra. nra.
Qed.

(** ** Sums *)
Lemma pow_ge_1 n : (1 <= (1 + u) ^ n)%R.
Proof. pose proof u_pos. apply pow_R1_Rle. lra. Qed.
Lemma pow_16 n : (16 * u <= (1 + u) ^ (n + 16) - 1)%R.
Proof.
  pose proof u_pos. rewrite pow_add. pose proof (pow_ge_1 n).
  assert (1 + INR 16 * u <= (1 + u) ^ 16)%R by (apply poly; lra). cbn [INR] in H1.
  assert (0 <= (1 + u) ^ 16)%R by lra. nra.
Qed.
Lemma close_step n s S t T e : close n s S -> (0 <= S)%R -> (0 <= T)%R -> (Rabs (t - T) <= 16 * u * T + tiny)%R -> (- u <= e <= u)%R ->
  close (Datatypes.S n) ((s + t) * (1 + e)) (S + T).
Proof.
  unfold close. intros C HS HT Ht He. apply Rabs_le_inv in C, Ht. pose proof (pow_16 n) as P16. pose proof (pow_ge_1 n) as P1.
  pose proof u_pos as UP. pose proof tiny_pos as TP.
  replace (Datatypes.S n + 16) with (Datatypes.S (n + 16)) by lia. rewrite S_INR. cbn [pow].
  set (P := ((1 + u) ^ (n + 16))%R) in *. set (Q := ((1 + u) ^ n)%R) in *.
  pose proof (pos_INR n) as HN. set (N := INR n) in *.
  assert (TQ : (tiny <= Q * tiny)%R) by nra.
  assert (NQ : (0 <= N * Q * tiny)%R) by (apply Rmult_le_pos; [apply Rmult_le_pos; lra|lra]).
  set (B := (N * Q * tiny)%R) in *.
  assert (A : (- ((P - 1) * (S + T) + B + tiny) <= s + t - (S + T) <= (P - 1) * (S + T) + B + tiny)%R) by nra.
  set (a := (s + t - (S + T))%R) in *. set (V := (S + T)%R) in *. assert (HV : (0 <= V)%R) by (unfold V; lra).
  replace ((s + t) * (1 + e) - V)%R with (a * (1 + e) + V * e)%R by (unfold a; ring).
  set (M := ((P - 1) * V + B + tiny)%R) in *. assert (HM : (0 <= M)%R) by (unfold M; nra).
  assert (AE : (- (M * (1 + u)) <= a * (1 + e) <= M * (1 + u))%R).
  { assert (U1 : (u <= 1)%R) by (rewrite u_val; lra). nra. }
  assert (VE : (- (V * u) <= V * e <= V * u)%R) by nra.
  assert (ME : (M * (1 + u) + V * u <= ((1 + u) * P - 1) * V + (N + 1) * ((1 + u) * Q) * tiny)%R).
  { unfold M, B. assert (tiny * (1 + u) <= Q * tiny * (1 + u))%R by nra. nra. }
  apply Rabs_le. lra.
Qed.

Lemma sq_dist_nonneg top q : forall x y, (0 <= sq_dist top q x y)%R.
Proof.
  induction q as [|[lo hi] q IH]; intros [|cx x] [|cy y]; cbn [sq_dist]; try lra.
  pose proof (IH x y). set (a := (decoded top lo hi cx - decoded top lo hi cy)%R). assert (0 <= a * a)%R by apply Rle_0_sqr. lra.
Qed.

Lemma l2_sq8_close q : forall x y sum n S r, finite_ranges q -> Forall (fun c => (c <= 255)%N) x -> Forall (fun c => (c <= 255)%N) y ->
  close n (real sum) S -> (0 <= S)%R -> l2_sq8_from sum q x y = Ok r -> is_finite r = true ->
  is_finite sum = true /\ close (n + length q) (real r) (S + sq_dist 255 q x y).
Proof.
  induction q as [|[lo hi] q IH]; intros x y sum n S r FR BX BY C HS E F; cbn [l2_sq8_from] in E.
  { injection E as <-. split; [exact F|]. cbn [length sq_dist]. rewrite Nat.add_0_r, Rplus_0_r. exact C. }
  destruct x as [|cx x]; [discriminate E|]. destruct y as [|cy y]; [discriminate E|].
  apply Forall_cons_iff in FR as [[FL FH] FR]. apply Forall_cons_iff in BX as [HX BX]. apply Forall_cons_iff in BY as [HY BY]. cbn [fst snd] in FL, FH.
  set (D := (decoded 255 lo hi cx - decoded 255 lo hi cy)%R).
  assert (DD : (0 <= D * D)%R) by apply Rle_0_sqr.
  (* the sum is finite, so is the term *)
  assert (FS : is_finite (f32_add sum (l2_term 255 lo hi cx cy)) = true).
  { revert E F. generalize (f32_add sum (l2_term 255 lo hi cx cy)). clear. revert x y. induction q as [|[lo hi] q IH]; intros x y s E F; cbn [l2_sq8_from] in E.
    - now injection E as <-.
    - destruct x as [|cx x]; [discriminate E|]. destruct y as [|cy y]; [discriminate E|].
      apply (IH _ _ _ E) in F. apply add_inv in F. apply F. }
  destruct (add_inv _ _ FS) as (F1 & F2 & RS).
  assert (C' : close (Datatypes.S n) (real (f32_add sum (l2_term 255 lo hi cx cy))) (S + D * D)).
  { rewrite RS. destruct (add_error sum (l2_term 255 lo hi cx cy)) as (e & He & ->).
    apply close_step; auto. apply term_ok; auto. lia. }
  destruct (IH x y _ _ _ r FR BX BY C' ltac:(lra) E F) as [_ R]. split; [exact F1|].
  cbn [length sq_dist]. fold D. replace (n + Datatypes.S (length q)) with (Datatypes.S n + length q) by lia.
  replace (S + (D * D + sq_dist 255 q x y))%R with (S + D * D + sq_dist 255 q x y)%R by ring. exact R.
Qed.

Lemma l2_sq4_finite q : forall x y s r, l2_sq4_from s q x y = Ok r -> is_finite r = true -> is_finite s = true.
Proof.
  induction q as [|[lo hi]|[lo hi] [lo' hi'] q IH] using pair_ind; intros x y s r E F; cbn [l2_sq4_from] in E.
  - now injection E as <-.
  - destruct x as [|cx x]; [discriminate E|]. destruct y as [|cy y]; [discriminate E|]. injection E as <-. apply add_inv in F. apply F.
  - destruct x as [|cx x]; [discriminate E|]. destruct y as [|cy y]; [discriminate E|].
    apply (IH _ _ _ _ E) in F. apply add_inv in F as [F _]. apply add_inv in F. apply F.
Qed.

Lemma land_15 b : N.land b 15 = (b mod 16)%N.
Proof. change 15%N with (N.ones 4). apply N.land_ones. Qed.
Lemma shiftr_4 b : (b <= 255)%N -> N.land (N.shiftr b 4) 15 = (b / 16)%N.
Proof.
  intros H. rewrite N.shiftr_div_pow2, land_15. change (2 ^ 4)%N with 16%N. apply N.mod_small. apply N.div_lt_upper_bound; lia.
Qed.
Lemma mod_16 b : (b mod 16 <= 255)%N.
Proof. pose proof (N.mod_lt b 16 ltac:(lia)). lia. Qed.
Lemma div_16 b : (b <= 255)%N -> (b / 16 <= 255)%N.
Proof. intros H. assert (b / 16 < 16)%N by (apply N.div_lt_upper_bound; lia). lia. Qed.

Lemma add_close n sum S top lo hi x y : close n (real sum) S -> (0 <= S)%R -> (1 <= top <= 255)%Z -> (x <= 255)%N -> (y <= 255)%N ->
  is_finite lo = true -> is_finite hi = true -> is_finite (f32_add sum (l2_term top lo hi x y)) = true ->
  close (Datatypes.S n) (real (f32_add sum (l2_term top lo hi x y)))
    (S + (decoded top lo hi x - decoded top lo hi y) * (decoded top lo hi x - decoded top lo hi y)).
Proof.
  intros C HS T HX HY FL FH F. destruct (add_inv _ _ F) as (F1 & F2 & ->).
  destruct (add_error sum (l2_term top lo hi x y)) as (e & He & ->).
  apply close_step; auto. { apply Rle_0_sqr. } apply term_ok; auto.
Qed.

Lemma l2_sq4_close q : paired q -> forall x y sum n S r, finite_ranges q -> Forall (fun c => (c <= 255)%N) x -> Forall (fun c => (c <= 255)%N) y ->
  close n (real sum) S -> (0 <= S)%R -> l2_sq4_from sum q x y = Ok r -> is_finite r = true ->
  close (n + length q) (real r) (S + sq_dist 15 q (codes4 x) (codes4 y)).
Proof.
  induction 1 as [|[lo hi] q PQ IH]; intros x y sum n S r FR BX BY C HS E F; cbn [l2_sq4_from] in E.
  { injection E as <-. cbn [length sq_dist]. rewrite Nat.add_0_r, Rplus_0_r. exact C. }
  destruct x as [|cx x]; [discriminate E|]. destruct y as [|cy y]; [discriminate E|].
  apply Forall_cons_iff in FR as [[FL FH] FR]. apply Forall_cons_iff in FR as [_ FR].
  apply Forall_cons_iff in BX as [HX BX]. apply Forall_cons_iff in BY as [HY BY]. cbn [fst snd] in FL, FH.
  rewrite !shiftr_4 in E by assumption. rewrite !land_15 in E.
  pose proof (l2_sq4_finite _ _ _ _ _ E F) as F2. pose proof (proj1 (add_inv _ _ F2)) as F1.
  pose proof (add_close n sum S 15 lo hi _ _ C HS ltac:(lia) (mod_16 cx) (mod_16 cy) FL FH F1) as C1.
  set (D1 := (decoded 15 lo hi (cx mod 16) - decoded 15 lo hi (cy mod 16))%R) in *.
  assert (DD1 : (0 <= D1 * D1)%R) by apply Rle_0_sqr.
  pose proof (add_close _ _ _ 15 lo hi _ _ C1 ltac:(lra) ltac:(lia) (div_16 cx HX) (div_16 cy HY) FL FH F2) as C2.
  set (D2 := (decoded 15 lo hi (cx / 16) - decoded 15 lo hi (cy / 16))%R) in *.
  assert (DD2 : (0 <= D2 * D2)%R) by apply Rle_0_sqr.
  pose proof (IH x y _ _ _ r FR BX BY C2 ltac:(lra) E F) as R.
  cbn [codes4 flat_map app length sq_dist]. fold (codes4 x) (codes4 y) D1 D2.
  replace (n + Datatypes.S (Datatypes.S (length q))) with (Datatypes.S (Datatypes.S n) + length q) by lia.
  replace (S + (D2 * D2 + (D1 * D1 + sq_dist 15 q (codes4 x) (codes4 y))))%R
    with (S + D1 * D1 + D2 * D2 + sq_dist 15 q (codes4 x) (codes4 y))%R by ring. exact R.
Qed.

Lemma close_0 : close 0 (real (f32_of 0)) 0.
Proof. unfold close. change (real (f32_of 0)) with 0%R. rewrite Rminus_0_r, Rabs_R0. cbn [INR]. lra. Qed.

(** The value a code stands for is near the value it was made from *)
Lemma decoded_near top v lo hi c : (1 <= top <= 255)%Z -> proper lo hi -> width_fits lo hi -> is_finite v = true ->
  (real lo <= real v <= real hi)%R -> quantize top v lo hi = Ok c ->
  (Rabs (decoded top lo hi c - real v) <= (1 + / 1000) / IZR top * (real hi - real lo))%R.
Proof.
  intros T P W F H Q. pose proof (quantize_close lo hi P W top v c ltac:(lia) F H Q) as [A B].
  destruct P as (_ & _ & LT). assert (TR : (1 <= IZR top <= 255)%R) by (split; apply IZR_le; lia).
  unfold decoded. set (w := (real hi - real lo)%R) in *. assert (HW : (0 < w)%R) by (unfold w; lra).
  assert (E : (real v = real lo + place top v lo hi / IZR top * w)%R) by (unfold place; fold w; field; split; lra).
  rewrite E. set (p := place top v lo hi) in *. set (k := IZR (Z.of_N c)) in *.
  replace (real lo + k / IZR top * w - (real lo + p / IZR top * w))%R with ((k - p) * (w / IZR top))%R by (field; lra).
  replace ((1 + / 1000) / IZR top * w)%R with ((1 + / 1000) * (w / IZR top))%R by (field; lra).
  assert (K : (0 < w / IZR top)%R) by (apply Rdiv_lt_0_compat; lra).
  rewrite Rabs_mult, (Rabs_pos_eq (w / IZR top)) by lra. apply Rmult_le_compat_r; [lra|]. apply Rabs_le. lra.
Qed.

Lemma l2_sq8_ok q : forall x y sum, length x = length q -> length y = length q -> exists r, l2_sq8_from sum q x y = Ok r.
Proof.
  induction q as [|[lo hi] q IH]; intros [|cx x] [|cy y] sum LX LY; try discriminate LX; try discriminate LY; cbn [l2_sq8_from]; [eauto|].
  apply IH; [now injection LX|now injection LY].
Qed.

(** ** Inner products *)
Lemma product_algebra m vx vy dx dy e h : (0 <= m)%R -> (- m <= vx <= m)%R -> (- m <= vy <= m)%R ->
  (- (8 * u * m + 131 * tiny) <= dx <= 8 * u * m + 131 * tiny)%R -> (- (8 * u * m + 131 * tiny) <= dy <= 8 * u * m + 131 * tiny)%R ->
  (- u <= e <= u)%R -> (- tiny <= 2 * h <= tiny)%R ->
  (Rabs ((vx + dx) * (vy + dy) * (1 + e) + h - vx * vy) <= 20 * u * (m * m) + tiny)%R.
Proof.
  intros Hm Hx Hy Hdx Hdy He Hh. pose proof tiny_pos as TP. pose proof tiny_small as TS. pose proof u_pos as UP.
  assert (U1 : (u <= / 16777216)%R) by (rewrite u_val; lra).
  set (K := (131 * tiny)%R) in *. set (E := (8 * u * m + K)%R) in *.
  assert (KP : (0 < K)%R) by (unfold K; lra).
  assert (TT : (tiny * tiny <= u * u * u * tiny)%R) by (apply Rmult_le_compat_r; lra).
  assert (K2 : (K * K <= 17161 * (u * u * u * tiny))%R) by (unfold K; nra).
  assert (UU : (u * u <= / 16777216 / 16777216)%R) by nra.
  assert (KU : (K * K / u <= tiny / 100)%R).
  { apply Rmult_le_reg_r with u; [exact UP|]. unfold Rdiv at 1. rewrite Rmult_assoc, Rinv_l by lra.
    assert (17161 * (u * u * u * tiny) <= u * (tiny / 100))%R; [|lra]. nra. }
  assert (KK : (K * K <= tiny / 1000)%R).
  { assert (u * u * u <= / 16777216 / 16777216)%R by nra. nra. }
  assert (MK : (2 * m * K <= u * (m * m) + tiny / 100)%R).
  { assert (S : (0 <= (u * m - K) * (u * m - K) / u)%R) by (apply Rmult_le_pos; [apply Rle_0_sqr|left; now apply Rinv_0_lt_compat]).
    replace ((u * m - K) * (u * m - K) / u)%R with (u * (m * m) - 2 * m * K + K * K / u)%R in S by (field; lra). lra. }
  set (W := (u * (m * m))%R) in *. assert (HW : (0 <= W)%R) by (unfold W; nra).
  assert (ME : (2 * m * E <= 17 * W + tiny / 100)%R) by (unfold E; replace (2 * m * (8 * u * m + K))%R with (16 * W + 2 * m * K)%R by (unfold W; ring); lra).
  assert (EP : (0 <= E)%R) by (unfold E; nra).
  assert (EE : (E * E <= W / 1000 + tiny / 100)%R).
  { assert (E * E <= 2 * (8 * u * m * (8 * u * m)) + 2 * (K * K))%R by (pose proof (Rle_0_sqr (8 * u * m - K)) as SQ; unfold Rsqr in SQ; unfold E; lra).
    replace (8 * u * m * (8 * u * m))%R with (64 * u * W)%R in H by (unfold W; ring).
    assert (128 * u * W <= W / 1000)%R by nra. lra. }
  set (a := (vx * dy + vy * dx + dx * dy)%R).
  assert (HA : (- (18 * W + tiny / 10) <= a <= 18 * W + tiny / 10)%R).
  { assert (A1 : (- (m * E) <= vx * dy <= m * E)%R) by nra. assert (A2 : (- (m * E) <= vy * dx <= m * E)%R) by nra.
    assert (A3 : (- (E * E) <= dx * dy <= E * E)%R) by nra. unfold a. lra. }
  assert (HV : (- (m * m) <= vx * vy <= m * m)%R) by nra.
  apply Rabs_le. replace ((vx + dx) * (vy + dy) * (1 + e) + h - vx * vy)%R with (a + a * e + vx * vy * e + h)%R by (unfold a; ring).
  assert (AE : (- ((18 * W + tiny / 10) * u) <= a * e <= (18 * W + tiny / 10) * u)%R).
  { set (M := (18 * W + tiny / 10)%R) in *. assert (0 <= M)%R by (unfold M; lra). nra. }
  assert (AU : ((18 * W + tiny / 10) * u <= W / 10 + tiny / 10)%R) by nra.
  assert (VE : (- W <= vx * vy * e <= W)%R) by (unfold W; nra).
  replace (20 * u * (m * m))%R with (20 * W)%R by (unfold W; ring). lra.
Qed.

Lemma decoded_size top lo hi c : (1 <= top)%Z -> (Z.of_N c <= top)%Z -> (- size (lo, hi) <= decoded top lo hi c <= size (lo, hi))%R.
Proof.
  intros T HC. unfold decoded, size. cbn [fst snd]. apply Rabs_le_inv.
  assert (TR : (1 <= IZR top)%R) by (apply IZR_le; lia).
  assert (C0 : (0 <= IZR (Z.of_N c) <= IZR top)%R) by (split; apply IZR_le; lia).
  assert (Q : (0 <= IZR (Z.of_N c) / IZR top <= 1)%R).
  { split; [apply Rmult_le_pos; [lra|left; apply Rinv_0_lt_compat; lra]|]. apply Rmult_le_reg_r with (IZR top); [lra|]. unfold Rdiv. rewrite Rmult_assoc, Rinv_l by lra. lra. }
  eapply Rle_trans; [apply Rabs_triang|]. apply Rplus_le_compat_l. rewrite Rabs_mult, (Rabs_pos_eq (IZR (Z.of_N c) / IZR top)) by lra.
  pose proof (Rabs_pos (real hi - real lo)). nra.
Qed.
Lemma size_nonneg r : (0 <= size r)%R.
Proof. unfold size. pose proof (Rabs_pos (real (fst r))). pose proof (Rabs_pos (real (snd r) - real (fst r))). lra. Qed.
Lemma mul_in x A y B : (- A <= x <= A)%R -> (- B <= y <= B)%R -> (- (A * B) <= x * y <= A * B)%R.
Proof.
  intros HX HY. apply Rabs_le_inv. rewrite Rabs_mult. apply Rmult_le_compat; try apply Rabs_pos; now apply Rabs_le.
Qed.
(** The value decoded by the inner product *)
Lemma value_ok top lo hi c : (1 <= top <= 255)%Z -> (Z.of_N c <= top)%Z -> is_finite lo = true -> is_finite hi = true ->
  let v := f32_add lo (f32_mul (of_code c) (f32_mul (f32_sub hi lo) (inverse top))) in
  is_finite v = true -> exists d, (- (8 * u * size (lo, hi) + 131 * tiny) <= d <= 8 * u * size (lo, hi) + 131 * tiny)%R /\ real v = (decoded top lo hi c + d)%R.
Proof.
  intros T HC FL FH v F. unfold v in *. destruct (of_small (Z.of_N c) ltac:(lia)) as [EC FC]. destruct (inverse_ok top T) as (FI & e0 & H0 & EI).
  set (inv := inverse top) in *. destruct (add_inv _ _ F) as (_ & F1 & RV).
  set (p := f32_mul (of_code c) (f32_mul (f32_sub hi lo) inv)) in *. destruct (add_error lo p) as (e4 & H4 & EV). rewrite EV in RV. rewrite RV.
  destruct (mul_inv _ _ F1) as (_ & F2 & RP). destruct (mul_inv _ _ F2) as (F3 & _ & RS). fold p in RP. rewrite RP, RS, (sub_inv hi lo FH FL F3), EI. unfold of_code. rewrite EC.
  destruct (sub_error hi lo) as (e1 & H1 & ->).
  assert (TR : (1 <= IZR top <= 255)%R) by (split; apply IZR_le; lia).
  destruct (error ((real hi - real lo) * (1 + e1) * (/ IZR top * (1 + e0)))) as (e2 & h2 & H2 & G2 & ->).
  set (s := ((real hi - real lo) * (1 + e1) * (/ IZR top * (1 + e0)) * (1 + e2) + h2)%R).
  destruct (error (IZR (Z.of_N c) * s)) as (e3 & h3 & H3 & G3 & ->).
  set (k := IZR (Z.of_N c)). assert (Hk : (0 <= k <= IZR top)%R) by (unfold k; split; apply IZR_le; lia).
  set (D := (k / IZR top * (real hi - real lo))%R).
  set (b := ((1 + e1) * (1 + e0) * (1 + e2) * (1 + e3) - 1)%R). set (g := (k * h2 * (1 + e3) + h3)%R).
  assert (EP : (k * s * (1 + e3) + h3 = D * (1 + b) + g)%R) by (unfold s, b, g, D; field; lra).
  rewrite EP. pose proof tiny_pos as TP. pose proof u_pos as UP. assert (U1 : (u <= / 16777216)%R) by (rewrite u_val; lra).
  assert (Hb : (- (6 * u) <= b <= 6 * u)%R).
  { unfold b. assert (A : (- (31 / 10 * u) <= (1 + e1) * (1 + e0) - 1 <= 31 / 10 * u)%R) by nra.
    assert (B : (- (21 / 10 * u) <= (1 + e2) * (1 + e3) - 1 <= 21 / 10 * u)%R) by nra.
    replace ((1 + e1) * (1 + e0) * (1 + e2) * (1 + e3))%R with (((1 + e1) * (1 + e0)) * ((1 + e2) * (1 + e3)))%R by ring.
    set (p' := ((1 + e1) * (1 + e0))%R) in *. set (q := ((1 + e2) * (1 + e3))%R) in *. nra. }
  assert (Hg : (- (130 * tiny) <= g <= 130 * tiny)%R).
  { unfold g. assert (A : (- (128 * tiny) <= k * h2 <= 128 * tiny)%R) by nra. nra. }
  assert (HD : (- size (lo, hi) <= D <= size (lo, hi))%R).
  { apply Rabs_le_inv. unfold D. rewrite Rabs_mult. assert (Q : (0 <= k / IZR top <= 1)%R).
    { split; [apply Rmult_le_pos; [lra|left; apply Rinv_0_lt_compat; lra]|]. apply Rmult_le_reg_r with (IZR top); [lra|]. unfold Rdiv. rewrite Rmult_assoc, Rinv_l by lra. lra. }
    rewrite (Rabs_pos_eq (k / IZR top)) by lra. unfold size. cbn [fst snd]. pose proof (Rabs_pos (real lo)). pose proof (Rabs_pos (real hi - real lo)). nra. }
  pose proof (decoded_size top lo hi c ltac:(lia) HC) as HV. pose proof (size_nonneg (lo, hi)) as SP. set (m := size (lo, hi)) in *.
  assert (EDV : decoded top lo hi c = (real lo + D)%R) by reflexivity. rewrite EDV in *. change (- m <= real lo + D <= m)%R in HV.
  exists ((real lo + D) * e4 + (D * b + g) * (1 + e4))%R. split; [|ring].
  assert (A1 : (- (u * m) <= (real lo + D) * e4 <= u * m)%R) by (rewrite (Rmult_comm u m); now apply mul_in).
  assert (A2 : (- (6 * u * m) <= D * b <= 6 * u * m)%R) by (rewrite (Rmult_comm (6 * u) m); now apply mul_in).
  set (w := (D * b + g)%R). assert (A3 : (- (6 * u * m + 130 * tiny) <= w <= 6 * u * m + 130 * tiny)%R) by (unfold w; lra).
  set (M := (6 * u * m + 130 * tiny)%R) in *. assert (MP : (0 <= M)%R) by (unfold M; nra).
  assert (A4 : (- (M * (1 + u)) <= w * (1 + e4) <= M * (1 + u))%R) by nra.
  assert (A5 : (M * (1 + u) <= 7 * u * m + 131 * tiny)%R) by (unfold M; assert (6 * u * m * u <= u * m)%R by nra; nra).
  lra.
Qed.
Lemma ip_term_ok top lo hi x y : (1 <= top <= 255)%Z -> (Z.of_N x <= top)%Z -> (Z.of_N y <= top)%Z ->
  is_finite lo = true -> is_finite hi = true -> is_finite (ip_term top lo hi x y) = true ->
  (Rabs (real (ip_term top lo hi x y) - decoded top lo hi x * decoded top lo hi y) <= 20 * u * (size (lo, hi) * size (lo, hi)) + tiny)%R.
Proof.
  intros T HX HY FL FH F. unfold ip_term in *. cbn zeta in *. destruct (mul_inv _ _ F) as (FX & FY & ->).
  destruct (value_ok top lo hi x T HX FL FH FX) as (dx & Hdx & ->). destruct (value_ok top lo hi y T HY FL FH FY) as (dy & Hdy & ->).
  match goal with |- context [rnd ?z] => destruct (error z) as (e & h & He & Hh & ->) end.
  apply product_algebra; auto using size_nonneg; apply decoded_size; lia.
Qed.
Lemma pow_20 n : (20 * u <= (1 + u) ^ (n + 20) - 1)%R.
Proof.
  pose proof u_pos. rewrite pow_add. pose proof (pow_ge_1 n).
  assert (1 + INR 20 * u <= (1 + u) ^ 20)%R by (apply poly; lra). cbn [INR] in H1.
  assert (0 <= (1 + u) ^ 20)%R by lra. nra.
Qed.
Lemma close_to_step n s S Z t T Y e : close_to n s S Z -> (- Z <= S <= Z)%R -> (- Y <= T <= Y)%R -> (Rabs (t - T) <= 20 * u * Y + tiny)%R -> (- u <= e <= u)%R ->
  close_to (Datatypes.S n) ((s + t) * (1 + e)) (S + T) (Z + Y).
Proof.
  unfold close_to. intros C HS HT Ht He. apply Rabs_le_inv in C, Ht. pose proof (pow_20 n) as P20. pose proof (pow_ge_1 n) as P1.
  pose proof u_pos as UP. pose proof tiny_pos as TP.
  replace (Datatypes.S n + 20) with (Datatypes.S (n + 20)) by lia. rewrite S_INR. cbn [pow].
  set (P := ((1 + u) ^ (n + 20))%R) in *. set (Q := ((1 + u) ^ n)%R) in *.
  pose proof (pos_INR n) as HN. set (N := INR n) in *.
  assert (TQ : (tiny <= Q * tiny)%R) by nra.
  assert (NQ : (0 <= N * Q * tiny)%R) by (apply Rmult_le_pos; [apply Rmult_le_pos; lra|lra]).
  set (B := (N * Q * tiny)%R) in *. assert (HZ : (0 <= Z)%R) by lra. assert (HY : (0 <= Y)%R) by lra.
  assert (A : (- ((P - 1) * (Z + Y) + B + tiny) <= s + t - (S + T) <= (P - 1) * (Z + Y) + B + tiny)%R) by nra.
  set (a := (s + t - (S + T))%R) in *. set (V := (S + T)%R) in *. set (X := (Z + Y)%R) in *. assert (HV : (- X <= V <= X)%R) by (unfold V, X; lra). assert (HX : (0 <= X)%R) by (unfold X; lra).
  replace ((s + t) * (1 + e) - V)%R with (a * (1 + e) + V * e)%R by (unfold a; ring).
  set (M := ((P - 1) * X + B + tiny)%R) in *. assert (HM : (0 <= M)%R) by (unfold M; nra).
  assert (AE : (- (M * (1 + u)) <= a * (1 + e) <= M * (1 + u))%R).
  { assert (U1 : (u <= 1)%R) by (rewrite u_val; lra). nra. }
  assert (VE : (- (X * u) <= V * e <= X * u)%R) by nra.
  assert (ME : (M * (1 + u) + X * u <= ((1 + u) * P - 1) * X + (N + 1) * ((1 + u) * Q) * tiny)%R).
  { unfold M, B. assert (tiny * (1 + u) <= Q * tiny * (1 + u))%R by nra. nra. }
  apply Rabs_le. lra.
Qed.
Lemma add_close_to n sum S Z top lo hi x y : close_to n (real sum) S Z -> (- Z <= S <= Z)%R -> (1 <= top <= 255)%Z -> (Z.of_N x <= top)%Z -> (Z.of_N y <= top)%Z ->
  is_finite lo = true -> is_finite hi = true -> is_finite (f32_add sum (ip_term top lo hi x y)) = true ->
  close_to (Datatypes.S n) (real (f32_add sum (ip_term top lo hi x y))) (S + decoded top lo hi x * decoded top lo hi y) (Z + size (lo, hi) * size (lo, hi)) /\
  (- (Z + size (lo, hi) * size (lo, hi)) <= S + decoded top lo hi x * decoded top lo hi y <= Z + size (lo, hi) * size (lo, hi))%R.
Proof.
  intros C HS T HX HY FL FH F. destruct (add_inv _ _ F) as (F1 & F2 & ->).
  assert (HT : (- (size (lo, hi) * size (lo, hi)) <= decoded top lo hi x * decoded top lo hi y <= size (lo, hi) * size (lo, hi))%R).
  { apply mul_in; apply decoded_size; (assumption || lia). }
  split; [|lra]. destruct (add_error sum (ip_term top lo hi x y)) as (e & He & ->).
  apply close_to_step; auto. apply ip_term_ok; auto.
Qed.
Lemma ip_sq8_finite q : forall x y s r, ip_sq8_from s q x y = Ok r -> is_finite r = true -> is_finite s = true.
Proof.
  induction q as [|[lo hi] q IH]; intros x y s r E F; cbn [ip_sq8_from] in E.
  - injection E as <-. rewrite is_finite_Bopp in F. exact F.
  - destruct x as [|cx x]; [discriminate E|]. destruct y as [|cy y]; [discriminate E|]. apply (IH _ _ _ _ E) in F. apply add_inv in F. apply F.
Qed.
Lemma ip_sq8_close q : forall x y sum n S Z r, finite_ranges q -> Forall (fun c => (c <= 255)%N) x -> Forall (fun c => (c <= 255)%N) y ->
  close_to n (real sum) S Z -> (- Z <= S <= Z)%R -> ip_sq8_from sum q x y = Ok r -> is_finite r = true ->
  close_to (n + length q) (- real r) (S + inner_dist 255 q x y) (Z + size_sum q).
Proof.
  induction q as [|[lo hi] q IH]; intros x y sum n S Z r FR BX BY C HS E F; cbn [ip_sq8_from] in E.
  { injection E as <-. cbn [length inner_dist size_sum]. rewrite Nat.add_0_r, !Rplus_0_r. unfold real. rewrite B2R_Bopp, Ropp_involutive. exact C. }
  destruct x as [|cx x]; [discriminate E|]. destruct y as [|cy y]; [discriminate E|].
  apply Forall_cons_iff in FR as [[FL FH] FR]. apply Forall_cons_iff in BX as [HX BX]. apply Forall_cons_iff in BY as [HY BY]. cbn [fst snd] in FL, FH.
  pose proof (ip_sq8_finite _ _ _ _ _ E F) as FS.
  destruct (add_close_to n sum S Z 255 lo hi cx cy C HS ltac:(lia) ltac:(lia) ltac:(lia) FL FH FS) as [C' HS'].
  pose proof (IH x y _ _ _ _ r FR BX BY C' HS' E F) as R. cbn [length inner_dist size_sum].
  replace (n + Datatypes.S (length q)) with (Datatypes.S n + length q) by lia. rewrite <- !Rplus_assoc. exact R.
Qed.
Lemma ip_sq8_ok q : forall x y sum, length x = length q -> length y = length q -> exists r, ip_sq8_from sum q x y = Ok r.
Proof.
  induction q as [|[lo hi] q IH]; intros [|cx x] [|cy y] sum LX LY; try discriminate LX; try discriminate LY; cbn [ip_sq8_from]; [eauto|].
  apply IH; [now injection LX|now injection LY].
Qed.
Lemma ip_sq4_finite q : forall x y s r, ip_sq4_from s q x y = Ok r -> is_finite r = true -> is_finite s = true.
Proof.
  induction q as [|[lo hi]|[lo hi] [lo' hi'] q IH] using pair_ind; intros x y s r E F; cbn [ip_sq4_from] in E.
  - injection E as <-. rewrite is_finite_Bopp in F. exact F.
  - destruct x as [|cx x]; [discriminate E|]. destruct y as [|cy y]; [discriminate E|]. injection E as <-. rewrite is_finite_Bopp in F. apply add_inv in F. apply F.
  - destruct x as [|cx x]; [discriminate E|]. destruct y as [|cy y]; [discriminate E|].
    apply (IH _ _ _ _ E) in F. apply add_inv in F as [F _]. apply add_inv in F. apply F.
Qed.
Lemma ip_sq4_close q : paired q -> forall x y sum n S Z r, finite_ranges q -> Forall (fun c => (c <= 255)%N) x -> Forall (fun c => (c <= 255)%N) y ->
  close_to n (real sum) S Z -> (- Z <= S <= Z)%R -> ip_sq4_from sum q x y = Ok r -> is_finite r = true ->
  close_to (n + length q) (- real r) (S + inner_dist 15 q (codes4 x) (codes4 y)) (Z + size_sum q).
Proof.
  induction 1 as [|[lo hi] q PQ IH]; intros x y sum n S Z r FR BX BY C HS E F; cbn [ip_sq4_from] in E.
  { injection E as <-. cbn [length inner_dist size_sum]. rewrite Nat.add_0_r, !Rplus_0_r. unfold real. rewrite B2R_Bopp, Ropp_involutive. exact C. }
  destruct x as [|cx x]; [discriminate E|]. destruct y as [|cy y]; [discriminate E|].
  apply Forall_cons_iff in FR as [[FL FH] FR]. apply Forall_cons_iff in FR as [_ FR].
  apply Forall_cons_iff in BX as [HX BX]. apply Forall_cons_iff in BY as [HY BY]. cbn [fst snd] in FL, FH.
  rewrite !shiftr_4 in E by assumption. rewrite !land_15 in E.
  pose proof (ip_sq4_finite _ _ _ _ _ E F) as F2. pose proof (proj1 (add_inv _ _ F2)) as F1.
  assert (M16 : forall b, (Z.of_N (b mod 16) <= 15)%Z) by (intros b; pose proof (N.mod_lt b 16 ltac:(lia)); lia).
  assert (D16 : forall b, (b <= 255)%N -> (Z.of_N (b / 16) <= 15)%Z) by (intros b Hb; assert (b / 16 < 16)%N by (apply N.div_lt_upper_bound; lia); lia).
  destruct (add_close_to n sum S Z 15 lo hi _ _ C HS ltac:(lia) (M16 cx) (M16 cy) FL FH F1) as [C1 H1].
  destruct (add_close_to _ _ _ _ 15 lo hi _ _ C1 H1 ltac:(lia) (D16 cx HX) (D16 cy HY) FL FH F2) as [C2 H2].
  pose proof (IH x y _ _ _ _ r FR BX BY C2 H2 E F) as R.
  cbn [codes4 flat_map app length inner_dist size_sum]. fold (codes4 x) (codes4 y).
  replace (n + Datatypes.S (Datatypes.S (length q))) with (Datatypes.S (Datatypes.S n) + length q) by lia.
  match type of R with close_to _ _ ?a ?b => match goal with |- close_to _ _ ?a' ?b' => replace a' with a by ring; replace b' with b by (rewrite <- !Rplus_assoc; reflexivity) end end. exact R.
Qed.
Lemma close_to_0 : close_to 0 (real (f32_of 0)) 0 0.
Proof. unfold close_to. change (real (f32_of 0)) with 0%R. rewrite Rminus_0_r, Rabs_R0. cbn [INR]. lra. Qed.
