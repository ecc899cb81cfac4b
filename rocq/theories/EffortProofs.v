From Coq Require Import ZArith Reals Lra Lia Bool List Arith.
From Flocq Require Import Core Relative IEEE754.BinarySingleNaN.
From Verif Require Export EffortSpec.
From Verif Require Import FloatLemmas.

Notation rnd := (rnd f64_prec f64_emax).
Notation r64 x := (B2R (x : f64)).

Lemma of_n (n : N) : (n <= 2 ^ 53)%N -> r64 (f64_of n) = IZR (Z.of_N n) /\ is_finite (f64_of n) = true.
Proof. intros H. apply (of_int f64_prec f64_emax f64_prec_pos f64_prec_lt). change (2 ^ f64_prec)%Z with (2 ^ 53)%Z. lia. Qed.

Lemma to_size_ok (x : f64) : is_finite x = true -> (0 <= r64 x < IZR (2 ^ 64))%R -> to_size x = Ok (Z.to_N (Ztrunc (r64 x))).
Proof.
  intros F [H1 H2]. unfold to_size. rewrite F, (trunc_real _ _ f64_prec_lt). cbn [andb].
  pose proof (Ztrunc_floor _ H1) as E. rewrite E.
  assert (0 <= Zfloor (r64 x))%Z by (apply Zfloor_lub; exact H1).
  assert (Zfloor (r64 x) < 2 ^ 64)%Z.
  { apply lt_IZR. apply Rle_lt_trans with (r64 x); [apply Zfloor_lb|exact H2]. }
  replace (0 <=? Zfloor (r64 x))%Z with true by (symmetry; apply Z.leb_le; lia).
  replace (Zfloor (r64 x) <? 2 ^ 64)%Z with true by (symmetry; apply Z.ltb_lt; lia). reflexivity.
Qed.

Lemma IZR_N_pos (n : N) : (0 <= IZR (Z.of_N n))%R. Proof. apply IZR_le. lia. Qed.

(** Products and quotients that stay small *)
Lemma mul_64 (x y : f64) (b : N) : is_finite x = true -> is_finite y = true -> (b <= 2 ^ 53)%N ->
  (0 <= r64 x * r64 y <= IZR (Z.of_N b))%R ->
  r64 (f64_mul x y) = rnd (r64 x * r64 y) /\ is_finite (f64_mul x y) = true /\ (0 <= r64 (f64_mul x y) <= IZR (Z.of_N b))%R.
Proof.
  intros FX FY B H. destruct (of_n b B) as [E _].
  destruct (mul_ok _ _ f64_prec_pos f64_prec_lt x y FX FY) as [EM FM].
  { apply (rnd_lt_big _ _ f64_prec_pos _ (f64_of b)). rewrite E. exact H. }
  split; [exact EM|]. split; [exact FM|]. unfold f64_mul. rewrite EM.
  pose proof (rnd_between f64_prec f64_emax f64_prec_pos (r64 x * r64 y) (f64_of 0) (f64_of b)) as BT.
  rewrite E in BT. change (r64 (f64_of 0)) with 0%R in BT. apply BT. exact H.
Qed.

Lemma half_val : r64 topk_threshold = (/ 2)%R /\ is_finite topk_threshold = true.
Proof.
  destruct (of_lit f64_prec f64_emax f64_prec_pos f64_prec_lt 1 (-1) false) as [E F]; [reflexivity|discriminate|discriminate|].
  split; [|exact F]. unfold topk_threshold, f64_lit. rewrite E. unfold F2R. cbn. lra.
Qed.
Lemma filter_val : r64 filter_threshold = (15602811 / 16777216)%R /\ is_finite filter_threshold = true.
Proof.
  destruct (of_lit f64_prec f64_emax f64_prec_pos f64_prec_lt 15602811 (-24) false) as [E F]; [reflexivity|discriminate|discriminate|].
  split; [|exact F]. unfold filter_threshold, f64_lit. rewrite E. unfold F2R. cbn. lra.
Qed.

Lemma half_limit (n : N) : (n < 2 ^ 32)%N -> to_size (f64_mul (f64_of n) topk_threshold) = Ok (n / 2)%N.
Proof.
  intros H. destruct half_val as [EH FH]. destruct (of_n n ltac:(lia)) as [EN FN]. pose proof (IZR_N_pos n) as NP.
  destruct (mul_64 (f64_of n) topk_threshold n FN FH ltac:(lia)) as (EM & FM & R); [rewrite EN, EH; lra|].
  rewrite to_size_ok; [|exact FM|].
  2:{ destruct R. split; [assumption|]. apply Rle_lt_trans with (IZR (Z.of_N n)); [assumption|]. apply IZR_lt. lia. }
  assert (E : r64 (f64_mul (f64_of n) topk_threshold) = (IZR (Z.of_N n) / 2)%R).
  { rewrite EM, EN, EH.
    destruct (of_lit f64_prec f64_emax f64_prec_pos f64_prec_lt (Z.of_N n) (-1) false) as [E F].
    - change (2 ^ f64_prec)%Z with (2 ^ 53)%Z. lia.
    - discriminate.
    - discriminate.
    - replace (IZR (Z.of_N n) * / 2)%R with (F2R (Float radix2 (Z.of_N n) (-1))) by (unfold F2R; cbn; lra).
      rewrite <- E, rnd_id, E. unfold F2R. cbn. lra. }
  rewrite E, Ztrunc_floor by lra. f_equal.
  assert (F : Zfloor (IZR (Z.of_N n) / 2) = (Z.of_N n / 2)%Z).
  { rewrite Zfloor_div by discriminate. reflexivity. }
  rewrite F. rewrite <- (N2Z.id (n / 2)), N2Z.inj_div. reflexivity.
Qed.
Lemma filter_limit (n : N) : (n < 2 ^ 32)%N -> exists l, to_size (f64_mul (f64_of n) filter_threshold) = Ok l.
Proof.
  intros H. destruct filter_val as [EH FH]. destruct (of_n n ltac:(lia)) as [EN FN]. pose proof (IZR_N_pos n) as NP.
  destruct (mul_64 (f64_of n) filter_threshold n FN FH ltac:(lia)) as (EM & FM & R); [rewrite EN, EH; lra|].
  eexists. apply to_size_ok; [exact FM|].
  destruct R. split; [assumption|]. apply Rle_lt_trans with (IZR (Z.of_N n)); [assumption|]. apply IZR_lt. lia.
Qed.

Lemma brute_force_ok total i matched : (matched <= total < 2 ^ 32)%N ->
  exists b, brute_force total i matched = Ok b /\
    (b = false -> matched = 0%N \/ (topk i < total / 2)%N /\ (topk i < matched / 2)%N).
Proof.
  intros H. unfold brute_force. destruct (matched =? 0)%N eqn:Z0.
  { exists false. split; [reflexivity|]. intros _. left. now apply N.eqb_eq. }
  rewrite (half_limit total) by lia. cbn [bind].
  destruct (total / 2 <=? topk i)%N eqn:E1. { exists true. split; [reflexivity|discriminate]. }
  destruct (filter_limit total) as (l & ->); [lia|]. cbn [bind].
  destruct (l <=? u64 (total + 2 ^ 64 - matched))%N. { exists true. split; [reflexivity|discriminate]. }
  rewrite (half_limit matched) by lia. cbn [bind]. eexists. split; [reflexivity|]. intros E2. right.
  apply N.leb_gt in E1, E2. split; assumption.
Qed.

(** ** The expected list size *)
Definition u53 : R := (/ 9007199254740992)%R.
Lemma rnd_error_64 x : (1 <= x)%R -> (x * (1 - u53) <= rnd x <= x * (1 + u53))%R.
Proof.
  intros H.
  pose proof (relative_error_N_FLT radix2 (-1074) 53 eq_refl (fun x => negb (Z.even x)) x) as E.
  assert (B : (bpow radix2 (-1074 + 53 - 1) <= Rabs x)%R).
  { rewrite Rabs_pos_eq by lra. apply Rle_trans with (bpow radix2 0); [apply bpow_le; lia|exact H]. }
  specialize (E B). rewrite (Rabs_pos_eq x) in E by lra.
  change (round radix2 (FLT_exp (-1074) 53) (Znearest (fun x : Z => negb (Z.even x))) x) with (rnd x) in E.
  apply Rabs_le_inv in E.
  change (bpow radix2 (- (53) + 1)) with (/ IZR 4503599627370496)%R in E. unfold u53. lra.
Qed.

Section expected.
Variables (n k m : N).
Hypothesis Hn : (n < 2 ^ 32)%N.
Hypothesis Hm : (0 < m <= n)%N.
Hypothesis Hk : (0 < k < m / 2)%N.

Let rn := IZR (Z.of_N n).
Let rk := IZR (Z.of_N k).
Let rm := IZR (Z.of_N m).
Definition quot : R := rnd (rnd (rk * rn) / rm).

Lemma sizes : (1 <= rk)%R /\ (1 <= rm)%R /\ (rm <= rn)%R /\ (rn <= IZR (2 ^ 32))%R /\ (2 * rk <= rm)%R.
Proof.
  unfold rk, rm, rn. repeat split; try (apply IZR_le; lia).
  rewrite <- mult_IZR. apply IZR_le. assert (2 * (m / 2) <= m)%N by (apply N.mul_div_le; lia). lia.
Qed.

Lemma quot_bounds : (0 <= quot <= rn)%R.
Proof.
  destruct sizes as (A1 & A2 & A3 & A4 & A5). destruct (of_n n ltac:(lia)) as [EN _]. fold rn in EN.
  assert (P : (1 <= rk * rn)%R) by nra. pose proof (rnd_error_64 (rk * rn) P) as [_ U].
  assert (Q0 : (0 <= rnd (rk * rn))%R) by (apply (rnd_pos _ _ f64_prec_pos); nra).
  assert (D : (0 <= rnd (rk * rn) / rm <= rn)%R).
  { split; [apply Rmult_le_pos; [exact Q0|left; apply Rinv_0_lt_compat; lra]|].
    apply Rmult_le_reg_r with rm; [lra|]. unfold Rdiv. rewrite Rmult_assoc, Rinv_l by lra. unfold u53 in U.
    assert (rk * rn * (1 + / 9007199254740992) <= 2 * (rk * rn))%R by nra. nra. }
  unfold quot. pose proof (rnd_between f64_prec f64_emax f64_prec_pos (rnd (rk * rn) / rm) (f64_of 0) (f64_of n)) as BT.
  rewrite EN in BT. change (r64 (f64_of 0)) with 0%R in BT. apply BT. exact D.
Qed.

Lemma expected_val : expected_ef n k m = Ok (Z.to_N (Ztrunc quot) + Z.to_N (Ztrunc quot) / 2)%N /\ (Z.to_N (Ztrunc quot) <= n)%N.
Proof.
  destruct sizes as (A1 & A2 & A3 & A4 & A5). pose proof quot_bounds as [Q0 Q1].
  destruct (of_n n ltac:(lia)) as [EN FN]. destruct (of_n k ltac:(pose proof (N.div_le_upper_bound m 2 m); lia)) as [EK FK].
  destruct (of_n m ltac:(lia)) as [EM FM]. fold rn in EN. fold rk in EK. fold rm in EM.
  assert (P : (1 <= rk * rn)%R) by nra. pose proof (rnd_error_64 (rk * rn) P) as [_ U].
  destruct (mul_ok _ _ f64_prec_pos f64_prec_lt (f64_of k) (f64_of n) FK FN) as [E1 F1].
  { rewrite EN, EK. rewrite Rabs_pos_eq by (apply (rnd_pos _ _ f64_prec_pos); nra).
    apply Rle_lt_trans with (IZR (2 ^ 66)); [|change (bpow radix2 f64_emax) with (IZR (2 ^ 1024)); apply IZR_lt; reflexivity].
    assert (B : (rk * rn <= IZR (2 ^ 32) * IZR (2 ^ 32))%R) by (apply Rmult_le_compat; lra).
    rewrite <- mult_IZR in B. unfold u53 in U. change (2 ^ 32 * 2 ^ 32)%Z with 18446744073709551616%Z in B.
    change (2 ^ 66)%Z with 73786976294838206464%Z. lra. }
  fold (f64_mul (f64_of k) (f64_of n)) in E1, F1. rewrite EN, EK in E1.
  destruct (div_ok _ _ f64_prec_pos f64_prec_lt (f64_mul (f64_of k) (f64_of n)) (f64_of m) F1) as [E2 F2].
  { rewrite EM. lra. }
  { rewrite E1, EM. fold quot. rewrite Rabs_pos_eq by exact Q0. apply Rle_lt_trans with rn; [exact Q1|].
    apply Rle_lt_trans with (IZR (2 ^ 32)); [exact A4|]. change (bpow radix2 f64_emax) with (IZR (2 ^ 1024)). apply IZR_lt. reflexivity. }
  fold (f64_div (f64_mul (f64_of k) (f64_of n)) (f64_of m)) in E2, F2. rewrite E1, EM in E2. fold quot in E2.
  assert (T : (Z.to_N (Ztrunc quot) <= n)%N).
  { assert (Ztrunc quot <= Z.of_N n)%Z by (rewrite <- (Ztrunc_IZR (Z.of_N n)); apply Ztrunc_le; exact Q1). lia. }
  split; [|exact T]. unfold expected_ef. rewrite to_size_ok; [|exact F2|].
  - rewrite E2. cbn [bind]. f_equal. unfold u64. apply N.mod_small.
    assert (Z.to_N (Ztrunc quot) / 2 <= Z.to_N (Ztrunc quot))%N by (apply N.div_le_upper_bound; lia). lia.
  - rewrite E2. split; [exact Q0|]. apply Rle_lt_trans with (IZR (2 ^ 32)); [lra|]. apply IZR_lt. reflexivity.
Qed.

(** [k] results need [k * n / m] rows: an integer bound carries over to the quotient *)
Lemma quot_ge (j : N) : (j <= 2 ^ 20)%N -> (j * m <= k * n)%N -> (IZR (Z.of_N j) <= quot)%R.
Proof.
  intros J H. destruct sizes as (A1 & A2 & A3 & A4 & A5).
  destruct (of_n j ltac:(lia)) as [EJ _]. destruct (of_n (j * m) ltac:(nia)) as [EJM _].
  assert (C : (IZR (Z.of_N (j * m)) <= rnd (rk * rn))%R).
  { rewrite <- EJM, <- (rnd_id f64_prec f64_emax (f64_of (j * m))). apply (rnd_le _ _ f64_prec_pos). rewrite EJM.
    unfold rk, rn. rewrite <- mult_IZR. apply IZR_le. lia. }
  unfold quot. rewrite <- EJ, <- (rnd_id f64_prec f64_emax (f64_of j)). apply (rnd_le _ _ f64_prec_pos). rewrite EJ.
  apply Rmult_le_reg_r with rm; [lra|]. unfold Rdiv. rewrite Rmult_assoc, Rinv_l, Rmult_1_r by lra.
  unfold rm. rewrite <- mult_IZR, <- N2Z.inj_mul. exact C.
Qed.

Lemma expected_enough e : (2 <= k)%N -> expected_ef n k m = Ok e -> (k * n <= e * m)%N.
Proof.
  intros K2 E. destruct expected_val as [V T]. rewrite V in E. injection E as <-.
  destruct sizes as (A1 & A2 & A3 & A4 & A5). pose proof quot_bounds as [Q0 Q1].
  set (t := Z.to_N (Ztrunc quot)) in *.
  assert (Et : IZR (Z.of_N t) = IZR (Zfloor quot)).
  { unfold t. rewrite Ztrunc_floor by exact Q0. rewrite Z2N.id; [reflexivity|]. apply Zfloor_lub. exact Q0. }
  pose proof (Zfloor_lb quot) as LB. pose proof (Zfloor_ub quot) as UB. rewrite <- Et in LB, UB.
  assert (T2 : (2 <= t)%N).
  { pose proof (quot_ge 2 ltac:(lia) ltac:(nia)) as G. unfold t. rewrite Ztrunc_floor by exact Q0.
    assert (2 <= Zfloor quot)%Z by (apply Zfloor_lub; exact G). lia. }
  pose proof (N.div_mod t 2 ltac:(lia)) as DM. pose proof (N.mod_lt t 2 ltac:(lia)) as ML.
  destruct (N.le_gt_cases (t + 1) (2 ^ 20)) as [SM|BG].
  - (* small: the quotient cannot have been rounded down across t+1 *)
    destruct (N.le_gt_cases ((t + 1) * m) (k * n)) as [C|C].
    + pose proof (quot_ge (t + 1) SM C) as G. rewrite N2Z.inj_add, plus_IZR in G. change (IZR (Z.of_N 1)) with 1%R in G. lra.
    + assert (t + 1 <= t + t / 2)%N by (assert (1 <= t / 2)%N by (apply N.div_le_lower_bound; lia); lia). nia.
  - (* large *)
    assert (P : (1 <= rk * rn)%R) by nra. pose proof (rnd_error_64 (rk * rn) P) as [U _].
    assert (Q : (1 <= rnd (rk * rn) / rm)%R).
    { apply Rmult_le_reg_r with rm; [lra|]. unfold Rdiv. rewrite Rmult_assoc, Rinv_l by lra. unfold u53 in U.
      assert (rm <= rk * rn / 2)%R; [|lra]. assert (2 <= rk)%R by (apply IZR_le; lia). nra. }
    pose proof (rnd_error_64 _ Q) as [W _]. fold quot in W.
    assert (G : (rk * rn * (1 - u53) * (1 - u53) <= quot * rm)%R).
    { apply Rle_trans with (rnd (rk * rn) * (1 - u53))%R.
      - apply Rmult_le_compat_r; [unfold u53; lra|exact U].
      - apply Rmult_le_compat_r with (r := rm) in W; [|lra]. unfold Rdiv in W.
        replace (rnd (rk * rn) * / rm * (1 - u53) * rm)%R with (rnd (rk * rn) * (1 - u53))%R in W by (field; lra). exact W. }
    assert (TL : (IZR (2 ^ 20) <= IZR (Z.of_N t))%R) by (apply IZR_le; lia).
    assert (E3 : (IZR (Z.of_N (t + t / 2)) >= 14 / 10 * IZR (Z.of_N t))%R).
    { assert (EE : (10 * Z.of_N (t + t / 2) >= 14 * Z.of_N t)%Z) by lia. apply Z.ge_le, IZR_le in EE. rewrite !mult_IZR in EE. lra. }
    assert (F : (rk * rn <= IZR (Z.of_N (t + t / 2)) * rm)%R).
    { assert (G2 : (rk * rn * (9 / 10) <= quot * rm)%R).
      { assert (1 - u53 >= 99 / 100)%R by (unfold u53; lra). assert ((1 - u53) * (1 - u53) >= 9 / 10)%R by nra.
        assert (0 <= rk * rn)%R by nra. nra. }
      assert (G3 : (quot <= 11 / 10 * IZR (Z.of_N t))%R) by (change (2 ^ 20)%Z with 1048576%Z in TL; lra).
      assert (G4 : (quot * rm <= 11 / 10 * IZR (Z.of_N t) * rm)%R) by (apply Rmult_le_compat_r; lra).
      assert (G5 : (14 / 10 * IZR (Z.of_N t) * rm <= IZR (Z.of_N (t + t / 2)) * rm)%R) by (apply Rmult_le_compat_r; lra).
      assert (G6 : (0 <= IZR (Z.of_N t) * rm)%R) by (apply Rmult_le_pos; [apply IZR_N_pos|lra]). nra. }
    unfold rk, rn, rm in F. rewrite <- !mult_IZR in F. apply le_IZR in F. lia.
Qed.
End expected.

(** ** Plans *)
Lemma u32_small n : (n < 2 ^ 32)%N -> u32 n = n.
Proof. apply N.mod_small. Qed.

Lemma plan_ok total i matched : given i -> (matched <= total < 2 ^ 32)%N ->
  exists p, prefilter_plan total i matched = Ok p /\
    match p with
    | Nothing => matched = 0%N
    | Plain i' => matched = total /\ i' = i
    | Brute => True
    | Graph i' => (0 < matched < total)%N /\ topk i' = topk i /\ fit_for total i i' /\
                  ((2 <= topk i)%N -> ef i' = total \/ (topk i * total <= ef i' * matched)%N)
    end.
Proof.
  intros [[K0 KE] E32] H. unfold prefilter_plan. destruct (matched =? 0)%N eqn:Z0.
  { exists Nothing. split; [reflexivity|]. now apply N.eqb_eq. }
  apply N.eqb_neq in Z0. destruct (matched =? total)%N eqn:ZT.
  { exists (Plain i). split; [reflexivity|]. apply N.eqb_eq in ZT. auto. }
  apply N.eqb_neq in ZT. destruct (brute_force_ok total i matched H) as (b & -> & B). cbn [bind].
  destruct b; [exists Brute; auto|]. destruct (B eq_refl) as [C|[B1 B2]]; [congruence|].
  unfold adjust. replace ((matched =? 0) || (total <=? matched))%N with false.
  2:{ symmetry. apply orb_false_intro; [now apply N.eqb_neq|]. apply N.leb_gt. lia. }
  destruct (expected_val total (topk i) matched ltac:(lia) ltac:(lia) ltac:(lia)) as [V T]. rewrite V. cbn [bind].
  eexists. split; [reflexivity|]. cbn [topk ef].
  assert (TH : (total / 2 <= total)%N) by (apply N.div_le_upper_bound; lia).
  rewrite u32_small by lia.
  split; [lia|]. split; [reflexivity|]. split.
  - unfold fit_for. cbn [topk ef]. lia.
  - intros K2. pose proof (expected_enough total (topk i) matched ltac:(lia) ltac:(lia) ltac:(lia) _ K2 V) as EN.
    set (e := (Z.to_N (Ztrunc (quot total (topk i) matched)) + Z.to_N (Ztrunc (quot total (topk i) matched)) / 2)%N) in *.
    destruct (N.le_gt_cases total (N.max (ef i) e)) as [C|C]; [left; lia|right]. rewrite N.min_r by lia. apply N.le_trans with (1 := EN), N.mul_le_mono_r, N.le_max_r.
Qed.

Lemma view_local i size : given i -> (0 < size < 2 ^ 32)%N ->
  view_adjust i size size = Ok {| topk := N.min (topk i) size; ef := N.min size (ef i) |}.
Proof.
  intros [[K0 KE] E32] H. unfold view_adjust. rewrite N.eqb_refl, orb_true_r.
  rewrite (u32_small (N.min (topk i) size)) by lia. rewrite u32_small by lia. f_equal. f_equal. lia.
Qed.

Lemma view_plan_ok i size matched : given i -> (matched <= size)%N -> (0 < size < 2 ^ 32)%N ->
  exists p, view_plan i size matched = Ok p /\
    match p with
    | Nothing => matched = 0%N
    | Plain _ => False
    | Brute => True
    | Graph i' => topk i' = topk i /\ (topk i < matched)%N /\ fit_for size i i' /\
                  ((2 <= topk i)%N -> (matched < size)%N -> ef i' = size \/ (topk i * size <= ef i' * matched)%N)
    end.
Proof.
  intros G M H. unfold view_plan. rewrite (view_local i size G H). cbn [bind]. destruct G as [[K0 KE] E32].
  destruct (brute_force_ok size {| topk := N.min (topk i) size; ef := N.min size (ef i) |} matched ltac:(lia)) as (b & -> & B). cbn [bind topk] in *.
  destruct b; [exists Brute; auto|].
  destruct (N.min (N.min (topk i) size) matched =? 0)%N eqn:Z0.
  { apply N.eqb_eq in Z0. exists Nothing. split; [reflexivity|]. lia. }
  apply N.eqb_neq in Z0. destruct (B eq_refl) as [C|[B1 B2]]; [lia|].
  assert (TH : (size / 2 <= size)%N) by (apply N.div_le_upper_bound; lia).
  assert (MH : (matched / 2 <= matched)%N) by (apply N.div_le_upper_bound; lia).
  assert (EK : N.min (topk i) size = topk i) by lia. rewrite EK in *.
  unfold view_adjust. cbn [topk ef]. rewrite EK. rewrite (u32_small (topk i)) by lia.
  rewrite (u32_small (N.min size (N.max (N.min size (ef i)) (topk i)))) by lia.
  destruct ((matched =? 0) || (matched =? size))%N eqn:Z1.
  - cbn [bind]. eexists. split; [reflexivity|]. cbn [topk ef]. split; [reflexivity|]. split; [lia|]. split; [unfold fit_for; cbn [topk ef]; lia|].
    intros _ L. apply orb_prop in Z1 as [Z1|Z1]; apply N.eqb_eq in Z1; lia.
  - apply orb_false_iff in Z1 as [Z1 Z2]. apply N.eqb_neq in Z1, Z2.
    destruct (expected_val size (topk i) matched ltac:(lia) ltac:(lia) ltac:(lia)) as [V T]. rewrite V. cbn [bind].
    eexists. split; [reflexivity|]. cbn [topk ef]. rewrite u32_small by lia.
    split; [reflexivity|]. split; [lia|]. split; [unfold fit_for; cbn [topk ef]; lia|].
    intros K2 _. pose proof (expected_enough size (topk i) matched ltac:(lia) ltac:(lia) ltac:(lia) _ K2 V) as EN.
    set (e := (Z.to_N (Ztrunc (quot size (topk i) matched)) + Z.to_N (Ztrunc (quot size (topk i) matched)) / 2)%N) in *.
    destruct (N.le_gt_cases size (N.max (N.min size (N.max (N.min size (ef i)) (topk i))) e)) as [C|C]; [left; lia|right]. rewrite N.min_r by lia. apply N.le_trans with (1 := EN), N.mul_le_mono_r, N.le_max_r.
Qed.

(** ** Integer helpers *)
Lemma u64_small n : (n < 2 ^ 64)%N -> u64 n = n.
Proof. apply N.mod_small. Qed.
Lemma minus_one n : (0 < n < 2 ^ 64)%N -> u64 (n + 2 ^ 64 - 1) = (n - 1)%N.
Proof.
  intros H. unfold u64. replace (n + 2 ^ 64 - 1)%N with (n - 1 + 1 * 2 ^ 64)%N by lia. rewrite N.mod_add by lia. apply N.mod_small. lia.
Qed.
Lemma floor_log2_ok x : (0 < x)%N -> (2 ^ floor_log2 x <= x < 2 ^ (floor_log2 x + 1))%N.
Proof.
  intros H. unfold floor_log2. replace (x =? 0)%N with false by (symmetry; apply N.eqb_neq; lia).
  rewrite N.size_log2 by lia. replace (N.succ (N.log2 x) - 1)%N with (N.log2 x) by lia.
  rewrite N.add_1_r. apply N.log2_spec. exact H.
Qed.
Lemma ceil_log2_ok x : (0 < x)%N -> (x <= 2 ^ ceil_log2 x)%N /\ (forall k, (x <= 2 ^ k)%N -> (ceil_log2 x <= k)%N).
Proof.
  intros H. unfold ceil_log2. destruct (x <=? 1)%N eqn:E.
  - apply N.leb_le in E. split; [change (2 ^ 0)%N with 1%N; lia|intros k _; lia].
  - apply N.leb_gt in E. pose proof (floor_log2_ok (x - 1) ltac:(lia)) as [L U]. split; [lia|].
    intros k K. assert (2 ^ floor_log2 (x - 1) < 2 ^ k)%N as LT by lia.
    apply N.pow_lt_mono_r_iff in LT; lia.
Qed.
Lemma ceil_div_ok x d : (0 < d)%N -> (x + d < 2 ^ 64)%N ->
  exists q, ceil_div x d = Ok q /\ (x <= q * d)%N /\ (forall k, (x <= k * d)%N -> (q <= k)%N).
Proof.
  intros D H. unfold ceil_div. replace (d =? 0)%N with false by (symmetry; apply N.eqb_neq; lia).
  rewrite (u64_small (x + d)) by lia. rewrite minus_one by lia. eexists. split; [reflexivity|].
  pose proof (N.div_mod (x + d - 1) d ltac:(lia)) as DM. pose proof (N.mod_lt (x + d - 1) d ltac:(lia)) as ML.
  set (q := ((x + d - 1) / d)%N) in *. split; [nia|].
  intros k K. destruct (N.le_gt_cases q k) as [C|C]; [exact C|]. exfalso. nia.
Qed.
Lemma round_up_general_ok x d : (0 < d)%N -> (x + d < 2 ^ 64)%N ->
  multiple (round_up_general x d) d /\ (x <= round_up_general x d)%N /\ (forall m, multiple m d -> (x <= m)%N -> (round_up_general x d <= m)%N).
Proof.
  intros D H. destruct (ceil_div_ok x d D H) as (q & E & L & M). unfold ceil_div, round_up_general in *.
  replace (d =? 0)%N with false in * by (symmetry; apply N.eqb_neq; lia). injection E as E. rewrite E.
  assert (S : (q * d < 2 ^ 64)%N).
  { rewrite (u64_small (x + d)) in E by lia. rewrite minus_one in E by lia. rewrite <- E.
    assert (d * ((x + d - 1) / d) <= x + d - 1)%N by (apply N.mul_div_le; lia). lia. }
  rewrite u64_small by exact S. split; [now exists q|]. split; [exact L|].
  intros m [k ->] K. apply N.mul_le_mono_r. now apply M.
Qed.

Lemma mask k : (k <= 64)%N -> N.ldiff (N.ones 64) (2 ^ k - 1) = (N.shiftl (N.ones (64 - k)) k).
Proof.
  intros K. rewrite <- N.pred_sub, <- N.ones_equiv. apply N.bits_inj. intros i.
  rewrite N.ldiff_spec. destruct (N.lt_ge_cases i k) as [C|C].
  - rewrite N.shiftl_spec_low by exact C. rewrite (N.ones_spec_low k) by exact C. apply andb_false_r.
  - rewrite N.shiftl_spec_high' by exact C. rewrite (N.ones_spec_high k) by exact C. rewrite andb_true_r.
    destruct (N.lt_ge_cases i 64) as [C'|C'].
    + rewrite !N.ones_spec_low by lia. reflexivity.
    + rewrite !N.ones_spec_high by lia. reflexivity.
Qed.
Lemma land_mask y k : (k <= 64)%N -> (y < 2 ^ 64)%N -> N.land y (N.shiftl (N.ones (64 - k)) k) = (y / 2 ^ k * 2 ^ k)%N.
Proof.
  intros K Y. rewrite <- N.shiftl_mul_pow2, <- N.shiftr_div_pow2. apply N.bits_inj. intros i.
  rewrite N.land_spec. destruct (N.lt_ge_cases i k) as [C|C].
  - rewrite !N.shiftl_spec_low by exact C. apply andb_false_r.
  - rewrite !N.shiftl_spec_high' by exact C. rewrite N.shiftr_spec'. replace (i - k + k)%N with i by lia.
    destruct (N.lt_ge_cases i 64) as [C'|C'].
    + rewrite N.ones_spec_low by lia. apply andb_true_r.
    + assert (E : N.testbit y i = false).
      { destruct (N.eq_dec y 0) as [ -> |NZ]; [apply N.bits_0|]. apply N.bits_above_log2.
        assert (N.log2 y < 64)%N by (apply N.log2_lt_pow2; lia). lia. }
      rewrite E. reflexivity.
Qed.
Lemma round_up_pow2_ok x a : power_of_two a -> (a < 2 ^ 64)%N -> (x + a < 2 ^ 64)%N ->
  multiple (round_up_pow2 x a) a /\ (x <= round_up_pow2 x a)%N /\ (forall m, multiple m a -> (x <= m)%N -> (round_up_pow2 x a <= m)%N).
Proof.
  intros [k ->] A H. assert (P : (0 < 2 ^ k)%N) by (apply N.neq_0_lt_0, N.pow_nonzero; lia).
  assert (K : (k <= 64)%N). { destruct (N.le_gt_cases k 64) as [C|C]; [exact C|]. apply (N.pow_lt_mono_r 2) in C; lia. }
  assert (E : round_up_pow2 x (2 ^ k) = ((x + 2 ^ k - 1) / 2 ^ k * 2 ^ k)%N).
  { unfold round_up_pow2. rewrite (u64_small (x + 2 ^ k)) by lia. rewrite minus_one by lia. rewrite minus_one by lia.
    rewrite mask by exact K. apply land_mask; [exact K|]. lia. }
  rewrite E. destruct (ceil_div_ok x (2 ^ k) P H) as (q & Eq & L & M). unfold ceil_div in Eq.
  replace (2 ^ k =? 0)%N with false in Eq by (symmetry; apply N.eqb_neq; lia). rewrite (u64_small (x + 2 ^ k)) in Eq by lia. rewrite minus_one in Eq by lia.
  injection Eq as Eq. rewrite Eq. split; [now exists q|]. split; [exact L|]. intros m [j ->] J. apply N.mul_le_mono_r. now apply M.
Qed.

Lemma is_power_of_two_ok x : is_power_of_two x = true <-> power_of_two x.
Proof.
  unfold is_power_of_two, power_of_two. rewrite andb_true_iff, N.ltb_lt, N.eqb_eq. split.
  - intros [P E]. exists (N.log2 x). destruct (N.log2_spec x P) as [L _].
    destruct (N.eq_dec x (2 ^ N.log2 x)) as [Q|NQ]; [exact Q|exfalso].
    assert (B : N.testbit (N.land x (x - 1)) (N.log2 x) = true).
    { rewrite N.land_spec, (N.bit_log2 x) by lia. replace (N.log2 x) with (N.log2 (x - 1)) at 1; [apply N.bit_log2; lia|].
      apply N.log2_unique; [lia|]. destruct (N.log2_spec x P) as [_ U]. lia. }
    rewrite E, N.bits_0 in B. discriminate B.
  - intros [k ->]. assert (P : (0 < 2 ^ k)%N) by (apply N.neq_0_lt_0, N.pow_nonzero; lia). split; [exact P|].
    rewrite <- N.pred_sub, <- N.ones_equiv, N.land_ones. apply N.mod_same. lia.
Qed.
