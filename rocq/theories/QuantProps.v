(** C60: scalar quantization is monotone and bounded. *)
From Coq Require Import ZArith Reals Lra Lia Bool List Arith.
From Flocq Require Import Core IEEE754.BinarySingleNaN.
From Verif Require Import FloatLemmas QuantProofs.

(** Every value that is not a NaN, infinities included, has a code, and the code is at
    most the largest (15 for 4 bits, 255 for 8).  Missing for the full claim: ranges
    whose width is above the largest float ([quantize_width_refuted]) and NaN
    ([quantize_nan_refuted]). *)
Theorem quantize_in_range_partial (top : Z) (v lo hi : f32) :
  (0 <= top <= 255)%Z -> proper lo hi -> width_fits lo hi -> is_nan v = false ->
  exists c, quantize top v lo hi = Ok c /\ (Z.of_N c <= top)%Z.
Proof. intros T P W N. destruct (quantize_code lo hi P W top v T N) as (c & E & B). exists c. split; [exact E|lia]. Qed.

(** A larger value never has a smaller code. *)
Theorem quantize_monotone (top : Z) (v w lo hi : f32) (c d : N) :
  (0 <= top <= 255)%Z -> proper lo hi -> width_fits lo hi -> Bleb v w = true ->
  quantize top v lo hi = Ok c -> quantize top w lo hi = Ok d -> (c <= d)%N.
Proof. intros T P W. now apply quantize_mono. Qed.

(** The minimum has the code 0 and the maximum the largest. *)
Theorem quantize_ends (top : Z) (lo hi : f32) :
  (0 <= top <= 255)%Z -> proper lo hi ->
  quantize top lo lo hi = Ok 0%N /\ quantize top hi lo hi = Ok (Z.to_N top).
Proof.
  intros T P. pose proof (not_eqb lo hi P) as NE. destruct P as (F1 & F2 & LT). unfold quantize. rewrite NE. split.
  - destruct (Bleb hi lo) eqn:E; [apply leb_real in E; [lra|assumption..]|].
    replace (Bleb lo lo) with true; [reflexivity|]. symmetry. apply leb_real; [assumption..|lra].
  - replace (Bleb hi hi) with true; [reflexivity|]. symmetry. apply leb_real; [assumption..|lra].
Qed.

(** The code is the place of the value in the range rounded down, up to 1/1000. *)
Theorem quantize_accurate (top : Z) (v lo hi : f32) (c : N) :
  (0 <= top <= 255)%Z -> proper lo hi -> width_fits lo hi -> is_finite v = true ->
  (real lo <= real v <= real hi)%R -> quantize top v lo hi = Ok c ->
  (IZR (Z.of_N c) - / 1000 <= place top v lo hi < IZR (Z.of_N c) + 1 + / 1000)%R.
Proof. intros T P W. now apply quantize_close. Qed.

(** fit finds the least and the largest value of every dimension. *)
Theorem fit_exact (dim : nat) (data : list (list f32)) (j : nat) :
  vectors dim data -> data <> [] -> j < dim ->
  exists lo hi, nth_error (fit (new_quantizer dim) data) j = Some (lo, hi) /\
    least (column j data) lo /\ largest (column j data) hi.
Proof. apply fit_column. Qed.

(** The quantizer fitted to data gives every vector without a NaN its codes: one byte
    for each dimension with 8 bits ... *)
Theorem encode8_correct (dim : nat) (data : list (list f32)) (v : list f32) :
  vectors dim data -> data <> [] ->
  (forall j x y, column j data x -> column j data y -> (real x - real y <= real f32_max)%R) ->
  length v = dim -> Forall (fun x : f32 => is_nan x = false) v ->
  exists codes, encode8 (fit (new_quantizer dim) data) v = Ok codes /\ length codes = dim /\
    forall j lo hi x, nth_error (fit (new_quantizer dim) data) j = Some (lo, hi) -> nth_error v j = Some x ->
      exists c, nth_error codes j = Some c /\ quantize 255 x lo hi = Ok c.
Proof.
  intros V NE W LV NN. pose proof (fit_usable dim data V NE W) as U.
  pose proof (fit_length dim data V (new_quantizer dim) (repeat_length _ _)) as L.
  set (q := fit (new_quantizer dim) data) in *.
  destruct (encode8_total q v) as (codes & E); [congruence| |].
  { intros j lo hi x N1 N2. destruct (usable_code q j 255 x lo hi U) as (c & Q & _); [lia| |exact N1|eauto].
    eapply Forall_forall in NN; [exact NN|]. eapply nth_error_In, N2. }
  exists codes. split; [exact E|]. destruct (encode8_nth q v codes) as [L' N]; [congruence|exact E|]. split; [congruence|exact N].
Qed.

(** ... and with 4 bits one byte for two dimensions, from which both codes can be read
    back. *)
Theorem encode4_correct (dim : nat) (data : list (list f32)) (v : list f32) :
  vectors dim data -> data <> [] ->
  (forall j x y, column j data x -> column j data y -> (real x - real y <= real f32_max)%R) ->
  length v = dim -> Forall (fun x : f32 => is_nan x = false) v ->
  exists bytes, encode4 (fit (new_quantizer dim) data) v = Ok bytes /\ length bytes = (dim + 1) / 2 /\
    forall j lo hi x, nth_error (fit (new_quantizer dim) data) j = Some (lo, hi) -> nth_error v j = Some x ->
      exists c, packed bytes j = Some c /\ quantize 15 x lo hi = Ok c.
Proof.
  intros V NE W LV NN. pose proof (fit_usable dim data V NE W) as U.
  pose proof (fit_length dim data V (new_quantizer dim) (repeat_length _ _)) as L.
  set (q := fit (new_quantizer dim) data) in *.
  destruct (encode4_ok q v U) as (bytes & E & LB & N); [congruence|exact NN|].
  exists bytes. split; [exact E|]. split; [congruence|exact N].
Qed.

(** ** Cases *)
(** m * 2^e *)
Definition lit (m e : Z) : f32 := @binary_normalize _ _ f32_prec_pos f32_prec_lt mode_NE m e false.
Definition sample : list (list f32) := [[lit 1 0; lit (-3) 0; lit 5 (-1)]; [lit 3 0; lit 7 0; lit 9 (-1)]; [lit 2 0; lit 1 (-3); lit 9 (-1)]].

Lemma lit_real m : (Z.abs m <= 16777216)%Z -> real (lit m 0) = IZR m /\ is_finite (lit m 0) = true.
Proof. intros H. apply (of_int f32_prec f32_emax f32_prec_pos f32_prec_lt m false). exact H. Qed.

Example sample_codes :
  proper (lit 1 0) (lit 3 0) /\ width_fits (lit 1 0) (lit 3 0) /\
  quantize 255 (lit 2 0) (lit 1 0) (lit 3 0) = Ok 127%N /\ quantize 15 (lit 11 (-2)) (lit 1 0) (lit 3 0) = Ok 13%N.
Proof.
  destruct (lit_real 1 ltac:(lia)) as [E1 F1]. destruct (lit_real 3 ltac:(lia)) as [E3 F3].
  split; [split; [exact F1|split; [exact F3|]]; rewrite E1, E3; lra|].
  split; [unfold width_fits; rewrite E1, E3; change (real f32_max) with (IZR 16777215 * IZR (2 ^ 104))%R; rewrite <- mult_IZR, <- minus_IZR; apply IZR_le; vm_compute; discriminate|].
  split; vm_compute; reflexivity.
Qed.
Example sample_vectors : vectors 3 sample /\ sample <> [].
Proof.
  split; [|discriminate]. unfold vectors, sample.
  repeat (apply Forall_cons; [split; [reflexivity|repeat (apply Forall_cons; [vm_compute; reflexivity|]); apply Forall_nil]|]). apply Forall_nil.
Qed.
(** the values of the sample are within +-16, so that every difference fits *)
Lemma small_fits (x y : f32) : Bleb (lit (-16) 0) x = true -> Bleb x (lit 16 0) = true -> is_finite x = true ->
  Bleb (lit (-16) 0) y = true -> Bleb y (lit 16 0) = true -> is_finite y = true -> (real x - real y <= real f32_max)%R.
Proof.
  intros A1 A2 FX B1 B2 FY. destruct (lit_real 16 ltac:(lia)) as [E F]. destruct (lit_real (-16) ltac:(lia)) as [E' F'].
  apply leb_real in A1, A2, B1, B2; try assumption. rewrite E' in A1, B1. rewrite E in A2, B2.
  apply Rle_trans with 32%R; [lra|].
  change (real f32_max) with (IZR 16777215 * IZR (2 ^ 104))%R. rewrite <- mult_IZR. apply IZR_le. vm_compute. discriminate.
Qed.
Example sample_fits : forall j x y, column j sample x -> column j sample y -> (real x - real y <= real f32_max)%R.
Proof.
  assert (S : forall j x, column j sample x -> Bleb (lit (-16) 0) x = true /\ Bleb x (lit 16 0) = true /\ is_finite x = true).
  { intros j x (row & IN & N). apply nth_error_In in N.
    assert (F : Forall (fun row => Forall (fun x : f32 => Bleb (lit (-16) 0) x = true /\ Bleb x (lit 16 0) = true /\ is_finite x = true) row) sample).
    { unfold sample. repeat (apply Forall_cons; [repeat (apply Forall_cons; [split; [vm_compute; reflexivity|split; vm_compute; reflexivity]|]); apply Forall_nil|]). apply Forall_nil. }
    eapply Forall_forall in F; [|exact IN]. eapply Forall_forall in F; [exact F|exact N]. }
  intros j x y CX CY. apply S in CX as (A1 & A2 & A3). apply S in CY as (B1 & B2 & B3). now apply small_fits.
Qed.
Example sample_encoded :
  encode8 (fit (new_quantizer 3) sample) [lit 2 0; lit 7 0; lit 6 0] = Ok [127; 255; 255]%N /\
  encode4 (fit (new_quantizer 3) sample) [lit 2 0; lit 7 0; lit 6 0] = Ok [127; 240]%N.
Proof. split; vm_compute; reflexivity. Qed.

(** ** What does not hold *)
(** A fitted range wider than the largest float has values without a code: the width is
    infinite, the quotient of two infinities is a NaN, and converting a NaN to an
    integer is undefined. *)
Theorem quantize_width_refuted :
  exists data v, vectors 1 data /\ In [v] data /\
    (forall row, In row data -> encode8 (fit (new_quantizer 1) data) row = OutOfBounds -> row = [v]) /\
    encode8 (fit (new_quantizer 1) data) [v] = OutOfBounds.
Proof.
  exists [[f32_lowest]; [lit 15099494 104]; [f32_max]], (lit 15099494 104).
  split; [unfold vectors; repeat (apply Forall_cons; [split; [reflexivity|repeat (apply Forall_cons; [vm_compute; reflexivity|]); apply Forall_nil]|]); apply Forall_nil|].
  split; [right; left; reflexivity|]. split; [|vm_compute; reflexivity].
  intros row [ <- |[ <- |[ <- |[]]]] E; [vm_compute in E; discriminate E|reflexivity|vm_compute in E; discriminate E].
Qed.
(** So do NaNs. *)
Theorem quantize_nan_refuted : exists lo hi, proper lo hi /\ width_fits lo hi /\ quantize 255 B754_nan lo hi = OutOfBounds.
Proof. exists (lit 1 0), (lit 3 0). destruct sample_codes as (P & W & _). split; [exact P|]. split; [exact W|]. vm_compute. reflexivity. Qed.

Print Assumptions quantize_in_range_partial.
Print Assumptions quantize_monotone.
Print Assumptions quantize_ends.
Print Assumptions quantize_accurate.
Print Assumptions fit_exact.
Print Assumptions encode8_correct.
Print Assumptions encode4_correct.
Print Assumptions quantize_width_refuted.
Print Assumptions quantize_nan_refuted.
