(** Distances of quantized vectors: the L2 functions of include/simd/distance_l2.ipp and
    the inner-product functions of include/simd/distance_ip.ipp.  Only the generic
    functions are modelled; the AVX ones read the codes in the same way and differ in
    the order of the additions and in fusing them with the multiplications.  Vectors of
    codes are lists of bytes; the ranges (min, max) are the quantizer's. *)
From Coq Require Import ZArith List.
From Flocq Require Import IEEE754.BinarySingleNaN.
From Verif Require Export QuantModel.

Definition f32_add : f32 -> f32 -> f32 := @Bplus _ _ f32_prec_pos f32_prec_lt mode_NE.
(** static_cast<float>(uint8_t) *)
Definition of_code (c : N) : f32 := f32_of (Z.of_N c).
(** kInv255 and kInv15, distance_l2.ipp 215 and 237 *)
Definition inverse (top : Z) : f32 := f32_div (f32_of 1) (f32_of top).

(** One dimension of the L2 distance, distance_l2.ipp 218-221 and 241-246 (248-254) *)
Definition l2_term (top : Z) (lo hi : f32) (x y : N) : f32 :=
  let scale := f32_mul (f32_sub hi lo) (inverse top) in
  let diff := f32_sub (of_code x) (of_code y) in
  let scaled_diff := f32_mul diff scale in
  f32_mul scaled_diff scaled_diff.

(** l2_sqr_sq8_generic, distance_l2.ipp 208-224; [sum] is the running sum.  Codes that
    end before the dimensions do are read out of bounds. *)
Fixpoint l2_sq8_from (sum : f32) (q : quantizer) (x y : list N) : res f32 :=
  match q with
  | [] => Ok sum
  | (lo, hi) :: q' =>
      match x, y with
      | cx :: x', cy :: y' => l2_sq8_from (f32_add sum (l2_term 255 lo hi cx cy)) q' x' y'
      | _, _ => OutOfBounds
      end
  end.
Definition l2_sq8 (q : quantizer) (x y : list N) : res f32 := l2_sq8_from (f32_of 0) q x y.

(** l2_sqr_sq4_generic, distance_l2.ipp 230-258: the low four bits of a byte belong to
    the even dimension, the high ones to the odd dimension *)
Fixpoint l2_sq4_from (sum : f32) (q : quantizer) (x y : list N) : res f32 :=
  match q with
  | [] => Ok sum
  | (lo, hi) :: q' =>
      match x, y with
      | bx :: x', by_ :: y' =>
          let sum := f32_add sum (l2_term 15 lo hi (N.land bx 15) (N.land by_ 15)) in
          match q' with
          | [] => Ok sum
          | (lo', hi') :: q'' =>
              l2_sq4_from (f32_add sum (l2_term 15 lo' hi' (N.land (N.shiftr bx 4) 15) (N.land (N.shiftr by_ 4) 15))) q'' x' y'
          end
      | _, _ => OutOfBounds
      end
  end.
Definition l2_sq4 (q : quantizer) (x y : list N) : res f32 := l2_sq4_from (f32_of 0) q x y.

(** One dimension of the inner product, distance_ip.ipp 173-176 and 380-383 *)
Definition ip_term (top : Z) (lo hi : f32) (x y : N) : f32 :=
  let scale := f32_mul (f32_sub hi lo) (inverse top) in
  let x_val := f32_add lo (f32_mul (of_code x) scale) in
  let y_val := f32_add lo (f32_mul (of_code y) scale) in
  f32_mul x_val y_val.
(** ip_sqr_sq8_generic, distance_ip.ipp 163-179 *)
Fixpoint ip_sq8_from (sum : f32) (q : quantizer) (x y : list N) : res f32 :=
  match q with
  | [] => Ok (Bopp sum)
  | (lo, hi) :: q' =>
      match x, y with
      | cx :: x', cy :: y' => ip_sq8_from (f32_add sum (ip_term 255 lo hi cx cy)) q' x' y'
      | _, _ => OutOfBounds
      end
  end.
Definition ip_sq8 (q : quantizer) (x y : list N) : res f32 := ip_sq8_from (f32_of 0) q x y.
(** ip_sqr_sq4_generic, distance_ip.ipp 366-397 *)
Fixpoint ip_sq4_from (sum : f32) (q : quantizer) (x y : list N) : res f32 :=
  match q with
  | [] => Ok (Bopp sum)
  | (lo, hi) :: q' =>
      match x, y with
      | bx :: x', by_ :: y' =>
          let sum := f32_add sum (ip_term 15 lo hi (N.land bx 15) (N.land by_ 15)) in
          match q' with
          | [] => Ok (Bopp sum)
          | (lo', hi') :: q'' =>
              ip_sq4_from (f32_add sum (ip_term 15 lo' hi' (N.land (N.shiftr bx 4) 15) (N.land (N.shiftr by_ 4) 15))) q'' x' y'
          end
      | _, _ => OutOfBounds
      end
  end.
Definition ip_sq4 (q : quantizer) (x y : list N) : res f32 := ip_sq4_from (f32_of 0) q x y.
