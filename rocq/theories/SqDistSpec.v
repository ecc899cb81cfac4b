(** The distance that quantized vectors should have: that of the vectors the codes stand
    for, each code decoded with the range of its own dimension. *)
From Coq Require Import ZArith Reals List.
From Flocq Require Import IEEE754.BinarySingleNaN.
From Verif Require Export SqDistModel QuantSpec.

(** The value a code stands for: min + code/top * (max - min) (distance_l2.ipp 207, 229) *)
Definition decoded (top : Z) (lo hi : f32) (c : N) : R :=
  (real lo + IZR (Z.of_N c) / IZR top * (real hi - real lo))%R.

(** Squared euclidean distance and inner product of the decoded vectors, given the ranges
    and the codes of each dimension *)
Fixpoint sq_dist (top : Z) (q : quantizer) (x y : list N) : R :=
  match q, x, y with
  | (lo, hi) :: q', cx :: x', cy :: y' =>
      ((decoded top lo hi cx - decoded top lo hi cy) * (decoded top lo hi cx - decoded top lo hi cy) + sq_dist top q' x' y')%R
  | _, _, _ => 0%R
  end.

(** The unit roundoff and the smallest positive float *)
Definition unit : R := (/ 16777216)%R.
Definition tiny : R := Raux.bpow Zaux.radix2 (-149).

(** [r] is within the rounding errors of summing [n] terms of [exact]: a relative error
    of about (n + 16) * 2^-24 *)
Definition close (n : nat) (r exact : R) : Prop :=
  (Rabs (r - exact) <= ((1 + unit) ^ (n + 16) - 1) * exact + INR n * (1 + unit) ^ n * tiny)%R.

(** The inner product of the decoded vectors, and the sum of the squares of the largest
    value that the decoding of each dimension goes through, |min| + |max - min| *)
Fixpoint inner_dist (top : Z) (q : quantizer) (x y : list N) : R :=
  match q, x, y with
  | (lo, hi) :: q', cx :: x', cy :: y' => (decoded top lo hi cx * decoded top lo hi cy + inner_dist top q' x' y')%R
  | _, _, _ => 0%R
  end.
Definition size (r : f32 * f32) : R := (Rabs (real (fst r)) + Rabs (real (snd r) - real (fst r)))%R.
Fixpoint size_sum (q : quantizer) : R := match q with [] => 0%R | r :: q' => (size r * size r + size_sum q')%R end.
(** [r] is within the rounding errors of summing [n] signed terms of [exact], [total]
    being the sum of their sizes *)
Definition close_to (n : nat) (r exact total : R) : Prop :=
  (Rabs (r - exact) <= ((1 + unit) ^ (n + 20) - 1) * total + INR n * (1 + unit) ^ n * tiny)%R.

(** The ranges are made of finite numbers *)
Definition finite_ranges (q : quantizer) : Prop :=
  Forall (fun r : f32 * f32 => is_finite (fst r) = true /\ is_finite (snd r) = true) q.

(** The codes of the dimensions in the bytes of a 4-bit vector ([packed] of QuantSpec.v) *)
Definition codes4 (bytes : list N) : list N := flat_map (fun b => [(b / 16)%N; (b mod 16)%N]) bytes.
(** An even number of dimensions, where dimensions 2i and 2i+1 have the same range *)
Inductive paired : quantizer -> Prop :=
| paired_nil : paired []
| paired_cons r q : paired q -> paired (r :: r :: q).
