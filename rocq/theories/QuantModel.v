(** Scalar quantization: SQ8Quantizer<float> (include/space/quant/sq8.hpp) and
    SQ4Quantizer<float> (include/space/quant/sq4.hpp).  float is the only DataType
    instantiated (python/include/dispatch_generated.hpp).

    Numbers are the IEEE-754 binary32 numbers of Flocq with rounding to nearest even.
    The release build uses -Ofast (cmake/AlayaFlags.cmake 39), which lets the compiler
    depart from this arithmetic; that is left out. *)
From Coq Require Import ZArith List.
From Flocq Require Import IEEE754.BinarySingleNaN.
From Verif Require Export ScalarDataModel Arr.

(** binary32 *)
Definition f32_prec : Z := 24.
Definition f32_emax : Z := 128.
Definition f32 : Type := binary_float f32_prec f32_emax.
Definition f32_prec_pos : FLX.Prec_gt_0 f32_prec := eq_refl.
Definition f32_prec_lt : Prec_lt_emax f32_prec f32_emax := eq_refl.
Definition f32_sub : f32 -> f32 -> f32 := @Bminus _ _ f32_prec_pos f32_prec_lt mode_NE.
Definition f32_div : f32 -> f32 -> f32 := @Bdiv _ _ f32_prec_pos f32_prec_lt mode_NE.
Definition f32_mul : f32 -> f32 -> f32 := @Bmult _ _ f32_prec_pos f32_prec_lt mode_NE.
(** conversion of an integer *)
Definition f32_of (z : Z) : f32 := @binary_normalize _ _ f32_prec_pos f32_prec_lt mode_NE z 0 false.
(** std::numeric_limits<float>::max() and lowest() *)
Definition f32_max : f32 := @Bmax_float _ _ f32_prec_pos f32_prec_lt.
Definition f32_lowest : f32 := Bopp f32_max.

(** static_cast<uint8_t> of a float: the number without its fraction; undefined when
    that is not one of 0..255 *)
Definition cast_u8 (x : f32) : res N :=
  if is_finite x && (0 <=? Btrunc x)%Z && (Btrunc x <=? 255)%Z then Ok (Z.to_N (Btrunc x)) else OutOfBounds.

(** quantize, sq8.hpp 109-122 ([top] = 255) and sq4.hpp 111-124 ([top] = 15) *)
Definition quantize (top : Z) (value min max : f32) : res N :=
  if Beqb max min then Ok 0%N
  else if Bleb max value then Ok (Z.to_N top)
  else if Bleb value min then Ok 0%N
  else cast_u8 (f32_mul (f32_div (f32_sub value min) (f32_sub max min)) (f32_of top)).

(** The quantizer: min_vector_ and max_vector_ as one list of pairs, sq8.hpp 26-28 *)
Definition quantizer := list (f32 * f32).
(** The constructor, sq8.hpp 66-80, sq4.hpp 65-79 *)
Definition new_quantizer (dim : nat) : quantizer := repeat (f32_max, f32_lowest) dim.
(** One value of fit, sq8.hpp 90-96, sq4.hpp 89-95 *)
Definition widen (range : f32 * f32) (value : f32) : f32 * f32 :=
  (if Bltb value (fst range) then value else fst range, if Bltb (snd range) value then value else snd range).
(** The inner loop of fit over one vector, sq8.hpp 89-97 *)
Fixpoint fit_row (q : quantizer) (v : list f32) : quantizer :=
  match q, v with
  | r :: q', x :: v' => widen r x :: fit_row q' v'
  | _, _ => []
  end.
(** fit, sq8.hpp 87-99, sq4.hpp 86-98; the data as a list of vectors of dim_ numbers *)
Definition fit (q : quantizer) (data : list (list f32)) : quantizer := fold_left fit_row data q.

(** encode, sq8.hpp 129-133 *)
Fixpoint encode8 (q : quantizer) (v : list f32) : res (list N) :=
  match q, v with
  | (lo, hi) :: q', x :: v' => let* c := quantize 255 x lo hi in let* rest := encode8 q' v' in Ok (c :: rest)
  | _, _ => Ok []
  end.
(** encode, sq4.hpp 131-142: two codes in a byte *)
Fixpoint encode4 (q : quantizer) (v : list f32) : res (list N) :=
  match q, v with
  | (lo, hi) :: (lo', hi') :: q', x :: x' :: v' =>
      let* first := quantize 15 x lo hi in
      let* second := quantize 15 x' lo' hi' in
      let* rest := encode4 q' v' in
      Ok (N.lor (N.shiftl first 4 mod 256) second :: rest)
  | (lo, hi) :: _, x :: _ =>
      let* first := quantize 15 x lo hi in
      Ok [N.lor (N.shiftl first 4 mod 256) 0]
  | _, _ => Ok []
  end.
