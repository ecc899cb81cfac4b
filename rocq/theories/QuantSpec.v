(** What scalar quantization should do, over the real numbers that the floats stand for. *)
From Coq Require Import ZArith Reals List.
From Flocq Require Import IEEE754.BinarySingleNaN.
From Verif Require Export QuantModel.

(** The real number a finite float stands for *)
Definition real (x : f32) : R := B2R x.

(** A proper range: two finite numbers, the first below the second *)
Definition proper (lo hi : f32) : Prop :=
  is_finite lo = true /\ is_finite hi = true /\ (real lo < real hi)%R.
(** Its width is a float, up to rounding: not above the largest float *)
Definition width_fits (lo hi : f32) : Prop := (real hi - real lo <= real f32_max)%R.

(** The place of [v] in the range, on the scale of 0 to [top] *)
Definition place (top : Z) (v lo hi : f32) : R := (IZR top * ((real v - real lo) / (real hi - real lo)))%R.

(** The values of dimension [j] *)
Definition column (j : nat) (data : list (list f32)) (v : f32) : Prop :=
  exists row, In row data /\ nth_error row j = Some v.

(** [lo] and [hi] are the least and the largest of the values [S] *)
Definition least (S : f32 -> Prop) (lo : f32) : Prop := S lo /\ forall v, S v -> (real lo <= real v)%R.
Definition largest (S : f32 -> Prop) (hi : f32) : Prop := S hi /\ forall v, S v -> (real v <= real hi)%R.

(** Vectors of [dim] finite numbers *)
Definition vectors (dim : nat) (data : list (list f32)) : Prop :=
  Forall (fun row : list f32 => length row = dim /\ Forall (fun v : f32 => is_finite v = true) row) data.

(** Where the code of dimension [j] is kept: in the byte j/2, even dimensions in the
    upper four bits *)
Definition packed (bytes : list N) (j : nat) : option N :=
  match nth_error bytes (j / 2) with
  | Some b => Some (if Nat.even j then (b / 16)%N else (b mod 16)%N)
  | None => None
  end.
