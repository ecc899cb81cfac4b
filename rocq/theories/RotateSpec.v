(** What a rotation should do, in real numbers. *)
From Coq Require Export Reals.
From Coq Require Import List.
Import ListNotations.
Local Open Scope R_scope.

(** Inner product and squared distance. *)
Fixpoint dot (x y : list R) : R := match x, y with a :: x', b :: y' => a * b + dot x' y' | _, _ => 0 end.
Fixpoint dist2 (x y : list R) : R := match x, y with a :: x', b :: y' => (a - b) * (a - b) + dist2 x' y' | _, _ => 0 end.
(** The Walsh-Hadamard transform, by Sylvester's matrices: H(n+1) consists of
    the rows (H(n), H(n)) and (H(n), -H(n)). *)
Fixpoint zip (f : R -> R -> R) (x y : list R) : list R := match x, y with a :: x', b :: y' => f a b :: zip f x' y' | _, _ => [] end.
Fixpoint walsh_hadamard (n : nat) (v : list R) : list R :=
  match n with
  | O => v
  | S n' =>
      let a := walsh_hadamard n' (firstn (2 ^ n') v) in
      let b := walsh_hadamard n' (skipn (2 ^ n') v) in
      zip Rplus a b ++ zip Rminus a b
  end.
(** The rotation keeps all inner products, lengths and distances. *)
Definition isometry (rotate : list R -> list R -> Prop) : Prop :=
  forall x y rx ry, rotate x rx -> rotate y ry -> length x = length y ->
    length rx = length ry /\ dot rx ry = dot x y /\ dot rx rx = dot x x /\ dist2 rx ry = dist2 x y.
