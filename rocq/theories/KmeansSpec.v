(** What choosing centres should do. *)
From Verif Require Export KmeansModel PqSpec.
Import ListNotations.
Local Open Scope nat_scope.

(** Rounded operations on numbers that are not negative.  Doubles have these laws where the
    products are not denormal: [tiny] is the least positive distance, a float. *)
Record rounds (tiny : Q) (rd : rounding) : Prop := {
  rs_tiny : (0 < tiny)%Q;
  rs_zero : forall a, (r_add rd a 0 == a)%Q;
  rs_left : forall a b, (0 <= a -> 0 <= b -> a <= r_add rd a b)%Q;
  rs_right : forall a b, (0 <= a -> 0 <= b -> b <= r_add rd a b)%Q;
  rs_mul : forall u s, (0 <= u -> u < 1 -> tiny <= s -> 0 <= r_mul rd u s /\ r_mul rd u s < s)%Q;
  rs_mul0 : forall u, (0 <= r_mul rd u 0)%Q;
  rs_add_ext : forall a b c, (b == c -> r_add rd a b == r_add rd a c)%Q;
}.
(** The draws *)
Definition unit_draws (u : nat -> Q) : Prop := forall p, (0 <= u p)%Q /\ (u p < 1)%Q.
(** The distances between [n] points: finite, 0 or at least [tiny], 0 to themselves *)
Record distances (tiny : Q) (n : nat) (d : nat -> nat -> dnum) (q : nat -> nat -> Q) : Prop := {
  di_fin : forall i j, i < n -> j < n -> d i j = Fin (q i j);
  di_pos : forall i j, i < n -> j < n -> (q i j == 0)%Q \/ (tiny <= q i j)%Q;
  di_self : forall i, i < n -> (q i i == 0)%Q;
}.
(** Not a finite number *)
Definition not_finite (a : dnum) : Prop := a = Inf \/ a = NaN.
(** The same vector *)
Definition same (v w : list Q) : Prop := Forall2 Qeq v w.
(** [n] vectors of dimension [dim] *)
Definition matrix (dim : nat) (data : list (list Q)) : Prop := forall v, In v data -> length v = dim.
(** All distances of points to centres are below [big] *)
Definition in_reach (big : Q) (data cents : list (list Q)) : Prop := forall x c, In x data -> In c cents -> (Ql2 x c < big)%Q.
(** The centres after [r] iterations *)
Fixpoint after (big : Q) (dim : nat) (data cents : list (list Q)) (r : nat) : list (list Q) :=
  match r with O => cents | S r' => fst (lloyds_iter big dim data (after big dim data cents r')) end.
(** The residual that iteration [r] reports *)
Definition reported (big : Q) (dim : nat) (data cents : list (list Q)) (r : nat) : Q := snd (lloyds_iter big dim data (after big dim data cents r)).
(** How often centre [c] is among the nearest of a sample *)
Definition hits (near : list (list nat)) (c : nat) : nat := count_occ Nat.eq_dec (concat near) c.
