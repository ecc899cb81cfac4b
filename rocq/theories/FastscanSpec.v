(** What packed codes and lookup tables stand for. *)
From Verif Require Export FastscanModel.
Local Open Scope nat_scope.

Definition bytes (l : list N) : Prop := Forall (fun b => (b < 256)%N) l.
(** The bytes of vector [v], each vector having [cols] bytes. *)
Definition row (cols v : nat) (codes : list N) : list N := firstn cols (skipn (v * cols) codes).
(** The four bits for dimensions 4m to 4m+3 of a code. *)
Definition nibble (code : list N) (m : nat) : N :=
  let b := nth (m / 2) code 0%N in if Nat.even m then N.div b 16 else N.modulo b 16.
Fixpoint sumN (n : nat) (f : nat -> N) : N := match n with O => 0%N | S k => (sumN k f + f k)%N end.
(** The sum of the table entries selected by a code, 16 entries for every four
    dimensions. *)
Definition selected (code table : list N) (n : nat) : N :=
  sumN n (fun m => nth (16 * m + N.to_nat (nibble code m)) table 0%N).

(** The sum of the query over the dimensions where the bit is set. *)
Fixpoint where_set (x : list bool) (q : list Q) : Q :=
  match x, q with
  | b :: x', v :: q' => ((if b then v else 0) + where_set x' q')%Q
  | _, _ => 0%Q
  end.
Fixpoint where_setN (x : list bool) (q : list N) : N :=
  match x, q with
  | b :: x', v :: q' => ((if b then v else 0) + where_setN x' q')%N
  | _, _ => 0%N
  end.

(** ** Exact arithmetic on vectors *)
Fixpoint inner (a b : list Q) : Q := match a, b with x :: a', y :: b' => (x * y + inner a' b')%Q | _, _ => 0%Q end.
Fixpoint sub (a b : list Q) : list Q := match a, b with x :: a', y :: b' => (x - y)%Q :: sub a' b' | _, _ => [] end.
Definition distance2 (a b : list Q) : Q := inner (sub a b) (sub a b).
(** The signs of a residual, as plus or minus one half. *)
Definition half_signs (r : list Q) : list Q := map (fun x => if Qle_bool x 0 then (-1#2)%Q else (1#2)%Q) r.
(** RaBitQ's estimate of the squared distance of the query [q] and the neighbour
    [d] of node [c], [g] being the squared distance of [q] and [c]: the residual
    of [d] is replaced by its projection on its sign vector. *)
Definition scale (d c : list Q) : Q := (inner (sub d c) (sub d c) / inner (sub d c) (half_signs (sub d c)))%Q.
Definition estimator (d c q : list Q) (g : Q) : Q :=
  (g + inner (sub d c) (sub d c) - 2 * scale d c * inner (half_signs (sub d c)) (sub q c))%Q.
(** The same for inner products, [g] being minus the inner product of [q] and
    [c]; it stands for one minus the inner product. *)
Definition estimator_ip (d c q : list Q) (g : Q) : Q :=
  (g + 1 - inner (sub d c) c - scale d c * inner (half_signs (sub d c)) (sub q c))%Q.
Definition within (A : Q) (q : list Q) : Prop := Forall (fun x => (- A <= x <= A)%Q) q.
(** A sum with the signs of a code. *)
Fixpoint signed (x : list bool) (q : list N) : Z :=
  match x, q with
  | b :: x', v :: q' => ((if b then Z.of_N v else - Z.of_N v) + signed x' q')%Z
  | _, _ => 0%Z
  end.
