(** What product quantization should do, independent of how the code does it. *)
From Verif Require Export PqModel.
Import ListNotations.
Local Open Scope nat_scope.

Fixpoint sum_to (n : nat) (f : nat -> Q) : Q := match n with O => 0%Q | S k => (sum_to k f + f k)%Q end.
(** The shape of a trained table with its codes: equal chunks, 256 codewords per chunk,
    one code per point and chunk *)
Definition shaped {T} (t : pq T) : Prop :=
  0 < q_cd t /\ 0 < q_chunks t /\ q_dim t = q_chunks t * q_cd t /\ length (q_centroid t) = q_dim t /\
  length (q_codebook t) = q_chunks t * 256 * q_cd t.
Definition coded {T} (t : pq T) : Prop :=
  length (q_codes t) = q_points t * q_chunks t /\ Forall (fun b => (b < 256)%N) (q_codes t).
(** The code of a point in a chunk *)
Definition code {T} (t : pq T) (id c : nat) : nat := N.to_nat (nth (id * q_chunks t + c) (q_codes t) 0%N).
(** A row of codes *)
Definition code_row {T} (t : pq T) (id : nat) : list N := firstn (q_chunks t) (skipn (id * q_chunks t) (q_codes t)).

(** Dimension [d] of the vector that the codes [row] stand for: the centroid plus the
    coordinate of the codeword which [row] names for the chunk of [d] *)
Definition decoded (t : pq Q) (row : nat -> nat) (d : nat) : Q :=
  let c := d / q_cd t in
  (nth d (q_centroid t) 0 + nth ((c * 256 + row c) * q_cd t + d mod q_cd t) (q_codebook t) 0)%Q.
(** Squared distance *)
Definition sq_dist (n : nat) (v w : nat -> Q) : Q := sum_to n (fun d => ((v d - w d) * (v d - w d))%Q).
Definition coord (v : list Q) (d : nat) : Q := nth d v 0%Q.
(** The part of the distance in chunk [c] if its code is [k] *)
Definition chunk_dist (t : pq Q) (v : list Q) (c k : nat) : Q :=
  sum_to (q_cd t) (fun j => let d := c * q_cd t + j in
    ((coord v d - decoded t (fun _ => k) d) * (coord v d - decoded t (fun _ => k) d))%Q).

(** Every vector has [n] coordinates *)
Definition rows_of {T} (n : nat) (data : list (list T)) : Prop := Forall (fun v => length v = n) data.
Definition bounded (B : Q) (data : list (list Q)) : Prop := Forall (Forall (fun x => - B <= x <= B)%Q) data.
(** The total squared distance of the points to their nearest centroids *)
Definition nearest_dist (cents : list (list Q)) (x : list Q) : Q :=
  match map (Ql2 x) cents with [] => 0%Q | d :: ds => fold_right (fun a b => if Qle_bool a b then a else b) d ds end.
Definition total_dist (data cents : list (list Q)) : Q := fold_right (fun x s => (nearest_dist cents x + s)%Q) 0%Q data.

(** The bits of a number stand for it and take four bytes *)
Definition bits_ok {T} (ar : arith T) : Prop := forall x, a_of_bits ar (a_bits ar x) = x /\ (a_bits ar x < 2 ^ 32)%N.
(** The blocks of 4096 points *)
Definition blocks_of (n : nat) : nat := (n + (kBlock - 1)) / kBlock.
(** The total squared distance of the data to what their codes stand for *)
Definition error (t : pq Q) (data : list (list Q)) : Q :=
  sum_to (length data) (fun i => sq_dist (q_dim t) (coord (nth i data [])) (decoded t (code t i))).
