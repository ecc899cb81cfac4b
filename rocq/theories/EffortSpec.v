(** What the search parameters should be. *)
From Coq Require Import NArith ZArith.
From Verif Require Export EffortModel.

(** The parameters a user may give: 32-bit numbers, a positive number of results, and a
    list size not below it *)
Definition given (i : info) : Prop := (0 < topk i <= ef i)%N /\ (ef i < 2 ^ 32)%N.

(** Parameters fit for a search of [k] results in [total] rows: the list holds the
    results, is not larger than the table and is not smaller than was asked for unless
    the table is *)
Definition fit_for (total : N) (i i' : info) : Prop :=
  (topk i' <= ef i' <= total)%N /\ (N.min total (ef i) <= ef i')%N.

(** ** Integers *)
Definition multiple (m d : N) : Prop := exists k, m = (k * d)%N.
Definition power_of_two (x : N) : Prop := exists k, x = (2 ^ k)%N.
