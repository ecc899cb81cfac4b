(** Robust prune, include/index/graph/vamana/robust_prune.hpp:124-209.
    Single-precision floats are the standard library's [spec_float] with 24
    bits of precision and round-to-nearest-even, so division and comparison
    (also of infinities and NaN) are exact. *)
From Coq Require Export Floats.SpecFloat.
From Verif Require Export Bytes.

(** IEEE binary32 operations used by the code *)
Definition fdiv (a b : spec_float) : spec_float := SFdiv 24 128 a b.
Definition fmul (a b : spec_float) : spec_float := SFmul 24 128 a b.
Definition fzero : spec_float := S754_zero false.
Definition fone : spec_float := S754_finite false 8388608 (-23).
(** 1.2f *)
Definition f1_2 : spec_float := S754_finite false 10066330 (-23).
(** std::numeric_limits<float>::max() *)
Definition flt_max : spec_float := S754_finite false 16777215 104.
(** std::max(a, b) is b when a < b, and a otherwise *)
Definition std_max (a b : spec_float) : spec_float := if SFltb a b then b else a.

(** Neighbor, 20-26, without the flag, which is not used here *)
Record pcand := { c_id : N; c_dist : spec_float }.
(** operator<, 28-30 *)
Definition pcand_lt (a b : pcand) : bool :=
  SFltb (c_dist a) (c_dist b) || (SFeqb (c_dist a) (c_dist b) && N.ltb (c_id a) (c_id b)).

(** The inner loop's body, 170-178, for the entry [c] with factor [f] after
    the entry [i] was selected.  [dist] is dist_fn. *)
Definition occlude (dist : N -> N -> spec_float) (alpha : spec_float) (i c : pcand) (f : spec_float) : spec_float :=
  if SFltb alpha f then f
  else let djk := dist (c_id c) (c_id i) in
       if SFeqb djk fzero then flt_max else std_max f (fdiv (c_dist c) djk).
Fixpoint occlude_rest (dist : N -> N -> spec_float) (alpha : spec_float) (i : pcand) (pool : list pcand) (fs : list spec_float) : list spec_float :=
  match pool, fs with
  | c :: pool', f :: fs' => occlude dist alpha i c f :: occlude_rest dist alpha i pool' fs'
  | _, _ => fs
  end.

(** The loop over the pool, 161-180: from the current entry on, with the
    entries' factors and the result so far.  The array occlude_factor has the
    length of the pool, so its accesses are in bounds. *)
Fixpoint prune_pass (dist : N -> N -> spec_float) (location : N) (alpha : spec_float) (degree : nat) (cur_alpha : spec_float)
    (pool : list pcand) (fs : list spec_float) (result : list N) : list spec_float * list N :=
  match pool, fs with
  | c :: pool', f :: fs' =>
      if Nat.ltb (length result) degree then
        if SFltb cur_alpha f then
          let (fs2, r2) := prune_pass dist location alpha degree cur_alpha pool' fs' result in (f :: fs2, r2)
        else
          let result1 := if N.eqb (c_id c) location then result else result ++ [c_id c] in
          let (fs2, r2) := prune_pass dist location alpha degree cur_alpha pool' (occlude_rest dist alpha c pool' fs') result1 in
          (flt_max :: fs2, r2)
      else (fs, result)
  | _, _ => (fs, result)
  end.
(** The loop over cur_alpha, 160-182.  [None] when the fuel runs out. *)
Fixpoint prune_ramp (fuel : nat) (dist : N -> N -> spec_float) (location : N) (alpha : spec_float) (degree : nat) (cur_alpha : spec_float)
    (pool : list pcand) (fs : list spec_float) (result : list N) : option (list N) :=
  match fuel with
  | O => None
  | S k => if SFleb cur_alpha alpha && Nat.ltb (length result) degree then
             let (fs2, r2) := prune_pass dist location alpha degree cur_alpha pool fs result in
             prune_ramp k dist location alpha degree (fmul cur_alpha f1_2) pool fs2 r2
           else Some result
  end.
(** occlude_list, 142-182, with an empty result *)
Definition occlude_list (fuel : nat) (dist : N -> N -> spec_float) (location : N) (pool : list pcand) (alpha : spec_float) (degree maxc : nat) : option (list N) :=
  match pool with
  | [] => Some []
  | _ => let pool1 := if Nat.ltb maxc (length pool) then firstn maxc pool else pool in
         prune_ramp fuel dist location alpha degree fone pool1 (repeat fzero (length pool1)) []
  end.

(** std::sort; on candidates with distinct ids and no NaN the sorted order is
    unique, so insertion sort gives the same array. *)
Fixpoint sort_insert (c : pcand) (l : list pcand) : list pcand :=
  match l with [] => [c] | d :: l' => if pcand_lt c d then c :: l else d :: sort_insert c l' end.
Fixpoint std_sort (l : list pcand) : list pcand :=
  match l with [] => [] | c :: l' => sort_insert c (std_sort l') end.
(** prune_neighbors, 187-209 *)
Definition prune_neighbors (fuel : nat) (dist : N -> N -> spec_float) (location : N) (pool : list pcand) (alpha : spec_float) (range maxc : nat) : option (list N) :=
  match pool with
  | [] => Some []
  | _ => occlude_list fuel dist location (std_sort pool) alpha range maxc
  end.
