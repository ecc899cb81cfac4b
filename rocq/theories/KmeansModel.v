(** K-means for choosing the centres of shards:
    include/index/graph/vamana/kmeans_partition.hpp:190-472 (kmeanspp_init, lloyds_iter,
    run_lloyds, estimate_cluster_sizes, kmeans_train).

    Simplified: a row-major array of vectors is the list of its rows; random draws are
    arbitrary; the parallel loops write disjoint places and are sequential; the OpenMP
    reduction of the residual is a plain sum.  In kmeanspp_init the rounding of the double
    sums is a parameter; the Lloyd iterations are in exact arithmetic.  IEEE comparisons are
    assumed (the Release build has -Ofast, which does not promise them). *)
From Coq Require Export Qround.
From Verif Require Export PqModel DeleteModel.
Import ListNotations.
Local Open Scope nat_scope.

(** A distance: a finite number, +infinity (overflow) or a NaN *)
Inductive dnum := Fin (q : Q) | Inf | NaN.
(** Rounded double operations on finite numbers *)
Record rounding := { r_add : Q -> Q -> Q; r_mul : Q -> Q -> Q }.
Definition unrounded : rounding := {| r_add := Qplus; r_mul := Qmult |}.
Definition qlt (a b : Q) : bool := negb (Qle_bool b a).

Section Pick.
Context (rd : rounding).
(** a + b, of numbers that are not negative *)
Definition nadd (a b : dnum) : dnum :=
  match a, b with NaN, _ | _, NaN => NaN | Inf, _ | _, Inf => Inf | Fin x, Fin y => Fin (r_add rd x y) end.
(** u * s *)
Definition nmul (u : Q) (s : dnum) : dnum :=
  match s with NaN => NaN | Inf => if qlt 0 u then Inf else NaN | Fin x => Fin (r_mul rd u x) end.
(** a < b, a >= b *)
Definition nlt (a b : dnum) : bool :=
  match a, b with NaN, _ | _, NaN => false | Inf, _ => false | Fin _, Inf => true | Fin x, Fin y => qlt x y end.
Definition nge (a b : dnum) : bool :=
  match a, b with NaN, _ | _, NaN => false | Inf, _ => true | Fin _, Inf => false | Fin x, Fin y => Qle_bool y x end.
Definition is_zero (a : dnum) : bool := match a with Fin x => Qeq_bool x 0 | _ => false end.

(** 242-245 *)
Definition sum_dist (dist : list dnum) : dnum := fold_left nadd dist (Fin 0).
(** 253-259: the place where the dart lands; [last] is num_points - 1 *)
Fixpoint land (dart : dnum) (dist : list dnum) (i : nat) (prefix : dnum) (last : nat) : nat :=
  match dist with
  | [] => last
  | x :: dist' => if nge dart prefix && nlt dart (nadd prefix x) then i else land dart dist' (S i) (nadd prefix x) last
  end.
(** The re-draw loop, 249-266.  [u] is the stream of draws from [0, 1), [p] the position in it *)
Fixpoint draw (fuel : nat) (u : nat -> Q) (p : nat) (dist : list dnum) (picked : list nat) : fuelled (nat * nat) :=
  match fuel with
  | O => OutOfFuel
  | S fuel' =>
      let s := sum_dist dist in
      let chosen := land (nmul (u p) s) dist 0 (Fin 0) (length dist - 1) in
      if is_zero s then Done (chosen, S p)
      else if existsb (Nat.eqb chosen) picked then draw fuel' u (S p) dist picked
      else Done (chosen, S p)
  end.
(** 270-285.  [d i j]: the distance computed of point [i] to point [j] *)
Definition lower (d : nat -> nat -> dnum) (chosen : nat) (dist : list dnum) : list dnum :=
  map (fun e => if nlt (d (fst e) chosen) (snd e) then d (fst e) chosen else snd e) (combine (seq 0 (length dist)) dist).
(** 236-288, [m] centres to go; the picked points, latest last, and the position in the stream *)
Fixpoint pick_more (fuel : nat) (d : nat -> nat -> dnum) (u : nat -> Q) (m p : nat) (dist : list dnum) (picked : list nat) : fuelled (list nat * nat) :=
  match m with
  | O => Done (picked, p)
  | S m' =>
      match draw fuel u p dist picked with
      | OutOfFuel => OutOfFuel
      | Done (chosen, p') => pick_more fuel d u m' p' (lower d chosen dist) (picked ++ [chosen])
      end
  end.
(** 190-289; each draw has [fuel].  The pivots are the picked points *)
Definition kmeanspp (fuel : nat) (d : nat -> nat -> dnum) (n k first : nat) (u : nat -> Q) : fuelled (res (list nat * nat)) :=
  if Nat.eqb k 0 || Nat.eqb n 0 then Done Throws
  else if Nat.ltb n k then Done Throws
  else if Z.ltb (2 ^ 23) (Z.of_nat n) then Done Throws
  else match pick_more fuel d u (k - 1) 0 (map (fun i => d i first) (seq 0 n)) [first] with
       | OutOfFuel => OutOfFuel
       | Done r => Done (Ok r)
       end.
End Pick.

(** ** Lloyd's iterations *)
(** compute_closest_centers with k == 1, 137-150; [big] is FLT_MAX *)
Fixpoint scan_min (row : list Q) (j : nat) (best : Q) (best_id : nat) : nat :=
  match row with
  | [] => best_id
  | x :: row' => if qlt x best then scan_min row' (S j) x j else scan_min row' (S j) best best_id
  end.
Definition closest_centre (big : Q) (cents : list (list Q)) (x : list Q) : nat := scan_min (map (Ql2 x) cents) 0 big 0.
(** 313-316 *)
Definition inverted (assign : list nat) (data : list (list Q)) (c : nat) : list (list Q) :=
  map snd (List.filter (fun e => Nat.eqb (fst e) c) (combine assign data)).
(** 318-341: the mean of the members, or zeros *)
Definition centre (dim : nat) (ms : list (list Q)) : list Q :=
  match ms with [] => repeat 0%Q dim | _ => map (fun t => Qmean (map (fun v => nth t v 0%Q) ms)) (seq 0 dim) end.
(** 350-362: the residual, against the assignment made before the update *)
Definition lloyd_residual (data cents : list (list Q)) (assign : list nat) : Q :=
  fold_right (fun e s => Ql2 (snd e) (nth (fst e) cents []) + s)%Q 0%Q (combine assign data).
(** 299-364 *)
Definition lloyds_iter (big : Q) (dim : nat) (data cents : list (list Q)) : list (list Q) * Q :=
  let assign := map (closest_centre big cents) data in
  let new := map (fun c => centre dim (inverted assign data c)) (seq 0 (length cents)) in
  (new, lloyd_residual data new assign).
(** 377-391; [first] holds in the first round, [old] is the residual of the round before *)
Fixpoint lloyds_loop (big tol eps : Q) (dim : nat) (data : list (list Q)) (reps : nat) (first : bool) (cents : list (list Q)) (old : Q) : list (list Q) * Q :=
  match reps with
  | O => (cents, old)
  | S reps' =>
      let (cents', r) := lloyds_iter big dim data cents in
      if negb first && qlt 0 r && qlt ((old - r) / r) tol then (cents', r)
      else if qlt r eps then (cents', r)
      else lloyds_loop big tol eps dim data reps' false cents' r
  end.
(** 369-393 *)
Definition run_lloyds (big tol eps : Q) (dim : nat) (data cents : list (list Q)) (max_reps : nat) : list (list Q) * Q :=
  lloyds_loop big tol eps dim data max_reps true cents big.
(** kmeans_train, 449-472: exact distances *)
Definition exact_dist (data : list (list Q)) (i j : nat) : dnum := Fin (Ql2 (nth i data []) (nth j data [])).
Definition kmeans_train (fuel : nat) (rd : rounding) (big tol eps : Q) (dim : nat) (data : list (list Q)) (k first : nat) (u : nat -> Q) (max_reps : nat)
  : fuelled (res (list (list Q) * Q)) :=
  match kmeanspp rd fuel (exact_dist data) (length data) k first u with
  | OutOfFuel => OutOfFuel
  | Done r => Done (let* (picked, _) := r in Ok (run_lloyds big tol eps dim data (map (fun i => nth i data []) picked) max_reps))
  end.

(** ** estimate_cluster_sizes, 408-438.  [near x]: the [k_base] nearest centres of sample [x];
    [inv_rate] is 1.0 / sampling_rate, the cast to size_t cuts the fraction off.  The doubles
    are exact. *)
Fixpoint count_all (ids : list nat) (counts : list N) : res (list N) :=
  match ids with
  | [] => Ok counts
  | c :: ids' => let* x := aget counts (N.of_nat c) in let* counts' := aput counts (N.of_nat c) (x + 1)%N in count_all ids' counts'
  end.
Definition estimate_sizes (near : list (list nat)) (centers : nat) (rate : Q) : res (list N) :=
  if Qle_bool rate 0 || qlt 1 rate then Throws
  else let counts := repeat 0%N centers in
       if Nat.eqb (length near) 0 || Nat.eqb centers 0 then Ok counts
       else let* counts := count_all (concat near) counts in
            Ok (map (fun n => Z.to_N (Qfloor (inject_Z (Z.of_N n) * (1 / rate)))) counts).
