(** What the construction of a Vamana graph should guarantee. *)
From Coq Require Export Permutation.
From Verif Require Export SearchSpec PruneModel PruneSpec VBuildModel.

(** [n] lists of neighbours, each naming existing nodes other than its own,
    none twice, and at most [cap] of them. *)
Definition well_formed (n cap : nat) (rows : list (list N)) : Prop :=
  length rows = n
  /\ forall i row, nth_error rows i = Some row ->
       NoDup row /\ ~ In (N.of_nat i) row /\ (forall y, In y row -> (y < N.of_nat n)%N) /\ length row <= cap.

(** Distances that compare: no NaN. *)
Definition comparable (dist : N -> N -> spec_float) : Prop := forall a b, not_nan (dist a b).
(** Squared distances as the code computes them from vectors without NaN or
    infinity whose squares do not overflow: non-negative single-precision
    floats, the same in both directions. *)
Definition float32 (f : spec_float) : Prop := valid_binary 24 128 f = true.
Definition nonnegative (f : spec_float) : Prop := match f with S754_zero _ => True | S754_finite s _ _ => s = false | S754_infinity s => s = false | S754_nan => False end.
Definition metric_like (dist : N -> N -> spec_float) : Prop :=
  forall a b, float32 (dist a b) /\ nonnegative (dist a b) /\ dist a b = dist b a.

(** How often thread [i] is scheduled. *)
Definition turns (i : nat) (sched : list nat) : nat := count_occ Nat.eq_dec sched i.

(** A whole build: linking, then cleanup, by the same number of threads, each
    under some schedule, until all threads have left both loops. *)
Definition builds (p : bparams) (dist : N -> N -> spec_float) (medoid : N) (n threads : nat) (rows : list (list N)) : Prop :=
  exists fuel sched st sched2 st2,
    run fuel p dist medoid (link_start p n threads) sched = Done (Ok st) /\ link_done st
    /\ clean_run fuel p dist (clean_start (v_rows st) threads) sched2 = Done (Ok st2) /\ clean_done st2
    /\ rows = c_rows st2.

(** Every node can be reached from the entry point along the links. *)
Definition all_reachable (medoid : N) (rows : list (list N)) : Prop :=
  forall x, (x < N.of_nat (length rows))%N -> reachable (adjacent rows) (eq medoid) x.

(** Node [i] is as near to the centroid as any: [None] is a NaN distance. *)
Definition nearest (dists : list (option Z)) (i : N) : Prop :=
  exists v, nth_error dists (N.to_nat i) = Some (Some v) /\ forall j w, nth_error dists j = Some (Some w) -> (v <= w)%Z.
(** The threads 0, ..., T - 1, in some order. *)
Definition all_threads (T : N) (order : list N) : Prop := Permutation order (map N.of_nat (seq 0 (N.to_nat T))).
(** Some distance is a number below the largest double. *)
Definition has_number (huge : Z) (dists : list (option Z)) : Prop := exists i v, nth_error dists i = Some (Some v) /\ (v < huge)%Z.
