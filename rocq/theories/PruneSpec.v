(** What pruning should return. *)
From Verif Require Export PruneModel.

Definition not_nan (f : spec_float) : Prop := f <> S754_nan.
(** The pools the code prunes: no node twice, no NaN, not the node itself. *)
Definition pool_ok (location : N) (pool : list pcand) : Prop :=
  NoDup (map c_id pool) /\ ~ In location (map c_id pool) /\ forall c, In c pool -> not_nan (c_dist c).

(** Candidate [k] is closer than [c] (ties broken by id). *)
Definition closer (k c : pcand) : Prop :=
  SFltb (c_dist k) (c_dist c) = true \/ (SFeqb (c_dist k) (c_dist c) = true /\ (c_id k < c_id c)%N).

(** [k] occludes [c] at [level]: the two coincide, or [c] is more than [level]
    times as far from the node as from [k]. *)
Definition occludes (dist : N -> N -> spec_float) (level : spec_float) (k c : pcand) : Prop :=
  SFeqb (dist (c_id c) (c_id k)) fzero = true
  \/ SFltb level (fdiv (c_dist c) (dist (c_id c) (c_id k))) = true.

(** The levels 1, 1.2, 1.44, ... (rounded to single precision), and the last
    one that does not exceed [alpha]. *)
Fixpoint level (n : nat) : spec_float := match n with O => fone | S m => fmul (level m) f1_2 end.
Definition last_level (alpha lv : spec_float) : Prop :=
  exists n, lv = level n /\ SFleb (level n) alpha = true /\ SFleb (level (S n)) alpha = false.

(** A legal alpha: at least one and below the largest float. *)
Definition alpha_ok (alpha : spec_float) : Prop := SFleb fone alpha = true /\ SFltb alpha flt_max = true.
