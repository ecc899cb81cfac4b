(** Properties C25 and C26 of the candidate pools. *)
From Verif Require Import PoolModel PoolSpec PoolProofs.

(** LinearPool: all distances that are not NaN. *)
Theorem linear_pool_keeps_closest : forall cap ops,
  0 < cap -> Forall (op_ok float_inf) ops -> holds_closest lp_insert lp_pop cap ops.
Proof.
  intros cap ops Hc. apply closest_lemma; auto; [intros; now apply lp_insert_spec|apply lp_pop_spec].
Qed.
Print Assumptions linear_pool_keeps_closest.
Theorem linear_pool_refuses_only_far : forall cap ops,
  0 < cap -> Forall (op_ok float_inf) ops -> refuses_only_far lp_insert lp_pop cap float_inf ops.
Proof.
  intros cap ops Hc. apply refuses_lemma; auto; [intros; now apply lp_insert_spec|apply lp_pop_spec].
Qed.
Print Assumptions linear_pool_refuses_only_far.
Theorem linear_pool_never_skips : forall cap ops,
  0 < cap -> Forall (op_ok float_inf) ops -> never_skips lp_insert lp_pop cap ops.
Proof.
  intros cap ops Hc. apply (skips_lemma lp_insert lp_pop cap float_inf); auto; [intros; now apply lp_insert_spec|apply lp_pop_spec].
Qed.
Print Assumptions linear_pool_never_skips.

Definition ex_ops : list pool_op :=
  [Ins 5 30; Ins 6 10; Pop; Ins 7 10; Ins 8 (-4); Pop; Ins 9 50; Ins 2147483647 20; Pop]%Z.
Example linear_pool_example : Forall (op_ok float_inf) ex_ops
  /\ match run_pool lp_insert lp_pop (pool_new 3) ex_ops with
     | Ok p => content p = [((8%N, -4), true); ((6%N, 10), true); ((7%N, 10), true)]%Z
     | _ => False end.
Proof. split; [repeat constructor; discriminate|vm_compute; reflexivity]. Qed.

(** SearchBuffer<float>: finite distances only (see the refutation below). *)
Theorem search_buffer_keeps_closest_partial : forall cap ops,
  0 < cap -> Forall (op_ok float_max) ops -> holds_closest sb_insert sb_pop cap ops.
Proof.
  intros cap ops Hc. apply closest_lemma; auto; [intros; now apply sb_insert_spec|apply sb_pop_spec].
Qed.
Print Assumptions search_buffer_keeps_closest_partial.
Theorem search_buffer_refuses_only_far_partial : forall cap ops,
  0 < cap -> Forall (op_ok float_max) ops -> refuses_only_far sb_insert sb_pop cap float_max ops.
Proof.
  intros cap ops Hc. apply refuses_lemma; auto; [intros; now apply sb_insert_spec|apply sb_pop_spec].
Qed.
Print Assumptions search_buffer_refuses_only_far_partial.
Theorem search_buffer_never_skips : forall cap ops,
  0 < cap -> Forall (op_ok float_max) ops -> never_skips sb_insert sb_pop cap ops.
Proof.
  intros cap ops Hc. apply (skips_lemma sb_insert sb_pop cap float_max); auto; [intros; now apply sb_insert_spec|apply sb_pop_spec].
Qed.
Print Assumptions search_buffer_never_skips.
Example search_buffer_example : Forall (op_ok float_max) ex_ops
  /\ match run_pool sb_insert sb_pop (pool_new 3) ex_ops with
     | Ok p => content p = [((8%N, -4), true); ((7%N, 10), true); ((6%N, 10), true)]%Z
     | _ => False end.
Proof. split; [repeat constructor; discriminate|vm_compute; reflexivity]. Qed.

(** A buffer that is cleared and used again keeps no trace of the use before. *)
Theorem search_buffer_cleared_partial : forall cap before ops,
  0 < cap -> Forall (op_ok float_max) before -> Forall (op_ok float_max) ops ->
  exists p, run_pool sb_insert sb_pop (pool_new cap) before = Ok p
    /\ holds_closest_from sb_insert sb_pop (sb_clear p) cap ops
    /\ never_skips_from sb_insert sb_pop (sb_clear p) ops.
Proof.
  intros cap before ops Hc Fb Fo.
  assert (Is : forall p id d, pool_inv cap p -> (id < 2 ^ 31)%N -> (d <= float_max)%Z -> insert_does cap p id d (sb_insert p id d))
    by (intros; now apply sb_insert_spec).
  destruct (reached sb_insert sb_pop cap float_max Hc Is (sb_pop_spec cap) before Fb) as (p & E & I & _). exists p.
  pose proof (sb_clear_inv cap p I) as Ic. split; [assumption|]. split.
  - now apply (closest_from sb_insert sb_pop cap float_max Hc Is (sb_pop_spec cap)).
  - now apply (skips_from sb_insert sb_pop cap float_max Hc Is (sb_pop_spec cap)).
Qed.
Print Assumptions search_buffer_cleared_partial.
Example search_buffer_cleared_example :
  match run_pool sb_insert sb_pop (pool_new 3) ex_ops with
  | Ok p => match run_pool sb_insert sb_pop (sb_clear p) [Ins 11 40; Ins 12 35; Pop]%Z with
            | Ok q => content q = [((12%N, 35), true); ((11%N, 40), false)]%Z
            | _ => False end
  | _ => False end.
Proof. vm_compute. reflexivity. Qed.

(** A candidate at infinite distance is refused although the buffer is empty:
    is_full compares with the largest finite float. *)
Theorem search_buffer_refuses_infinity_refuted :
  exists cap id p, 0 < cap /\ (id < 2 ^ 31)%N /\ sb_insert (pool_new cap) id float_inf = Ok (false, p)
    /\ content (pool_new cap) = [].
Proof. exists 4, 7%N. eexists. split; [lia|]. split; [reflexivity|]. split; vm_compute; reflexivity. Qed.
Print Assumptions search_buffer_refuses_infinity_refuted.

(** The Laser search buffer, whose insert does not check for a full buffer. *)
Theorem laser_buffer_keeps_closest : forall cap ops,
  0 < cap -> Forall (op_ok float_inf) ops -> holds_closest laser_insert sb_pop cap ops.
Proof.
  intros cap ops Hc. apply closest_lemma; auto; [intros; now apply laser_insert_spec|apply sb_pop_spec].
Qed.
Print Assumptions laser_buffer_keeps_closest.
Theorem laser_buffer_never_skips : forall cap ops,
  0 < cap -> Forall (op_ok float_inf) ops -> never_skips laser_insert sb_pop cap ops.
Proof.
  intros cap ops Hc. apply (skips_lemma laser_insert sb_pop cap float_inf); auto; [intros; now apply laser_insert_spec|apply sb_pop_spec].
Qed.
Print Assumptions laser_buffer_never_skips.
Example laser_buffer_example : match run_pool laser_insert sb_pop (pool_new 2) [Ins 1 5; Ins 2 7; Ins 3 9; Pop; Ins 4 1]%Z with
  | Ok p => content p = [((4%N, 1), false); ((1%N, 5), true)]%Z | _ => False end.
Proof. vm_compute. reflexivity. Qed.
