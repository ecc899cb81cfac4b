(** C62: distances of quantized vectors are those of the vectors the codes stand for. *)
From Coq Require Import ZArith Reals Lra Lia Bool List Arith.
From Flocq Require Import Core IEEE754.BinarySingleNaN.
From Verif Require Import FloatLemmas QuantProofs SqDistProofs.

(** 8 bits: the L2 distance of two vectors of codes is computed, and when it does not
    overflow it is, up to rounding, the squared distance of the decoded vectors. *)
Theorem sq8_l2_accurate (q : quantizer) (x y : list N) :
  finite_ranges q -> length x = length q -> length y = length q ->
  Forall (fun c => (c <= 255)%N) x -> Forall (fun c => (c <= 255)%N) y ->
  exists r, l2_sq8 q x y = Ok r /\ (is_finite r = true -> close (length q) (real r) (sq_dist 255 q x y)).
Proof.
  intros FR LX LY BX BY. destruct (l2_sq8_ok q x y (f32_of 0) LX LY) as [r E]. exists r. split; [exact E|]. intros F.
  destruct (l2_sq8_close q x y (f32_of 0) 0 0 r FR BX BY close_0 (Rle_refl _) E F) as [_ C]. now rewrite Rplus_0_l in C.
Qed.

(** 8 bits: the inner-product distance is computed, and when it does not overflow it is,
    up to rounding, minus the inner product of the decoded vectors. *)
Theorem sq8_ip_accurate (q : quantizer) (x y : list N) :
  finite_ranges q -> length x = length q -> length y = length q ->
  Forall (fun c => (c <= 255)%N) x -> Forall (fun c => (c <= 255)%N) y ->
  exists r, ip_sq8 q x y = Ok r /\ (is_finite r = true -> close_to (length q) (- real r) (inner_dist 255 q x y) (size_sum q)).
Proof.
  intros FR LX LY BX BY. destruct (ip_sq8_ok q x y (f32_of 0) LX LY) as [r E]. exists r. split; [exact E|]. intros F.
  pose proof (ip_sq8_close q x y (f32_of 0) 0 0 0 r FR BX BY close_to_0 ltac:(lra) E F) as C. now rewrite !Rplus_0_l in C.
Qed.
(** 4 bits: the same for an even number of dimensions when the two dimensions that share
    a byte have the same range.  Missing: other ranges ([sq4_ip_refuted]). *)
Theorem sq4_ip_accurate_partial (q : quantizer) (x y : list N) (r : f32) :
  paired q -> finite_ranges q -> Forall (fun b => (b <= 255)%N) x -> Forall (fun b => (b <= 255)%N) y ->
  ip_sq4 q x y = Ok r -> is_finite r = true ->
  close_to (length q) (- real r) (inner_dist 15 q (codes4 x) (codes4 y)) (size_sum q).
Proof.
  intros PQ FR BX BY E F. pose proof (ip_sq4_close q PQ x y (f32_of 0) 0 0 0 r FR BX BY close_to_0 ltac:(lra) E F) as C.
  now rewrite !Rplus_0_l in C.
Qed.

(** The value a code stands for is within about one code step of the value it was made
    from. *)
Theorem decoded_accurate (top : Z) (v lo hi : f32) (c : N) :
  (1 <= top <= 255)%Z -> proper lo hi -> width_fits lo hi -> is_finite v = true ->
  (real lo <= real v <= real hi)%R -> quantize top v lo hi = Ok c ->
  (Rabs (decoded top lo hi c - real v) <= (1 + / 1000) / IZR top * (real hi - real lo))%R.
Proof. apply decoded_near. Qed.

(** 4 bits: the same holds for an even number of dimensions when the two dimensions that
    share a byte have the same range.  Missing for the full claim: other ranges and odd
    numbers of dimensions, for which it is false ([sq4_order_refuted],
    [sq4_last_dimension_refuted]). *)
Theorem sq4_l2_accurate_partial (q : quantizer) (x y : list N) (r : f32) :
  paired q -> finite_ranges q -> Forall (fun b => (b <= 255)%N) x -> Forall (fun b => (b <= 255)%N) y ->
  l2_sq4 q x y = Ok r -> is_finite r = true ->
  close (length q) (real r) (sq_dist 15 q (codes4 x) (codes4 y)).
Proof.
  intros PQ FR BX BY E F. pose proof (l2_sq4_close q PQ x y (f32_of 0) 0 0 r FR BX BY close_0 (Rle_refl _) E F) as C.
  now rewrite Rplus_0_l in C.
Qed.

(** ** Cases *)
Lemma lit_of z : (Z.abs z <= 16777216)%Z -> real (f32_of z) = IZR z /\ is_finite (f32_of z) = true.
Proof. intros H. apply (of_int f32_prec f32_emax f32_prec_pos f32_prec_lt z false). exact H. Qed.
Lemma computed (m : res f32) (P : f32 -> bool) :
  match m with Ok r => P r | _ => false end = true -> exists r, m = Ok r /\ P r = true.
Proof. destruct m as [r| | |]; try discriminate. eauto. Qed.
Definition n32 (z : Z) : f32 := f32_of z.
Definition ranges : quantizer := [(n32 0, n32 255); (n32 (-255), n32 255); (n32 1, n32 256)].
Example sq8_case :
  finite_ranges ranges /\ exists r, l2_sq8 ranges [0; 10; 7]%N [3; 8; 7]%N = Ok r /\ is_finite r = true /\ Bleb (n32 24) r = true /\ Bleb r (n32 26) = true.
Proof.
  split; [unfold finite_ranges; repeat (apply Forall_cons; [split; vm_compute; reflexivity|]); apply Forall_nil|].
  destruct (computed (l2_sq8 ranges [0; 10; 7]%N [3; 8; 7]%N) (fun r => is_finite r && Bleb (n32 24) r && Bleb r (n32 26))) as (r & E & C); [vm_compute; reflexivity|].
  apply andb_prop in C as [C C3]. apply andb_prop in C as [C1 C2]. exists r. auto.
Qed.
Definition same_ranges : quantizer := [(n32 0, n32 15); (n32 0, n32 15); (n32 (-15), n32 15); (n32 (-15), n32 15)].
Example sq4_case :
  paired same_ranges /\ finite_ranges same_ranges /\
  exists r, l2_sq4 same_ranges [35; 17]%N [36; 49]%N = Ok r /\ is_finite r = true /\ Bleb (n32 16) r = true /\ Bleb r (n32 18) = true.
Proof.
  split; [unfold same_ranges; apply paired_cons, paired_cons, paired_nil|].
  split; [unfold finite_ranges; repeat (apply Forall_cons; [split; vm_compute; reflexivity|]); apply Forall_nil|].
  destruct (computed (l2_sq4 same_ranges [35; 17]%N [36; 49]%N) (fun r => is_finite r && Bleb (n32 16) r && Bleb r (n32 18))) as (r & E & C); [vm_compute; reflexivity|].
  apply andb_prop in C as [C C3]. apply andb_prop in C as [C1 C2]. exists r. auto.
Qed.

Example ip_case :
  exists r, ip_sq8 ranges [0; 10; 7]%N [3; 8; 7]%N = Ok r /\ is_finite r = true /\ exists r', ip_sq4 same_ranges [35; 17]%N [36; 49]%N = Ok r' /\ is_finite r' = true.
Proof.
  destruct (computed (ip_sq8 ranges [0; 10; 7]%N [3; 8; 7]%N) (fun r => is_finite r)) as (r & E & C); [vm_compute; reflexivity|].
  destruct (computed (ip_sq4 same_ranges [35; 17]%N [36; 49]%N) (fun r => is_finite r)) as (r' & E' & C'); [vm_compute; reflexivity|].
  exists r. split; [exact E|]. split; [exact C|]. exists r'. auto.
Qed.

(** ** What does not hold *)
(** With 4 bits the encoder keeps even dimensions in the high four bits and the distance
    reads them from the low ones: a vector can be the nearer one although its decoded
    distance is thousands of times that of the other.  The quantizer is the one fitted to
    the three vectors. *)
Theorem sq4_order_refuted :
  exists data query near far bq bn bf rn rf,
    vectors 2 data /\ (forall v, In v [query; near; far] <-> In v data) /\
    let q := fit (new_quantizer 2) data in
    encode4 q query = Ok bq /\ encode4 q near = Ok bn /\ encode4 q far = Ok bf /\
    (1000 * sq_dist 15 q (codes4 bq) (codes4 bn) < sq_dist 15 q (codes4 bq) (codes4 bf))%R /\
    l2_sq4 q bq bn = Ok rn /\ l2_sq4 q bq bf = Ok rf /\ is_finite rn = true /\ Bltb rf rn = true.
Proof.
  set (data := [[n32 0; n32 0]; [n32 1; n32 0]; [n32 0; n32 100]]).
  assert (Q : fit (new_quantizer 2) data = [(n32 0, n32 1); (n32 0, n32 100)]).
  { unfold data. cbn [fit new_quantizer repeat fold_left fit_row]. unfold widen. cbn [fst snd].
    replace (Bltb (n32 0) f32_max) with true by (vm_compute; reflexivity). replace (Bltb f32_lowest (n32 0)) with true by (vm_compute; reflexivity).
    replace (Bltb (n32 1) (n32 0)) with false by (vm_compute; reflexivity). replace (Bltb (n32 0) (n32 1)) with true by (vm_compute; reflexivity).
    replace (Bltb (n32 0) (n32 0)) with false by (vm_compute; reflexivity).
    replace (Bltb (n32 1) (n32 0)) with false by (vm_compute; reflexivity). replace (Bltb (n32 100) (n32 0)) with false by (vm_compute; reflexivity).
    replace (Bltb (n32 0) (n32 100)) with true by (vm_compute; reflexivity). reflexivity. }
  destruct (computed (l2_sq4 [(n32 0, n32 1); (n32 0, n32 100)] [0%N] [240%N]) (fun r => is_finite r && Bleb (n32 9000) r)) as (rn & En & Cn); [vm_compute; reflexivity|].
  destruct (computed (l2_sq4 [(n32 0, n32 1); (n32 0, n32 100)] [0%N] [15%N]) (fun r => is_finite r && Bleb r (n32 2))) as (rf & Ef & Cf); [vm_compute; reflexivity|].
  apply andb_prop in Cn as [Fn Cn]. apply andb_prop in Cf as [Ff Cf].
  exists data, [n32 0; n32 0], [n32 1; n32 0], [n32 0; n32 100], [0%N], [240%N], [15%N], rn, rf.
  split. { unfold vectors, data. repeat (apply Forall_cons; [split; [reflexivity|repeat (apply Forall_cons; [vm_compute; reflexivity|]); apply Forall_nil]|]). apply Forall_nil. }
  split; [intros v; reflexivity|]. cbn zeta. rewrite Q.
  split; [vm_compute; reflexivity|]. split; [vm_compute; reflexivity|]. split; [vm_compute; reflexivity|].
  split.
  - change (codes4 [0%N]) with [0; 0]%N. change (codes4 [240%N]) with [15; 0]%N. change (codes4 [15%N]) with [0; 15]%N.
    cbn [sq_dist]. unfold decoded.
    destruct (of_small 0 ltac:(lia)) as [E0 _]. destruct (of_small 1 ltac:(lia)) as [E1 _]. destruct (of_small 100 ltac:(lia)) as [E2 _].
    unfold n32. rewrite E0, E1, E2. cbn [Z.of_N]. lra.
  - split; [exact En|]. split; [exact Ef|]. split; [exact Fn|].
    destruct (lit_of 9000 ltac:(lia)) as [E1 F1]. destruct (lit_of 2 ltac:(lia)) as [E2 F2].
    apply leb_real in Cn; [|assumption..]. apply leb_real in Cf; [|assumption..]. unfold n32 in Cn, Cf. rewrite E1 in Cn. rewrite E2 in Cf.
    apply ltb_real; [assumption..|]. lra.
Qed.

(** With an odd number of dimensions the last one is left out: all vectors that agree on
    the others are at distance 0 of each other. *)
Theorem sq4_last_dimension_refuted :
  exists (q : quantizer) v w bv bw,
    encode4 q v = Ok bv /\ encode4 q w = Ok bw /\ (1 <= sq_dist 15 q (codes4 bv) (codes4 bw))%R /\
    exists r, l2_sq4 q bv bw = Ok r /\ real r = 0%R.
Proof.
  exists [(n32 0, n32 1); (n32 0, n32 1); (n32 0, n32 100)], [n32 0; n32 1; n32 0], [n32 0; n32 1; n32 100], [15; 0]%N, [15; 240]%N.
  split; [vm_compute; reflexivity|]. split; [vm_compute; reflexivity|].
  split.
  - change (codes4 [15; 0]%N) with [0; 15; 0; 0]%N. change (codes4 [15; 240]%N) with [0; 15; 15; 0]%N. cbn [sq_dist]. unfold decoded.
    destruct (of_small 0 ltac:(lia)) as [E0 _]. destruct (of_small 1 ltac:(lia)) as [E1 _]. destruct (of_small 100 ltac:(lia)) as [E2 _].
    unfold n32. rewrite E0, E1, E2. cbn [Z.of_N]. lra.
  - destruct (computed (l2_sq4 [(n32 0, n32 1); (n32 0, n32 1); (n32 0, n32 100)] [15; 0]%N [15; 240]%N) (fun r => is_finite r && Beqb r (n32 0))) as (r & E & C); [vm_compute; reflexivity|].
    apply andb_prop in C as [F C]. exists r. split; [exact E|]. apply eqb_real in C; [|exact F|reflexivity]. rewrite C. reflexivity.
Qed.
(** The inner product reads the codes in the same way: the encoded vector (1, 0) has the
    product 10000 with itself where (0, 100) has the product 1. *)
Theorem sq4_ip_refuted :
  exists (q : quantizer) v w bv bw rv rw,
    encode4 q v = Ok bv /\ encode4 q w = Ok bw /\
    codes4 bv = [15; 0]%N /\ codes4 bw = [0; 15]%N /\ q = [(n32 0, n32 1); (n32 0, n32 100)] /\
    ip_sq4 q bv bv = Ok rv /\ ip_sq4 q bw bw = Ok rw /\
    Bltb rv (n32 (-9999)) = true /\ Bltb (n32 (-2)) rw = true.
Proof.
  destruct (computed (ip_sq4 [(n32 0, n32 1); (n32 0, n32 100)] [240%N] [240%N]) (fun r => Bltb r (n32 (-9999)))) as (rv & Ev & Cv); [vm_compute; reflexivity|].
  destruct (computed (ip_sq4 [(n32 0, n32 1); (n32 0, n32 100)] [15%N] [15%N]) (fun r => Bltb (n32 (-2)) r)) as (rw & Ew & Cw); [vm_compute; reflexivity|].
  exists [(n32 0, n32 1); (n32 0, n32 100)], [n32 1; n32 0], [n32 0; n32 100], [240%N], [15%N], rv, rw.
  split; [vm_compute; reflexivity|]. split; [vm_compute; reflexivity|]. split; [reflexivity|]. split; [reflexivity|]. split; [reflexivity|].
  split; [exact Ev|]. split; [exact Ew|]. split; [exact Cv|exact Cw].
Qed.

Print Assumptions sq8_l2_accurate.
Print Assumptions sq8_ip_accurate.
Print Assumptions sq4_ip_accurate_partial.
Print Assumptions decoded_accurate.
Print Assumptions sq4_l2_accurate_partial.
Print Assumptions sq4_order_refuted.
Print Assumptions sq4_last_dimension_refuted.
Print Assumptions sq4_ip_refuted.
