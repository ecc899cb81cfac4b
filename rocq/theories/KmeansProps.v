(** C82 and C83: choosing the centres of shards. *)
From Coq Require Import Lqa.
From Verif Require Import KmeansSpec PqTrainProofs KmeansProofs KmeansExtraProofs.
From Verif Require ShardSpec ShardProps ShardProofs.
Import ListNotations.
Local Open Scope nat_scope.

(** ** C82: k-means++ *)

(** Whatever the rounding of the sums and the draws: [k] points are picked with [k - 1]
    draws, none is drawn again; and each picked point is apart from all points picked before
    it, unless every point coincides with one of these. *)
Theorem kmeanspp_spread : forall tiny rd n d q u, rounds tiny rd -> distances tiny n d q -> unit_draws u ->
  forall fuel k first, 0 < fuel -> 0 < k <= n -> (Z.of_nat n <= 2 ^ 23)%Z -> first < n ->
  exists P, kmeanspp rd fuel d n k first u = Done (Ok (P, k - 1)) /\ length P = k /\ nth 0 P 0 = first /\ (forall a, In a P -> a < n)
    /\ forall b, b < k -> (forall a, a < b -> (0 < q (nth b P 0%nat) (nth a P 0%nat))%Q)
                          \/ (forall i, i < n -> exists a, a < b /\ (q i (nth a P 0%nat) == 0)%Q).
Proof.
  intros tiny rd n d q u HR HD HU fuel k first HF Hk Hn Hf. destruct fuel as [|fuel]; [lia|]. exact (kmeanspp_fin tiny rd HR n d q HD u HU fuel k first Hk Hn Hf).
Qed.
Print Assumptions kmeanspp_spread.
(** In exact arithmetic: the pivots are different vectors as long as there are any left. *)
Theorem kmeanspp_distinct : forall dim data u, matrix dim data -> unit_draws u ->
  forall fuel k first, 0 < fuel -> 0 < k <= length data -> (Z.of_nat (length data) <= 2 ^ 23)%Z -> first < length data ->
  exists P, kmeanspp unrounded fuel (exact_dist data) (length data) k first u = Done (Ok (P, k - 1)) /\ length P = k /\ (forall a, In a P -> a < length data)
    /\ forall b, b < k -> (forall a, a < b -> ~ same (nth (nth b P 0) data []) (nth (nth a P 0) data []))
                          \/ (forall x, In x data -> exists a, a < b /\ same x (nth (nth a P 0) data [])).
Proof.
  intros dim data u HM HU fuel k first HF Hk Hn Hf. destruct (exact_distances data) as (tiny & T & HD).
  destruct (kmeanspp_spread tiny unrounded _ _ _ u (unrounded_ok tiny T) HD HU fuel k first HF Hk Hn Hf) as (P & E & L & _ & B & S).
  exists P. split; [exact E|]. split; [exact L|]. split; [exact B|]. intros b Hb.
  assert (BP : forall a, a < k -> nth a P 0 < length data) by (intros a Ha; apply B, nth_In; lia). destruct (S b Hb) as [C|C]; [left|right].
  - intros a Ha Sm. specialize (C a Ha). apply same_zero in Sm. lra.
  - intros x Ix. apply (In_nth _ _ []) in Ix as (i & Hi & <-). destruct (C i Hi) as (a & Ha & Z). exists a. split; [exact Ha|]. apply zero_same; [|exact Z].
    rewrite (HM (nth i data [])), (HM (nth (nth a P 0) data [])) by (apply nth_In; try apply BP; lia). reflexivity.
Qed.
Print Assumptions kmeanspp_distinct.
Example kmeanspp_ex : kmeanspp unrounded 1 (exact_dist [[0]; [0]; [3]; [7]]%Q) 4 3 1 (fun _ => 1 # 2)%Q = Done (Ok ([1; 3; 2], 2)).
Proof. vm_compute. reflexivity. Qed.
Example kmeanspp_ex_draws : unit_draws (fun _ => 1 # 2)%Q.
Proof. intros p. split; reflexivity || (intros H; discriminate H). Qed.
Example kmeanspp_ex_covered : kmeanspp unrounded 1 (exact_dist [[0]; [0]; [3]; [3]]%Q) 4 3 0 (fun _ => 1 # 2)%Q = Done (Ok ([0; 3; 3], 2)).
Proof. vm_compute. reflexivity. Qed.
(** C82 fails without finite distances: if some point's distances to the first pick and to
    the last point overflow or are NaN (a NaN coordinate is enough), then picking three
    centres or more, which every partitioned build does, never ends, whatever the draws. *)
Theorem kmeanspp_refuted_not_finite : forall rd d n k first u i, 3 <= k <= n -> (Z.of_nat n <= 2 ^ 23)%Z -> first < n ->
  i < n -> not_finite (d i first) -> not_finite (d i (n - 1)) -> forall fuel, kmeanspp rd fuel d n k first u = OutOfFuel.
Proof. intros rd d n k first u i Hk Hn Hf Hi N1 N2 fuel. exact (kmeanspp_lost rd d u n k first i Hk Hn Hf Hi N1 N2 fuel). Qed.
Print Assumptions kmeanspp_refuted_not_finite.
Example one_nan : let d := fun i j => if Nat.eqb i 1 || Nat.eqb j 1 then NaN else Fin 1 in not_finite (d 1 0) /\ not_finite (d 1 3).
Proof. split; right; reflexivity. Qed.

(** ** C83: Lloyd's iterations *)

(** In exact arithmetic and while squared distances are below FLT_MAX: an iteration reports a
    residual between the total distance to the nearest centres after it and before it; so no
    report is above the one before. *)
Theorem lloyd_residual_descends : forall big B dim data cents, matrix dim data -> bounded B data -> (0 <= B)%Q ->
  (inject_Z (Z.of_nat dim) * (4 * (B * B)) < big)%Q -> cents <> [] -> matrix dim cents -> bounded B cents ->
  forall c1 r1 c2 r2, lloyds_iter big dim data cents = (c1, r1) -> lloyds_iter big dim data c1 = (c2, r2) ->
  (total_dist data c1 <= r1 <= total_dist data cents)%Q /\ (r2 <= r1)%Q /\ length c1 = length cents.
Proof.
  intros big B dim data cents HM HB B0 S NE MC BC c1 r1 c2 r2 E1 E2.
  destruct (step_chain big B dim data HM HB B0 S cents NE MC BC 0) as [A1 A2]. destruct (step_chain big B dim data HM HB B0 S cents NE MC BC 1) as [A3 A4].
  unfold reported in *. cbn [after] in *. rewrite E1 in *. cbn [fst snd] in *. rewrite E2 in *. cbn [fst snd] in *. split; [split; assumption|]. split; [lra|].
  pose proof (iter_length big dim data cents) as L. now rewrite E1 in L.
Qed.
Print Assumptions lloyd_residual_descends.
(** The new centre of a cluster is the mean of its members; these are the points to which it
    was nearest, the first of the nearest. *)
Theorem lloyd_centres : forall big B dim data cents, matrix dim data -> bounded B data ->
  (inject_Z (Z.of_nat dim) * (4 * (B * B)) < big)%Q -> cents <> [] -> bounded B cents ->
  exists assign, length assign = length data
    /\ (forall i, i < length data -> nth i assign 0 < length cents
          /\ forall c, c < length cents -> (Ql2 (nth i data []) (nth (nth i assign 0%nat) cents []) <= Ql2 (nth i data []) (nth c cents []))%Q)
    /\ forall c, c < length cents -> let ms := map snd (List.filter (fun e => Nat.eqb (fst e) c) (combine assign data)) in
         nth c (fst (lloyds_iter big dim data cents)) [] = match ms with [] => repeat 0%Q dim | _ => map (fun t => Qmean (map (fun v => nth t v 0%Q) ms)) (seq 0 dim) end.
Proof.
  intros big B dim data cents HM HB S NE BC. exists (map (closest_centre big cents) data). split; [apply map_length|]. split.
  - intros i Hi. rewrite (nth_indep _ 0 (closest_centre big cents [])) by (now rewrite map_length). rewrite map_nth. split; [now apply closest_centre_in|].
    intros c Hc. apply closest_centre_best; [exact NE| |exact Hc]. exists (nth c cents []). split; [now apply nth_In|].
    apply (bounded_reach big B dim data HM HB cents BC S); now apply nth_In.
  - intros c Hc. cbn [lloyds_iter fst]. rewrite nth_map_seq by exact Hc. reflexivity.
Qed.
Print Assumptions lloyd_centres.
(** run_lloyds returns the centres after [t] iterations and the residual reported last; it
    stops before [max_reps] only if the residual is below epsilon or has improved by less
    than the tolerance; more repetitions never make the total distance larger. *)
Theorem run_lloyds_exact : forall big tol eps dim data cents max_reps,
  exists t, t <= max_reps /\ fst (run_lloyds big tol eps dim data cents max_reps) = after big dim data cents t
    /\ (0 < t -> snd (run_lloyds big tol eps dim data cents max_reps) = reported big dim data cents (t - 1))
    /\ (t < max_reps -> 0 < t /\ ((reported big dim data cents (t - 1) < eps)%Q
        \/ (1 < t /\ (0 < reported big dim data cents (t - 1)%nat)%Q
            /\ ((reported big dim data cents (t - 2)%nat - reported big dim data cents (t - 1)%nat) / reported big dim data cents (t - 1)%nat < tol)%Q))).
Proof.
  intros big tol eps dim data cents max_reps. destruct (loop_after big dim data tol eps cents max_reps 0 true cents big eq_refl) as (t & H); [reflexivity|discriminate|]. exists t. exact H.
Qed.
Print Assumptions run_lloyds_exact.
Theorem kmeans_train_improves : forall big B tol eps dim data u fuel k first max_reps, matrix dim data -> bounded B data -> (0 <= B)%Q ->
  (inject_Z (Z.of_nat dim) * (4 * (B * B)) < big)%Q -> unit_draws u -> 0 < fuel -> 0 < k <= length data -> (Z.of_nat (length data) <= 2 ^ 23)%Z -> first < length data ->
  exists P cents r, kmeanspp unrounded fuel (exact_dist data) (length data) k first u = Done (Ok (P, k - 1))
    /\ kmeans_train fuel unrounded big tol eps dim data k first u max_reps = Done (Ok (cents, r))
    /\ length cents = k /\ matrix dim cents
    /\ (total_dist data cents <= total_dist data (map (fun i => nth i data []) P))%Q
    /\ (0 < max_reps -> (total_dist data cents <= r)%Q /\ (r <= total_dist data (map (fun i => nth i data []) P))%Q).
Proof.
  intros big B tol eps dim data u fuel k first max_reps HM HB B0 S HU HF Hk Hn Hf. destruct (kmeanspp_distinct dim data u HM HU fuel k first HF Hk Hn Hf) as (P & E & L & BP & _).
  set (piv := map (fun i => nth i data []) P). destruct (run_lloyds_exact big tol eps dim data piv max_reps) as (t & Ht & T1 & T2 & T3).
  assert (IP : forall v, In v piv -> In v data) by (intros v I; apply in_map_iff in I as (a & <- & Ia); apply nth_In; auto).
  assert (NE : piv <> []) by (intros Ep; assert (length piv = 0) as Lp by (now rewrite Ep); unfold piv in Lp; rewrite map_length in Lp; lia).
  assert (MC : matrix dim piv) by (intros v I; apply HM; auto). assert (BC : bounded B piv) by (apply Forall_forall; intros v I; exact (proj1 (Forall_forall _ _) HB v (IP v I))).
  destruct (run_lloyds big tol eps dim data piv max_reps) as [cents r] eqn:ER. cbn [fst snd] in *. exists P, cents, r. split; [exact E|]. split.
  { unfold kmeans_train. rewrite E. cbn [bind]. fold piv. now rewrite ER. }
  destruct (after_ok big dim data piv t NE MC) as (_ & MT & LT). rewrite <- T1 in MT, LT. split; [unfold piv in LT; rewrite map_length in LT; lia|]. split; [exact MT|].
  pose proof (after_total big B dim data HM HB B0 S piv NE MC BC 0 t) as A. cbn [Nat.add after] in A. rewrite <- T1 in A. split; [exact A|]. intros Hm.
  assert (0 < t) as Hp by (destruct (Nat.eq_dec t max_reps); [lia|apply T3; lia]). rewrite (T2 Hp). destruct t as [|t]; [lia|]. replace (Datatypes.S t - 1) with t by lia.
  destruct (step_chain big B dim data HM HB B0 S piv NE MC BC t) as [C1 C2]. rewrite T1. split; [exact C1|]. pose proof (after_total big B dim data HM HB B0 S piv NE MC BC 0 t) as A'. cbn [Nat.add after] in A'. fold piv. lra.
Qed.
Print Assumptions kmeans_train_improves.
Definition four_points : list (list Q) := [[0; 0]; [0; 2]; [8; 0]; [8; 2]]%Q.
Example four_ok : matrix 2 four_points /\ bounded 8 four_points /\ (inject_Z 2 * (4 * (8 * 8)) < 1000)%Q.
Proof. split; [|split]; [|repeat constructor; unfold Qle; cbn; lia|reflexivity]. intros v I. cbn in I. intuition (subst; reflexivity). Qed.
Example four_trained : exists c0 c1 r, kmeans_train 1 unrounded 1000 (1 # 100000) (1 # 1000000) 2 four_points 2 0 (fun _ => 1 # 2)%Q 12 = Done (Ok ([c0; c1], r))
  /\ same c0 [0; 1]%Q /\ same c1 [8; 1]%Q /\ (r == 4)%Q.
Proof. do 3 eexists. split; [vm_compute; reflexivity|]. split; [repeat constructor|]. split; [repeat constructor|reflexivity]. Qed.

(** The estimate of a cluster's size is the number of samples near its centre divided by the
    sampling rate, rounded down. *)
Theorem cluster_sizes_exact : forall near centers rate, (0 < rate)%Q -> (rate <= 1)%Q -> near <> [] -> 0 < centers ->
  (forall cs c, In cs near -> In c cs -> c < centers) ->
  exists est, estimate_sizes near centers rate = Ok est /\ length est = centers
    /\ forall c, c < centers -> let e := inject_Z (Z.of_N (nth c est 0%N)) in let h := inject_Z (Z.of_nat (hits near c)) in (e * rate <= h /\ h < (e + 1) * rate)%Q.
Proof.
  intros near centers rate R0 R1 NE HC HB. unfold estimate_sizes.
  destruct (Qle_bool rate 0) eqn:E1; [apply Qle_bool_iff in E1; lra|]. destruct (qlt 1 rate) eqn:E2; [apply qlt_true in E2; lra|]. cbn [orb].
  destruct (Nat.eqb_spec (length near) 0) as [Z|_]; [destruct near; [congruence|discriminate Z]|]. destruct (Nat.eqb_spec centers 0) as [Z|_]; [lia|]. cbn [orb].
  destruct (count_all_ok (concat near) (repeat 0%N centers)) as (out & E & L & C).
  { intros c I. rewrite repeat_length. apply in_concat in I as (cs & I1 & I2). eapply HB; eauto. }
  rewrite repeat_length in L, C. rewrite E. cbn [bind]. eexists. split; [reflexivity|]. split; [now rewrite map_length|]. intros c Hc. cbv zeta.
  set (f := fun n => Z.to_N (Qfloor (inject_Z (Z.of_N n) * (1 / rate)))). rewrite (nth_indep _ 0%N (f 0%N)) by (rewrite map_length; lia). rewrite map_nth.
  rewrite C by exact Hc. assert (Er : nth c (repeat 0%N centers) 0%N = 0%N). { apply (repeat_spec centers 0%N). apply nth_In. now rewrite repeat_length. }
  rewrite Er, N.add_0_l. unfold f, hits. rewrite nat_N_Z. set (h := inject_Z (Z.of_nat (count_occ Nat.eq_dec (concat near) c))).
  assert (H0 : (0 <= h)%Q) by (change 0%Q with (inject_Z 0); unfold h; rewrite <- Zle_Qle; lia).
  assert (H1 : (0 <= h * (1 / rate))%Q). { apply Qmult_le_0_compat; [exact H0|]. apply Qle_shift_div_l; lra. }
  rewrite Z2N.id by (change 0%Z with (Qfloor 0); now apply Qfloor_resp_le). pose proof (Qfloor_le (h * (1 / rate))) as F1. pose proof (Qlt_floor (h * (1 / rate))) as F2. rewrite inject_Z_plus in F2.
  assert (Ei : (h * (1 / rate) * rate == h)%Q) by (field; lra). set (e := inject_Z (Qfloor (h * (1 / rate)))) in *. change (inject_Z 1) with 1%Q in F2. split.
  - rewrite <- Ei. apply Qmult_le_compat_r; [exact F1|lra].
  - rewrite <- Ei. apply Qmult_lt_compat_r; [exact R0|exact F2].
Qed.
Print Assumptions cluster_sizes_exact.
Example sizes_ex : estimate_sizes [[0; 1]; [1; 2]; [1; 0]] 4 (2 # 3) = Ok [3; 4; 1; 0]%N.
Proof. vm_compute. reflexivity. Qed.

(** C83 fails for equal vectors (and so does C80): k-means gives every centre but the first
    the value 0, and then every vector goes to the first two shards, the third stays empty and
    the whole partitioned build throws, for any number of vectors and parts.  The floats
    [dist] order the centres as the exact distances do. *)
Definition ranks_like (row : list ShardModel.fl) (qs : list Q) : Prop :=
  length row = length qs /\ (forall i, i < length qs -> exists x, nth_error row i = Some (Some x) /\ (x < ShardModel.flt_max)%Z)
  /\ forall i j x y, nth_error row i = Some (Some x) -> nth_error row j = Some (Some y) -> ((x < y)%Z <-> (nth i qs 0 < nth j qs 0)%Q).
Lemma ranks_nearest row v c0 k : 3 <= k -> same c0 v -> ranks_like row (map (Ql2 v) (c0 :: repeat (repeat 0%Q (length v)) (k - 1))) ->
  length row = k /\ ShardSpec.measured 2 row /\ ShardSpec.nearest_k 2 row [0; 1].
Proof.
  intros Hk Sm (L & F & O). set (qs := map (Ql2 v) (c0 :: repeat (repeat 0%Q (length v)) (k - 1))) in *.
  assert (LQ : length qs = k) by (unfold qs; rewrite map_length; cbn [length]; rewrite repeat_length; lia). rewrite LQ in *.
  assert (Q0 : (nth 0 qs 0 == 0)%Q). { cbn [qs map nth]. apply same_zero. clear - Sm. induction Sm; constructor; [now symmetry|assumption]. }
  assert (QC : forall c, 0 < c < k -> nth c qs 0%Q = Ql2 v (repeat 0%Q (length v))).
  { intros c Hc. destruct c as [|c]; [lia|]. cbn [qs map nth]. rewrite map_repeat. apply (repeat_spec (k - 1) (Ql2 v (repeat 0%Q (length v)))). apply nth_In. rewrite repeat_length. lia. }
  assert (QN : forall c, c < k -> (0 <= nth c qs 0)%Q). { intros c Hc. destruct c as [|c]; [rewrite Q0; lra|]. rewrite QC by lia. apply Ql2_nonneg. }
  destruct (F 0 ltac:(lia)) as (x0 & E0 & X0). destruct (F 1 ltac:(lia)) as (x1 & E1 & X1).
  assert (B0 : forall c, 0 < c < k -> ShardSpec.before row 0 c).
  { intros c Hc. destruct (F c ltac:(lia)) as (x & E & _). exists x0, x. split; [exact E0|]. split; [exact E|]. destruct (Z.lt_trichotomy x0 x) as [H|[H|H]]; [now left|right; split; [exact H|lia]|].
    apply (O c 0 x x0 E E0) in H. rewrite Q0 in H. pose proof (QN c ltac:(lia)). lra. }
  assert (B1 : forall c, 1 < c < k -> ShardSpec.before row 1 c).
  { intros c Hc. destruct (F c ltac:(lia)) as (x & E & _). exists x1, x. split; [exact E1|]. split; [exact E|]. destruct (Z.lt_trichotomy x1 x) as [H|[H|H]]; [now left|right; split; [exact H|lia]|].
    apply (O c 1 x x1 E E1) in H. rewrite !QC in H by lia. lra. }
  split; [exact L|]. split; [split|split].
  - intros d Hd. apply In_nth_error in Hd as (c & Ec). assert (c < k) by (rewrite <- L; apply nth_error_Some; congruence). destruct (F c ltac:(lia)) as (x & E & _). congruence.
  - exists [0; 1]. split; [repeat constructor; cbn; lia|]. split; [reflexivity|]. intros c Hc. destruct Hc as [<-|[<-|[]]]; eauto.
  - reflexivity.
  - repeat constructor. apply B0. lia.
  - intros c Hc. rewrite L. destruct Hc as [<-|[<-|[]]]; lia.
  - intros c i Hc Nc Hi. rewrite L in Hc. assert (c <> 0 /\ c <> 1) as [? ?] by (split; intros ->; apply Nc; cbn; auto). destruct Hi as [<-|[<-|[]]]; [apply B0|apply B1]; lia.
Qed.
Theorem kmeans_refuted_equal_vectors : forall big tol eps v n k first u max_reps, (0 < big)%Q -> (0 < eps)%Q -> unit_draws u -> 0 < max_reps ->
  3 <= k <= n -> (Z.of_nat n <= 2 ^ 23)%Z -> first < n ->
  exists cents r, kmeans_train 1 unrounded big tol eps (length v) (repeat v n) k first u max_reps = Done (Ok (cents, r))
    /\ (exists c0, cents = c0 :: repeat (repeat 0%Q (length v)) (k - 1) /\ same c0 v)
    /\ forall dim R vecs dist build shuffle fuel block medoid, ShardSpec.vectors dim vecs ->
       (forall g b, nth_error vecs g = Some b -> ranks_like (dist g b) (map (Ql2 v) cents)) -> length vecs < fuel -> 0 < block ->
       ShardModel.partition_merge fuel dist build shuffle (ShardSpec.fbin dim vecs) dim R k block medoid = Done Throws.
Proof.
  intros big tol eps v n k first u max_reps HB HE HU HM Hk Hn Hf.
  assert (MX : matrix (length v) (repeat v n)) by (intros w I; apply repeat_spec in I; now subst).
  destruct (kmeanspp_distinct (length v) (repeat v n) u MX HU 1 k first ltac:(lia) ltac:(rewrite repeat_length; lia) ltac:(now rewrite repeat_length) ltac:(now rewrite repeat_length)) as (P & E & L & BP & _).
  destruct (iter_equal big v n k HB ltac:(lia) ltac:(lia)) as (c0 & EI & Sm). set (cents := c0 :: repeat (repeat 0%Q (length v)) (k - 1)) in *.
  exists cents, (lloyd_residual (repeat v n) cents (repeat 0 n)). split; [|split].
  - unfold kmeans_train. rewrite E. cbn [bind]. rewrite repeat_length in BP. rewrite (picks_equal v n P BP), L. unfold run_lloyds. destruct max_reps as [|m]; [lia|]. cbn [lloyds_loop negb andb]. rewrite EI.
    rewrite (proj2 (qlt_true _ eps)); [reflexivity|]. unfold cents. rewrite (residual_equal v c0 _ n Sm). exact HE.
  - exists c0. split; [reflexivity|exact Sm].
  - intros dim R vecs dist build shuffle fuel block medoid HV HD HF HBl. apply (ShardProps.partitioned_build_refuted_empty_shard dim R vecs dist (fun _ => [0; 1]) k); auto; [lia| |].
    + intros g b Hg. exact (ranks_nearest (dist g b) v c0 k ltac:(lia) Sm (HD g b Hg)).
    + exists 2. split; [lia|]. intros g _. cbn. lia.
Qed.
Print Assumptions kmeans_refuted_equal_vectors.
Example equal_ranks : ranks_like [Some 0; Some 9; Some 9]%Z (map (Ql2 [3]%Q) [[3]; [0]; [0]]%Q).
Proof.
  split; [reflexivity|]. split.
  - intros [|[|[|i]]] Hi; cbn in Hi; try lia; eexists; (split; [reflexivity|reflexivity]).
  - intros [|[|[|i]]] [|[|[|j]]] x y Hx Hy; cbn in Hx, Hy; try (destruct i; discriminate Hx); try (destruct j; discriminate Hy); injection Hx as <-; injection Hy as <-; cbn; split; intros H; unfold Qlt in *; cbn in *; lia.
Qed.
