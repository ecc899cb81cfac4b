(** C72 and C73: packed codes are looked up correctly on every instruction set,
    and what that makes of distance estimates. *)
From Coq Require Import Qabs.
From Verif Require Import FastscanLaserProofs.
Local Open Scope nat_scope.

(** ** C72: RaBitQ *)
(** For every instruction set, every number of vectors and every block of 32 of
    them, the accumulated word of a vector is the sum of the table entries its
    own code selects, modulo 2^16. *)
Theorem fastscan_sums lv dim codes num table b v : dim mod 8 = 0 -> bytes codes -> bytes table -> v < 32 -> 32 * b + v < num ->
  nth v (accumulate lv (skipn (b * (4 * dim)) (pack_codes dim codes num)) table dim) 0%N = N.modulo (selected (row (dim / 8) (32 * b + v) codes) table (dim / 4)) 65536.
Proof. intros D Hc Ht Hv Hn. apply accumulate_ok; assumption. Qed.
(** So the instruction sets agree. *)
Theorem fastscan_same lv lv' dim codes num table b v : dim mod 8 = 0 -> bytes codes -> bytes table -> v < 32 -> 32 * b + v < num ->
  nth v (accumulate lv (skipn (b * (4 * dim)) (pack_codes dim codes num)) table dim) 0%N = nth v (accumulate lv' (skipn (b * (4 * dim)) (pack_codes dim codes num)) table dim) 0%N.
Proof. intros D Hc Ht Hv Hn. rewrite !fastscan_sums by assumption. reflexivity. Qed.
(** The entries which a code selects in the table of a query add up to the sum of
    the query over the set bits. *)
Theorem fastscan_table dim x q : dim mod 8 = 0 -> length x = dim -> length q = dim ->
  (sumQ (dim / 4) (fun m => nth (16 * m + N.to_nat (nibble (pack_binary dim x) m)) (pack_lut Qplus 0%Q dim q) 0%Q) == where_set x q)%Q.
Proof. apply table_sum. Qed.
(** As long as 255 for every four dimensions fits in 16 bits, the estimate for
    each neighbour is defined and differs from the RaBitQ estimator only by the
    rounding of the table: by 2|scale| times dim/255 of the largest query
    coordinate. *)
Theorem fastscan_estimate_partial lv dim datas c q g b v A d : dim mod 8 = 0 -> (255 * N.of_nat (dim / 4) < 65536)%N ->
  Forall (fun d => length d = dim) datas -> length c = dim -> length q = dim -> (0 <= A)%Q -> within A q -> Exists (fun x => ~ (x == 0)%Q) q ->
  v < 32 -> nth_error datas (32 * b + v) = Some d ->
  exists r e, estimates lv dim (skipn (b * (4 * dim)) (batch_codes dim datas c)) (skipn (32 * b) (map (fun d => factors d c) datas)) q g = Ok r /\
    nth_error r v = Some e /\ (Qabs (e - estimator d c q g) <= 2 * Qabs (scale d c) * (inject_Z (Z.of_nat dim) * A / 255))%Q.
Proof. apply estimate_ok. Qed.
(** Where all coordinates of the residual have the same magnitude [s], the
    estimate is the squared distance itself up to that rounding. *)
Theorem fastscan_distance_partial lv dim datas c q b v A d s : dim mod 8 = 0 -> (255 * N.of_nat (dim / 4) < 65536)%N ->
  Forall (fun d => length d = dim) datas -> length c = dim -> length q = dim -> (0 <= A)%Q -> within A q -> Exists (fun x => ~ (x == 0)%Q) q ->
  v < 32 -> nth_error datas (32 * b + v) = Some d -> (0 <= s)%Q -> Forall (fun x => x == s \/ x == - s)%Q (sub d c) ->
  exists r e, estimates lv dim (skipn (b * (4 * dim)) (batch_codes dim datas c)) (skipn (32 * b) (map (fun d => factors d c) datas)) q (distance2 q c) = Ok r /\
    nth_error r v = Some e /\ (Qabs (e - distance2 q d) <= 4 * s * (inject_Z (Z.of_nat dim) * A / 255))%Q.
Proof.
  intros D8 Small Ld Lc Lq HA W NZ Hv Hd Hs Even. destruct (estimate_ok lv dim datas c q (distance2 q c) b v A d D8 Small Ld Lc Lq HA W NZ Hv Hd) as (r & e & E & N1 & B).
  exists r, e. split; [exact E|]. split; [exact N1|].
  assert (Ldd : length d = dim) by (apply (proj1 (Forall_forall _ _) Ld); apply nth_error_In with (32 * b + v); exact Hd).
  rewrite (estimator_even s d c q) in B by (try assumption; lia). rewrite (scale_even s d c Even Hs) in B.
  - rewrite (Qabs_pos (2 * s)) in B by (apply Qmult_le_0_compat; [discriminate|exact Hs]). setoid_replace (4 * s)%Q with (2 * (2 * s))%Q by ring. exact B.
  - intros E0. apply Exists_exists in NZ. destruct NZ as (y & Hy & _). assert (length (sub d c) = dim) by (rewrite sub_len; lia). rewrite E0 in H. destruct q; [destruct Hy|cbn in *; lia].
Qed.
(** For inner products: the estimate of each neighbour is within the rounding of
    the estimator, and of one minus the inner product where the coordinates of
    the residual have the same magnitude. *)
Theorem fastscan_inner_partial lv dim datas c q b v A d : dim mod 8 = 0 -> (255 * N.of_nat (dim / 4) < 65536)%N ->
  Forall (fun d => length d = dim) datas -> length c = dim -> length q = dim -> (0 <= A)%Q -> within A q -> Exists (fun x => ~ (x == 0)%Q) q ->
  v < 32 -> nth_error datas (32 * b + v) = Some d ->
  exists r e, estimates lv dim (skipn (b * (4 * dim)) (batch_codes dim datas c)) (skipn (32 * b) (map (fun d => factors_ip d c) datas)) q (- inner q c) = Ok r /\ nth_error r v = Some e /\
    (Qabs (e - estimator_ip d c q (- inner q c)) <= Qabs (scale d c) * (inject_Z (Z.of_nat dim) * A / 255))%Q /\
    forall s, (0 <= s)%Q -> Forall (fun x => x == s \/ x == - s)%Q (sub d c) -> (Qabs (e - (1 - inner q d)) <= 2 * s * (inject_Z (Z.of_nat dim) * A / 255))%Q.
Proof.
  intros D8 Small Ld Lc Lq HA W NZ Hv Hd. destruct (estimate_ip_ok lv dim datas c q (- inner q c) b v A d D8 Small Ld Lc Lq HA W NZ Hv Hd) as (r & e & E & N1 & B).
  exists r, e. split; [exact E|]. split; [exact N1|]. split; [exact B|]. intros s Hs Even.
  assert (Ldd : length d = dim) by (apply (proj1 (Forall_forall _ _) Ld); apply nth_error_In with (32 * b + v); exact Hd).
  rewrite (estimator_ip_even s d c q) in B by (try assumption; lia). rewrite (scale_even s d c Even Hs) in B.
  - rewrite (Qabs_pos (2 * s)) in B by (apply Qmult_le_0_compat; [discriminate|exact Hs]). exact B.
  - intros E0. apply Exists_exists in NZ. destruct NZ as (y & Hy & _). assert (length (sub d c) = dim) by (rewrite sub_len; lia). rewrite E0 in H. destruct q; [destruct Hy|cbn in *; lia].
Qed.
(** The bound on the dimension is needed: with 1088 dimensions the 16-bit sum
    wraps and a neighbour equal to the query is estimated at over 4000, where the
    rounding allows 19. *)
Definition wide : nat := 1088.
Definition wide_ones : list Q := repeat 1%Q 1088.
Definition wide_zeros : list Q := repeat 0%Q 1088.
Theorem fastscan_estimate_refuted : exists dim c q d r e, dim mod 8 = 0 /\ length c = dim /\ length q = dim /\ length d = dim /\ within 1 q /\
  estimates Avx2 dim (batch_codes dim [d] c) [factors d c] q (distance2 q c) = Ok r /\ nth_error r 0 = Some e /\
  (distance2 q d == 0)%Q /\ (2 * Qabs (scale d c) * (inject_Z (Z.of_nat dim) * 1 / 255) < 20)%Q /\ (4000 < e)%Q.
Proof.
  exists wide, wide_zeros, wide_ones, wide_ones.
  assert (W : within 1 wide_ones) by (apply Forall_forall; intros x Hx; apply repeat_spec in Hx; subst x; split; discriminate).
  destruct (estimates Avx2 wide (batch_codes wide [wide_ones] wide_zeros) [factors wide_ones wide_zeros] wide_ones (distance2 wide_ones wide_zeros)) as [r| | |] eqn:E; [|vm_compute in E; discriminate E..].
  exists r. destruct (nth_error r 0) as [e|] eqn:N0.
  - exists e. split; [reflexivity|]. do 3 (split; [apply repeat_length|]). split; [exact W|]. split; [reflexivity|]. split; [reflexivity|]. split; [vm_compute; reflexivity|]. split; [vm_compute; reflexivity|].
    revert N0. vm_compute in E. injection E as <-. intros N0. injection N0 as <-. reflexivity.
  - exfalso. vm_compute in E. injection E as <-. discriminate N0.
Qed.
(** A zero query has no table: the width of the quantizer is zero and the
    conversion of the quotient undefined. *)
Theorem fastscan_zero_query_undefined lv dim packed facs g : estimates lv dim packed facs (repeat 0%Q dim) g = OutOfBounds.
Proof.
  unfold estimates, make_lut. set (f := pack_lut Qplus 0%Q dim (repeat 0%Q dim)).
  assert (Z : forall y, In y f -> (y == 0)%Q).
  { intros y Hy. destruct (in_table _ _ _ Hy) as (m & b0 & b1 & b2 & b3 & _ & ->). unfold four_set. rewrite !nth_repeat. destruct b0, b1, b2, b3; reflexivity. }
  assert (E : ((Qmaxl f - Qminl f) / 255 == 0)%Q).
  { destruct f as [|y f0] eqn:Ef; [reflexivity|]. rewrite (Z _ (proj2 (Qminl_spec (y :: f0)) ltac:(discriminate))), (Z _ (proj2 (Qmaxl_spec (y :: f0)) ltac:(discriminate))). reflexivity. }
  apply Qeq_bool_iff in E. rewrite E. reflexivity.
Qed.

(** ** C73: LASER *)
(** The codes packed through 64-bit words are the same blocks. *)
Theorem laser_blocks dim xs : dim mod 64 = 0 ->
  laser_pack_codes dim (flat_map (laser_pack_binary dim) xs) (length xs) = pack_codes dim (flat_map (pack_binary dim) xs) (length xs).
Proof. apply laser_pack_ok. Qed.
(** A prepared query has six-bit values, each rounded up. *)
Theorem laser_query_values dim q lq : laser_prepare dim q = Ok lq ->
  (0 < lq_width lq)%Q /\ Forall2 (fun v b => (1 <= b <= 64)%N /\ ((inject_Z (Z.of_N b) - 1) * lq_width lq <= v - lq_lower lq)%Q /\ (v - lq_lower lq < inject_Z (Z.of_N b) * lq_width lq)%Q) q (lq_bytes lq).
Proof. intros H. destruct (prepare_ok dim q lq H) as (A & _ & _ & B). split; assumption. Qed.
(** Up to 512 dimensions, and if no four maxima come together, the scan of every
    neighbour on every instruction set is the sum of the values of the query with
    the signs of the neighbour's code. *)
Theorem laser_scan_partial lv dim q lq xs b v x : dim mod 64 = 0 -> dim <= 512 -> length q = dim -> laser_prepare dim q = Ok lq ->
  (forall m, m < dim / 4 -> (group_total (lq_bytes lq) m <= 255)%N) ->
  Forall (fun x => length x = dim) xs -> v < 32 -> nth_error xs (32 * b + v) = Some x ->
  nth_error (laser_scan lv dim (laser_pack_codes dim (flat_map (laser_pack_binary dim) xs) (length xs)) lq b) v = Some (signed x (lq_bytes lq)).
Proof.
  intros D Hd Lq P G Lx Hv Hx. destruct (prepare_ok dim q lq P) as (_ & Et & Es & F).
  assert (Lb : length (lq_bytes lq) = dim) by (rewrite <- Lq; clear - F; induction F; cbn; congruence).
  assert (Lxx : length x = dim) by (apply (proj1 (Forall_forall _ _) Lx); apply nth_error_In with (32 * b + v); exact Hx).
  apply scan_ok; try assumption.
  pose proof (Nat.div_mod dim 64 ltac:(lia)) as E64. assert (D8 : dim mod 8 = 0) by (replace dim with (0 + (8 * (dim / 64)) * 8) by lia; apply Nat.mod_add; lia).
  pose proof (dim_groups dim D8) as E4. pose proof (where_setN_bound (dim / 4) x (lq_bytes lq) ltac:(lia) ltac:(lia) G). lia.
Qed.
(** Four maxima together: their values add up to 256, which is 0 as a byte.  With
    the other dimensions at the minimum, the neighbour agreeing with the query in
    these four is scanned as if it disagreed. *)
Definition four_max : list Q := repeat (63#2)%Q 4 ++ repeat (-63#2)%Q 60.
Definition first_four : list bool := repeat true 4 ++ repeat false 60.
Theorem laser_scan_refuted : exists dim q lq x r, dim mod 64 = 0 /\ dim <= 512 /\ length q = dim /\ length x = dim /\ laser_prepare dim q = Ok lq /\
  laser_scan Avx512 dim (laser_pack_codes dim (laser_pack_binary dim x) 1) lq 0 = r /\ nth_error r 0 = Some (signed x (lq_bytes lq) - 512)%Z.
Proof.
  exists 64, four_max. destruct (laser_prepare 64 four_max) as [lq| | |] eqn:E; [|vm_compute in E; discriminate E..].
  exists lq, first_four. eexists. do 4 (split; [vm_compute; first [reflexivity|lia]|]). split; [reflexivity|]. split; [reflexivity|]. vm_compute in E. injection E as <-. vm_compute. reflexivity.
Qed.
(** Beyond 512 dimensions the sum may reach 2^15 and is then taken as negative. *)
Definition half_max : list Q := flat_map (fun _ => [(63#2); (63#2); (63#2); (61#2)]%Q) (seq 0 255) ++ repeat (-63#2)%Q 4.
Definition all_set : list bool := repeat true 1024.
Theorem laser_wide_refuted : exists dim q lq x r, dim mod 64 = 0 /\ length q = dim /\ length x = dim /\ laser_prepare dim q = Ok lq /\
  forallb (fun m => group_total (lq_bytes lq) m <=? 255)%N (seq 0 (dim / 4)) = true /\
  laser_scan Avx2 dim (laser_pack_codes dim (laser_pack_binary dim x) 1) lq 0 = r /\ nth_error r 0 = Some (signed x (lq_bytes lq) - 131072)%Z.
Proof.
  exists 1024, half_max. destruct (laser_prepare 1024 half_max) as [lq| | |] eqn:E; [|vm_compute in E; discriminate E..].
  exists lq, all_set. eexists. do 3 (split; [vm_compute; reflexivity|]). split; [reflexivity|]. vm_compute in E. injection E as <-. split; [vm_compute; reflexivity|]. split; [reflexivity|]. vm_compute. reflexivity.
Qed.

(** ** Cases *)
(** 33 vectors of 16 dimensions, the last one alone in the second block. *)
Definition some_codes : list N := flat_map (fun i => [N.of_nat ((7 * i) mod 256); N.of_nat ((11 * i + 5) mod 256)]) (seq 0 33).
Definition some_table : list N := map (fun i => N.of_nat ((13 * i + 3) mod 256)) (seq 0 64).
Example fastscan_sums_ex : 16 mod 8 = 0 /\ bytes some_codes /\ bytes some_table /\ 0 < 32 /\ 32 * 1 + 0 < 33 /\
  map (fun lv => nth 0 (accumulate lv (skipn 64 (pack_codes 16 some_codes 33)) some_table 16) 0%N) [Scalar; Avx2; Avx512] = [817; 817; 817]%N.
Proof.
  split; [reflexivity|]. split; [apply Forall_forall; intros x Hx; vm_compute in Hx; repeat (destruct Hx as [ <- |Hx]; [reflexivity|]); destruct Hx|].
  split; [apply Forall_forall; intros x Hx; vm_compute in Hx; repeat (destruct Hx as [ <- |Hx]; [reflexivity|]); destruct Hx|].
  split; [lia|]. split; [lia|]. vm_compute. reflexivity.
Qed.
Definition some_query : list Q := [3; -1; 2; 0; 1; 1; -2; 4; 0; 0; 1; 5; -3; 2; 2; 1]%Q.
Definition some_node : list Q := repeat 1%Q 16.
Definition some_neighbour : list Q := [3; -1; 3; -1; 3; 3; 3; -1; -1; -1; 3; 3; -1; -1; 3; 3]%Q.
Example fastscan_distance_ex : (255 * N.of_nat (16 / 4) < 65536)%N /\ within 5 some_query /\ Exists (fun x => ~ (x == 0)%Q) some_query /\
  nth_error [some_node; some_neighbour] (32 * 0 + 1) = Some some_neighbour /\ Forall (fun x => x == 2 \/ x == - (2))%Q (sub some_neighbour some_node) /\ (distance2 some_query some_neighbour == 88)%Q /\
  (exists r e, estimates Scalar 16 (batch_codes 16 [some_node; some_neighbour] some_node) (map (fun d => factors d some_node) [some_node; some_neighbour]) some_query (distance2 some_query some_node) = Ok r /\ nth_error r 1 = Some e /\ (Qabs (e - 88) <= 1)%Q).
Proof.
  split; [reflexivity|]. split; [repeat constructor; discriminate|]. split; [constructor; discriminate|]. split; [reflexivity|].
  split; [cbn [sub some_neighbour some_node repeat]; repeat (apply Forall_cons; [first [left; reflexivity | right; reflexivity]|]); apply Forall_nil|]. split; [reflexivity|].
  destruct (estimates Scalar 16 (batch_codes 16 [some_node; some_neighbour] some_node) (map (fun d => factors d some_node) [some_node; some_neighbour]) some_query (distance2 some_query some_node)) as [r| | |] eqn:E; [|vm_compute in E; discriminate E..].
  exists r. vm_compute in E. injection E as <-. eexists. split; [reflexivity|]. split; [reflexivity|]. vm_compute. discriminate.
Qed.
Definition ramp : list Q := map (fun i => inject_Z (Z.of_nat i)) (seq 0 64).
Definition alternate : list bool := flat_map (fun _ => [true; false]) (seq 0 32).
Example laser_scan_ex : exists lq, laser_prepare 64 ramp = Ok lq /\ (forall m, m < 64 / 4 -> (group_total (lq_bytes lq) m <= 255)%N) /\
  nth_error [alternate; alternate] (32 * 0 + 1) = Some alternate /\ signed alternate (lq_bytes lq) = (-32)%Z.
Proof.
  destruct (laser_prepare 64 ramp) as [lq| | |] eqn:E; [|vm_compute in E; discriminate E..]. exists lq. split; [reflexivity|]. vm_compute in E. injection E as <-.
  split; [|split; reflexivity]. intros m Hm. change (64 / 4) with 16 in Hm. do 16 (destruct m as [|m]; [vm_compute; discriminate|]). lia.
Qed.

Print Assumptions fastscan_sums.
Print Assumptions fastscan_same.
Print Assumptions fastscan_table.
Print Assumptions fastscan_estimate_partial.
Print Assumptions fastscan_distance_partial.
Print Assumptions fastscan_inner_partial.
Print Assumptions fastscan_estimate_refuted.
Print Assumptions fastscan_zero_query_undefined.
Print Assumptions laser_blocks.
Print Assumptions laser_query_values.
Print Assumptions laser_scan_partial.
Print Assumptions laser_scan_refuted.
Print Assumptions laser_wide_refuted.
