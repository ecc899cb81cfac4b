From Coq Require Import Lqa.
From Verif Require Export FastscanEstimateProofs.
Local Open Scope nat_scope.
Local Notation M := 65536%N.

(** ** Bits of packed words *)
Lemma packed_bits x K n i : n <= S K ->
  N.testbit (fold_left (fun cur j => N.lor cur (N.shiftl (N.b2n (nth j x false)) (N.of_nat (K - j)))) (seq 0 n) 0%N) (N.of_nat i) = ((i <=? K) && (K - i <? n) && nth (K - i) x false)%bool.
Proof.
  induction n as [|n IH]; intros H.
  - cbn [seq fold_left]. rewrite N.bits_0. destruct (i <=? K); [|reflexivity]. destruct (Nat.ltb_spec (K - i) 0); [lia|reflexivity].
  - rewrite (seq_S n 0), fold_left_app. cbn [fold_left Nat.add]. rewrite N.lor_spec, IH by lia.
    destruct (Nat.leb_spec i K) as [Hi|Hi]; cbn [andb orb].
    + destruct (Nat.eq_dec (K - i) n) as [E|E].
      * rewrite E. replace (K - n) with i by lia. rewrite Nat.ltb_irrefl. destruct (Nat.ltb_spec n (S n)); [|lia]. cbn [andb orb].
        rewrite N.shiftl_spec_high' by lia. rewrite N.sub_diag. destruct (nth n x false); reflexivity.
      * assert (Z : N.testbit (N.shiftl (N.b2n (nth n x false)) (N.of_nat (K - n))) (N.of_nat i) = false).
        { destruct (Nat.ltb_spec i (K - n)); [apply N.shiftl_spec_low; lia|]. rewrite N.shiftl_spec_high' by lia.
          assert (P : (N.of_nat i - N.of_nat (K - n) <> 0)%N) by lia. destruct (N.of_nat i - N.of_nat (K - n))%N as [|p]; [congruence|]. destruct (nth n x false); [destruct p; reflexivity|apply N.bits_0]. }
        rewrite Z, orb_false_r. destruct (Nat.ltb_spec (K - i) n), (Nat.ltb_spec (K - i) (S n)); try lia; reflexivity.
    + rewrite N.shiftl_spec_high' by lia. assert (P : (N.of_nat i - N.of_nat (K - n) <> 0)%N) by lia.
      destruct (N.of_nat i - N.of_nat (K - n))%N as [|p]; [congruence|]. destruct (nth n x false); [destruct p; reflexivity|apply N.bits_0].
Qed.
Lemma pack_word_bits x i : N.testbit (pack_word x) (N.of_nat i) = ((i <? 64) && nth (63 - i) x false)%bool.
Proof.
  unfold pack_word. rewrite packed_bits by lia. destruct (Nat.leb_spec i 63), (Nat.ltb_spec i 64), (Nat.ltb_spec (63 - i) 64); try lia; reflexivity.
Qed.
Lemma pack_byte_bits x i : N.testbit (pack_byte x) (N.of_nat i) = ((i <? 8) && nth (7 - i) x false)%bool.
Proof.
  unfold pack_byte. rewrite packed_bits by lia. destruct (Nat.leb_spec i 7), (Nat.ltb_spec i 8), (Nat.ltb_spec (7 - i) 8); try lia; reflexivity.
Qed.
Lemma swap4_word w : swap4 (word_bytes w) = rev (word_bytes w).
Proof. unfold word_bytes. cbn [seq map]. generalize (N.land (N.shiftr w (8 * N.of_nat 0)) 255) (N.land (N.shiftr w (8 * N.of_nat 1)) 255) (N.land (N.shiftr w (8 * N.of_nat 2)) 255) (N.land (N.shiftr w (8 * N.of_nat 3)) 255) (N.land (N.shiftr w (8 * N.of_nat 4)) 255) (N.land (N.shiftr w (8 * N.of_nat 5)) 255) (N.land (N.shiftr w (8 * N.of_nat 6)) 255) (N.land (N.shiftr w (8 * N.of_nat 7)) 255). reflexivity. Qed.
Lemma word_byte x k : k < 8 -> N.land (N.shiftr (pack_word x) (8 * N.of_nat k)) 255 = pack_byte (skipn (8 * (7 - k)) x).
Proof.
  intros Hk. apply N.bits_inj. intros i. rewrite <- (N2Nat.id i). set (j := N.to_nat i). rewrite N.land_spec, N.shiftr_spec', pack_byte_bits.
  replace (N.of_nat j + 8 * N.of_nat k)%N with (N.of_nat (j + 8 * k)) by lia. rewrite pack_word_bits. change 255%N with (N.ones 8).
  destruct (Nat.ltb_spec j 8) as [Hj|Hj].
  - rewrite N.ones_spec_low by lia. rewrite andb_true_r. destruct (Nat.ltb_spec (j + 8 * k) 64); [|lia]. cbn [andb]. rewrite nth_skip. f_equal. lia.
  - rewrite N.ones_spec_high by lia. apply andb_false_r.
Qed.
Lemma word_ok x : swap4 (word_bytes (pack_word x)) = map (fun i => pack_byte (skipn (8 * i) x)) (seq 0 8).
Proof.
  rewrite swap4_word. apply (nth_ext _ _ 0%N 0%N); [reflexivity|]. intros i Hi. rewrite rev_length in Hi. change (length (word_bytes (pack_word x))) with 8 in Hi.
  rewrite rev_nth by exact Hi. change (length (word_bytes (pack_word x))) with 8. unfold word_bytes. rewrite !nth_map_seq by lia. rewrite word_byte by lia. do 2 f_equal. lia.
Qed.
Lemma skip_skip {A} (l : list A) a b : skipn a (skipn b l) = skipn (b + a) l.
Proof. revert l. induction b as [|b IH]; intros l; [reflexivity|]. destruct l; [destruct a; reflexivity|]. cbn [skipn Nat.add]. apply IH. Qed.
Lemma seq_blocks n k : flat_map (fun i => map (fun j => k * i + j) (seq 0 k)) (seq 0 n) = seq 0 (n * k).
Proof.
  induction n as [|n IH]; [reflexivity|]. rewrite (seq_S n 0), flat_map_app, IH. cbn [flat_map Nat.add]. rewrite app_nil_r.
  replace (S n * k) with (n * k + k) by lia. rewrite seq_app. f_equal. cbn [Nat.add]. apply (nth_ext _ _ 0 0); [rewrite map_length, !seq_length; reflexivity|].
  intros i Hi. rewrite map_length, seq_length in Hi. rewrite nth_map_seq, seq_nth by exact Hi. lia.
Qed.
Lemma binary_ok dim x : dim mod 64 = 0 -> flat_map (fun w => swap4 (word_bytes w)) (laser_pack_binary dim x) = pack_binary dim x.
Proof.
  intros D. pose proof (Nat.div_mod dim 64 ltac:(lia)) as E. unfold laser_pack_binary, pack_binary. set (n := dim / 64) in *.
  replace (dim / 8) with (n * 8) by (apply Nat.div_unique with 0; lia). rewrite <- (seq_blocks n 8). clear.
  induction (seq 0 n) as [|i l IH]; [reflexivity|]. cbn [map flat_map]. rewrite IH, map_app. f_equal. rewrite word_ok, map_map. apply map_ext. intros j. rewrite skip_skip. do 2 f_equal. lia.
Qed.
Lemma flat_map_flat {A B C} (f : B -> list C) (g : A -> list B) l : flat_map f (flat_map g l) = flat_map (fun a => flat_map f (g a)) l.
Proof. induction l as [|a l IH]; [reflexivity|]. cbn [flat_map]. rewrite flat_map_app, IH. reflexivity. Qed.
Lemma swap_nibbles_ok b : (b < 256)%N -> N.land (swap_nibbles b) 15 = N.shiftr b 4 /\ N.shiftr (swap_nibbles b) 4 = N.land b 15.
Proof.
  intros H. assert (A : forallb (fun k => let b := N.of_nat k in (N.land (swap_nibbles b) 15 =? N.shiftr b 4)%N && (N.shiftr (swap_nibbles b) 4 =? N.land b 15)%N) (seq 0 256) = true) by (vm_compute; reflexivity).
  rewrite forallb_forall in A. specialize (A (N.to_nat b) ltac:(apply in_seq; lia)). cbv zeta in A. rewrite N2Nat.id in A. apply andb_prop in A. destruct A as (A & B). apply N.eqb_eq in A, B. split; assumption.
Qed.
Lemma get_column_map f src rows cols r c : f 0%N = 0%N -> get_column (map f src) rows cols r c = map f (get_column src rows cols r c).
Proof.
  intros F0. unfold get_column. rewrite map_app, map_map. f_equal.
  - apply map_ext. intros k. rewrite <- F0 at 1. apply map_nth.
  - induction (32 - Nat.min (rows - r) 32) as [|n IH]; [reflexivity|]. cbn [repeat map]. rewrite F0, <- IH. reflexivity.
Qed.
Lemma helper_ok c : bytes c -> helper_column (map swap_nibbles c) = pack_column c.
Proof.
  intros B. unfold helper_column, pack_column. rewrite !map_map. f_equal; f_equal; apply map_ext_in; intros x Hx; apply swap_nibbles_ok; apply (proj1 (Forall_forall _ _) B x Hx).
Qed.
Lemma laser_pack_ok dim xs : dim mod 64 = 0 -> laser_pack_codes dim (flat_map (laser_pack_binary dim) xs) (length xs) = pack_codes dim (flat_map (pack_binary dim) xs) (length xs).
Proof.
  intros D. unfold laser_pack_codes. rewrite flat_map_flat. rewrite (flat_map_ext _ (pack_binary dim)) by (intros a; apply binary_ok, D).
  unfold pack_codes_helper, pack_codes. apply flat_map_ext. intros b. apply flat_map_ext. intros i. rewrite get_column_map by reflexivity. apply helper_ok, get_column_bytes, flat_map_bytes. intros a. apply pack_binary_bytes.
Qed.

(** ** Tables of bytes *)
Lemma where_setN_groups n : forall x q, length x = 4 * n -> length q = 4 * n -> where_setN x q = sumN n (group_set N.add 0%N x q).
Proof.
  induction n as [|n IH]; intros x q Lx Lq.
  - destruct x; [reflexivity|cbn in Lx; lia].
  - destruct x as [|b0 [|b1 [|b2 [|b3 x]]]]; cbn [length] in Lx; try lia. destruct q as [|q0 [|q1 [|q2 [|q3 q]]]]; cbn [length] in Lq; try lia.
    rewrite sumN_first. cbn [where_setN]. rewrite IH by lia.
    rewrite (sumN_ext n (fun i => group_set N.add 0%N (b0 :: b1 :: b2 :: b3 :: x) (q0 :: q1 :: q2 :: q3 :: q) (S i)) (group_set N.add 0%N x q)) by (intros m _; rewrite group_set_S; reflexivity).
    unfold group_set at 2. cbn [Nat.mul Nat.add nth]. unfold four_set. destruct b0, b1, b2, b3; lia.
Qed.
Definition add8 (a b : N) : N := ((a + b) mod 256)%N.
Lemma four_set_exact b0 b1 b2 b3 q0 q1 q2 q3 : (q0 + q1 + q2 + q3 <= 255)%N -> four_set add8 0%N b0 b1 b2 b3 q0 q1 q2 q3 = four_set N.add 0%N b0 b1 b2 b3 q0 q1 q2 q3.
Proof. intros H. unfold four_set, add8. destruct b0, b1, b2, b3; rewrite ?N.add_0_l; rewrite ?(N.mod_small q0), ?(N.mod_small q1), ?(N.mod_small q2), ?(N.mod_small q3) by lia; repeat rewrite N.mod_small by lia; reflexivity. Qed.
Lemma four_set_bound b0 b1 b2 b3 q0 q1 q2 q3 : (four_set N.add 0%N b0 b1 b2 b3 q0 q1 q2 q3 <= q0 + q1 + q2 + q3)%N.
Proof. unfold four_set. destruct b0, b1, b2, b3; lia. Qed.
Lemma four_set_byte b0 b1 b2 b3 q0 q1 q2 q3 : (four_set add8 0%N b0 b1 b2 b3 q0 q1 q2 q3 < 256)%N.
Proof. unfold four_set, add8. destruct b3, b2, b1, b0; first [apply N.mod_lt; discriminate | reflexivity]. Qed.
Lemma byte_table dim q : bytes (pack_lut add8 0%N dim q).
Proof.
  apply flat_map_bytes. intros m. apply Forall_forall. intros y Hy. destruct (In_nth _ _ 0%N Hy) as (c & Hc & E). rewrite lut_len in Hc.
  destruct (code_bits c Hc) as (b0 & b1 & b2 & b3 & ->). rewrite lut_entry in E. rewrite <- E. apply four_set_byte.
Qed.
(** The sum of four consecutive values. *)
Definition group_total (q : list N) (m : nat) : N := (nth (4 * m)%nat q 0 + nth (4 * m + 1)%nat q 0 + nth (4 * m + 2)%nat q 0 + nth (4 * m + 3)%nat q 0)%N.
Lemma selected_bytes dim x q : dim mod 8 = 0 -> length x = dim -> length q = dim -> (forall m, m < dim / 4 -> (group_total q m <= 255)%N) ->
  selected (pack_binary dim x) (pack_lut add8 0%N dim q) (dim / 4) = where_setN x q.
Proof.
  intros D8 Lx Lq H. pose proof (dim_groups dim D8) as E. rewrite (where_setN_groups (dim / 4)) by lia. apply sumN_ext. intros m Hm.
  rewrite table_entry by (try exact D8; rewrite <- dim_quarters by exact D8; exact Hm). unfold group_set. apply four_set_exact. apply (H m Hm).
Qed.
Lemma groups_bound q n f : (forall m, m < n -> (f m <= group_total q m)%N) -> (forall m, m < n -> (group_total q m <= 255)%N) -> (sumN n f <= 255 * N.of_nat n)%N.
Proof. induction n as [|n IH]; intros H G; [cbn; lia|]. cbn [sumN]. pose proof (IH ltac:(intros; apply H; lia) ltac:(intros; apply G; lia)). pose proof (H n ltac:(lia)). pose proof (G n ltac:(lia)). lia. Qed.
Lemma where_setN_bound n x q : length x = 4 * n -> length q = 4 * n -> (forall m, m < n -> (group_total q m <= 255)%N) -> (where_setN x q <= 255 * N.of_nat n)%N.
Proof. intros Lx Lq G. rewrite (where_setN_groups n) by assumption. apply (groups_bound q); [|exact G]. intros m _. apply four_set_bound. Qed.

(** ** Scanning *)
Definition sumZ (l : list N) : Z := fold_right (fun b s => (Z.of_N b + s)%Z) 0%Z l.
Lemma sumZ_fold l : forall a, fold_left (fun s b => (s + Z.of_N b)%Z) l a = (a + sumZ l)%Z.
Proof. induction l as [|x l IH]; intros a; cbn [fold_left sumZ fold_right]; [lia|]. rewrite IH. fold (sumZ l). lia. Qed.
Lemma signed_sum x : forall q, length x = length q -> (2 * Z.of_N (where_setN x q) - sumZ q)%Z = signed x q.
Proof.
  induction x as [|b x IH]; intros [|v q] L; try discriminate; [reflexivity|]. cbn in L. cbn [where_setN sumZ fold_right signed]. fold (sumZ q). rewrite <- IH by lia. destruct b; lia.
Qed.
Lemma laser_len lv C T dim : length (laser_accumulate lv C T dim) = 32.
Proof.
  unfold laser_accumulate. destruct lv.
  - unfold accumulate_generic. rewrite fold_len; [apply repeat_length|]. intros r i. apply generic_fold_len.
  - unfold accumulate_avx2. cbv zeta. rewrite app_length. rewrite !(add16_len 16) by (apply permute_len || apply blend_len). reflexivity.
  - unfold accumulate_avx512. cbv zeta. apply add16_len; [apply add16_len; [apply repeat_length|]|]; apply shuffle512_len.
Qed.
Lemma scan_ok lv dim xs q b v x : dim mod 64 = 0 -> Forall (fun x => length x = dim) xs -> v < 32 -> nth_error xs (32 * b + v) = Some x ->
  length (lq_bytes q) = dim -> lq_lut q = pack_lut add8 0%N dim (lq_bytes q) -> lq_sum q = sumZ (lq_bytes q) ->
  (forall m, m < dim / 4 -> (group_total (lq_bytes q) m <= 255)%N) -> (where_setN x (lq_bytes q) < 32768)%N ->
  nth_error (laser_scan lv dim (laser_pack_codes dim (flat_map (laser_pack_binary dim) xs) (length xs)) q b) v = Some (signed x (lq_bytes q)).
Proof.
  intros D Lx Hv Hx Lq Et Es G S. assert (Hk : 32 * b + v < length xs) by (apply nth_error_Some; congruence).
  assert (Lxx : length x = dim) by (apply (proj1 (Forall_forall _ _) Lx); apply nth_error_In with (32 * b + v); exact Hx).
  pose proof (Nat.div_mod dim 64 ltac:(lia)) as E64. assert (D8 : dim mod 8 = 0) by (replace dim with (0 + (8 * (dim / 64)) * 8) by lia; apply Nat.mod_add; lia).
  assert (D16 : dim mod 16 = 0) by (replace dim with (0 + (4 * (dim / 64)) * 16) by lia; apply Nat.mod_add; lia).
  rewrite laser_pack_ok by exact D. unfold laser_scan, laser_convert. rewrite nth_error_map.
  assert (Bc : bytes (flat_map (pack_binary dim) xs)) by (apply flat_map_bytes; intros a; apply pack_binary_bytes).
  assert (BT : bytes (lq_lut q)) by (rewrite Et; apply byte_table).
  pose proof (laser_accumulate_ok dim (length xs) (flat_map (pack_binary dim) xs) (lq_lut q) b D8 Bc BT lv v D16 Hv Hk) as Acc.
  rewrite (row_flat _ _ _ _ []) in Acc by (try exact Hk; intros; apply pack_binary_len). rewrite (nth_error_nth _ _ [] Hx) in Acc.
  rewrite (nth_error_nth' _ 0%N) by (rewrite laser_len; exact Hv). rewrite Acc, Et, (selected_bytes dim x (lq_bytes q) D8 Lxx Lq G). rewrite N.mod_small by lia. cbn [option_map].
  unfold as_int16. destruct (N.ltb_spec (where_setN x (lq_bytes q)) 32768); [|lia]. rewrite Es, signed_sum by lia. reflexivity.
Qed.

(** ** Six-bit queries *)
Lemma prepare_ok dim q lq : laser_prepare dim q = Ok lq ->
  (0 < lq_width lq)%Q /\ lq_lut lq = pack_lut add8 0%N dim (lq_bytes lq) /\ lq_sum lq = sumZ (lq_bytes lq) /\
  Forall2 (fun v b => (1 <= b <= 64)%N /\ ((inject_Z (Z.of_N b) - 1) * lq_width lq <= v - lq_lower lq)%Q /\ (v - lq_lower lq < inject_Z (Z.of_N b) * lq_width lq)%Q) q (lq_bytes lq).
Proof.
  unfold laser_prepare. set (lo := Qminl q). set (hi := Qmaxl q). set (w := ((hi - lo) / 63)%Q). destruct (Qeq_bool w 0) eqn:E0; [discriminate|].
  intros H. injection H as <-. cbn [lq_width lq_lut lq_bytes lq_sum lq_lower].
  assert (N0 : ~ (w == 0)%Q) by (intros H; apply Qeq_bool_iff in H; congruence).
  assert (WP : (0 < w)%Q).
  { destruct q as [|x q']; [exfalso; apply N0; reflexivity|]. pose proof (proj1 (Qminl_spec (x :: q')) x (or_introl eq_refl)) as A. pose proof (proj1 (Qmaxl_spec (x :: q')) x (or_introl eq_refl)) as B. fold lo in A. fold hi in B.
    assert (G : (0 <= w)%Q) by (unfold w; apply Qle_shift_div_l; [reflexivity|]; lra). apply Qle_lteq in G. destruct G as [G|G]; [exact G|]. exfalso. apply N0. rewrite <- G. reflexivity. }
  split; [exact WP|]. split; [reflexivity|]. split; [rewrite sumZ_fold; lia|].
  assert (In_all : forall v, In v q -> (lo <= v <= hi)%Q) by (intros v Hv; split; [apply (proj1 (Qminl_spec q)), Hv|apply (proj1 (Qmaxl_spec q)), Hv]).
  clearbody lo hi. revert In_all. clear E0. assert (W63 : (w * 63 == hi - lo)%Q) by (unfold w; field). clearbody w. induction q as [|v q IH]; intros In_all; cbn [map]; constructor.
  - destruct (In_all v (or_introl eq_refl)) as (A & B). set (t := ((v - lo) / w)%Q). assert (Et : (v - lo == t * w)%Q) by (unfold t; field; exact N0).
    assert (T0 : (0 <= t)%Q) by (apply Qle_shift_div_l; [exact WP|lra]). assert (T1 : (t <= 63)%Q) by (apply Qle_shift_div_r; [exact WP|]; lra).
    unfold round_away. destruct (Qle_bool 0 (t + (1#2))) eqn:L; [|exfalso; assert (0 <= t + (1#2))%Q by lra; apply Qle_bool_iff in H; congruence].
    destruct (floor_bounds (t + (1#2) + (1#2))) as (F1 & F2). set (z := Qfloor (t + (1 # 2) + (1 # 2))) in *.
    assert (Z1 : (1 <= z)%Z). { destruct (Z_lt_le_dec z 1) as [K|K]; [|exact K]. exfalso. assert (K' : (z <= 0)%Z) by lia. apply inj_le_iff in K'. change (inject_Z 0) with 0%Q in K'. lra. }
    assert (Z2 : (z <= 64)%Z). { destruct (Z_lt_le_dec 64 z) as [K|K]; [|exact K]. exfalso. assert (K' : (65 <= z)%Z) by lia. apply inj_le_iff in K'. change (inject_Z 65) with 65%Q in K'. lra. }
    rewrite Z.mod_small by lia. split; [lia|]. rewrite Z2N.id by lia. set (zz := inject_Z z) in *. rewrite Et. split; [apply Qmult_le_compat_r; [lra|apply Qlt_le_weak, WP]|apply Qmult_lt_compat_r; [exact WP|lra]].
  - apply IH. intros u Hu. apply In_all. right. exact Hu.
Qed.
