From Coq Require Import Qabs Lqa.
From Verif Require Export FastscanSimdProofs.
Local Open Scope nat_scope.
Local Notation M := 65536%N.

(** ** Packed blocks are looked up correctly *)
Lemma pair_up_bytes l : Forall (fun x => (x < 16)%N) l -> bytes (pair_up l).
Proof.
  intros H. unfold pair_up. apply Forall_forall. intros x Hx. apply in_map_iff in Hx. destruct Hx as (p & <- & _).
  assert (S : forall k, (nth k l 0 < 16)%N) by (intros k; destruct (Nat.ltb_spec k (length l)); [apply Forall_nth; assumption|rewrite nth_overflow by assumption; reflexivity]).
  pose proof (S p). pose proof (S (p + 16)). rewrite lor_nibbles by assumption. lia.
Qed.
Lemma pack_column_bytes c : bytes c -> bytes (pack_column c).
Proof.
  intros B. apply Forall_app. split; apply pair_up_bytes, Forall_forall; intros x Hx; apply in_map_iff in Hx; destruct Hx as (y & <- & Hy).
  - rewrite shr4. apply N.div_lt_upper_bound; [discriminate|]. apply (proj1 (Forall_forall _ _) B y Hy).
  - rewrite land15. apply N.mod_lt. discriminate.
Qed.
Lemma get_column_bytes src rows cols r c : bytes src -> bytes (get_column src rows cols r c).
Proof.
  intros B. unfold get_column. apply Forall_app. split; apply Forall_forall; intros x Hx.
  - apply in_map_iff in Hx. destruct Hx as (k & <- & _). apply nth_bytes, B.
  - apply repeat_spec in Hx. subst x. reflexivity.
Qed.
Lemma flat_map_bytes {A} (f : A -> list N) l : (forall a, bytes (f a)) -> bytes (flat_map f l).
Proof. intros H. apply Forall_forall. intros x Hx. apply in_flat_map in Hx. destruct Hx as (a & _ & Hx). apply (proj1 (Forall_forall _ _) (H a) x Hx). Qed.
Lemma pack_codes_bytes dim codes num : bytes codes -> bytes (pack_codes dim codes num).
Proof. intros B. apply flat_map_bytes. intros b. apply flat_map_bytes. intros i. apply pack_column_bytes, get_column_bytes, B. Qed.
Lemma pack_codes_len dim codes num : length (pack_codes dim codes num) = (num + 31) / 32 * (dim / 8 * 32).
Proof.
  unfold pack_codes. erewrite flat_uniform_len; [rewrite seq_length; reflexivity|]. intros a _.
  erewrite flat_uniform_len; [rewrite seq_length; reflexivity|]. intros c _. reflexivity.
Qed.
Lemma bytes_skipn l n : bytes l -> bytes (skipn n l).
Proof. intros B. apply Forall_forall. intros x Hx. apply (proj1 (Forall_forall _ _) B). rewrite <- (firstn_skipn n l). apply in_or_app. right. exact Hx. Qed.

Section Block.
Context (dim num : nat) (codes T : list N) (b : nat) (D8 : dim mod 8 = 0) (HC : bytes codes) (HT : bytes T).
Let C := skipn (b * (4 * dim)) (pack_codes dim codes num).
Lemma dim_cols : dim = 8 * (dim / 8).
Proof. pose proof (Nat.div_mod dim 8 ltac:(lia)). lia. Qed.
Lemma dim_quarters : dim / 4 = 2 * (dim / 8).
Proof. pose proof dim_cols as E. symmetry. apply Nat.div_unique with 0; lia. Qed.
Lemma block_len : 32 * b < num -> 4 * dim <= length C.
Proof.
  intros H. unfold C. rewrite skipn_length, pack_codes_len. pose proof dim_cols.
  pose proof (Nat.div_le_lower_bound (num + 31) 32 (b + 1) ltac:(lia) ltac:(lia)). set (nb := (num + 31) / 32) in *. nia.
Qed.
Lemma sum_lo_selected v : v < 16 -> 32 * b + v < num -> sum_lo C T (dim / 8) v = selected (row (dim / 8) (32 * b + v) codes) T (dim / 4).
Proof.
  intros Hv Hn. unfold selected, sum_lo. rewrite dim_quarters, sumN_pairs. apply sumN_ext. intros i Hi.
  assert (E : forall l, l < 2 -> elo C T (32 * i) l (lane_of v) = nth (16 * (2 * i + l) + N.to_nat (nibble (row (dim / 8) (32 * b + v) codes) (2 * i + l))) T 0%N).
  { intros l Hl. unfold elo. fold (packed_byte dim num codes b i l (lane_of v)).
    change (nth (32 * i + 16 * l + lane_of v) C 0%N) with (packed_byte dim num codes b i l (lane_of v)).
    rewrite packed_at by (auto using lane_small; lia). rewrite perm_lane by exact Hv.
    rewrite land15. replace (16 * nib dim num codes (32 * b + v + 16) (2 * i + l))%N with (nib dim num codes (32 * b + v + 16) (2 * i + l) * 16)%N by lia. rewrite N.mod_add by discriminate.
    rewrite N.mod_small by (apply nib_small; exact HC). rewrite nib_row by (auto; lia). f_equal. lia. }
  rewrite !E by lia. rewrite Nat.add_0_r. reflexivity.
Qed.
Lemma sum_hi_selected v : v < 16 -> 32 * b + (v + 16) < num -> sum_hi C T (dim / 8) v = selected (row (dim / 8) (32 * b + (v + 16)) codes) T (dim / 4).
Proof.
  intros Hv Hn. unfold selected, sum_hi. rewrite dim_quarters, sumN_pairs. apply sumN_ext. intros i Hi.
  assert (E : forall l, l < 2 -> ehi C T (32 * i) l (lane_of v) = nth (16 * (2 * i + l) + N.to_nat (nibble (row (dim / 8) (32 * b + (v + 16)) codes) (2 * i + l))) T 0%N).
  { intros l Hl. unfold ehi. change (nth (32 * i + 16 * l + lane_of v) C 0%N) with (packed_byte dim num codes b i l (lane_of v)).
    rewrite packed_at by (auto using lane_small; lia). rewrite perm_lane by exact Hv.
    rewrite shr4. replace (16 * nib dim num codes (32 * b + v + 16) (2 * i + l))%N with (nib dim num codes (32 * b + v + 16) (2 * i + l) * 16)%N by lia. rewrite N.div_add by discriminate.
    rewrite N.div_small by (apply nib_small; exact HC). rewrite N.add_0_l. replace (32 * b + v + 16) with (32 * b + (v + 16)) by lia. rewrite nib_row by (auto; lia). f_equal. lia. }
  rewrite !E by lia. rewrite Nat.add_0_r. reflexivity.
Qed.
Lemma by_halves (f : nat -> N) (P : nat -> Prop) v : v < 32 -> 32 * b + v < num ->
  (forall w, w < 16 -> 32 * b + w < num -> f w = (sum_lo C T (dim / 8) w mod M)%N) -> (forall w, w < 16 -> 32 * b + w < num -> f (w + 16) = (sum_hi C T (dim / 8) w mod M)%N) ->
  f v = (selected (row (dim / 8) (32 * b + v) codes) T (dim / 4) mod M)%N.
Proof.
  intros Hv Hn Lo Hi. destruct (Nat.ltb_spec v 16).
  - rewrite Lo by assumption. rewrite sum_lo_selected by assumption. reflexivity.
  - replace v with (v - 16 + 16) by lia. rewrite Hi by lia. rewrite sum_hi_selected by lia. reflexivity.
Qed.
Lemma accumulate_ok lv v : v < 32 -> 32 * b + v < num -> nth v (accumulate lv C T dim) 0%N = (selected (row (dim / 8) (32 * b + v) codes) T (dim / 4) mod M)%N.
Proof.
  intros Hv Hn. assert (BC : bytes C) by (apply bytes_skipn, pack_codes_bytes, HC). assert (LC : 4 * dim <= length C) by (apply block_len; lia).
  apply (by_halves (fun v => nth v (accumulate lv C T dim) 0%N) (fun _ => True)); [exact Hv|exact Hn| |]; intros w Hw _; unfold accumulate; destruct (Nat.eqb_spec (dim mod 16) 0); try (apply scalar_ok; assumption); destruct lv;
    first [apply scalar_ok; assumption | apply avx2_ok; assumption | apply avx512_ok; assumption].
Qed.
Lemma laser_accumulate_ok lv v : dim mod 16 = 0 -> v < 32 -> 32 * b + v < num -> nth v (laser_accumulate lv C T dim) 0%N = (selected (row (dim / 8) (32 * b + v) codes) T (dim / 4) mod M)%N.
Proof.
  intros D16 Hv Hn. assert (BC : bytes C) by (apply bytes_skipn, pack_codes_bytes, HC). assert (LC : 4 * dim <= length C) by (apply block_len; lia).
  apply (by_halves (fun v => nth v (laser_accumulate lv C T dim) 0%N) (fun _ => True)); [exact Hv|exact Hn| |]; intros w Hw _; unfold laser_accumulate; destruct lv;
    first [apply generic_ok; assumption | apply avx2_ok; assumption | apply avx512_ok; assumption].
Qed.
End Block.

(** ** Codes and tables *)
Definition nib4 (b0 b1 b2 b3 : bool) : nat := 8 * Nat.b2n b0 + 4 * Nat.b2n b1 + 2 * Nat.b2n b2 + Nat.b2n b3.
Lemma pack_byte_nibbles x : let b := fun k => nth k x false in
  N.div (pack_byte x) 16 = N.of_nat (nib4 (b 0) (b 1) (b 2) (b 3)) /\ N.modulo (pack_byte x) 16 = N.of_nat (nib4 (b 4) (b 5) (b 6) (b 7)).
Proof.
  cbv zeta. unfold pack_byte. cbn [seq fold_left].
  destruct (nth 0 x false), (nth 1 x false), (nth 2 x false), (nth 3 x false), (nth 4 x false), (nth 5 x false), (nth 6 x false), (nth 7 x false); split; reflexivity.
Qed.
Lemma pack_byte_byte x : (pack_byte x < 256)%N.
Proof.
  unfold pack_byte. cbn [seq fold_left].
  destruct (nth 0 x false), (nth 1 x false), (nth 2 x false), (nth 3 x false), (nth 4 x false), (nth 5 x false), (nth 6 x false), (nth 7 x false); reflexivity.
Qed.
Lemma pack_binary_bytes dim x : bytes (pack_binary dim x).
Proof. apply Forall_forall. intros y Hy. apply in_map_iff in Hy. destruct Hy as (i & <- & _). apply pack_byte_byte. Qed.
Lemma pack_binary_len dim x : length (pack_binary dim x) = dim / 8.
Proof. unfold pack_binary. rewrite map_length. apply seq_length. Qed.
Lemma nibble_bits dim x m : m < 2 * (dim / 8) ->
  N.to_nat (nibble (pack_binary dim x) m) = nib4 (nth (4 * m) x false) (nth (4 * m + 1) x false) (nth (4 * m + 2) x false) (nth (4 * m + 3) x false).
Proof.
  intros Hm. unfold nibble, pack_binary. assert (Hd : m / 2 < dim / 8) by (apply Nat.div_lt_upper_bound; lia). rewrite nth_map_seq by exact Hd.
  pose proof (Nat.div_mod m 2 ltac:(lia)) as E. pose proof (Nat.mod_upper_bound m 2 ltac:(lia)) as U.
  destruct (pack_byte_nibbles (skipn (8 * (m / 2)) x)) as (A & B). rewrite !nth_skip in A, B. cbv zeta.
  assert (Ev : Nat.even m = (m mod 2 =? 0)).
  { rewrite E at 1. rewrite Nat.even_add, Nat.even_mul. destruct (m mod 2) as [|[|]]; [reflexivity|reflexivity|lia]. }
  rewrite Ev. destruct (Nat.eqb_spec (m mod 2) 0).
  - rewrite A, Nat2N.id. replace (8 * (m / 2) + 0) with (4 * m) by lia. replace (8 * (m / 2)) with (4 * m) by lia. reflexivity.
  - rewrite B, Nat2N.id. replace (8 * (m / 2) + 4) with (4 * m) by lia. replace (8 * (m / 2) + 5) with (4 * m + 1) by lia. replace (8 * (m / 2) + 6) with (4 * m + 2) by lia. replace (8 * (m / 2) + 7) with (4 * m + 3) by lia. reflexivity.
Qed.
Lemma lut_len {A} (add : A -> A -> A) zero q : length (lut_entries add zero q) = 16.
Proof. reflexivity. Qed.
Lemma pack_lut_len {A} (add : A -> A -> A) zero dim q : length (pack_lut add zero dim q) = dim / 4 * 16.
Proof. unfold pack_lut. erewrite flat_uniform_len; [rewrite seq_length; reflexivity|]. intros a _. apply lut_len. Qed.
Lemma pack_lut_nth {A} (add : A -> A -> A) zero dim q m c : m < dim / 4 -> c < 16 -> nth (16 * m + c) (pack_lut add zero dim q) zero = nth c (lut_entries add zero (skipn (4 * m) q)) zero.
Proof.
  intros Hm Hc. unfold pack_lut. rewrite Nat.mul_comm. rewrite (nth_flat_uniform _ 16 0); [|intros; apply lut_len|rewrite seq_length; exact Hm|exact Hc].
  rewrite seq_nth by exact Hm. reflexivity.
Qed.
Definition four_set {A} (add : A -> A -> A) (zero : A) (b0 b1 b2 b3 : bool) (q0 q1 q2 q3 : A) : A :=
  let z := zero in
  let a := if b0 then add z q0 else z in let b := if b1 then add a q1 else a in let c := if b2 then add b q2 else b in if b3 then add c q3 else c.
Lemma lut_entry {A} (add : A -> A -> A) zero q b0 b1 b2 b3 :
  nth (nib4 b0 b1 b2 b3) (lut_entries add zero q) zero = four_set add zero b0 b1 b2 b3 (nth 0 q zero) (nth 1 q zero) (nth 2 q zero) (nth 3 q zero).
Proof. destruct b0, b1, b2, b3; reflexivity. Qed.

Fixpoint sumQ (n : nat) (f : nat -> Q) : Q := match n with O => 0%Q | S k => (sumQ k f + f k)%Q end.
Lemma sumQ_ext n f g : (forall i, i < n -> (f i == g i)%Q) -> (sumQ n f == sumQ n g)%Q.
Proof. induction n as [|n IH]; intros H; cbn [sumQ]; [reflexivity|]. rewrite IH, H by (intros; try apply H; lia). reflexivity. Qed.
Lemma sumQ_first n f : (sumQ (S n) f == f 0%nat + sumQ n (fun i => f (S i)))%Q.
Proof. induction n as [|n IH]; [cbn; ring|]. cbn [sumQ] in *. rewrite IH. ring. Qed.
Lemma sumN_first n f : sumN (S n) f = (f 0%nat + sumN n (fun i => f (S i)))%N.
Proof. induction n as [|n IH]; [cbn; lia|]. cbn [sumN] in *. rewrite IH. lia. Qed.

(** The four dimensions of group [m]. *)
Definition group_set {A} (add : A -> A -> A) (zero : A) (x : list bool) (q : list A) (m : nat) : A :=
  four_set add zero (nth (4 * m) x false) (nth (4 * m + 1) x false) (nth (4 * m + 2) x false) (nth (4 * m + 3) x false)
     (nth (4 * m) q zero) (nth (4 * m + 1) q zero) (nth (4 * m + 2) q zero) (nth (4 * m + 3) q zero).
Lemma group_set_S {A} (add : A -> A -> A) zero b0 b1 b2 b3 x q0 q1 q2 q3 q m :
  group_set add zero (b0 :: b1 :: b2 :: b3 :: x) (q0 :: q1 :: q2 :: q3 :: q) (S m) = group_set add zero x q m.
Proof. unfold group_set. replace (4 * S m) with (S (S (S (S (4 * m))))) by lia. reflexivity. Qed.
Lemma where_set_groups n : forall x q, length x = 4 * n -> length q = 4 * n -> (where_set x q == sumQ n (group_set Qplus 0%Q x q))%Q.
Proof.
  induction n as [|n IH]; intros x q Lx Lq.
  - destruct x; [reflexivity|cbn in Lx; lia].
  - destruct x as [|b0 [|b1 [|b2 [|b3 x]]]]; cbn [length] in Lx; try lia. destruct q as [|q0 [|q1 [|q2 [|q3 q]]]]; cbn [length] in Lq; try lia.
    rewrite sumQ_first. cbn [where_set]. rewrite IH by lia.
    rewrite (sumQ_ext n (fun i => group_set Qplus 0%Q (b0 :: b1 :: b2 :: b3 :: x) (q0 :: q1 :: q2 :: q3 :: q) (S i)) (group_set Qplus 0%Q x q)) by (intros m _; rewrite group_set_S; reflexivity).
    unfold group_set at 2. cbn [Nat.mul Nat.add nth]. unfold four_set. destruct b0, b1, b2, b3; ring.
Qed.
Lemma nib4_small b0 b1 b2 b3 : nib4 b0 b1 b2 b3 < 16.
Proof. destruct b0, b1, b2, b3; cbn; lia. Qed.
Lemma table_entry {A} (add : A -> A -> A) zero dim x q m : m < 2 * (dim / 8) -> dim mod 8 = 0 ->
  nth (16 * m + N.to_nat (nibble (pack_binary dim x) m)) (pack_lut add zero dim q) zero = group_set add zero x q m.
Proof.
  intros Hm D8. rewrite nibble_bits by exact Hm. rewrite pack_lut_nth; [|rewrite dim_quarters by exact D8; exact Hm|apply nib4_small].
  rewrite lut_entry, !nth_skip, Nat.add_0_r. reflexivity.
Qed.
Lemma dim_groups dim : dim mod 8 = 0 -> dim = 4 * (dim / 4).
Proof. intros D8. rewrite dim_quarters by exact D8. pose proof (dim_cols dim D8). lia. Qed.
Lemma table_sum dim x q : dim mod 8 = 0 -> length x = dim -> length q = dim ->
  (sumQ (dim / 4) (fun m => nth (16 * m + N.to_nat (nibble (pack_binary dim x) m)) (pack_lut Qplus 0%Q dim q) 0%Q) == where_set x q)%Q.
Proof.
  intros D8 Lx Lq. pose proof (dim_groups dim D8) as E.
  rewrite (where_set_groups (dim / 4)) by lia. apply sumQ_ext. intros m Hm. rewrite table_entry by (try exact D8; rewrite <- dim_quarters by exact D8; exact Hm). reflexivity.
Qed.
