From Verif Require Export FastscanProofs.
Local Open Scope nat_scope.
Local Notation M := 65536%N.

Lemma load_nth n m i k : k < n -> nth k (load n m i) 0%N = nth (i + k) m 0%N.
Proof. intros H. unfold load. rewrite nth_first by exact H. apply nth_skip. Qed.
Lemma load_len n m i : i + n <= length m -> length (load n m i) = n.
Proof. intros H. unfold load. rewrite firstn_length, skipn_length. lia. Qed.
Lemma words_len : forall n l, length l = 2 * n -> length (words l) = n.
Proof. induction n as [|n IH]; intros l H; [destruct l; [reflexivity|discriminate]|]. destruct l as [|a [|b l]]; cbn in H; [lia|lia|]. cbn [words length]. rewrite IH by lia. reflexivity. Qed.
Lemma words_nth : forall w l, 2 * w + 1 < length l -> nth w (words l) 0%N = (nth (2 * w)%nat l 0 + 256 * nth (2 * w + 1)%nat l 0)%N.
Proof.
  induction w as [|w IH]; intros l H; destruct l as [|a [|b l]]; cbn [length] in H; try lia; [reflexivity|].
  replace (2 * S w + 1) with (S (S (2 * w + 1))) by lia. replace (2 * S w) with (S (S (2 * w))) by lia. cbn [words nth]. apply IH. lia.
Qed.
Lemma unwords_len ws : length (unwords ws) = 2 * length ws.
Proof. induction ws as [|w ws IH]; cbn [unwords flat_map length app] in *; [reflexivity|]. unfold unwords in IH. rewrite IH. lia. Qed.
Lemma unwords_nth : forall w ws, w < length ws -> nth (2 * w) (unwords ws) 0%N = (nth w ws 0 mod 256)%N /\ nth (2 * w + 1) (unwords ws) 0%N = (nth w ws 0 / 256)%N.
Proof.
  induction w as [|w IH]; intros [|x ws] H; cbn [length] in H; try lia; [split; reflexivity|].
  replace (2 * S w + 1) with (S (S (2 * w + 1))) by lia. replace (2 * S w) with (S (S (2 * w))) by lia. cbn [unwords flat_map app nth]. apply IH. lia.
Qed.
Lemma and_low_nth c p : nth p (and_low c) 0%N = N.land (nth p c 0%N) 15.
Proof. unfold and_low. change 0%N with (N.land 0 15) at 1. apply (map_nth (fun x => N.land x 15)). Qed.
Lemma srli_nth k ws w : nth w (srli16 k ws) 0%N = N.shiftr (nth w ws 0%N) k.
Proof. unfold srli16. rewrite <- (N.shiftr_0_l k) at 1. apply (map_nth (fun x => N.shiftr x k)). Qed.
Lemma slli_nth k ws w : nth w (slli16 k ws) 0%N = (N.shiftl (nth w ws 0) k mod M)%N.
Proof. unfold slli16. replace 0%N with (N.shiftl 0 k mod M)%N at 1 by (rewrite N.shiftl_0_l; reflexivity). apply (map_nth (fun x => (N.shiftl x k mod M)%N)). Qed.
Lemma map2_len f a b : length (map2 f a b) = Nat.min (length a) (length b).
Proof. unfold map2. rewrite map_length. apply combine_length. Qed.
Lemma map2_nth f a b w : w < length a -> w < length b -> nth w (map2 f a b) 0%N = f (nth w a 0%N) (nth w b 0%N).
Proof.
  intros Ha Hb. unfold map2. rewrite (nth_map_d _ _ _ _ (0%N, 0%N)) by (rewrite combine_length; lia).
  revert b w Ha Hb. induction a as [|x a IH]; intros [|y b] w Ha Hb; cbn [length] in *; try lia. destruct w as [|w]; [reflexivity|]. cbn [combine nth]. apply IH; lia.
Qed.
Lemma shuffle_len l i : length (shuffle8 l i) = length i.
Proof. unfold shuffle8. rewrite map_length. apply seq_length. Qed.
Lemma shuffle_nth l i p : p < length i -> (nth p i 0 < 16)%N -> nth p (shuffle8 l i) 0%N = nth (16 * (p / 16) + N.to_nat (nth p i 0%N)) l 0%N.
Proof.
  intros Hp Hs. unfold shuffle8. rewrite nth_map_seq by exact Hp. cbv zeta. set (x := nth p i 0%N) in *.
  replace (N.testbit x 7) with false. 2: { symmetry. destruct (N.eq_dec x 0) as [ -> |Hx]; [reflexivity|]. apply N.bits_above_log2. apply N.log2_lt_pow2; [lia|]. apply N.lt_trans with 16%N; [exact Hs|reflexivity]. }
  rewrite land15, N.mod_small by exact Hs. reflexivity.
Qed.

Section Simd.
Context (C T : list N) (HC : bytes C) (HT : bytes T).
(** The table entry found by byte [p] of the block at [i]. *)
Definition blo (i p : nat) : N := nth (i + 16 * (p / 16) + N.to_nat (N.land (nth (i + p) C 0%N) 15)) T 0%N.
Definition bhi (i p : nat) : N := nth (i + 16 * (p / 16) + N.to_nat (N.shiftr (nth (i + p) C 0%N) 4)) T 0%N.
Lemma blo_byte i p : (blo i p < 256)%N.
Proof. apply nth_bytes, HT. Qed.
Lemma bhi_byte i p : (bhi i p < 256)%N.
Proof. apply nth_bytes, HT. Qed.
Lemma nibble_lo x : (N.land x 15 < 16)%N.
Proof. rewrite land15. apply N.mod_lt. discriminate. Qed.
Lemma hi_nth h i p : i + 2 * h <= length C -> p < 2 * h -> nth p (and_low (unwords (srli16 4 (words (load (2 * h) C i))))) 0%N = N.shiftr (nth (i + p) C 0%N) 4.
Proof.
  intros L Hp. rewrite and_low_nth. assert (LW : length (words (load (2 * h) C i)) = h) by (apply words_len, load_len; exact L).
  assert (LS : length (srli16 4 (words (load (2 * h) C i))) = h) by (unfold srli16; rewrite map_length; exact LW).
  pose proof (Nat.div_mod p 2 ltac:(lia)) as Ep. pose proof (Nat.mod_upper_bound p 2 ltac:(lia)) as Hm. set (w := p / 2) in *.
  assert (Hw : w < h) by lia. destruct (unwords_nth w (srli16 4 (words (load (2 * h) C i)))) as (A & B); [lia|].
  rewrite srli_nth in A, B. rewrite words_nth in A, B by (rewrite load_len by exact L; lia). rewrite !load_nth in A, B by lia.
  pose proof (nth_bytes C (i + 2 * w) HC) as B0. pose proof (nth_bytes C (i + (2 * w + 1)) HC) as B1.
  set (x := nth (i + 2 * w) C 0%N) in *. set (y := nth (i + (2 * w + 1)) C 0%N) in *.
  rewrite shr4 in A, B. assert (E : ((x + 256 * y) / 16 = x / 16 + 16 * y)%N) by (replace (x + 256 * y)%N with (x + (16 * y) * 16)%N by lia; apply N.div_add; discriminate).
  rewrite E in A, B. assert (X : (x / 16 < 16)%N) by (apply N.div_lt_upper_bound; lia).
  destruct (p mod 2) as [|[|]] eqn:P; [| |lia].
  - replace p with (2 * w) by lia. rewrite A. fold x. rewrite shr4, land15.
    replace (16 * y)%N with (y * 16)%N by lia. change 256%N with (16 * 16)%N. rewrite N.mod_mul_r by discriminate. rewrite (N.mul_comm 16 (_ mod 16)), N.mod_add by discriminate.
    rewrite N.mod_mod, N.mod_add by discriminate. apply N.mod_small. exact X.
  - replace p with (2 * w + 1) by lia. rewrite B. fold y. rewrite shr4, land15.
    replace ((x / 16 + 16 * y) / 256)%N with (y / 16)%N; [apply N.mod_small; apply N.div_lt_upper_bound; lia|].
    change 256%N with (16 * 16)%N. rewrite <- N.div_div by discriminate. f_equal. replace (x / 16 + 16 * y)%N with (x / 16 + y * 16)%N by lia. rewrite N.div_add by discriminate. rewrite N.div_small by exact X. reflexivity.
Qed.
Lemma half_index i w : i + 16 * ((2 * w) / 16) = i + 16 * ((2 * w) / 16).
Proof. reflexivity. Qed.
Lemma lookup_nth (h i p : nat) idx x : h mod 8 = 0 -> p < 2 * h -> length idx = 2 * h -> nth p idx 0%N = x -> (x < 16)%N ->
  nth p (shuffle8 (load (2 * h) T i) idx) 0%N = nth (i + 16 * (p / 16) + N.to_nat x) T 0%N.
Proof.
  intros H8 Hp L E Hx. rewrite shuffle_nth by (rewrite ?E; lia). rewrite E. rewrite load_nth; [f_equal; lia|].
  pose proof (Nat.div_mod h 8 ltac:(lia)). assert (p / 16 < h / 8) by (apply Nat.div_lt_upper_bound; lia). lia.
Qed.
Record shaped (h : nat) (a : accus) : Prop := { len0 : length (accu0 a) = h; len1 : length (accu1 a) = h; len2 : length (accu2 a) = h; len3 : length (accu3 a) = h }.
Lemma block_ok h i a : h mod 8 = 0 -> i + 2 * h <= length C -> shaped h a ->
  shaped h (simd_block (2 * h) C T a i) /\ forall w, w < h ->
   nth w (accu0 (simd_block (2 * h) C T a i)) 0%N = ((nth w (accu0 a) 0 + (blo i (2 * w)%nat + 256 * blo i (2 * w + 1)%nat)) mod M)%N /\
   nth w (accu1 (simd_block (2 * h) C T a i)) 0%N = ((nth w (accu1 a) 0 + blo i (2 * w + 1)%nat) mod M)%N /\
   nth w (accu2 (simd_block (2 * h) C T a i)) 0%N = ((nth w (accu2 a) 0 + (bhi i (2 * w)%nat + 256 * bhi i (2 * w + 1)%nat)) mod M)%N /\
   nth w (accu3 (simd_block (2 * h) C T a i)) 0%N = ((nth w (accu3 a) 0 + bhi i (2 * w + 1)%nat) mod M)%N.
Proof.
  intros H8 L [L0 L1 L2 L3]. set (lo := and_low (load (2 * h) C i)). set (hi := and_low (unwords (srli16 4 (words (load (2 * h) C i))))).
  assert (LL : length lo = 2 * h) by (unfold lo, and_low; rewrite map_length; apply load_len; exact L).
  assert (LH : length hi = 2 * h).
  { unfold hi, and_low. rewrite map_length, unwords_len. unfold srli16. rewrite map_length. rewrite (words_len h); [reflexivity|]. apply load_len; exact L. }
  assert (NL : forall p, p < 2 * h -> nth p (shuffle8 (load (2 * h) T i) lo) 0%N = blo i p).
  { intros p Hp. apply lookup_nth; auto; [|apply nibble_lo]. unfold lo. rewrite and_low_nth, load_nth by exact Hp. reflexivity. }
  assert (NH : forall p, p < 2 * h -> nth p (shuffle8 (load (2 * h) T i) hi) 0%N = bhi i p).
  { intros p Hp. apply lookup_nth; auto; [apply hi_nth; assumption|]. rewrite shr4. apply N.div_lt_upper_bound; [discriminate|]. apply nth_bytes, HC. }
  assert (WL : length (words (shuffle8 (load (2 * h) T i) lo)) = h) by (apply words_len; rewrite shuffle_len; exact LL).
  assert (WH : length (words (shuffle8 (load (2 * h) T i) hi)) = h) by (apply words_len; rewrite shuffle_len; exact LH).
  assert (SL : forall k l, length (srli16 k l) = length l) by (intros; unfold srli16; apply map_length).
  assert (S8 : forall x y, (x < 256)%N -> N.shiftr (x + 256 * y) 8 = y).
  { intros x y Hx. rewrite shr8. replace (x + 256 * y)%N with (x + y * 256)%N by lia. rewrite N.div_add by discriminate. rewrite N.div_small by exact Hx. reflexivity. }
  unfold simd_block. cbv zeta. fold lo. fold hi. cbn [accu0 accu1 accu2 accu3]. unfold add16. split.
  - constructor; cbn [accu0 accu1 accu2 accu3]; rewrite map2_len, ?SL; lia.
  - intros w Hw. rewrite !map2_nth by (rewrite ?SL; lia). rewrite !srli_nth. rewrite !words_nth by (rewrite shuffle_len; lia).
    rewrite !NL, !NH by lia. rewrite !S8 by (apply blo_byte || apply bhi_byte). repeat split; reflexivity.
Qed.
Lemma zeros_shaped h : shaped h (zeros h).
Proof. constructor; apply repeat_length. Qed.
Definition s0 (f : nat -> nat -> N) (st n w : nat) : N := sumN n (fun k => f (st * k) (2 * w))%nat.
Definition s1 (f : nat -> nat -> N) (st n w : nat) : N := sumN n (fun k => f (st * k) (2 * w + 1))%nat.
Lemma blocks_ok h n : h mod 8 = 0 -> 2 * h * n <= length C ->
  let a := fold_left (fun a k => simd_block (2 * h) C T a (2 * h * k)) (seq 0 n) (zeros h) in
  shaped h a /\ forall w, w < h ->
   nth w (accu0 a) 0%N = ((s0 blo (2 * h) n w + 256 * s1 blo (2 * h) n w) mod M)%N /\ nth w (accu1 a) 0%N = (s1 blo (2 * h) n w mod M)%N /\
   nth w (accu2 a) 0%N = ((s0 bhi (2 * h) n w + 256 * s1 bhi (2 * h) n w) mod M)%N /\ nth w (accu3 a) 0%N = (s1 bhi (2 * h) n w mod M)%N.
Proof.
  intros H8. induction n as [|n IH]; intros L; cbv zeta.
  - split; [apply zeros_shaped|]. intros w Hw. cbn [seq fold_left zeros accu0 accu1 accu2 accu3]. rewrite !repeat_nth. repeat split; reflexivity.
  - rewrite (seq_S n 0), fold_left_app. cbn [fold_left Nat.add]. destruct (IH ltac:(nia)) as (Sh & V).
    destruct (block_ok h (2 * h * n) _ H8 ltac:(nia) Sh) as (Sh' & V'). split; [exact Sh'|]. intros w Hw.
    destruct (V w Hw) as (A0 & A1 & A2 & A3). destruct (V' w Hw) as (B0 & B1 & B2 & B3). rewrite B0, B1, B2, B3, A0, A1, A2, A3. clear.
    unfold s0, s1. cbn [sumN]. rewrite !add_mod_l. repeat split; f_equal; lia.
Qed.
Lemma sub_shift s0 s1 : (((s0 + 256 * s1) mod M + M - N.shiftl (s1 mod M) 8 mod M) mod M = s0 mod M)%N.
Proof.
  rewrite N.shiftl_mul_pow2. change (2 ^ 8)%N with 256%N. rewrite N.mul_mod_idemp_l by discriminate. rewrite (N.mul_comm s1 256).
  set (b := (256 * s1)%N). pose proof (N.mod_lt b M ltac:(discriminate)) as Hb.
  replace ((s0 + b) mod M + M - b mod M)%N with ((s0 + b) mod M + (M - b mod M))%N by lia.
  rewrite add_mod_l. rewrite (N.div_mod b M) at 1 by discriminate.
  replace (s0 + (M * (b / M) + b mod M) + (M - b mod M))%N with (s0 + (b / M + 1) * M)%N by lia. apply N.mod_add. discriminate.
Qed.
Lemma slli_len k l : length (slli16 k l) = length l.
Proof. apply map_length. Qed.
Lemma separated h n w : h mod 8 = 0 -> 2 * h * n <= length C -> w < h ->
  let a := fold_left (fun a k => simd_block (2 * h) C T a (2 * h * k)) (seq 0 n) (zeros h) in
  nth w (sub16 (accu0 a) (slli16 8 (accu1 a))) 0%N = (s0 blo (2 * h) n w mod M)%N /\ nth w (sub16 (accu2 a) (slli16 8 (accu3 a))) 0%N = (s0 bhi (2 * h) n w mod M)%N.
Proof.
  intros H8 L Hw. cbv zeta. destruct (blocks_ok h n H8 L) as ([L0 L1 L2 L3] & V). destruct (V w Hw) as (A0 & A1 & A2 & A3).
  unfold sub16. rewrite !map2_nth by (rewrite ?slli_len; lia). rewrite !slli_nth, A0, A1, A2, A3. split; apply sub_shift.
Qed.
Lemma permute_nth a b w : w < 16 -> nth w (permute2f128 33 a b) 0%N = if w <? 8 then nth (w + 8) a 0%N else nth (w - 8) b 0%N.
Proof. intros H. unfold permute2f128. rewrite nth_map_seq by exact H. do 16 (destruct w as [|w]; [reflexivity|]). lia. Qed.
Lemma blend_nth a b w : w < 16 -> nth w (blend_epi32 240 a b) 0%N = if w <? 8 then nth w a 0%N else nth w b 0%N.
Proof. intros H. unfold blend_epi32. rewrite nth_map_seq by exact H. do 16 (destruct w as [|w]; [reflexivity|]). lia. Qed.
Lemma mask_blend_nth a b w : w < 32 -> nth w (mask_blend_epi64 240 a b) 0%N = if w <? 16 then nth w a 0%N else nth w b 0%N.
Proof. intros H. unfold mask_blend_epi64. rewrite nth_map_seq by exact H. do 32 (destruct w as [|w]; [reflexivity|]). lia. Qed.
Lemma shuffle78_nth a b w : w < 32 -> nth w (shuffle_i64x2 78 a b) 0%N = if w <? 16 then nth (w + 16) a 0%N else nth (w - 16) b 0%N.
Proof. intros H. unfold shuffle_i64x2. rewrite nth_map_seq by exact H. do 32 (destruct w as [|w]; [reflexivity|]). lia. Qed.
Lemma shuffle136_nth a b w : w < 8 -> nth w (shuffle_i64x2 136 a b) 0%N = nth w a 0%N /\ nth (w + 8) (shuffle_i64x2 136 a b) 0%N = nth (w + 16) a 0%N /\
  nth (w + 16) (shuffle_i64x2 136 a b) 0%N = nth w b 0%N /\ nth (w + 24) (shuffle_i64x2 136 a b) 0%N = nth (w + 16) b 0%N.
Proof. intros H. unfold shuffle_i64x2. rewrite !nth_map_seq by lia. do 8 (destruct w as [|w]; [repeat split; reflexivity|]). lia. Qed.
Lemma shuffle221_nth a b w : w < 8 -> nth w (shuffle_i64x2 221 a b) 0%N = nth (w + 8) a 0%N /\ nth (w + 8) (shuffle_i64x2 221 a b) 0%N = nth (w + 24) a 0%N /\
  nth (w + 16) (shuffle_i64x2 221 a b) 0%N = nth (w + 8) b 0%N /\ nth (w + 24) (shuffle_i64x2 221 a b) 0%N = nth (w + 24) b 0%N.
Proof. intros H. unfold shuffle_i64x2. rewrite !nth_map_seq by lia. do 8 (destruct w as [|w]; [repeat split; reflexivity|]). lia. Qed.

(** The bytes of a block and the lanes of the scalar loop *)
Lemma blo_elo i l j : j < 16 -> blo i (16 * l + j) = elo C T i l j.
Proof.
  intros Hj. unfold blo, elo. replace ((16 * l + j) / 16) with l; [rewrite Nat.add_assoc; reflexivity|]. apply Nat.div_unique with j; lia.
Qed.
Lemma bhi_ehi i l j : j < 16 -> bhi i (16 * l + j) = ehi C T i l j.
Proof.
  intros Hj. unfold bhi, ehi. replace ((16 * l + j) / 16) with l; [rewrite Nat.add_assoc; reflexivity|]. apply Nat.div_unique with j; lia.
Qed.
Lemma fold_pairs {A} (g : A -> nat -> A) n a : fold_left (fun a i => g (g a (2 * i)) (2 * i + 1)) (seq 0 n) a = fold_left g (seq 0 (2 * n)) a.
Proof.
  revert a. induction n as [|n IH]; intros a; [reflexivity|]. rewrite (seq_S n 0), fold_left_app, IH. replace (2 * S n) with (S (S (2 * n))) by lia.
  rewrite !(seq_S _ 0), !fold_left_app. cbn [fold_left Nat.add]. replace (S (2 * n)) with (2 * n + 1) by lia. reflexivity.
Qed.
Lemma fold_ext {A B} (f g : A -> B -> A) l a : (forall a x, f a x = g a x) -> fold_left f l a = fold_left g l a.
Proof. intros H. revert a. induction l as [|x l IH]; intros a; cbn [fold_left]; [reflexivity|]. rewrite H. apply IH. Qed.
Lemma mod_add2 a b : ((a mod M + b mod M) mod M = (a + b) mod M)%N.
Proof. rewrite add_mod_l, add_mod_r. reflexivity. Qed.
Lemma avx2_ok dim v : dim mod 16 = 0 -> 4 * dim <= length C -> v < 16 ->
  nth v (accumulate_avx2 C T dim) 0%N = (sum_lo C T (dim / 8) v mod M)%N /\ nth (v + 16) (accumulate_avx2 C T dim) 0%N = (sum_hi C T (dim / 8) v mod M)%N.
Proof.
  intros D L Hv. pose proof (Nat.div_mod dim 16 ltac:(lia)) as E. rewrite D, Nat.add_0_r in E. set (n := dim / 16) in *.
  assert (E1 : (4 * dim + 63) / 64 = n) by (symmetry; apply Nat.div_unique with 63; lia).
  assert (E2 : dim / 8 = 2 * n) by (symmetry; apply Nat.div_unique with 0; lia).
  unfold accumulate_avx2. rewrite E1, E2.
  replace (fold_left (fun a i => simd_block 32 C T (simd_block 32 C T a (64 * i)) (64 * i + 32)) (seq 0 n) (zeros 16))
    with (fold_left (fun a k => simd_block (2 * 16) C T a (2 * 16 * k)) (seq 0 (2 * n)) (zeros 16)).
  2: { rewrite <- fold_pairs. apply fold_ext. intros a i. change (2 * 16) with 32. replace (64 * i) with (32 * (2 * i)) by lia. replace (32 * (2 * i) + 32) with (32 * (2 * i + 1)) by lia. reflexivity. }
  assert (LC : 2 * 16 * (2 * n) <= length C) by lia.
  destruct (blocks_ok 16 (2 * n) eq_refl LC) as ([L0 L1 L2 L3] & V).
  pose proof (fun w Hw => separated 16 (2 * n) w eq_refl LC Hw) as Sp. cbv zeta in Sp.
  set (a := fold_left _ (seq 0 (2 * n)) (zeros 16)) in *. set (a0 := sub16 (accu0 a) _) in *. set (a2 := sub16 (accu2 a) _) in *. cbv zeta.
  assert (LP : forall k x y, length (permute2f128 k x y) = 16) by reflexivity. assert (LB : forall k x y, length (blend_epi32 k x y) = 16) by reflexivity.
  rewrite app_nth1 by (unfold add16; rewrite map2_len, LP, LB; lia). rewrite app_nth2 by (unfold add16; rewrite map2_len, LP, LB; lia).
  replace (v + 16 - _) with v by (unfold add16; rewrite map2_len, LP, LB; lia).
  unfold add16. rewrite !map2_nth by (rewrite ?LP, ?LB; lia). rewrite !permute_nth, !blend_nth by exact Hv.
  unfold sum_lo, sum_hi, lane_of. destruct (Nat.ltb_spec v 8).
  - destruct (Sp v ltac:(lia)) as (P0 & P2). destruct (Sp (v + 8) ltac:(lia)) as (Q0 & Q2). rewrite P0, P2, Q0, Q2, !mod_add2. unfold s0. change (2 * 16) with 32.
    rewrite <- !sumN_add. split; f_equal; apply sumN_ext; intros k _; rewrite N.add_comm; f_equal;
      [rewrite <- blo_elo by lia|rewrite <- blo_elo by lia|rewrite <- bhi_ehi by lia|rewrite <- bhi_ehi by lia]; f_equal; lia.
  - destruct (V v ltac:(lia)) as (_ & P0 & _ & P2). destruct (V (v - 8) ltac:(lia)) as (_ & Q0 & _ & Q2). rewrite P0, P2, Q0, Q2, !mod_add2. unfold s1. change (2 * 16) with 32.
    rewrite <- !sumN_add. split; f_equal; apply sumN_ext; intros k _; f_equal;
      [rewrite <- blo_elo by lia|rewrite <- blo_elo by lia|rewrite <- bhi_ehi by lia|rewrite <- bhi_ehi by lia]; f_equal; lia.
Qed.
Lemma four_sums (f : nat -> nat -> N) (g : nat -> nat -> N) n j0 j1 j2 j3 : (forall k, f (64 * k) j0 = g (32 * (2 * k)) 0 /\ f (64 * k) j1 = g (32 * (2 * k)) 1 /\ f (64 * k) j2 = g (32 * (2 * k + 1)) 0 /\ f (64 * k) j3 = g (32 * (2 * k + 1)) 1)%nat ->
  (sumN n (fun k => f (64 * k)%nat j0) + sumN n (fun k => f (64 * k)%nat j2) + (sumN n (fun k => f (64 * k)%nat j1) + sumN n (fun k => f (64 * k)%nat j3)) = sumN (2 * n) (fun i => g (32 * i)%nat 0%nat + g (32 * i)%nat 1%nat))%N.
Proof.
  intros H. rewrite sumN_pairs, <- !sumN_add. apply sumN_ext. intros k _. destruct (H k) as (A & B & C0 & D). rewrite A, B, C0, D. lia.
Qed.
Lemma shift_lo i l j : blo (64 * i) (16 * (l + 2) + j) = blo (64 * i + 32) (16 * l + j).
Proof.
  unfold blo. replace ((16 * (l + 2) + j) / 16) with ((16 * l + j) / 16 + 2); [f_equal; f_equal; [|f_equal; f_equal; f_equal]; lia|].
  replace (16 * (l + 2) + j) with (16 * l + j + 2 * 16) by lia. rewrite Nat.div_add by lia. reflexivity.
Qed.
Lemma shift_hi i l j : bhi (64 * i) (16 * (l + 2) + j) = bhi (64 * i + 32) (16 * l + j).
Proof.
  unfold bhi. replace ((16 * (l + 2) + j) / 16) with ((16 * l + j) / 16 + 2); [f_equal; f_equal; [|f_equal; f_equal; f_equal]; lia|].
  replace (16 * (l + 2) + j) with (16 * l + j + 2 * 16) by lia. rewrite Nat.div_add by lia. reflexivity.
Qed.
Lemma lanes_lo j n : j < 16 -> (sumN n (fun k => blo (64 * k)%nat j) + sumN n (fun k => blo (64 * k)%nat (j + 32)%nat) + (sumN n (fun k => blo (64 * k)%nat (j + 16)%nat) + sumN n (fun k => blo (64 * k)%nat (j + 48)%nat)) =
  sumN (2 * n) (fun i => elo C T (32 * i)%nat 0%nat j + elo C T (32 * i)%nat 1%nat j))%N.
Proof.
  intros Hj. apply (four_sums blo (fun o l => elo C T o l j) n j (j + 16) (j + 32) (j + 48)). intros k. rewrite <- !blo_elo by exact Hj.
  replace (j + 32) with (16 * (0 + 2) + j) by lia. replace (j + 48) with (16 * (1 + 2) + j) by lia. rewrite !shift_lo.
  replace (32 * (2 * k)) with (64 * k) by lia. replace (32 * (2 * k + 1)) with (64 * k + 32) by lia. repeat split; f_equal; lia.
Qed.
Lemma lanes_hi j n : j < 16 -> (sumN n (fun k => bhi (64 * k)%nat j) + sumN n (fun k => bhi (64 * k)%nat (j + 32)%nat) + (sumN n (fun k => bhi (64 * k)%nat (j + 16)%nat) + sumN n (fun k => bhi (64 * k)%nat (j + 48)%nat)) =
  sumN (2 * n) (fun i => ehi C T (32 * i)%nat 0%nat j + ehi C T (32 * i)%nat 1%nat j))%N.
Proof.
  intros Hj. apply (four_sums bhi (fun o l => ehi C T o l j) n j (j + 16) (j + 32) (j + 48)). intros k. rewrite <- !bhi_ehi by exact Hj.
  replace (j + 32) with (16 * (0 + 2) + j) by lia. replace (j + 48) with (16 * (1 + 2) + j) by lia. rewrite !shift_hi.
  replace (32 * (2 * k)) with (64 * k) by lia. replace (32 * (2 * k + 1)) with (64 * k + 32) by lia. repeat split; f_equal; lia.
Qed.
Lemma avx512_ok dim v : dim mod 16 = 0 -> 4 * dim <= length C -> v < 16 ->
  nth v (accumulate_avx512 C T dim) 0%N = (sum_lo C T (dim / 8) v mod M)%N /\ nth (v + 16) (accumulate_avx512 C T dim) 0%N = (sum_hi C T (dim / 8) v mod M)%N.
Proof.
  intros D L Hv. pose proof (Nat.div_mod dim 16 ltac:(lia)) as E. rewrite D, Nat.add_0_r in E. set (n := dim / 16) in *.
  assert (E1 : (4 * dim + 63) / 64 = n) by (symmetry; apply Nat.div_unique with 63; lia).
  assert (E2 : dim / 8 = 2 * n) by (symmetry; apply Nat.div_unique with 0; lia).
  unfold accumulate_avx512. rewrite E1, E2.
  change (fold_left (fun a i => simd_block 64 C T a (64 * i)) (seq 0 n) (zeros 32)) with (fold_left (fun a k => simd_block (2 * 32) C T a (2 * 32 * k)) (seq 0 n) (zeros 32)).
  assert (LC : 2 * 32 * n <= length C) by lia.
  destruct (blocks_ok 32 n eq_refl LC) as ([L0 L1 L2 L3] & V).
  pose proof (fun w Hw => separated 32 n w eq_refl LC Hw) as Sp. cbv zeta in Sp.
  set (a := fold_left _ (seq 0 n) (zeros 32)) in *. set (a0 := sub16 (accu0 a) _) in *. set (a2 := sub16 (accu2 a) _) in *. cbv zeta.
  assert (LP : forall k x y, length (shuffle_i64x2 k x y) = 32) by reflexivity. assert (LB : forall k x y, length (mask_blend_epi64 k x y) = 32) by reflexivity.
  set (ret1 := add16 (mask_blend_epi64 240 a0 (accu1 a)) _). set (ret2 := add16 (mask_blend_epi64 240 a2 (accu3 a)) _).
  assert (R1 : forall w, w < 16 -> nth w ret1 0%N = ((s0 blo 64 n w + s0 blo 64 n (w + 16)) mod M)%N /\ nth (w + 16) ret1 0%N = ((s1 blo 64 n w + s1 blo 64 n (w + 16)) mod M)%N).
  { intros w Hw. unfold ret1, add16. rewrite !map2_nth by (rewrite ?LP, ?LB; lia). rewrite !mask_blend_nth, !shuffle78_nth by lia.
    destruct (Nat.ltb_spec w 16); [|lia]. destruct (Nat.ltb_spec (w + 16) 16); [lia|]. rewrite Nat.add_sub.
    rewrite (proj1 (Sp w ltac:(lia))), (proj1 (Sp (w + 16) ltac:(lia))). destruct (V w ltac:(lia)) as (_ & P & _). destruct (V (w + 16) ltac:(lia)) as (_ & Q & _). rewrite P, Q, !mod_add2.
    change (2 * 32) with 64. split; f_equal; apply N.add_comm || reflexivity. }
  assert (R2 : forall w, w < 16 -> nth w ret2 0%N = ((s0 bhi 64 n w + s0 bhi 64 n (w + 16)) mod M)%N /\ nth (w + 16) ret2 0%N = ((s1 bhi 64 n w + s1 bhi 64 n (w + 16)) mod M)%N).
  { intros w Hw. unfold ret2, add16. rewrite !map2_nth by (rewrite ?LP, ?LB; lia). rewrite !mask_blend_nth, !shuffle78_nth by lia.
    destruct (Nat.ltb_spec w 16); [|lia]. destruct (Nat.ltb_spec (w + 16) 16); [lia|]. rewrite Nat.add_sub.
    rewrite (proj2 (Sp w ltac:(lia))), (proj2 (Sp (w + 16) ltac:(lia))). destruct (V w ltac:(lia)) as (_ & _ & _ & P). destruct (V (w + 16) ltac:(lia)) as (_ & _ & _ & Q). rewrite P, Q, !mod_add2.
    change (2 * 32) with 64. split; f_equal; apply N.add_comm || reflexivity. }
  unfold sum_lo, sum_hi. unfold add16. rewrite !map2_nth by (rewrite ?map2_len, ?LP, ?repeat_length; lia). rewrite !repeat_nth, !N.add_0_l, !add_mod_l.
  unfold lane_of. destruct (Nat.ltb_spec v 8) as [H8|H8].
  - destruct (shuffle136_nth ret1 ret2 v H8) as (P0 & _ & P2 & _). destruct (shuffle221_nth ret1 ret2 v H8) as (Q0 & _ & Q2 & _). rewrite P0, P2, Q0, Q2.
    rewrite (proj1 (R1 v ltac:(lia))), (proj1 (R1 (v + 8) ltac:(lia))), (proj1 (R2 v ltac:(lia))), (proj1 (R2 (v + 8) ltac:(lia))), !mod_add2.
    rewrite <- lanes_lo, <- lanes_hi by lia. unfold s0. replace (2 * (v + 8)) with (2 * v + 16) by lia. replace (2 * (v + 8 + 16)) with (2 * v + 48) by lia. replace (2 * (v + 16)) with (2 * v + 32) by lia. split; reflexivity.
  - destruct (shuffle136_nth ret1 ret2 (v - 8) ltac:(lia)) as (_ & P1 & _ & P3). destruct (shuffle221_nth ret1 ret2 (v - 8) ltac:(lia)) as (_ & Q1 & _ & Q3).
    replace (v - 8 + 8) with v in P1, Q1 by lia. replace (v - 8 + 24) with (v + 16) in * by lia. replace (v - 8 + 16) with (v + 8) in * by lia. rewrite P1, P3, Q1, Q3.
    replace (nth (v + 8) ret1 0%N) with (nth (v - 8 + 16) ret1 0%N) by (f_equal; lia). replace (nth (v + 16) ret1 0%N) with (nth (v + 16) ret1 0%N) by reflexivity.
    replace (nth (v + 8) ret2 0%N) with (nth (v - 8 + 16) ret2 0%N) by (f_equal; lia).
    rewrite (proj2 (R1 (v - 8) ltac:(lia))), (proj2 (R1 v ltac:(lia))), (proj2 (R2 (v - 8) ltac:(lia))), (proj2 (R2 v ltac:(lia))), !mod_add2.
    rewrite <- lanes_lo, <- lanes_hi by lia. unfold s1. set (j := 2 * (v - 8) + 1).
    replace (2 * v + 1) with (j + 16) by lia. replace (2 * (v - 8 + 16) + 1) with (j + 32) by lia. replace (2 * (v + 16) + 1) with (j + 48) by lia. split; reflexivity.
Qed.
End Simd.
