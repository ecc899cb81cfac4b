From Verif Require Export FastscanSpec.
Local Open Scope nat_scope.

Local Notation M := 65536%N.

(** ** Lists *)
Lemma nth_skip {A} (l : list A) s o d : nth o (skipn s l) d = nth (s + o) l d.
Proof. revert l. induction s as [|s IH]; intros l; [reflexivity|]. destruct l as [|x l]; [destruct o; reflexivity|]. cbn [skipn Nat.add nth]. apply IH. Qed.
Lemma nth_first {A} (l : list A) n o d : o < n -> nth o (firstn n l) d = nth o l d.
Proof. revert l o. induction n as [|n IH]; intros l o H; [lia|]. destruct l as [|x l]; [destruct o; reflexivity|]. destruct o as [|o]; [reflexivity|]. cbn. apply IH. lia. Qed.
Lemma flat_uniform_len {A B} (f : A -> list B) n l : (forall a, In a l -> length (f a) = n) -> length (flat_map f l) = length l * n.
Proof. induction l as [|a l IH]; intros H; cbn [flat_map length]; [reflexivity|]. rewrite app_length, IH by (intros; apply H; right; assumption). rewrite (H a) by (left; reflexivity). lia. Qed.
Lemma nth_flat_uniform {A B} (f : A -> list B) n d0 d : forall l i j, (forall a, In a l -> length (f a) = n) -> i < length l -> j < n ->
  nth (i * n + j) (flat_map f l) d = nth j (f (nth i l d0)) d.
Proof.
  induction l as [|a l IH]; intros i j H Hi Hj; [cbn in Hi; lia|]. cbn [flat_map]. pose proof (H a (or_introl eq_refl)) as La. destruct i as [|i].
  - cbn [Nat.mul Nat.add nth]. rewrite app_nth1 by lia. reflexivity.
  - rewrite app_nth2 by (rewrite La; lia). rewrite La. replace (S i * n + j - n) with (i * n + j) by lia. cbn [nth]. apply IH; [intros; apply H; right; assumption|cbn in Hi; lia|exact Hj].
Qed.
Lemma nth_map_seq {A} (f : nat -> A) n i d : i < n -> nth i (map f (seq 0 n)) d = f i.
Proof. intros H. rewrite (nth_indep _ d (f 0)) by (rewrite map_length, seq_length; exact H). rewrite map_nth, seq_nth by exact H. reflexivity. Qed.
Lemma nth_map_d {A B} (f : A -> B) l i d d' : i < length l -> nth i (map f l) d = f (nth i l d').
Proof. intros H. rewrite (nth_indep _ d (f d')) by (rewrite map_length; exact H). apply map_nth. Qed.
Lemma nth_bytes l i : bytes l -> (nth i l 0 < 256)%N.
Proof. intros B. destruct (Nat.ltb_spec i (length l)); [apply Forall_nth; [exact B|assumption]|]. rewrite nth_overflow by assumption. reflexivity. Qed.
Lemma land15 x : N.land x 15 = (x mod 16)%N.
Proof. apply (N.land_ones x 4). Qed.
Lemma shr4 x : N.shiftr x 4 = (x / 16)%N.
Proof. apply (N.shiftr_div_pow2 x 4). Qed.
Lemma shr8 x : N.shiftr x 8 = (x / 256)%N.
Proof. apply (N.shiftr_div_pow2 x 8). Qed.
Lemma lor_nibbles a b : (a < 16)%N -> N.lor a (N.shiftl b 4) = (a + 16 * b)%N.
Proof.
  intros H. rewrite N.shiftl_mul_pow2. change (2 ^ 4)%N with 16%N.
  assert (Z : N.land a (b * 16) = 0%N); [|rewrite <- N.lxor_lor, <- N.add_nocarry_lxor by exact Z; lia].
  apply N.bits_inj. intros i. rewrite N.bits_0, N.land_spec.
  destruct (N.ltb_spec i 4).
  - replace (b * 16)%N with (b * 2 ^ 4)%N by reflexivity. rewrite N.mul_pow2_bits_low by assumption. apply andb_false_r.
  - replace (N.testbit a i) with false; [reflexivity|]. symmetry. destruct (N.eq_dec a 0) as [ -> |Ha]; [apply N.bits_0|].
    apply N.bits_above_log2. apply N.log2_lt_pow2; [lia|]. apply N.lt_le_trans with (2 ^ 4)%N; [exact H|]. apply N.pow_le_mono_r; lia.
Qed.

(** ** Packed codes *)
Lemma perm_small j : nth j kPerm0 0 < 16.
Proof. do 16 (destruct j as [|j]; [cbn; lia|]). destruct j; cbn; lia. Qed.
Section Pack.
Context (dim num : nat) (codes : list N).
Let cols := dim / 8.
Definition entry (v i : nat) : N := if v <? num then nth (v * (dim / 8) + i) codes 0%N else 0%N.
Definition nib (v m : nat) : N := let e := entry v (m / 2) in if Nat.even m then N.shiftr e 4 else N.land e 15.
Lemma get_column_len b i : length (get_column codes num cols (32 * b) i) = 32.
Proof. unfold get_column. rewrite app_length, map_length, seq_length, repeat_length. lia. Qed.
Lemma get_column_nth b i k : k < 32 -> nth k (get_column codes num cols (32 * b) i) 0%N = entry (32 * b + k) i.
Proof.
  intros Hk. unfold get_column, entry. destruct (Nat.ltb_spec (32 * b + k) num).
  - rewrite app_nth1 by (rewrite map_length, seq_length; lia). rewrite nth_map_seq by lia. f_equal. unfold cols. lia.
  - rewrite app_nth2 by (rewrite map_length, seq_length; lia). apply nth_repeat.
Qed.
Lemma pack_column_len c : length (pack_column c) = 32.
Proof. reflexivity. Qed.
Lemma pair_up_nth l j : j < 16 -> nth j (pair_up l) 0%N = N.lor (nth (nth j kPerm0 0) l 0%N) (N.shiftl (nth (nth j kPerm0 0 + 16) l 0%N) 4).
Proof. intros H. unfold pair_up. rewrite (nth_map_d _ _ _ _ 0) by (cbn; lia). reflexivity. Qed.
Lemma bytes_entry v i : bytes codes -> (entry v i < 256)%N.
Proof. intros B. unfold entry. destruct (v <? num); [apply nth_bytes; exact B|reflexivity]. Qed.
Lemma nib_small v m : bytes codes -> (nib v m < 16)%N.
Proof.
  intros B. unfold nib. pose proof (bytes_entry v (m / 2) B). destruct (Nat.even m).
  - rewrite shr4. apply N.div_lt_upper_bound; lia.
  - rewrite land15. apply N.mod_lt. discriminate.
Qed.
Definition packed_byte (b i l j : nat) : N := nth (32 * i + 16 * l + j) (skipn (b * (4 * dim)) (pack_codes dim codes num)) 0%N.
Lemma packed_at b i l j : dim mod 8 = 0 -> bytes codes -> 32 * b < num -> i < cols -> l < 2 -> j < 16 ->
  packed_byte b i l j = (nib (32 * b + nth j kPerm0 0)%nat (2 * i + l)%nat + 16 * nib (32 * b + nth j kPerm0 0 + 16)%nat (2 * i + l)%nat)%N.
Proof.
  intros D8 B Hb Hi Hl Hj. unfold packed_byte. rewrite nth_skip. unfold pack_codes.
  assert (Dc : 4 * dim = cols * 32) by (unfold cols; pose proof (Nat.div_mod dim 8 ltac:(lia)); lia).
  assert (Hn : b < (num + 31) / 32) by (pose proof (Nat.div_le_lower_bound (num + 31) 32 (b + 1) ltac:(lia) ltac:(lia)); lia).
  rewrite Dc.
  rewrite (nth_flat_uniform _ (cols * 32) 0); [| | |nia].
  2: { intros a _. erewrite flat_uniform_len; [rewrite seq_length; reflexivity|]. intros c _. apply pack_column_len. }
  2: { rewrite seq_length. exact Hn. }
  rewrite seq_nth by exact Hn. cbn [Nat.add].
  replace (32 * i + 16 * l + j) with (i * 32 + (16 * l + j)) by lia.
  rewrite (nth_flat_uniform _ 32 0); [|intros a _; apply pack_column_len|rewrite seq_length; exact Hi|lia].
  rewrite seq_nth by exact Hi. cbn [Nat.add]. fold cols.
  pose proof (perm_small j) as Pj. set (p := nth j kPerm0 0) in *.
  assert (E2 : (2 * i + l) / 2 = i) by (symmetry; apply Nat.div_unique with l; lia).
  unfold nib. rewrite E2. unfold pack_column. destruct l as [|[|l]]; [| |lia].
  - rewrite app_nth1 by (cbn; lia). replace (16 * 0 + j) with j by lia. rewrite pair_up_nth by exact Hj. fold p.
    rewrite !(nth_map_d (fun x => N.shiftr x 4) _ _ _ 0%N) by (rewrite get_column_len; lia). rewrite !get_column_nth by lia.
    replace (Nat.even (2 * i + 0)) with true by (rewrite Nat.add_0_r, Nat.even_mul; reflexivity).
    rewrite lor_nibbles; [rewrite <- Nat.add_assoc; reflexivity|]. rewrite shr4. apply N.div_lt_upper_bound; [lia|]. apply bytes_entry; exact B.
  - rewrite app_nth2 by (cbn; lia). change (length (pair_up _)) with 16. replace (16 * 1 + j - 16) with j by lia. rewrite pair_up_nth by exact Hj. fold p.
    rewrite !(nth_map_d (fun x => N.land x 15) _ _ _ 0%N) by (rewrite get_column_len; lia). rewrite !get_column_nth by lia.
    replace (Nat.even (2 * i + 1)) with false by (rewrite Nat.even_add, Nat.even_mul; reflexivity).
    rewrite lor_nibbles; [rewrite <- Nat.add_assoc; reflexivity|]. rewrite land15. apply N.mod_lt. discriminate.
Qed.
Lemma nib_row v m : v < num -> m < 2 * cols -> bytes codes -> nib v m = nibble (row cols v codes) m.
Proof.
  intros Hv Hm B. unfold nib, nibble, row, entry. destruct (Nat.ltb_spec v num); [|lia].
  assert (Hd : m / 2 < cols) by (apply Nat.div_lt_upper_bound; lia).
  rewrite nth_first by exact Hd. rewrite nth_skip. rewrite shr4, land15. reflexivity.
Qed.
End Pack.

(** ** Sums *)
Lemma sumN_ext n f g : (forall i, i < n -> f i = g i) -> sumN n f = sumN n g.
Proof. induction n as [|n IH]; intros H; cbn [sumN]; [reflexivity|]. rewrite IH, H by (intros; try apply H; lia). reflexivity. Qed.
Lemma sumN_pairs n f : sumN (2 * n) f = sumN n (fun i => f (2 * i)%nat + f (2 * i + 1)%nat)%N.
Proof.
  induction n as [|n IH]; [reflexivity|]. replace (2 * S n) with (S (S (2 * n))) by lia. cbn [sumN]. rewrite IH.
  replace (S (2 * n)) with (2 * n + 1) by lia. lia.
Qed.
Lemma sumN_add n f g : sumN n (fun i => f i + g i)%N = (sumN n f + sumN n g)%N.
Proof. induction n as [|n IH]; cbn [sumN]; [reflexivity|]. rewrite IH. lia. Qed.
Lemma sumN_scale n c f : sumN n (fun i => c * f i)%N = (c * sumN n f)%N.
Proof. induction n as [|n IH]; cbn [sumN]; [lia|]. rewrite IH. lia. Qed.
Lemma add_mod_l a b : ((a mod M + b) mod M = (a + b) mod M)%N.
Proof. apply N.add_mod_idemp_l. discriminate. Qed.
Lemma add_mod_r a b : ((a + b mod M) mod M = (a + b) mod M)%N.
Proof. apply N.add_mod_idemp_r. discriminate. Qed.

(** ** One entry at a time *)
Section Lookup.
Context (C T : list N).
(** The table entries met in lane [j] of half [l] of the pair of tables at [o]. *)
Definition elo (o l j : nat) : N := nth (o + 16 * l + N.to_nat (N.land (nth (o + 16 * l + j) C 0%N) 15)) T 0%N.
Definition ehi (o l j : nat) : N := nth (o + 16 * l + N.to_nat (N.shiftr (nth (o + 16 * l + j) C 0%N) 4)) T 0%N.
Definition lane_of (v : nat) : nat := if v <? 8 then 2 * v else 2 * (v - 8) + 1.
Lemma lane_perm lane v : lane < 16 -> v < 16 -> (nth lane kPerm0 0 =? v) = (lane =? lane_of v).
Proof.
  intros Hl Hv. assert (A : forallb (fun a => forallb (fun b => Bool.eqb (nth a kPerm0 0 =? b) (a =? lane_of b)) (seq 0 16)) (seq 0 16) = true) by (vm_compute; reflexivity).
  rewrite forallb_forall in A. specialize (A lane ltac:(apply in_seq; lia)). rewrite forallb_forall in A. specialize (A v ltac:(apply in_seq; lia)).
  apply Bool.eqb_prop in A. exact A.
Qed.
Lemma lane_small v : v < 16 -> lane_of v < 16.
Proof. unfold lane_of. destruct (Nat.ltb_spec v 8); lia. Qed.
Lemma perm_lane v : v < 16 -> nth (lane_of v) kPerm0 0 = v.
Proof. intros H. apply Nat.eqb_eq. rewrite lane_perm by (auto using lane_small). apply Nat.eqb_refl. Qed.
Lemma add_at_len r i x : length (add_at r i x) = length r.
Proof. apply upd_length. Qed.
Lemma add_at_nth r i x v : i < length r -> nth v (add_at r i x) 0%N = if i =? v then ((nth i r 0 + x) mod M)%N else nth v r 0%N.
Proof. intros H. unfold add_at. rewrite nth_upd by exact H. reflexivity. Qed.

Lemma scalar_lane_len o r lane : length (scalar_lane C T o r lane) = length r.
Proof. unfold scalar_lane. rewrite !add_at_len. reflexivity. Qed.
Lemma scalar_fold_len o l r : length (fold_left (scalar_lane C T o) l r) = length r.
Proof. revert r. induction l as [|x l IH]; intros r; cbn [fold_left]; [reflexivity|]. rewrite IH. apply scalar_lane_len. Qed.
Lemma scalar_lane_nth o l r lane v : length r = 32 -> lane < 16 -> v < 16 ->
  nth v (scalar_lane C T (o + 16 * l) r lane) 0%N = (if Nat.eqb lane (lane_of v) then (nth v r 0 + elo o l lane) mod M else nth v r 0)%N /\
  nth (v + 16) (scalar_lane C T (o + 16 * l) r lane) 0%N = (if Nat.eqb lane (lane_of v) then (nth (v + 16)%nat r 0 + ehi o l lane) mod M else nth (v + 16)%nat r 0)%N.
Proof.
  intros Lr Hl Hv. unfold scalar_lane. pose proof (perm_small lane) as P. fold (elo o l lane). fold (ehi o l lane).
  rewrite <- (lane_perm lane v Hl Hv). set (p := nth lane kPerm0 0) in *.
  rewrite !add_at_nth by (rewrite ?add_at_len; lia). split.
  - destruct (Nat.eqb_spec (p + 16) v); [lia|]. destruct (Nat.eqb_spec p v) as [ -> |]; reflexivity.
  - destruct (Nat.eqb_spec p (v + 16)); [lia|]. destruct (Nat.eqb_spec (p + 16) (v + 16)), (Nat.eqb_spec p v); try lia.
    destruct (Nat.eqb_spec p (p + 16)); [lia|]. replace (p + 16) with (v + 16) by lia. reflexivity.
Qed.
Lemma scalar_fold_nth o l k r v : length r = 32 -> k <= 16 -> v < 16 ->
  nth v (fold_left (scalar_lane C T (o + 16 * l)) (seq 0 k) r) 0%N = (if Nat.ltb (lane_of v) k then (nth v r 0 + elo o l (lane_of v)) mod M else nth v r 0)%N /\
  nth (v + 16) (fold_left (scalar_lane C T (o + 16 * l)) (seq 0 k) r) 0%N = (if Nat.ltb (lane_of v) k then (nth (v + 16)%nat r 0 + ehi o l (lane_of v)) mod M else nth (v + 16)%nat r 0)%N.
Proof.
  intros Lr. induction k as [|k IH]; intros Hk Hv; [split; reflexivity|].
  rewrite seq_S, fold_left_app. cbn [fold_left]. replace (0 + k) with k by reflexivity. destruct (IH ltac:(lia) Hv) as (A & B).
  destruct (scalar_lane_nth o l (fold_left (scalar_lane C T (o + 16 * l)) (seq 0 k) r) k v) as (A' & B'); [rewrite scalar_fold_len; exact Lr|lia|exact Hv|].
  rewrite A', B', A, B. destruct (Nat.eqb_spec k (lane_of v)) as [E|E], (Nat.ltb_spec (lane_of v) k), (Nat.ltb_spec (lane_of v) (S k)); try lia; try (split; reflexivity).
  rewrite <- E. split; reflexivity.
Qed.
(** The sums for vector [v] and vector [v + 16] over [n] pairs of tables. *)
Definition sum_lo (n v : nat) : N := sumN n (fun i => elo (32 * i)%nat 0 (lane_of v) + elo (32 * i)%nat 1 (lane_of v))%N.
Definition sum_hi (n v : nat) : N := sumN n (fun i => ehi (32 * i)%nat 0 (lane_of v) + ehi (32 * i)%nat 1 (lane_of v))%N.
Lemma repeat_nth (v n : nat) : nth v (repeat 0%N n) 0%N = 0%N.
Proof. apply nth_repeat. Qed.
Lemma loop_sum (step : list N -> nat -> list N) (f g : nat -> N) v :
  (forall r i, length r = 32 -> length (step r i) = 32 /\ nth v (step r i) 0%N = ((nth v r 0 + f i) mod M)%N /\ nth (v + 16) (step r i) 0%N = ((nth (v + 16)%nat r 0 + g i) mod M)%N) ->
  forall n, length (fold_left step (seq 0 n) (repeat 0%N 32)) = 32 /\
    nth v (fold_left step (seq 0 n) (repeat 0%N 32)) 0%N = (sumN n f mod M)%N /\ nth (v + 16) (fold_left step (seq 0 n) (repeat 0%N 32)) 0%N = (sumN n g mod M)%N.
Proof.
  intros H. induction n as [|n IH].
  - cbn [seq fold_left sumN]. rewrite repeat_length, !repeat_nth. repeat split; reflexivity.
  - rewrite (seq_S n 0), fold_left_app. cbn [fold_left Nat.add]. destruct IH as (L & A & B). destruct (H _ n L) as (L' & A' & B').
    split; [exact L'|]. rewrite A', B', A, B. cbn [sumN]. split; apply add_mod_l.
Qed.
Lemma scalar_step o r v : length r = 32 -> v < 16 ->
  let r' := fold_left (scalar_lane C T (o + 16)) (seq 0 16) (fold_left (scalar_lane C T o) (seq 0 16) r) in
  length r' = 32 /\ nth v r' 0%N = ((nth v r 0 + (elo o 0 (lane_of v) + elo o 1 (lane_of v))) mod M)%N /\
  nth (v + 16) r' 0%N = ((nth (v + 16)%nat r 0 + (ehi o 0 (lane_of v) + ehi o 1 (lane_of v))) mod M)%N.
Proof.
  intros L Hv. cbv zeta. rewrite !scalar_fold_len. split; [exact L|]. pose proof (lane_small v Hv) as Hl. apply Nat.ltb_lt in Hl.
  destruct (scalar_fold_nth o 0 16 r v L (le_n 16) Hv) as (A0 & B0).
  destruct (scalar_fold_nth o 1 16 (fold_left (scalar_lane C T (o + 16 * 0)) (seq 0 16) r) v) as (A1 & B1); [rewrite scalar_fold_len; exact L|apply le_n|exact Hv|].
  rewrite Hl in A0, B0, A1, B1. rewrite A0 in A1. rewrite B0 in B1. rewrite add_mod_l, <- N.add_assoc in A1, B1.
  assert (E0 : o + 16 * 0 = o) by lia. rewrite E0 in A1, B1. split; [exact A1|exact B1].
Qed.
Lemma scalar_loop n v : v < 16 ->
  let r := fold_left (fun r i => fold_left (scalar_lane C T (32 * i + 16)) (seq 0 16) (fold_left (scalar_lane C T (32 * i)) (seq 0 16) r)) (seq 0 n) (repeat 0%N 32) in
  length r = 32 /\ nth v r 0%N = (sum_lo n v mod M)%N /\ nth (v + 16) r 0%N = (sum_hi n v mod M)%N.
Proof. intros Hv. cbv zeta. apply loop_sum. intros r i L. exact (scalar_step (32 * i) r v L Hv). Qed.
Lemma scalar_ok dim v : dim mod 8 = 0 -> v < 16 ->
  nth v (accumulate_scalar C T dim) 0%N = (sum_lo (dim / 8) v mod M)%N /\ nth (v + 16) (accumulate_scalar C T dim) 0%N = (sum_hi (dim / 8) v mod M)%N.
Proof.
  intros D Hv. unfold accumulate_scalar. replace ((4 * dim + 31) / 32) with (dim / 8).
  - apply (scalar_loop (dim / 8) v Hv).
  - pose proof (Nat.div_mod dim 8 ltac:(lia)). apply Nat.div_unique with 31; lia.
Qed.
Lemma generic_lane_len o r lane : length (generic_lane C T o r lane) = length r.
Proof. unfold generic_lane. rewrite !add_at_len. reflexivity. Qed.
Lemma generic_lane_nth o r lane v : length r = 32 -> lane < 16 -> v < 16 ->
  nth v (generic_lane C T o r lane) 0%N = (if Nat.eqb lane (lane_of v) then (nth v r 0 + (elo o 0 lane + elo o 1 lane)) mod M else nth v r 0)%N /\
  nth (v + 16) (generic_lane C T o r lane) 0%N = (if Nat.eqb lane (lane_of v) then (nth (v + 16)%nat r 0 + (ehi o 0 lane + ehi o 1 lane)) mod M else nth (v + 16)%nat r 0)%N.
Proof.
  intros Lr Hl Hv. unfold generic_lane. pose proof (perm_small lane) as P.
  replace (nth (o + N.to_nat (N.land (nth (o + lane) C 0%N) 15)) T 0%N) with (elo o 0 lane) by (unfold elo; rewrite !Nat.mul_0_r, !Nat.add_0_r; reflexivity).
  replace (nth (o + N.to_nat (N.shiftr (nth (o + lane) C 0%N) 4)) T 0%N) with (ehi o 0 lane) by (unfold ehi; rewrite !Nat.mul_0_r, !Nat.add_0_r; reflexivity).
  fold (elo o 1 lane). fold (ehi o 1 lane).
  rewrite <- (lane_perm lane v Hl Hv). set (p := nth lane kPerm0 0) in *. cbv zeta.
  rewrite !add_at_nth by (rewrite ?add_at_len; lia). split.
  - destruct (Nat.eqb_spec (p + 16) v); [lia|]. destruct (Nat.eqb_spec p v) as [ <- |]; [|reflexivity].
    destruct (Nat.eqb_spec (p + 16) p); [lia|]. rewrite Nat.eqb_refl, add_mod_l, N.add_assoc. reflexivity.
  - destruct (Nat.eqb_spec p (v + 16)); [lia|]. destruct (Nat.eqb_spec (p + 16) (v + 16)), (Nat.eqb_spec p v); try lia.
    destruct (Nat.eqb_spec p (p + 16)); [lia|]. rewrite Nat.eqb_refl. replace (p + 16) with (v + 16) by lia. rewrite add_mod_l, N.add_assoc. reflexivity.
Qed.
Lemma generic_fold_len o l r : length (fold_left (generic_lane C T o) l r) = length r.
Proof. revert r. induction l as [|x l IH]; intros r; cbn [fold_left]; [reflexivity|]. rewrite IH. apply generic_lane_len. Qed.
Lemma generic_fold_nth o k r v : length r = 32 -> k <= 16 -> v < 16 ->
  nth v (fold_left (generic_lane C T o) (seq 0 k) r) 0%N = (if Nat.ltb (lane_of v) k then (nth v r 0 + (elo o 0 (lane_of v) + elo o 1 (lane_of v))) mod M else nth v r 0)%N /\
  nth (v + 16) (fold_left (generic_lane C T o) (seq 0 k) r) 0%N = (if Nat.ltb (lane_of v) k then (nth (v + 16)%nat r 0 + (ehi o 0 (lane_of v) + ehi o 1 (lane_of v))) mod M else nth (v + 16)%nat r 0)%N.
Proof.
  intros Lr. induction k as [|k IH]; intros Hk Hv; [split; reflexivity|].
  rewrite seq_S, fold_left_app. cbn [fold_left]. replace (0 + k) with k by reflexivity. destruct (IH ltac:(lia) Hv) as (A & B).
  destruct (generic_lane_nth o (fold_left (generic_lane C T o) (seq 0 k) r) k v) as (A' & B'); [rewrite generic_fold_len; exact Lr|lia|exact Hv|].
  rewrite A', B', A, B. destruct (Nat.eqb_spec k (lane_of v)) as [E|E], (Nat.ltb_spec (lane_of v) k), (Nat.ltb_spec (lane_of v) (S k)); try lia; try (split; reflexivity).
  rewrite <- E. split; reflexivity.
Qed.
Lemma generic_ok dim v : dim mod 8 = 0 -> v < 16 ->
  nth v (accumulate_generic C T dim) 0%N = (sum_lo (dim / 8) v mod M)%N /\ nth (v + 16) (accumulate_generic C T dim) 0%N = (sum_hi (dim / 8) v mod M)%N.
Proof.
  intros D Hv. unfold accumulate_generic. replace ((dim / 4 + 1) / 2) with (dim / 8).
  2: { pose proof (Nat.div_mod dim 8 ltac:(lia)) as E. replace (dim / 4) with (2 * (dim / 8)); [|apply Nat.div_unique with 0; lia]. apply Nat.div_unique with 1; lia. }
  refine (proj2 (loop_sum (fun r i => fold_left (generic_lane C T (32 * i)) (seq 0 16) r) (fun i => elo (32 * i)%nat 0 (lane_of v) + elo (32 * i)%nat 1 (lane_of v))%N (fun i => ehi (32 * i)%nat 0 (lane_of v) + ehi (32 * i)%nat 1 (lane_of v))%N v _ (dim / 8))).
  intros r i L. rewrite generic_fold_len. split; [exact L|]. destruct (generic_fold_nth (32 * i) 16 r v L (le_n 16) Hv) as (A0 & B0).
  pose proof (lane_small v Hv) as Hl. apply Nat.ltb_lt in Hl. rewrite Hl in A0, B0. split; [exact A0|exact B0].
Qed.
End Lookup.
