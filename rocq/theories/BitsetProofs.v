(** Proofs about the bit sets and visited sets. *)
From Verif Require Import BitsetModel BitsetSpec.
Local Open Scope N_scope.

(** ** Words *)
Lemma word_of_div p : word_of p = p / 64.
Proof. unfold word_of. now rewrite N.shiftr_div_pow2. Qed.
Lemma land63 p : N.land p 63 = p mod 64.
Proof. change 63 with (N.ones 6). now rewrite N.land_ones. Qed.
Lemma mask_pow p : mask_of p = 2 ^ (p mod 64).
Proof. unfold mask_of. now rewrite land63, N.shiftl_1_l. Qed.
Lemma low_bit w k : negb (N.eqb (N.land (N.shiftr w k) 1) 0) = N.testbit w k.
Proof.
  change 1 with (N.ones 1) at 1. rewrite N.land_ones, N.shiftr_div_pow2. change (2 ^ 1) with 2.
  rewrite <- N.testbit_spec'. now destruct (N.testbit w k).
Qed.
Lemma mask_bit w k : negb (N.eqb (N.land w (2 ^ k)) 0) = N.testbit w k.
Proof.
  destruct (N.testbit w k) eqn:E.
  - apply negb_true_iff, N.eqb_neq. intros H. apply (f_equal (fun x => N.testbit x k)) in H.
    rewrite N.land_spec, E, N.pow2_bits_true, N.bits_0 in H. discriminate.
  - apply negb_false_iff, N.eqb_eq. apply N.bits_inj. intros j. rewrite N.land_spec, N.bits_0, N.pow2_bits_eqb.
    destruct (N.eqb_spec k j) as [<-|]; [now rewrite E|]. apply andb_false_r.
Qed.
Lemma lor_bit w k j : N.testbit (N.lor w (2 ^ k)) j = N.eqb k j || N.testbit w j.
Proof. rewrite N.lor_spec, N.pow2_bits_eqb. apply orb_comm. Qed.
Lemma andn_bit w k j : j < 64 -> N.testbit (N.land w (N.lnot (2 ^ k) 64)) j = negb (N.eqb k j) && N.testbit w j.
Proof. intros H. rewrite N.land_spec, N.lnot_spec_low by assumption. rewrite N.pow2_bits_eqb. apply andb_comm. Qed.
Lemma word_small w : w < 2 ^ 64 <-> forall k, 64 <= k -> N.testbit w k = false.
Proof.
  split.
  - intros H k Hk. destruct (N.eq_dec w 0) as [->|Hw]; [apply N.bits_0|].
    apply N.bits_above_log2. apply N.log2_lt_pow2 in H; lia.
  - intros H. assert (E : w = w mod 2 ^ 64).
    { apply N.bits_inj. intros k. destruct (N.lt_ge_cases k 64).
      - now rewrite N.mod_pow2_bits_low.
      - rewrite N.mod_pow2_bits_high by assumption. now apply H. }
    rewrite E. apply N.mod_lt. discriminate.
Qed.
Lemma lor_small a b : a < 2 ^ 64 -> b < 2 ^ 64 -> N.lor a b < 2 ^ 64.
Proof. rewrite !word_small. intros Ha Hb k Hk. rewrite N.lor_spec, Ha, Hb by assumption. reflexivity. Qed.
Lemma land_small a b : a < 2 ^ 64 -> N.land a b < 2 ^ 64.
Proof. rewrite !word_small. intros Ha k Hk. rewrite N.land_spec, Ha by assumption. reflexivity. Qed.
Lemma pow_small k : k < 64 -> 2 ^ k < 2 ^ 64.
Proof. intros H. apply N.pow_lt_mono_r; lia. Qed.
Lemma nonzero_bit w : w < 2 ^ 64 -> w <> 0 -> exists k, k < 64 /\ N.testbit w k = true.
Proof.
  intros Hw Hn. exists (N.log2 w). split; [apply N.log2_lt_pow2; lia|]. now apply N.bit_log2.
Qed.

(** The bit at position [p] of an array of words. *)
Definition bit (ws : list N) (p : N) : bool := N.testbit (nth (N.to_nat (p / 64)) ws 0) (p mod 64).
Definition words (ws : list N) : Prop := Forall (fun w => w < 2 ^ 64) ws.
Definition covers (ws : list N) (p : N) : Prop := p / 64 < N.of_nat (length ws).
Lemma same_pos p q : p / 64 = q / 64 -> p mod 64 = q mod 64 -> p = q.
Proof. intros H1 H2. rewrite (N.div_mod p 64), (N.div_mod q 64) by lia. congruence. Qed.
Lemma nth_upd64 ws i x p q : q / 64 = i -> (N.to_nat i < length ws)%nat ->
  nth (N.to_nat (p / 64)) (upd ws (N.to_nat i) x) 0 =
  if N.eqb (q / 64) (p / 64) then x else nth (N.to_nat (p / 64)) ws 0.
Proof.
  intros <- H. rewrite nth_upd by assumption. destruct (N.eqb_spec (q / 64) (p / 64)), (Nat.eqb_spec (N.to_nat (q / 64)) (N.to_nat (p / 64))); auto; lia.
Qed.
Lemma words_nth ws i : words ws -> nth i ws 0 < 2 ^ 64.
Proof.
  intros H. destruct (Nat.lt_ge_cases i (length ws)).
  - unfold words in H. rewrite Forall_forall in H. apply H. now apply nth_In.
  - rewrite nth_overflow by assumption. reflexivity.
Qed.
Lemma words_upd ws i x : words ws -> x < 2 ^ 64 -> words (upd ws i x).
Proof.
  intros H Hx. revert i. induction H as [|y ws Hy H IH]; intros [|i]; cbn; constructor; auto. apply IH.
Qed.
Lemma or_word_spec ws q : covers ws q -> exists ws', or_word ws (q / 64) (2 ^ (q mod 64)) = Ok ws'
  /\ length ws' = length ws /\ (words ws -> words ws') /\ forall p, bit ws' p = N.eqb q p || bit ws p.
Proof.
  intros H. unfold covers in H. unfold or_word. rewrite (aget_nth _ _ 0) by assumption. cbn [bind]. rewrite aput_ok by assumption.
  eexists. split; [reflexivity|]. split; [apply upd_length|]. split.
  - intros W. apply words_upd; [assumption|]. apply lor_small; [now apply words_nth|]. apply pow_small. apply N.mod_lt. lia.
  - intros p. unfold bit. rewrite (nth_upd64 ws (q / 64) _ p q) by (auto; lia).
    destruct (N.eqb_spec (q / 64) (p / 64)) as [E|E].
    + rewrite lor_bit, E. destruct (N.eqb_spec (q mod 64) (p mod 64)) as [E2|E2], (N.eqb_spec q p) as [E3|E3]; auto.
      * exfalso. apply E3. now apply same_pos.
      * exfalso. apply E2. now subst.
    + destruct (N.eqb_spec q p) as [E3|E3]; [|reflexivity]. exfalso. apply E. now subst.
Qed.
Lemma andn_word_spec ws q : covers ws q -> exists ws', andn_word ws (q / 64) (2 ^ (q mod 64)) = Ok ws'
  /\ length ws' = length ws /\ (words ws -> words ws') /\ forall p, bit ws' p = negb (N.eqb q p) && bit ws p.
Proof.
  intros H. unfold covers in H. unfold andn_word. rewrite (aget_nth _ _ 0) by assumption. cbn [bind]. rewrite aput_ok by assumption.
  eexists. split; [reflexivity|]. split; [apply upd_length|]. split.
  - intros W. apply words_upd; [assumption|]. apply land_small. now apply words_nth.
  - intros p. unfold bit. rewrite (nth_upd64 ws (q / 64) _ p q) by (auto; lia).
    destruct (N.eqb_spec (q / 64) (p / 64)) as [E|E].
    + rewrite andn_bit, E by (apply N.mod_lt; lia).
      destruct (N.eqb_spec (q mod 64) (p mod 64)) as [E2|E2], (N.eqb_spec q p) as [E3|E3]; auto.
      * exfalso. apply E3. now apply same_pos.
      * exfalso. apply E2. now subst.
    + destruct (N.eqb_spec q p) as [E3|E3]; [|reflexivity]. exfalso. apply E. now subst.
Qed.
Lemma test_word_spec ws p : covers ws p -> test_word ws p = Ok (bit ws p).
Proof.
  intros H. unfold test_word. rewrite word_of_div, (aget_nth _ _ 0) by assumption. cbn [bind]. now rewrite land63, low_bit.
Qed.
Lemma zero_words_covers n p : p < n -> covers (zero_words n) p.
Proof. intros H. unfold covers, zero_words. rewrite repeat_length. lia. Qed.
Lemma zero_words_bit n p : bit (zero_words n) p = false.
Proof.
  unfold bit, zero_words. assert (E : forall k i, nth i (repeat 0 k) 0 = 0).
  { clear. induction k; intros [|i]; cbn; auto. }
  rewrite E. apply N.bits_0.
Qed.
Lemma zero_words_words n : words (zero_words n).
Proof. unfold words, zero_words. apply Forall_forall. intros x Hx. apply repeat_spec in Hx. subst. reflexivity. Qed.
Lemma covers_length ws ws' p : length ws = length ws' -> covers ws p -> covers ws' p.
Proof. unfold covers. now intros ->. Qed.
Lemma nth_map_const {A} (ws : list A) (c d : N) i : (i < length ws)%nat -> nth i (map (fun _ => c) ws) d = c.
Proof. revert i. induction ws as [|x ws IH]; intros [|i] H; cbn in *; try lia; auto. apply IH. lia. Qed.
Lemma const_words_bit ws c p : covers ws p -> bit (map (fun _ => c) ws) p = N.testbit c (p mod 64).
Proof.
  unfold bit, covers. intros H. now rewrite nth_map_const by lia.
Qed.

Lemma member_snoc ops o p : member (ops ++ [o]) p =
  match o with Add q => N.eqb q p || member ops p | Del q => negb (N.eqb q p) && member ops p | Fill => true | Clear => false end.
Proof. unfold member. rewrite fold_left_app. reflexivity. Qed.

(** Invariants established by running operations. *)
Lemma run_ops_ind {S} (step : S -> set_op -> res S) (P : S -> list set_op -> Prop) (ok : set_op -> Prop) s0 :
  P s0 [] -> (forall s done o, P s done -> ok o -> exists s', step s o = Ok s' /\ P s' (done ++ [o])) ->
  forall ops, Forall ok ops -> exists s, run_ops step s0 ops = Ok s /\ P s ops.
Proof.
  intros H0 HS ops F. assert (G : forall todo done s, P s done -> Forall ok todo ->
     exists s', run_ops step s todo = Ok s' /\ P s' (done ++ todo)).
  { induction todo as [|o todo IH]; intros done s HP HF; cbn [run_ops].
    - exists s. rewrite app_nil_r. auto.
    - apply Forall_cons_iff in HF as [Ho HF]. destruct (HS s done o HP Ho) as (s1 & -> & H1). cbn [bind].
      destruct (IH _ _ H1 HF) as (s2 & -> & H2). exists s2. split; [reflexivity|]. now rewrite <- app_assoc in H2. }
  apply (G ops [] s0 H0 F).
Qed.

(** ** DynamicBitset *)
Lemma dynamic_lemma : forall n ops, Forall (op_below n) ops ->
  exists b, run_ops dynamic_step (db_new n) ops = Ok b /\ db_size b = n /\ forall p, p < n -> db_get b p = Ok (member ops p).
Proof.
  intros n ops F.
  destruct (run_ops_ind dynamic_step (fun b done => db_size b = n /\ (forall p, p < n -> covers (db_data b) p)
      /\ forall p, p < n -> bit (db_data b) p = member done p) (op_below n) (db_new n)) with (ops := ops) as (b & E & Hs & C & G); auto.
  - cbn [db_new db_size db_data]. split; [reflexivity|]. split; [apply zero_words_covers|]. intros p _. apply zero_words_bit.
  - intros b done o (Hs & C & G) Ho. destruct o as [q|q| |]; cbn [dynamic_step op_below] in *.
    + destruct (or_word_spec (db_data b) q (C q Ho)) as (ws & E & L & _ & B). unfold db_set. rewrite word_of_div, mask_pow, E. cbn [bind].
      eexists. split; [reflexivity|]. cbn. split; [assumption|]. split.
      * intros p Hp. eapply covers_length; [symmetry; exact L|auto].
      * intros p Hp. now rewrite B, member_snoc, G.
    + destruct (andn_word_spec (db_data b) q (C q Ho)) as (ws & E & L & _ & B). unfold db_reset. rewrite N.shiftl_1_l, E. cbn [bind].
      eexists. split; [reflexivity|]. cbn. split; [assumption|]. split.
      * intros p Hp. eapply covers_length; [symmetry; exact L|auto].
      * intros p Hp. now rewrite B, member_snoc, G.
    + eexists. split; [reflexivity|]. cbn [db_set_all db_with db_size db_data]. split; [assumption|]. split.
      * intros p Hp. apply (covers_length (db_data b)); [now rewrite map_length|auto].
      * intros p Hp. rewrite const_words_bit, member_snoc by auto. rewrite N.lnot_spec_low by (apply N.mod_lt; lia). now rewrite N.bits_0.
    + eexists. split; [reflexivity|]. cbn [db_clear db_with db_size db_data]. split; [assumption|]. split.
      * intros p Hp. apply (covers_length (db_data b)); [now rewrite map_length|auto].
      * intros p Hp. rewrite const_words_bit, member_snoc by auto. apply N.bits_0.
  - exists b. split; [assumption|]. split; [assumption|]. intros p Hp. unfold db_get. rewrite test_word_spec by auto. now rewrite G.
Qed.

(** ** EpochVisitedSet *)
Lemma epoch_lemma : forall w n ops, 0 < w -> Forall (fun o => op_below n o /\ no_del o) ops ->
  exists s, run_ops (epoch_step w) (es_new n) ops = Ok s /\ forall p, p < n -> es_get s p = Ok (member ops p).
Proof.
  intros w n ops Hw F. assert (Hpow : 2 <= 2 ^ w).
  { change 2 with (2 ^ 1) at 1. apply N.pow_le_mono_r; lia. }
  destruct (run_ops_ind (epoch_step w) (fun s done => N.of_nat (length (es_tags s)) = n /\ 1 <= es_epoch s < 2 ^ w
      /\ forall p, p < n -> nth (N.to_nat p) (es_tags s) 0 <= es_epoch s
          /\ (nth (N.to_nat p) (es_tags s) 0 = es_epoch s <-> member done p = true))
      (fun o => op_below n o /\ no_del o) (es_new n)) with (ops := ops) as (s & E & L & _ & G); auto.
  - cbn [es_new es_tags es_epoch]. split; [rewrite repeat_length; lia|]. split; [lia|]. intros p Hp.
    assert (X : nth (N.to_nat p) (repeat 0 (N.to_nat n)) 0 = 0) by (rewrite (nth_repeat); reflexivity).
    rewrite X. split; [lia|]. unfold member. cbn. split; [lia|discriminate].
  - intros s done o (L & Ee & G) [Ho Hd]. destruct o as [q|q| |]; cbn [op_below no_del epoch_step] in *; try contradiction.
    + unfold es_set. rewrite aput_ok by lia. cbn [bind]. eexists. split; [reflexivity|]. cbn [es_tags es_epoch].
      split; [now rewrite upd_length|]. split; [assumption|]. intros p Hp. rewrite nth_upd by lia. rewrite member_snoc.
      destruct (G p Hp) as [G1 G2].
      destruct (N.eqb_spec q p) as [->|Hn]; [rewrite Nat.eqb_refl; cbn [orb]; intuition lia|].
      destruct (Nat.eqb_spec (N.to_nat q) (N.to_nat p)); [lia|]. cbn [orb]. auto.
    + eexists. split; [reflexivity|]. unfold es_clear.
      destruct (N.eq_dec (es_epoch s + 1) (2 ^ w)) as [E|E].
      * rewrite E, N.mod_same by lia. cbn [N.eqb es_tags es_epoch]. split; [now rewrite map_length|]. split; [lia|].
        intros p Hp. rewrite member_snoc.
        assert (X : nth (N.to_nat p) (map (fun _ => 0) (es_tags s)) 0 = 0).
        { apply nth_map_const. lia. }
        rewrite X. split; [lia|]. split; [lia|discriminate].
      * rewrite N.mod_small by lia. destruct (N.eqb_spec (es_epoch s + 1) 0); [lia|]. cbn [es_tags es_epoch].
        split; [assumption|]. split; [lia|]. intros p Hp. rewrite member_snoc. destruct (G p Hp) as [G1 _].
        split; [lia|]. split; [lia|discriminate].
  - exists s. split; [assumption|]. intros p Hp. unfold es_get. rewrite (aget_nth _ _ 0) by lia. cbn [bind]. f_equal.
    destruct (G p Hp) as [_ G2]. destruct (N.eqb_spec (nth (N.to_nat p) (es_tags s) 0) (es_epoch s)) as [E1|E1]; [symmetry; now apply G2|].
    destruct (member ops p); [|reflexivity]. exfalso. apply E1. now apply G2.
Qed.

(** ** SparseBitset *)
Lemma sparse_lemma : forall ops, Forall (fun o => match o with Fill | Clear => False | _ => True end) ops ->
  exists b, run_ops sparse_step [] ops = Ok b /\ NoDup b /\ forall p, sb_get b p = member ops p.
Proof.
  intros ops F.
  destruct (run_ops_ind sparse_step (fun b done => NoDup b /\ forall p, sb_get b p = member done p)
    (fun o => match o with Fill | Clear => False | _ => True end) []) with (ops := ops) as (b & E & H); eauto.
  - split; [constructor|reflexivity].
  - intros b done o [ND G] Ho. destruct o as [q|q| |]; cbn [sparse_step] in *; try contradiction.
    + eexists. split; [reflexivity|]. unfold sb_set. destruct (sb_get b q) eqn:Eq.
      * split; [assumption|]. intros p. rewrite member_snoc, <- G. destruct (N.eqb_spec q p) as [<-|]; auto.
      * split.
        -- constructor; [|assumption]. intros Hi. assert (sb_get b q = true); [|congruence].
           apply existsb_exists. exists q. split; [assumption|apply N.eqb_refl].
        -- intros p. rewrite member_snoc, <- G. unfold sb_get. cbn [existsb]. now rewrite N.eqb_sym.
    + eexists. split; [reflexivity|]. split; [now apply NoDup_filter|]. intros p. rewrite member_snoc, <- G. unfold sb_get, sb_reset.
      clear. induction b as [|x b IH]; cbn [filter existsb]; [now rewrite andb_false_r|].
      destruct (N.eqb_spec q x) as [<-|Hn]; cbn [negb].
      * rewrite IH. destruct (N.eqb_spec p q), (N.eqb_spec q p); subst; auto; congruence.
      * cbn [existsb]. rewrite IH. destruct (N.eqb_spec p x), (N.eqb_spec q p); subst; auto; congruence.
Qed.

(** ** HierarchicalBitset *)
Definition least (mem : N -> bool) (p : N) : Prop := mem p = true /\ forall q, mem q = true -> p <= q.
Lemma ctz_spec w : w < 2 ^ 64 -> w <> 0 ->
  count_trailing_zeros w < 64 /\ N.testbit w (count_trailing_zeros w) = true
  /\ forall k, N.testbit w k = true -> count_trailing_zeros w <= k.
Proof.
  intros Hw Hn. assert (B : exists k, k < 64 /\ N.testbit w k = true) by now apply nonzero_bit.
  unfold count_trailing_zeros. change 64 with (N.of_nat 64) in B |- * at 1. generalize dependent w. clear.
  set (f := 64%nat). clearbody f. induction f as [|f IH]; intros w Hw Hn (k & Hk & Bk); [lia|]. cbn [ctz_loop].
  assert (LE : N.land w 1 = w mod 2) by (change 1 with (N.ones 1); now rewrite N.land_ones). rewrite LE.
  assert (B0 : N.testbit w 0 = negb (N.eqb (w mod 2) 0)).
  { rewrite <- N.bit0_mod. now destruct (N.testbit w 0). }
  destruct (N.eqb_spec (w mod 2) 0) as [E|E]; cbn [negb] in B0.
  - assert (Hk0 : k <> 0) by (intros ->; congruence).
    assert (SB : forall j, N.testbit (N.shiftr w 1) j = N.testbit w (j + 1)) by (intros; apply N.shiftr_spec'; lia).
    destruct (IH (N.shiftr w 1)) as (I1 & I2 & I3).
    + apply word_small. intros j Hj. rewrite SB. apply (proj1 (word_small w) Hw). lia.
    + intros Z. specialize (SB (k - 1)). rewrite Z, N.bits_0 in SB. replace (k - 1 + 1) with k in SB by lia. congruence.
    + exists (k - 1). split; [lia|]. rewrite SB. now replace (k - 1 + 1) with k by lia.
    + split; [lia|]. split; [rewrite SB in I2; now rewrite N.add_comm|].
      intros j Hj. destruct (N.eq_dec j 0) as [->|]; [congruence|]. specialize (I3 (j - 1)). rewrite SB in I3.
      replace (j - 1 + 1) with j in I3 by lia. specialize (I3 Hj). lia.
  - split; [lia|]. split; [assumption|]. intros; lia.
Qed.

Record hier_inv (n : N) (b : hier_bitset) (mem : N -> bool) : Prop := {
  hi_len : N.of_nat (length (hb_data b)) = (n + 63) / 64;
  hi_slen : N.of_nat (length (hb_summary b)) = ((n + 63) / 64 + 63) / 64;
  hi_words : words (hb_data b);
  hi_swords : words (hb_summary b);
  hi_mem : forall p, mem p = true -> p < n;
  hi_bit : forall p, bit (hb_data b) p = mem p;
  hi_sbit : forall blk, bit (hb_summary b) blk = true <-> exists p, mem p = true /\ p / 512 = blk;
}.
Lemma hier_word p : p / 512 * 8 + p mod 512 / 64 = p / 64 /\ (p mod 512) mod 64 = p mod 64.
Proof. lia. Qed.
Lemma hier_new n : hier_inv n (hb_new n) (fun _ => false).
Proof.
  unfold hb_new. constructor; cbn [hb_data hb_summary]; try apply zero_words_words.
  - unfold zero_words. rewrite repeat_length. lia.
  - unfold zero_words. rewrite !repeat_length. lia.
  - discriminate.
  - apply zero_words_bit.
  - intros blk. rewrite zero_words_bit. split; [discriminate|]. intros (p & H & _). discriminate.
Qed.
Lemma hier_set n b mem q : hier_inv n b mem -> q < n ->
  exists b', hb_set b q = Ok b' /\ hier_inv n b' (fun p => N.eqb q p || mem p).
Proof.
  intros I Hq. unfold hb_set, kBitsPerBlock, kSummaryBlockSize. destruct (hier_word q) as [-> ->]. rewrite !N.shiftl_1_l.
  destruct (or_word_spec (hb_data b) q) as (d & -> & Ld & Wd & Bd).
  { unfold covers. rewrite (hi_len _ _ _ I). lia. }
  cbn [bind]. destruct (or_word_spec (hb_summary b) (q / 512)) as (s & -> & Ls & Ws & Bs).
  { unfold covers. rewrite (hi_slen _ _ _ I). lia. }
  cbn [bind]. eexists. split; [reflexivity|]. destruct I as [I1 I2 I3 I4 I5 I6 I7]. constructor; cbn [hb_data hb_summary]; [now rewrite Ld|now rewrite Ls|now apply Wd|now apply Ws| | |].
  - intros p Hp. apply orb_true_iff in Hp as [Hp|Hp]; [apply N.eqb_eq in Hp; now subst|auto].
  - intros p. now rewrite Bd, I6.
  - intros blk. rewrite Bs, orb_true_iff, I7, N.eqb_eq. split.
    + intros [<-|(p & Hp & E)].
      * exists q. rewrite N.eqb_refl. auto.
      * exists p. rewrite Hp, orb_true_r. auto.
    + intros (p & Hp & E). apply orb_true_iff in Hp as [Hp|Hp]; [apply N.eqb_eq in Hp; subst; auto|right; eauto].
Qed.
Lemma hier_get n b mem p : hier_inv n b mem -> p < n -> hb_get b p = Ok (mem p).
Proof.
  intros I Hp. unfold hb_get, kBitsPerBlock. destruct (hier_word p) as [-> ->]. rewrite N.shiftl_1_l.
  rewrite (aget_nth _ _ 0) by (rewrite (hi_len _ _ _ I); lia). cbn [bind]. rewrite mask_bit. f_equal. apply (hi_bit _ _ _ I).
Qed.
Lemma bit_zero_word ws p : nth (N.to_nat (p / 64)) ws 0 = 0 -> bit ws p = false.
Proof. unfold bit. intros ->. apply N.bits_0. Qed.
Lemma bit_at ws w k i : nth (N.to_nat i) ws 0 = w -> k < 64 -> bit ws (i * 64 + k) = N.testbit w k.
Proof.
  intros <- Hk. unfold bit. replace ((i * 64 + k) / 64) with i by lia. replace ((i * 64 + k) mod 64) with k by lia. reflexivity.
Qed.
Lemma hier_inner n b mem blk : hier_inv n b mem -> (exists p, mem p = true /\ p / 512 = blk) ->
  forall k j, j + N.of_nat k = 8 -> (forall q, mem q = true -> blk * 8 + j <= q / 64 \/ q / 512 <> blk) ->
  exists p, hb_inner b blk j k = Ok (Some p) /\ mem p = true /\ p / 512 = blk /\ forall q, mem q = true -> q / 512 = blk -> p <= q.
Proof.
  intros I (m & Hm & Em). induction k as [|k IH]; intros j Hj HL; cbn [hb_inner].
  - destruct (HL m Hm) as [X|X]; lia.
  - pose proof (hi_mem _ _ _ I m Hm) as Hn. rewrite (aget_nth _ _ 0).
    2:{ rewrite (hi_len _ _ _ I). destruct (HL m Hm) as [X|X]; lia. }
    cbn [bind]. remember (nth (N.to_nat (blk * 8 + j)) (hb_data b) 0) as w eqn:Ew.
    assert (Ww : w < 2 ^ 64) by (subst w; apply words_nth, I).
    destruct (N.eqb_spec w 0) as [Z|Z].
    + apply IH; [lia|]. intros q Hq. destruct (HL q Hq) as [X|X]; [|now right].
      destruct (N.eq_dec (q / 64) (blk * 8 + j)) as [Eq|Eq]; [|left; lia]. exfalso.
      assert (bit (hb_data b) q = false); [apply bit_zero_word; congruence|]. rewrite (hi_bit _ _ _ I) in H. congruence.
    + destruct (ctz_spec w Ww Z) as (C1 & C2 & C3). exists (blk * 512 + j * 64 + count_trailing_zeros w). unfold kBitsPerBlock.
      split; [reflexivity|]. replace (blk * 512 + j * 64) with ((blk * 8 + j) * 64) by lia.
      rewrite <- (hi_bit _ _ _ I), (bit_at _ w) by auto. split; [assumption|]. split; [lia|].
      intros q Hq Eq. destruct (HL q Hq) as [X|X]; [|easy].
      destruct (N.eq_dec (q / 64) (blk * 8 + j)) as [Ew2|Ew2]; [|lia].
      assert (T : N.testbit w (q mod 64) = true).
      { rewrite <- (hi_bit _ _ _ I) in Hq. unfold bit in Hq. rewrite Ew2, <- Ew in Hq. exact Hq. }
      apply C3 in T. lia.
Qed.
Lemma hier_outer n b mem : hier_inv n b mem -> forall k i, i + N.of_nat k = N.of_nat (length (hb_summary b)) ->
  (forall q, mem q = true -> i * 64 <= q / 512) ->
  match hb_outer b i k with Ok (Some p) => least mem p | Ok None => forall q, mem q = false | _ => False end.
Proof.
  intros I. induction k as [|k IH]; intros i Hi HL; cbn [hb_outer].
  - intros q. destruct (mem q) eqn:E; [|reflexivity]. exfalso. pose proof (hi_mem _ _ _ I q E). pose proof (HL q E).
    pose proof (hi_slen _ _ _ I). lia.
  - rewrite (aget_nth _ _ 0) by lia. cbn [bind]. remember (nth (N.to_nat i) (hb_summary b) 0) as w eqn:Ew.
    assert (Ww : w < 2 ^ 64) by (subst w; apply words_nth, I).
    destruct (N.eqb_spec w 0) as [Z|Z].
    + apply IH; [lia|]. intros q Hq. pose proof (HL q Hq).
      destruct (N.le_gt_cases ((i + 1) * 64) (q / 512)) as [|Lt]; [assumption|]. exfalso.
      assert (bit (hb_summary b) (q / 512) = false).
      { apply bit_zero_word. replace (q / 512 / 64) with i by lia. congruence. }
      assert (bit (hb_summary b) (q / 512) = true); [|congruence]. apply (hi_sbit _ _ _ I). eauto.
    + destruct (ctz_spec w Ww Z) as (C1 & C2 & C3). unfold kSummaryBlockSize. set (c := count_trailing_zeros w) in *.
      assert (Hb : exists p, mem p = true /\ p / 512 = i * 64 + c).
      { apply (hi_sbit _ _ _ I). rewrite (bit_at _ w) by auto. assumption. }
      destruct (hier_inner n b mem (i * 64 + c) I Hb 8 0) as (p & -> & Hp & Ep & Lp); [reflexivity| |].
      { intros q Hq. destruct (N.eq_dec (q / 512) (i * 64 + c)) as [E|E]; [left; lia|now right]. }
      cbn [bind]. split; [assumption|]. intros q Hq. pose proof (HL q Hq).
      destruct (N.eq_dec (q / 512) (i * 64 + c)) as [E|E]; [auto|].
      assert (i * 64 + c <= q / 512); [|lia].
      destruct (N.le_gt_cases ((i + 1) * 64) (q / 512)) as [|Lt]; [lia|].
      assert (T : N.testbit w (q / 512 - i * 64) = true).
      { rewrite <- (bit_at (hb_summary b) w _ i) by (auto; lia). apply (hi_sbit _ _ _ I). exists q. split; [assumption|lia]. }
      apply C3 in T. lia.
Qed.
Lemma hier_lemma : forall n ops, Forall (fun o => op_below n o /\ only_add o) ops ->
  exists b, run_ops hier_step (hb_new n) ops = Ok b
    /\ (forall p, p < n -> hb_get b p = Ok (member ops p))
    /\ exists r, find_first_set b = Ok r /\
       match r with Some p => least (member ops) p | None => forall q, member ops q = false end.
Proof.
  intros n ops F.
  destruct (run_ops_ind hier_step (fun b done => exists mem, hier_inv n b mem /\ forall p, mem p = member done p)
    (fun o => op_below n o /\ only_add o) (hb_new n)) with (ops := ops) as (b & E & mem & I & G); auto.
  - exists (fun _ => false). split; [apply hier_new|reflexivity].
  - intros b done o (mem & I & G) [Ho Ha]. destruct o as [q|q| |]; cbn [op_below only_add hier_step] in *; try contradiction.
    destruct (hier_set n b mem q I Ho) as (b' & E & I'). exists b'. split; [assumption|]. eexists. split; [exact I'|].
    intros p. now rewrite member_snoc, G.
  - exists b. split; [assumption|]. split.
    + intros p Hp. rewrite (hier_get n b mem) by assumption. now rewrite G.
    + unfold find_first_set. pose proof (hier_outer n b mem I (length (hb_summary b)) 0) as H.
      destruct (hb_outer b 0 (length (hb_summary b))) as [r| | |]; try (exfalso; apply H; [lia|]; intros; lia).
      exists r. split; [reflexivity|]. assert (H' : match r with Some p => least mem p | None => forall q, mem q = false end)
        by (destruct r; apply H; try lia; intros; lia).
      destruct r as [p|]; [|intros q; rewrite <- G; apply H'].
      destruct H' as [H1 H2]. split; [now rewrite <- G|]. intros q Hq. apply H2. now rewrite G.
Qed.

(** ** VisitedBitset *)
Record vis_inv (n : N) (b : visited_bitset) (mem : N -> bool) : Prop := {
  vi_bits : vb_bits b = n;
  vi_len : N.of_nat (length (vb_words b)) = (n + 63) / 64;
  vi_words : words (vb_words b);
  vi_bit : forall p, bit (vb_words b) p = mem p;
  vi_dirty_in : forall i, In i (vb_dirty b) -> i < N.of_nat (length (vb_words b));
  vi_dirty : forall i, nth (N.to_nat i) (vb_words b) 0 <> 0 -> In i (vb_dirty b);
}.
Lemma zero_dirty_spec dirty : forall ws, (forall i, In i dirty -> i < N.of_nat (length ws)) -> words ws ->
  exists ws', zero_dirty ws dirty = Ok ws' /\ length ws' = length ws /\ words ws' /\
    forall i, nth (N.to_nat i) ws' 0 = 0 \/ (~ In i dirty /\ nth (N.to_nat i) ws' 0 = nth (N.to_nat i) ws 0).
Proof.
  induction dirty as [|d dirty IH]; intros ws H W; cbn [zero_dirty].
  - exists ws. repeat split; auto.
  - assert (Hd : d < N.of_nat (length ws)) by (apply H; now left). rewrite aput_ok by assumption. cbn [bind].
    destruct (IH (upd ws (N.to_nat d) 0)) as (ws' & E & L & W' & G).
    { intros i Hi. rewrite upd_length. apply H. now right. }
    { apply words_upd; [assumption|reflexivity]. }
    rewrite upd_length in L. exists ws'. split; [assumption|]. split; [assumption|]. split; [assumption|]. intros i.
    destruct (G i) as [Z|[Hn Hi]]; [now left|]. rewrite nth_upd in Hi by lia.
    destruct (Nat.eqb_spec (N.to_nat d) (N.to_nat i)) as [Ed|Ed]; [left; congruence|]. right. split; [|assumption].
    intros [->|X]; [lia|auto].
Qed.
Lemma vis_new n : vis_inv n (vb_resize n) (fun _ => false).
Proof.
  unfold vb_resize. assert (E : N.to_nat (N.shiftr (n + 63) 6) = N.to_nat ((n + 63) / 64)) by (now rewrite N.shiftr_div_pow2).
  assert (E2 : repeat 0 (N.to_nat (N.shiftr (n + 63) 6)) = zero_words n) by (unfold zero_words; now rewrite E).
  rewrite E2. constructor; cbn [vb_bits vb_words vb_dirty]; auto.
  - unfold zero_words. rewrite repeat_length. lia.
  - apply zero_words_words.
  - apply zero_words_bit.
  - intros i [].
  - intros i H. exfalso. apply H. unfold zero_words. rewrite nth_repeat. reflexivity.
Qed.
Lemma vis_mark n b mem q : vis_inv n b mem -> q < n ->
  exists b' w, vb_mark b q = Ok (w, b') /\ vis_inv n b' (fun p => N.eqb q p || mem p)
    /\ negb (N.eqb (N.land w (mask_of q)) 0) = mem q.
Proof.
  intros I Hq. unfold vb_mark. rewrite (vi_bits _ _ _ I). destruct (N.leb_spec n q); [lia|].
  assert (C : covers (vb_words b) q) by (unfold covers; rewrite (vi_len _ _ _ I); lia).
  destruct (or_word_spec (vb_words b) q C) as (ws & E & L & W & B). unfold or_word in E. rewrite word_of_div, mask_pow.
  rewrite (aget_nth _ _ 0) in E |- * by exact C. cbn [bind] in E |- * . rewrite E. cbn [bind].
  rewrite aput_ok in E by exact C. injection E as Ews.
  eexists _, _. split; [reflexivity|]. split; [|rewrite mask_bit; apply (vi_bit _ _ _ I)].
  constructor; cbn [vb_bits vb_words vb_dirty].
  - reflexivity.
  - rewrite L. apply (vi_len _ _ _ I).
  - apply W, I.
  - intros p. now rewrite B, (vi_bit _ _ _ I).
  - intros i Hi. rewrite L. destruct (N.eqb _ 0); [|now apply (vi_dirty_in _ _ _ I)].
    apply in_app_or in Hi as [Hi|[<-|[]]]; [now apply (vi_dirty_in _ _ _ I)|exact C].
  - intros i Hi. rewrite <- Ews in Hi. unfold covers in C. rewrite nth_upd in Hi by lia.
    destruct (Nat.eqb_spec (N.to_nat (q / 64)) (N.to_nat i)) as [Ei|Ei].
    + assert (i = q / 64) by lia. subst i. destruct (N.eqb_spec (nth (N.to_nat (q / 64)) (vb_words b) 0) 0) as [Z|Z].
      * apply in_or_app. right. now left.
      * now apply (vi_dirty _ _ _ I).
    + apply (vi_dirty _ _ _ I) in Hi. destruct (N.eqb _ 0); [apply in_or_app; now left|assumption].
Qed.
Lemma vis_clear n b mem : vis_inv n b mem -> exists b', vb_clear b = Ok b' /\ vis_inv n b' (fun _ => false).
Proof.
  intros I. unfold vb_clear. destruct (zero_dirty_spec (vb_dirty b) (vb_words b)) as (ws & -> & L & W & G); [apply I|apply I|].
  cbn [bind]. eexists. split; [reflexivity|].
  assert (Z : forall i, nth (N.to_nat i) ws 0 = 0).
  { intros i. destruct (G i) as [Z|[Hn Hi]]; [assumption|]. destruct (N.eq_dec (nth (N.to_nat i) ws 0) 0); [assumption|].
    exfalso. apply Hn. apply (vi_dirty _ _ _ I). congruence. }
  constructor; cbn [vb_bits vb_words vb_dirty]; auto.
  - apply I.
  - rewrite L. apply (vi_len _ _ _ I).
  - intros p. apply bit_zero_word. apply Z.
  - intros i [].
  - intros i H. exfalso. now apply H.
Qed.
Lemma visited_lemma : forall n ops, Forall (fun o => op_below n o /\ no_del o) ops ->
  exists b, run_ops visited_step (vb_resize n) ops = Ok b
    /\ (forall p, p < n -> vb_test b p = Ok (member ops p)
        /\ exists b', vb_test_and_set b p = Ok (negb (member ops p), b') /\ vb_set b p = Ok b')
    /\ forall p, n <= p -> vb_test b p = Throws /\ vb_set b p = Throws /\ vb_test_and_set b p = Throws.
Proof.
  intros n ops F.
  destruct (run_ops_ind visited_step (fun b done => exists mem, vis_inv n b mem /\ forall p, mem p = member done p)
    (fun o => op_below n o /\ no_del o) (vb_resize n)) with (ops := ops) as (b & E & mem & I & G); auto.
  - exists (fun _ => false). split; [apply vis_new|reflexivity].
  - intros b done o (mem & I & G) [Ho Ha]. destruct o as [q|q| |]; cbn [op_below no_del visited_step] in *; try contradiction.
    + destruct (vis_mark n b mem q I Ho) as (b' & w & E & I' & _). unfold vb_set. rewrite E. cbn [bind].
      exists b'. split; [reflexivity|]. eexists. split; [exact I'|]. intros p. now rewrite member_snoc, G.
    + destruct (vis_clear n b mem I) as (b' & -> & I'). exists b'. split; [reflexivity|]. eexists. split; [exact I'|].
      intros p. now rewrite member_snoc.
  - exists b. split; [assumption|]. split.
    + intros p Hp. split.
      * unfold vb_test. rewrite (vi_bits _ _ _ I). destruct (N.leb_spec n p); [lia|]. rewrite word_of_div, mask_pow.
        rewrite (aget_nth _ _ 0) by (rewrite (vi_len _ _ _ I); lia). cbn [bind]. rewrite mask_bit, <- G. f_equal. apply (vi_bit _ _ _ I).
      * destruct (vis_mark n b mem p I Hp) as (b' & w & E' & _ & M). unfold vb_test_and_set, vb_set. rewrite E'. cbn [bind].
        exists b'. now rewrite M, G.
    + intros p Hp. unfold vb_test, vb_test_and_set, vb_set, vb_mark. rewrite (vi_bits _ _ _ I).
      destruct (N.leb_spec n p); [|lia]. auto.
Qed.

(** ** HashBasedBooleanSet *)
Lemma land_le a b : N.land a b <= b.
Proof.
  destruct (N.eq_dec (N.land a b) 0) as [->|Hz]; [lia|].
  assert (N.ldiff b a + N.land a b = b); [|lia].
  rewrite (N.land_comm a b). rewrite N.add_nocarry_lxor.
  - apply N.bits_inj. intros k. rewrite N.lxor_spec, N.ldiff_spec, N.land_spec. now destruct (N.testbit b k), (N.testbit a k).
  - apply N.bits_inj. intros k. rewrite !N.land_spec, N.ldiff_spec, N.bits_0. now destruct (N.testbit b k), (N.testbit a k).
Qed.
Record hash_inv (size : N) (s : hash_set) (mem : N -> bool) : Prop := {
  hh_mask : hs_mask s = size - 1;
  hh_len : N.of_nat (length (hs_table s)) = size;
  hh_mem : forall id, mem id = true -> id < kEmptyHashId;
  hh_slot : forall i, let v := nth (N.to_nat i) (hs_table s) kEmptyHashId in
     i < size -> v = kEmptyHashId \/ (mem v = true /\ N.land v (size - 1) = i);
  hh_full : forall id, mem id = true -> let v := nth (N.to_nat (N.land id (size - 1))) (hs_table s) kEmptyHashId in
     v <> kEmptyHashId /\ (v = id \/ In id (hs_stl s));
  hh_stl : forall id, In id (hs_stl s) -> mem id = true;
}.
Lemma hash_empty size : forall s, hs_mask s = size - 1 -> N.of_nat (length (hs_table s)) = size ->
  (forall i, nth (N.to_nat i) (hs_table s) kEmptyHashId = kEmptyHashId) -> hs_stl s = [] -> hash_inv size s (fun _ => false).
Proof.
  intros s M L T S. constructor; auto; try discriminate.
  - intros i v Hi. left. apply T.
  - rewrite S. intros id [].
Qed.
Lemma hash_ext size s m1 m2 : hash_inv size s m1 -> (forall p, m2 p = m1 p) -> hash_inv size s m2.
Proof.
  intros [I1 I2 I3 I4 I5 I6] E. constructor; auto.
  - intros id. rewrite E. auto.
  - intros i v Hi. rewrite E. now apply I4.
  - intros id. rewrite E. apply I5.
  - intros id Hi. rewrite E. auto.
Qed.
Lemma hash_set_step size s mem id : 0 < size -> hash_inv size s mem -> id < kEmptyHashId ->
  exists s', hs_set s id = Ok s' /\ hash_inv size s' (fun p => N.eqb id p || mem p).
Proof.
  intros Hs I Hid. unfold hs_set. rewrite (hh_mask _ _ _ I). set (slot := N.land id (size - 1)).
  assert (HS : slot < size) by (unfold slot; pose proof (land_le id (size - 1)); lia).
  rewrite (aget_nth _ _ kEmptyHashId) by (rewrite (hh_len _ _ _ I); assumption). cbn [bind].
  remember (nth (N.to_nat slot) (hs_table s) kEmptyHashId) as v eqn:Ev.
  pose proof (hh_slot _ _ _ I slot HS) as Sl. rewrite <- Ev in Sl. cbv zeta in Sl.
  destruct (N.eqb_spec v id) as [E|E].
  - exists s. split; [reflexivity|]. destruct Sl as [Sl|[Sm _]]; [lia|]. rewrite E in Sm.
    assert (X : forall p, N.eqb id p || mem p = mem p) by (intros p; destruct (N.eqb_spec id p) as [<-|]; auto).
    now apply (hash_ext _ _ mem).
  - destruct (N.eqb_spec v kEmptyHashId) as [E2|E2].
    + rewrite aput_ok by (rewrite (hh_len _ _ _ I); assumption). cbn [bind]. eexists. split; [reflexivity|].
      destruct I as [I1 I2 I3 I4 I5 I6]. constructor; cbn [hs_mask hs_table hs_stl].
      * auto.
      * now rewrite upd_length.
      * intros p Hp. apply orb_true_iff in Hp as [Hp|Hp]; [apply N.eqb_eq in Hp; now subst|auto].
      * intros i Hi. rewrite nth_upd by lia. destruct (Nat.eqb_spec (N.to_nat slot) (N.to_nat i)) as [Ei|Ei].
        -- right. rewrite N.eqb_refl. split; [reflexivity|]. unfold slot in *. lia.
        -- destruct (I4 i Hi) as [?|[X Y]]; [now left|]. right. rewrite X, orb_true_r. auto.
      * intros p Hp. rewrite nth_upd by lia. destruct (Nat.eqb_spec (N.to_nat slot) (N.to_nat (N.land p (size - 1)))) as [Ei|Ei].
        -- split; [lia|]. apply orb_true_iff in Hp as [Hp|Hp]; [apply N.eqb_eq in Hp; now left|].
           exfalso. destruct (I5 p Hp) as [X _]. apply X. replace (N.land p (size - 1)) with slot by lia. congruence.
        -- apply orb_true_iff in Hp as [Hp|Hp]; [apply N.eqb_eq in Hp; subst p; now elim Ei|]. apply (I5 p Hp).
      * intros p Hp. rewrite (I6 p Hp). apply orb_true_r.
    + eexists. split; [reflexivity|]. destruct I as [I1 I2 I3 I4 I5 I6]. 
      assert (K : forall p, In p (if existsb (N.eqb id) (hs_stl s) then hs_stl s else id :: hs_stl s) <-> p = id \/ In p (hs_stl s)).
      { intros p. destruct (existsb (N.eqb id) (hs_stl s)) eqn:X; [|cbn; intuition congruence].
        apply existsb_exists in X as (x & Hx & Ex). apply N.eqb_eq in Ex. subst x. intuition congruence. }
      constructor; cbn [hs_mask hs_table hs_stl].
      * auto.
      * assumption.
      * intros p Hp. apply orb_true_iff in Hp as [Hp|Hp]; [apply N.eqb_eq in Hp; now subst|auto].
      * intros i Hi. destruct (I4 i Hi) as [?|[X Y]]; [now left|]. right. rewrite X, orb_true_r. auto.
      * intros p Hp. rewrite K. apply orb_true_iff in Hp as [Hp|Hp].
        -- apply N.eqb_eq in Hp. subst p. fold slot. rewrite <- Ev. auto.
        -- destruct (I5 p Hp) as [X [Y|Y]]; auto.
      * intros p Hp. apply K in Hp as [->|Hp]; [now rewrite N.eqb_refl|]. rewrite (I6 p Hp). apply orb_true_r.
Qed.
Lemma hash_get size s mem id : 0 < size -> hash_inv size s mem -> id < kEmptyHashId -> hs_get s id = Ok (mem id).
Proof.
  intros Hs I Hid. unfold hs_get. rewrite (hh_mask _ _ _ I). set (slot := N.land id (size - 1)).
  assert (HS : slot < size) by (unfold slot; pose proof (land_le id (size - 1)); lia).
  rewrite (aget_nth _ _ kEmptyHashId) by (rewrite (hh_len _ _ _ I); assumption). cbn [bind].
  pose proof (hh_slot _ _ _ I slot HS) as Sl. cbv zeta in Sl. 
  pose proof (hh_full _ _ _ I id) as Fu. cbv zeta in Fu. fold slot in Fu.
  set (v := nth (N.to_nat slot) (hs_table s) kEmptyHashId) in *.
  destruct (N.eqb_spec v id) as [E|E].
  - destruct Sl as [Sl|[Sm _]]; [lia|]. now rewrite <- E, Sm.
  - f_equal. destruct (mem id) eqn:M.
    + destruct (Fu eq_refl) as [F1 [F2|F2]]; [easy|]. apply andb_true_iff. split.
      * apply negb_true_iff. now apply N.eqb_neq.
      * apply existsb_exists. exists id. split; [assumption|apply N.eqb_refl].
    + apply andb_false_iff. right. destruct (existsb (N.eqb id) (hs_stl s)) eqn:X; [|reflexivity].
      apply existsb_exists in X as (x & Hx & Ex). apply N.eqb_eq in Ex. subst x. apply (hh_stl _ _ _ I) in Hx. congruence.
Qed.
Lemma hash_lemma : forall size ops, 0 < size <= 2 ^ 32 ->
  Forall (fun o => op_below kEmptyHashId o /\ no_del o) ops ->
  exists s, run_ops hash_step (hs_init size) ops = Ok s /\ forall p, p < kEmptyHashId -> hs_get s p = Ok (member ops p).
Proof.
  intros size ops Hsz F.
  destruct (run_ops_ind hash_step (fun s done => exists mem, hash_inv size s mem /\ forall p, mem p = member done p)
    (fun o => op_below kEmptyHashId o /\ no_del o) (hs_init size)) with (ops := ops) as (s & E & mem & I & G); auto.
  - exists (fun _ => false). split; [|reflexivity]. apply hash_empty; unfold hs_init; cbn [hs_mask hs_table hs_stl]; auto.
    + replace (size + 2 ^ 64 - 1) with (size - 1 + 2 ^ 32 * 2 ^ 32) by lia. rewrite N.mod_add by lia. apply N.mod_small. lia.
    + rewrite repeat_length. lia.
    + intros i. apply nth_repeat.
  - intros s done o (mem & I & G) [Ho Ha]. destruct o as [q|q| |]; cbn [op_below no_del hash_step] in *; try contradiction.
    + destruct (hash_set_step size s mem q) as (s' & -> & I'); [lia|assumption|assumption|]. exists s'. split; [reflexivity|].
      eexists. split; [exact I'|]. intros p. now rewrite member_snoc, G.
    + eexists. split; [reflexivity|]. exists (fun _ => false). split; [|intros p; now rewrite member_snoc].
      apply hash_empty; unfold hs_clear; cbn [hs_mask hs_table hs_stl]; auto; [apply I|rewrite map_length; apply I|].
      intros i. destruct (Nat.lt_ge_cases (N.to_nat i) (length (hs_table s))); [now apply nth_map_const|].
      apply nth_overflow. now rewrite map_length.
  - exists s. split; [assumption|]. intros p Hp. rewrite (hash_get size s mem) by (auto; lia). now rewrite G.
Qed.
