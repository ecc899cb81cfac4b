(** Proofs about the vector storage. *)
From Verif Require Export StoreSpec.
Local Open Scope N_scope.

(** ** Memory *)
Lemma skipn_plus {A} (l : list A) i j : skipn i (skipn j l) = skipn (i + j) l.
Proof. revert l. induction j as [|j IH]; intros l; [now rewrite Nat.add_0_r|]. rewrite Nat.add_succ_r. destruct l as [|x l]; [now rewrite !skipn_nil|apply IH]. Qed.
Lemma read_ok m off n : off + n <= N.of_nat (length m) -> read_at m off n = Ok (firstn (N.to_nat n) (skipn (N.to_nat off) m)).
Proof. intros H. unfold read_at. destruct (N.leb_spec (off + n) (N.of_nat (length m))); [reflexivity|lia]. Qed.
Lemma write_ok m off b : off + N.of_nat (length b) <= N.of_nat (length m) ->
  exists m', write_at m off b = Ok m' /\ length m' = length m
    /\ read_at m' off (N.of_nat (length b)) = Ok b
    /\ forall o n, o + n <= off \/ off + N.of_nat (length b) <= o -> read_at m' o n = read_at m o n.
Proof.
  intros H. unfold write_at. destruct (N.leb_spec (off + N.of_nat (length b)) (N.of_nat (length m))); [|lia].
  eexists. split; [reflexivity|].
  assert (L : length (firstn (N.to_nat off) m ++ b ++ skipn (N.to_nat off + length b) m) = length m).
  { rewrite !app_length, firstn_length, skipn_length. lia. }
  split; [exact L|]. split.
  - rewrite read_ok by (rewrite L; lia). rewrite skipn_app, skipn_all2 by (rewrite firstn_length; lia).
    rewrite firstn_length. replace (N.to_nat off - min (N.to_nat off) (length m))%nat with 0%nat by lia. cbn [app skipn].
    rewrite firstn_app, firstn_all2 by lia. replace (N.to_nat (N.of_nat (length b)) - length b)%nat with 0%nat by lia. cbn [firstn]. now rewrite app_nil_r.
  - intros o n D. unfold read_at. rewrite L. destruct (N.leb_spec (o + n) (N.of_nat (length m))) as [Le|]; [|reflexivity]. f_equal.
    destruct D as [D|D].
    + rewrite skipn_app, firstn_app.
      assert (E : firstn (N.to_nat n) (skipn (N.to_nat o) (firstn (N.to_nat off) m)) = firstn (N.to_nat n) (skipn (N.to_nat o) m)).
      { rewrite skipn_firstn_comm, firstn_firstn. f_equal. lia. }
      rewrite E. rewrite skipn_length, firstn_length. replace (N.to_nat n - (min (N.to_nat off) (length m) - N.to_nat o))%nat with 0%nat by lia.
      cbn [firstn]. apply app_nil_r.
    + rewrite !skipn_app. rewrite skipn_all2 by (rewrite firstn_length; lia). rewrite firstn_length.
      rewrite skipn_all2 by lia. cbn [app]. f_equal. rewrite skipn_plus. f_equal. lia.
Qed.

(** ** Bits *)
Lemma land_pow b k : N.eqb (N.land b (N.shiftl 1 k)) 0 = negb (N.testbit b k).
Proof.
  rewrite N.shiftl_1_l. destruct (N.testbit b k) eqn:E; cbn [negb].
  - apply N.eqb_neq. intros X. assert (Y : N.testbit (N.land b (2 ^ k)) k = false) by (rewrite X; apply N.bits_0).
    rewrite N.land_spec, E, N.pow2_bits_true in Y. discriminate.
  - apply N.eqb_eq. apply N.bits_inj_0. intros j. rewrite N.land_spec, N.pow2_bits_eqb.
    destruct (N.eqb_spec k j) as [<-|]; [now rewrite E|apply andb_false_r].
Qed.
(** The bit of a slot in a bitmap. *)
Definition bm_bit (bm : list N) (id : N) : bool := N.testbit (nth (N.to_nat (id / 8)) bm 0) (id mod 8).
Lemma bm_bit_set bm p q : p / 8 < N.of_nat (length bm) ->
  bm_bit (upd bm (N.to_nat (p / 8)) (N.lor (nth (N.to_nat (p / 8)) bm 0) (N.shiftl 1 (p mod 8)))) q = N.eqb p q || bm_bit bm q.
Proof.
  intros H. unfold bm_bit. rewrite nth_upd by lia. destruct (Nat.eqb_spec (N.to_nat (p / 8)) (N.to_nat (q / 8))) as [E|E].
  - assert (E' : p / 8 = q / 8) by lia. rewrite N.lor_spec, N.shiftl_1_l, N.pow2_bits_eqb, E'.
    destruct (N.eqb_spec (p mod 8) (q mod 8)), (N.eqb_spec p q); try lia; now rewrite ?orb_true_r, ?orb_false_r.
  - destruct (N.eqb_spec p q) as [->|]; [lia|reflexivity].
Qed.
Lemma bm_bit_clear bm p q : p / 8 < N.of_nat (length bm) ->
  bm_bit (upd bm (N.to_nat (p / 8)) (N.ldiff (nth (N.to_nat (p / 8)) bm 0) (N.shiftl 1 (p mod 8)))) q = negb (N.eqb p q) && bm_bit bm q.
Proof.
  intros H. unfold bm_bit. rewrite nth_upd by lia. destruct (Nat.eqb_spec (N.to_nat (p / 8)) (N.to_nat (q / 8))) as [E|E].
  - assert (E' : p / 8 = q / 8) by lia. rewrite N.ldiff_spec, N.shiftl_1_l, N.pow2_bits_eqb, E'.
    destruct (N.eqb_spec (p mod 8) (q mod 8)), (N.eqb_spec p q); try lia; cbn [negb andb]; now rewrite ?andb_true_r, ?andb_false_r.
  - destruct (N.eqb_spec p q) as [->|]; [lia|reflexivity].
Qed.

(** ** Rounding *)
Lemma round_up_spec x a : a <= 12 -> x < 2 ^ 62 -> round_up_pow2 x (2 ^ a) = (x + 2 ^ a - 1) / 2 ^ a * 2 ^ a.
Proof.
  intros Ha Hx. assert (P : 0 < 2 ^ a) by (apply N.neq_0_lt_0, N.pow_nonzero; discriminate).
  assert (Q : 2 ^ a <= 2 ^ 12) by (apply N.pow_le_mono_r; [discriminate|assumption]). change (2 ^ 12) with 4096 in Q.
  unfold round_up_pow2. change (2 ^ 62) with 4611686018427387904 in Hx.
  rewrite N.mod_small by (change (2 ^ 64) with 18446744073709551616; lia).
  replace (2 ^ a - 1) with (N.ones a) by (rewrite N.ones_equiv; lia). rewrite N.ldiff_ones_r, N.shiftr_div_pow2, N.shiftl_mul_pow2. reflexivity.
Qed.
Lemma round_up_bounds x a : a <= 12 -> x < 2 ^ 62 -> x <= round_up_pow2 x (2 ^ a) /\ round_up_pow2 x (2 ^ a) < x + 2 ^ a.
Proof.
  intros Ha Hx. rewrite round_up_spec by assumption. assert (P : 0 < 2 ^ a) by (apply N.neq_0_lt_0, N.pow_nonzero; discriminate).
  set (A := 2 ^ a) in *. clearbody A. pose proof (N.div_mod (x + A - 1) A ltac:(lia)) as D. pose proof (N.mod_lt (x + A - 1) A ltac:(lia)) as M.
  set (q := (x + A - 1) / A) in *. set (r := (x + A - 1) mod A) in *. clearbody q r. nia.
Qed.

(** ** The invariant *)
Record st_inv (isz cap a : N) (blank : bytes) (s : store) (t : list slot) : Prop := {
  iv_isz : st_isz s = isz;
  iv_asz : st_asz s = round_up_pow2 isz (2 ^ a);
  iv_cap : st_cap s = cap;
  iv_align : st_align s = 2 ^ a;
  iv_pos : st_pos s = N.of_nat (length t);
  iv_le : N.of_nat (length t) <= cap;
  iv_data : N.of_nat (length (st_data s)) = st_asz s * cap;
  iv_bitmap : N.of_nat (length (st_bitmap s)) = round_up_pow2 ((cap + 8 - 1) / 8) (2 ^ a);
  iv_bits : forall id, id < cap -> bm_bit (st_bitmap s) id = live t id;
  iv_get : forall id b, id < cap -> nth_error t (N.to_nat id) = Some (Live b) -> read_at (st_data s) (id * st_asz s) isz = Ok b;
  iv_blank : forall id, N.of_nat (length t) <= id -> id < cap -> read_at (st_data s) (id * st_asz s) isz = Ok blank;
}.
Section Store.
Variables (w isz cap a fill : N).
Hypothesis SZ : sizes_ok w isz cap a.
Notation blank := (repeat fill (N.to_nat isz)).
Notation inv := (st_inv isz cap a blank).

Lemma sz_facts : isz <= round_up_pow2 isz (2 ^ a) /\ round_up_pow2 isz (2 ^ a) * cap < 2 ^ 64 /\ (cap + 8 - 1) / 8 <= round_up_pow2 ((cap + 8 - 1) / 8) (2 ^ a)
  /\ cap < 2 ^ 64 /\ round_up_pow2 isz (2 ^ a) < 2 ^ 64 /\ isz < 2 ^ 32 /\ 2 ^ a < 2 ^ 64.
Proof.
  destruct SZ as (Hw & Hc & Ha & Hi & Ht).
  assert (C64 : cap < 2 ^ 64) by (apply N.lt_le_trans with (2 ^ w); [assumption|apply N.pow_le_mono_r; [discriminate|assumption]]).
  assert (A64 : 2 ^ a <= 2 ^ 12) by (apply N.pow_le_mono_r; [discriminate|assumption]).
  change (2 ^ 64) with 18446744073709551616 in *. change (2 ^ 32) with 4294967296 in *. change (2 ^ 12) with 4096 in *.
  destruct (round_up_bounds isz a Ha) as [B1 B2]; [change (2 ^ 62) with 4611686018427387904; lia|].
  destruct (round_up_bounds ((cap + 8 - 1) / 8) a Ha) as [B3 B4]; [change (2 ^ 62) with 4611686018427387904; lia|].
  split; [assumption|]. split; [nia|]. split; [assumption|]. split; [assumption|]. split; [lia|]. split; [assumption|]. lia.
Qed.
Lemma in_slot id : id < cap -> id * round_up_pow2 isz (2 ^ a) + isz <= round_up_pow2 isz (2 ^ a) * cap.
Proof. pose proof sz_facts as F. intros H. nia. Qed.
Lemma slot_off_ok s t id : inv s t -> id < cap -> slot_off s id = id * st_asz s.
Proof.
  intros I H. unfold slot_off. apply N.mod_small. rewrite (iv_asz _ _ _ _ _ _ I). pose proof sz_facts as F. pose proof (in_slot id H). lia.
Qed.
Lemma bm_covers s t id : inv s t -> id < cap -> id / 8 < N.of_nat (length (st_bitmap s)).
Proof. intros I H. rewrite (iv_bitmap _ _ _ _ _ _ I). pose proof sz_facts as F. assert (id / 8 < (cap + 8 - 1) / 8) by (zify; lia). lia. Qed.
Lemma valid_ok s t id : inv s t -> id < cap -> st_valid s id = Ok (live t id).
Proof.
  intros I H. unfold st_valid. rewrite (aget_nth _ _ 0) by (eapply bm_covers; eauto). cbn [bind]. rewrite land_pow, negb_involutive.
  f_equal. now apply (iv_bits _ _ _ _ _ _ I).
Qed.
Lemma get_ok s t id b : inv s t -> id < cap -> nth_error t (N.to_nat id) = Some (Live b) -> st_get s id = Ok b.
Proof. intros I H E. unfold st_get. rewrite (slot_off_ok s t) by assumption. rewrite (iv_isz _ _ _ _ _ _ I). eapply iv_get; eauto. Qed.

Lemma set_bit_ok s p : p / 8 < N.of_nat (length (st_bitmap s)) ->
  exists bm, set_bit s p = Ok (with_bitmap s bm) /\ length bm = length (st_bitmap s) /\ forall q, bm_bit bm q = N.eqb p q || bm_bit (st_bitmap s) q.
Proof.
  intros H. unfold set_bit. rewrite (aget_nth _ _ 0) by assumption. cbn [bind]. rewrite aput_ok by assumption. cbn [bind].
  eexists. split; [reflexivity|]. split; [apply upd_length|]. intros q. now apply bm_bit_set.
Qed.
Lemma clear_bit_ok s p : p / 8 < N.of_nat (length (st_bitmap s)) ->
  exists bm, clear_bit s p = Ok (with_bitmap s bm) /\ length bm = length (st_bitmap s) /\ forall q, bm_bit bm q = negb (N.eqb p q) && bm_bit (st_bitmap s) q.
Proof.
  intros H. unfold clear_bit. rewrite (aget_nth _ _ 0) by assumption. cbn [bind]. rewrite aput_ok by assumption. cbn [bind].
  eexists. split; [reflexivity|]. split; [apply upd_length|]. intros q. now apply bm_bit_clear.
Qed.

Lemma init_inv : inv (st_init isz cap fill (2 ^ a)) [].
Proof.
  pose proof sz_facts as F. constructor; cbn [st_init st_isz st_asz st_cap st_pos st_align st_data st_bitmap length]; auto; try lia.
  - rewrite repeat_length. lia.
  - rewrite repeat_length. lia.
  - intros id _. unfold bm_bit, live. replace (nth_error [] (N.to_nat id)) with (@None slot) by now destruct (N.to_nat id).
    set (n := N.to_nat (round_up_pow2 _ _)). clearbody n. assert (E : nth (N.to_nat (id / 8)) (repeat 0 n) 0 = 0).
    { destruct (Nat.ltb_spec (N.to_nat (id / 8)) n); [apply nth_repeat|apply nth_overflow; rewrite repeat_length; lia]. }
    rewrite E. apply N.bits_0.
  - intros id b _ E. now destruct (N.to_nat id).
  - intros id _ H. pose proof (in_slot id H). rewrite read_ok by (rewrite repeat_length; lia). f_equal.
    set (A := round_up_pow2 isz (2 ^ a)) in *.
    replace (N.to_nat (A * cap)) with (N.to_nat (id * A) + (N.to_nat isz + (N.to_nat (A * cap) - N.to_nat (id * A) - N.to_nat isz)))%nat by lia.
    rewrite !repeat_app, skipn_app, skipn_all2, repeat_length by (rewrite repeat_length; lia). rewrite Nat.sub_diag. cbn [app skipn].
    rewrite firstn_app, firstn_all2, repeat_length by (rewrite repeat_length; lia). rewrite Nat.sub_diag. cbn [firstn]. apply app_nil_r.
Qed.
Lemma live_app t x id : live (t ++ [x]) id = (N.eqb (N.of_nat (length t)) id && (match x with Live _ => true | Removed => false end)) || live t id.
Proof.
  unfold live. destruct (Nat.ltb_spec (N.to_nat id) (length t)) as [L|L].
  - rewrite nth_error_app1 by assumption. destruct (N.eqb_spec (N.of_nat (length t)) id); [lia|]. reflexivity.
  - rewrite nth_error_app2 by assumption. rewrite (proj2 (nth_error_None t _)) by lia. rewrite orb_false_r.
    destruct (N.eqb_spec (N.of_nat (length t)) id) as [<-|Ne].
    + replace (N.to_nat (N.of_nat (length t)) - length t)%nat with 0%nat by lia. reflexivity.
    + destruct (N.to_nat id - length t)%nat as [|k] eqn:K; [lia|]. cbn. now destruct k.
Qed.
Lemma nth_app_last {A} (t : list A) x id y : nth_error (t ++ [x]) id = Some y -> (id < length t /\ nth_error t id = Some y)%nat \/ (id = length t /\ y = x).
Proof.
  intros E. destruct (Nat.ltb_spec id (length t)) as [L|L].
  - left. split; [assumption|]. now rewrite nth_error_app1 in E by assumption.
  - right. rewrite nth_error_app2 in E by assumption. destruct (id - length t)%nat as [|k] eqn:K; [|cbn in E; destruct k; discriminate].
    cbn in E. injection E as <-. split; [lia|reflexivity].
Qed.
(** Slots do not overlap. *)
Lemma slots_apart i j : i <> j -> i * round_up_pow2 isz (2 ^ a) + isz <= j * round_up_pow2 isz (2 ^ a) \/ j * round_up_pow2 isz (2 ^ a) + isz <= i * round_up_pow2 isz (2 ^ a).
Proof. intros H. pose proof sz_facts as F. destruct (N.lt_ge_cases i j); [left; nia|right; nia]. Qed.

Lemma insert_ok s t d : inv s t -> N.of_nat (length d) = isz -> N.of_nat (length t) < cap ->
  exists s', st_insert w s d = Ok (N.of_nat (length t), s') /\ inv s' (t ++ [Live d]).
Proof.
  intros I Ld R. destruct SZ as (_ & Hc & _). unfold st_insert. rewrite (iv_cap _ _ _ _ _ _ I), (iv_pos _ _ _ _ _ _ I).
  destruct (N.leb_spec cap (N.of_nat (length t))); [lia|]. rewrite N.mod_small by lia. rewrite (slot_off_ok s t) by assumption.
  pose proof (iv_asz _ _ _ _ _ _ I) as EA. pose proof (iv_data _ _ _ _ _ _ I) as ED. pose proof (in_slot _ R) as B.
  destruct (write_ok (st_data s) (N.of_nat (length t) * st_asz s) d) as (m & -> & Lm & Rm & Om); [rewrite ED, EA, Ld; lia|]. cbn [bind].
  destruct (set_bit_ok (with_data s m) (N.of_nat (length t))) as (bm & -> & Lb & Hb); [cbn; eapply bm_covers; eauto|]. cbn [bind].
  eexists. split; [reflexivity|]. constructor; cbn; try (now apply I).
  - rewrite app_length. cbn [length]. lia.
  - rewrite app_length. cbn [length]. lia.
  - rewrite Lm. apply I.
  - rewrite Lb. apply I.
  - intros id Hid. rewrite Hb, live_app, andb_true_r. f_equal. cbn. now apply (iv_bits _ _ _ _ _ _ I).
  - intros id b Hid E. apply nth_app_last in E as [[L E]|[E Eb]].
    + rewrite Om; [eapply iv_get; eauto|]. rewrite Ld, EA. apply slots_apart. lia.
    + assert (b = d) as -> by congruence. replace id with (N.of_nat (length t)) by lia. now rewrite <- Ld.
  - intros id Hid1 Hid2. rewrite app_length in Hid1. cbn [length] in Hid1. rewrite Om; [apply (iv_blank _ _ _ _ _ _ I); lia|]. rewrite Ld, EA. apply slots_apart. lia.
Qed.
Lemma reserve_ok s t : inv s t -> N.of_nat (length t) < cap ->
  exists s', st_reserve w s = Ok (N.of_nat (length t), s') /\ inv s' (t ++ [Live blank]).
Proof.
  intros I R. destruct SZ as (_ & Hc & _). unfold st_reserve. rewrite (iv_cap _ _ _ _ _ _ I), (iv_pos _ _ _ _ _ _ I).
  destruct (N.leb_spec cap (N.of_nat (length t))); [lia|]. rewrite N.mod_small by lia.
  destruct (set_bit_ok s (N.of_nat (length t))) as (bm & -> & Lb & Hb); [eapply bm_covers; eauto|]. cbn [bind].
  eexists. split; [reflexivity|]. constructor; cbn; try (now apply I).
  - rewrite app_length. cbn [length]. lia.
  - rewrite app_length. cbn [length]. lia.
  - rewrite Lb. apply I.
  - intros id Hid. rewrite Hb, live_app, andb_true_r. f_equal. now apply (iv_bits _ _ _ _ _ _ I).
  - intros id b Hid E. apply nth_app_last in E as [[L E]|[E Eb]].
    + eapply iv_get; eauto.
    + assert (b = blank) as -> by congruence. apply (iv_blank _ _ _ _ _ _ I); lia.
  - intros id Hid1 Hid2. rewrite app_length in Hid1. cbn [length] in Hid1. apply (iv_blank _ _ _ _ _ _ I); lia.
Qed.
Lemma live_upd t i x id : (N.to_nat i < length t)%nat -> live (upd t (N.to_nat i) x) id = if N.eqb i id then match x with Live _ => true | Removed => false end else live t id.
Proof.
  intros H. unfold live. rewrite nth_error_upd by assumption. destruct (Nat.eqb_spec (N.to_nat i) (N.to_nat id)), (N.eqb_spec i id); try lia; reflexivity.
Qed.
Lemma live_some t id : live t id = true -> (N.to_nat id < length t)%nat /\ exists b, nth_error t (N.to_nat id) = Some (Live b).
Proof.
  unfold live. destruct (nth_error t (N.to_nat id)) as [[b|]|] eqn:E; try discriminate. intros _. split; [|eauto]. apply nth_error_Some. congruence.
Qed.
Lemma remove_ok s t id : inv s t -> id < cap ->
  exists s', st_remove w s id = Ok (if live t id then id else no_id w, s') /\ inv s' (if live t id then upd t (N.to_nat id) Removed else t).
Proof.
  intros I H. unfold st_remove. rewrite (valid_ok s t) by assumption. cbn [bind]. destruct (live t id) eqn:Lv; cbn [negb]; [|eauto].
  destruct (live_some _ _ Lv) as (Lt & b & Eb).
  destruct (clear_bit_ok s id) as (bm & -> & Lb & Hb); [eapply bm_covers; eauto|]. cbn [bind]. eexists. split; [reflexivity|].
  constructor; cbn; rewrite ?upd_length; try (now apply I).
  - rewrite Lb. apply I.
  - intros q Hq. rewrite Hb, live_upd by assumption. rewrite (iv_bits _ _ _ _ _ _ I) by assumption. now destruct (N.eqb id q).
  - intros q c Hq E. rewrite nth_error_upd in E by assumption. destruct (Nat.eqb (N.to_nat id) (N.to_nat q)); [discriminate|]. eapply iv_get; eauto.
Qed.
Lemma write_slot_ok s t id d : inv s t -> id < cap -> N.of_nat (length d) = isz -> live t id = true ->
  exists m, write_at (st_data s) (slot_off s id) d = Ok m /\ inv (with_data s m) (upd t (N.to_nat id) (Live d)).
Proof.
  intros I H Ld Lv. destruct (live_some _ _ Lv) as (Lt & b & Eb).
  pose proof (iv_asz _ _ _ _ _ _ I) as EA. pose proof (iv_data _ _ _ _ _ _ I) as ED. pose proof (in_slot _ H) as B.
  rewrite (slot_off_ok s t) by assumption.
  destruct (write_ok (st_data s) (id * st_asz s) d) as (m & -> & Lm & Rm & Om); [rewrite ED, EA, Ld; lia|]. exists m. split; [reflexivity|].
  constructor; cbn; rewrite ?upd_length; try (now apply I).
  - rewrite Lm. apply I.
  - intros q Hq. rewrite live_upd by assumption. rewrite (iv_bits _ _ _ _ _ _ I) by assumption. destruct (N.eqb_spec id q) as [<-|]; auto.
  - intros q c Hq E. rewrite nth_error_upd in E by assumption. destruct (Nat.eqb_spec (N.to_nat id) (N.to_nat q)) as [X|X].
    + injection E as <-. replace q with id by lia. now rewrite <- Ld.
    + rewrite Om; [eapply iv_get; eauto|]. rewrite Ld, EA. apply slots_apart. lia.
  - intros q Hq1 Hq2. rewrite Om; [now apply (iv_blank _ _ _ _ _ _ I)|]. rewrite Ld, EA. apply slots_apart. lia.
Qed.
Lemma update_ok s t id d : inv s t -> id < cap -> N.of_nat (length d) = isz ->
  exists s', st_update w s id d = Ok (if live t id then id else no_id w, s') /\ inv s' (if live t id then upd t (N.to_nat id) (Live d) else t).
Proof.
  intros I H Ld. unfold st_update. rewrite (valid_ok s t) by assumption. cbn [bind]. destruct (live t id) eqn:Lv; cbn [negb]; [|eauto].
  destruct (write_slot_ok s t id d I H Ld Lv) as (m & -> & I'). cbn [bind]. eauto.
Qed.
Lemma take_u64_app x r : x < 2 ^ 64 -> take_u64 (le_enc 8 x ++ r) = Ok (x, r).
Proof. intros H. unfold take_u64. rewrite take_bytes_app by apply le_enc_length. now rewrite le_dec_enc. Qed.
Lemma reload_store s t junk : inv s t -> N.of_nat (length junk) = round_up_pow2 ((cap + 8 - 1) / 8) (2 ^ a) ->
  exists s', st_load junk (st_save s) = Ok (s', []) /\ inv s' t.
Proof.
  intros I Lj. pose proof sz_facts as F. pose proof (iv_data _ _ _ _ _ _ I) as ED. pose proof (iv_bitmap _ _ _ _ _ _ I) as EB.
  pose proof (iv_asz _ _ _ _ _ _ I) as EA. pose proof (iv_le _ _ _ _ _ _ I) as EL. unfold st_load, st_save.
  rewrite (iv_isz _ _ _ _ _ _ I), (iv_cap _ _ _ _ _ _ I), (iv_pos _ _ _ _ _ _ I), (iv_align _ _ _ _ _ _ I), EA.
  set (A := round_up_pow2 isz (2 ^ a)) in *. set (B := round_up_pow2 ((cap + 8 - 1) / 8) (2 ^ a)) in *.
  change (2 ^ 32) with 4294967296 in F. change (2 ^ 64) with 18446744073709551616 in *.
  rewrite take_u64_app by (change (2 ^ 64) with 18446744073709551616; lia). cbn [bind].
  rewrite take_u64_app by (change (2 ^ 64) with 18446744073709551616; lia). cbn [bind].
  rewrite take_u64_app by (change (2 ^ 64) with 18446744073709551616; lia). cbn [bind].
  rewrite take_u64_app by (change (2 ^ 64) with 18446744073709551616; lia). cbn [bind].
  rewrite take_u64_app by (change (2 ^ 64) with 18446744073709551616; lia). cbn [bind].
  rewrite N.mod_small by lia. unfold take_n at 1. rewrite take_bytes_app by lia. cbn [bind].
  set (k := (cap + 8 - 1) / 8) in *. assert (Lf : length (firstn (N.to_nat k) (st_bitmap s)) = N.to_nat k) by (rewrite firstn_length; lia).
  unfold take_n. rewrite <- (app_nil_r (firstn _ _)), take_bytes_app by assumption. cbn [bind]. rewrite Lf.
  fold B. destruct (N.ltb_spec B (N.of_nat (N.to_nat k))) as [X|_]; [lia|]. eexists. split; [reflexivity|].
  constructor; cbn [st_isz st_asz st_cap st_pos st_align st_data st_bitmap]; auto; try lia.
  - fold k B. rewrite app_length, Lf, firstn_length. lia.
  - intros id Hid. rewrite <- (iv_bits _ _ _ _ _ _ I id Hid). unfold bm_bit. assert (id / 8 < k) by (unfold k; zify; lia).
    rewrite app_nth1 by lia. f_equal. rewrite <- (firstn_skipn (N.to_nat k) (st_bitmap s)) at 2. now rewrite app_nth1 by lia.
  - intros id b H E. rewrite <- EA. eapply iv_get; eauto.
  - intros id H1 H2. rewrite <- EA. now apply (iv_blank _ _ _ _ _ _ I).
Qed.
Lemma step_ok s t o : inv s t -> st_op_ok isz cap a o ->
  exists s', st_step w s o = Ok (id_of w (fst (tab_step cap blank t o)), s') /\ inv s' (snd (tab_step cap blank t o)).
Proof.
  intros I Ho. destruct o as [d| |id|id d|junk]; cbn [st_step tab_step st_op_ok] in *.
  - destruct (N.leb_spec cap (N.of_nat (length t))) as [L|L]; cbn [fst snd id_of].
    + exists s. split; [|assumption]. unfold st_insert. rewrite (iv_cap _ _ _ _ _ _ I), (iv_pos _ _ _ _ _ _ I). destruct (N.leb_spec cap (N.of_nat (length t))); [reflexivity|lia].
    + now apply insert_ok.
  - destruct (N.leb_spec cap (N.of_nat (length t))) as [L|L]; cbn [fst snd id_of].
    + exists s. split; [|assumption]. unfold st_reserve. rewrite (iv_cap _ _ _ _ _ _ I), (iv_pos _ _ _ _ _ _ I). destruct (N.leb_spec cap (N.of_nat (length t))); [reflexivity|lia].
    + now apply reserve_ok.
  - destruct (remove_ok s t id I Ho) as (s' & E & I'). exists s'. unfold live in *. destruct (nth_error t (N.to_nat id)) as [[b|]|]; auto.
  - destruct Ho as [H1 H2]. destruct (update_ok s t id d I H1 H2) as (s' & E & I'). exists s'. unfold live in *. destruct (nth_error t (N.to_nat id)) as [[b|]|]; auto.
  - destruct (reload_store s t junk I Ho) as (s' & E & I'). exists s'. rewrite E. auto.
Qed.
Lemma run_ok ops : forall s t, inv s t -> Forall (st_op_ok isz cap a) ops ->
  exists s', st_run w s ops = Ok (map (id_of w) (fst (tab_run cap blank t ops)), s') /\ inv s' (snd (tab_run cap blank t ops)).
Proof.
  induction ops as [|o ops IH]; intros s t I F; [exists s; split; [reflexivity|assumption]|]. inversion_clear F as [|? ? Ho Fo].
  cbn [st_run tab_run]. destruct (step_ok s t o I Ho) as (s1 & -> & I1). cbn [bind]. destruct (tab_step cap blank t o) as [x t1]. cbn [fst snd] in *.
  destruct (IH s1 t1 I1 Fo) as (s2 & -> & I2). cbn [bind]. destruct (tab_run cap blank t1 ops) as [xs t2]. exists s2. split; [reflexivity|assumption].
Qed.
(** Slots are handed out in order. *)
Lemma step_len t o : length (snd (tab_step cap blank t o)) = length t \/
  (length (snd (tab_step cap blank t o)) = S (length t) /\ fst (tab_step cap blank t o) = Some (N.of_nat (length t)) /\ N.of_nat (length t) < cap).
Proof.
  destruct o as [d| |id|id d|junk]; cbn [tab_step].
  - destruct (N.leb_spec cap (N.of_nat (length t))); cbn [fst snd]; rewrite ?app_length; cbn [length]; [auto|right; split; [lia|auto]].
  - destruct (N.leb_spec cap (N.of_nat (length t))); cbn [fst snd]; rewrite ?app_length; cbn [length]; [auto|right; split; [lia|auto]].
  - left. destruct (nth_error t (N.to_nat id)) as [[b|]|]; cbn [snd]; rewrite ?upd_length; reflexivity.
  - left. destruct (nth_error t (N.to_nat id)) as [[b|]|]; cbn [snd]; rewrite ?upd_length; reflexivity.
  - now left.
Qed.
Lemma handed_range ops : forall t, N.of_nat (length t) <= cap ->
  let h := handed_out w ops (map (id_of w) (fst (tab_run cap blank t ops))) in
  NoDup h /\ forall x, In x h -> N.of_nat (length t) <= x < cap.
Proof.
  destruct SZ as (_ & Hc & _). induction ops as [|o ops IH]; intros t Ht; cbn [tab_run]; [split; [constructor|intros x []]|].
  pose proof (step_len t o) as SL.
  destruct (tab_step cap blank t o) as [x t1] eqn:Es. cbn [fst snd] in SL. specialize (IH t1). destruct (tab_run cap blank t1 ops) as [xs t2]. cbn [fst] in *.
  assert (Ht1 : N.of_nat (length t1) <= cap) by (destruct SL as [SL|(SL & _ & SL3)]; lia). specialize (IH Ht1). cbn [map handed_out]. destruct IH as [ND R].
  assert (R' : forall y, In y (handed_out w ops (map (id_of w) xs)) -> N.of_nat (length t) <= y < cap) by (intros y Hy; specialize (R y Hy); destruct SL as [SL|(SL & _)]; lia).
  destruct o as [d| |id|id d|junk]; try (split; assumption);
  (unfold tab_step in Es; destruct (N.leb_spec cap (N.of_nat (length t))) as [L|L]; injection Es as <- <-; cbn [id_of];
   [rewrite N.eqb_refl; split; assumption|]; destruct (N.eqb_spec (N.of_nat (length t)) (no_id w)) as [X|_]; [unfold no_id in X; lia|];
   cbn [app]; split;
   [constructor; [intros Hy; specialize (R _ Hy); rewrite app_length in R; cbn [length] in R; lia|assumption]
   |intros y [<-|Hy]; [lia|auto]]).
Qed.
End Store.

(** ** The counters of a space *)
Definition is_live (x : slot) : bool := match x with Live _ => true | Removed => false end.
Lemma available_app t x : available (t ++ [x]) = available t + (if is_live x then 1 else 0).
Proof. unfold available. rewrite filter_app, app_length. destruct x; cbn [filter length is_live]; lia. Qed.
Lemma available_le t : available t <= N.of_nat (length t).
Proof. unfold available. induction t as [|x t IH]; cbn [filter length]; [lia|]. destruct x; cbn [length]; lia. Qed.
Lemma available_remove t : forall i b, nth_error t i = Some (Live b) -> available (upd t i Removed) + 1 = available t.
Proof.
  induction t as [|x t IH]; intros [|i] b E; try discriminate.
  - cbn in E. injection E as ->. unfold available. cbn [upd filter length]. lia.
  - cbn [nth_error] in E. specialize (IH i b E). unfold available in *. cbn [upd filter]. destruct x; cbn [length]; lia.
Qed.
Lemma upd_last {A} (t : list A) x y : upd (t ++ [x]) (length t) y = t ++ [y].
Proof. induction t as [|z t IH]; cbn; [reflexivity|now rewrite IH]. Qed.
Record sp_inv (isz cap : N) (sp : space) (t : list slot) : Prop := {
  pv_store : st_inv isz cap 6 (repeat 0 (N.to_nat isz)) (sp_store sp) t;
  pv_items : sp_items sp = N.of_nat (length t);
  pv_deleted : sp_deleted sp + available t = N.of_nat (length t);
}.
Section Space.
Variables (w isz cap : N).
Hypothesis SZ : sizes_ok w isz cap 6.
Lemma sp_new_inv : sp_inv isz cap (sp_new isz cap) [].
Proof. constructor; [apply (init_inv w isz cap 6 0 SZ)|reflexivity|reflexivity]. Qed.
Lemma available_ok sp t : sp_inv isz cap sp t -> sp_available w sp = available t.
Proof.
  intros I. unfold sp_available. pose proof (available_le t). pose proof (pv_deleted _ _ _ _ I). pose proof (iv_le _ _ _ _ _ _ (pv_store _ _ _ _ I)).
  destruct SZ as (_ & Hc & _). rewrite (pv_items _ _ _ _ I).
  replace (2 ^ w + N.of_nat (length t) - sp_deleted sp) with (available t + 1 * 2 ^ w) by lia. rewrite N.mod_add by lia. apply N.mod_small. lia.
Qed.
Lemma raw_insert_ok sp t d : sp_inv isz cap sp t -> N.of_nat (length d) = isz -> N.of_nat (length t) < cap ->
  exists sp', raw_insert w sp d = Ok (N.of_nat (length t), sp') /\ sp_inv isz cap sp' (t ++ [Live d]).
Proof.
  intros I Ld R. destruct (insert_ok w isz cap 6 0 SZ (sp_store sp) t d (pv_store _ _ _ _ I) Ld R) as (s' & E & I'). unfold raw_insert. rewrite E. cbn [bind].
  eexists. split; [reflexivity|]. destruct SZ as (_ & Hc & _). constructor; cbn [sp_store sp_items sp_deleted]; [assumption| |].
  - rewrite (pv_items _ _ _ _ I), app_length. cbn [length]. rewrite N.mod_small; lia.
  - rewrite available_app, app_length. cbn [length is_live]. pose proof (pv_deleted _ _ _ _ I). lia.
Qed.
Lemma sq8_insert_ok sp t d : sp_inv isz cap sp t -> N.of_nat (length d) = isz ->
  exists sp', sq8_insert w sp d = Ok (id_of w (fst (tab_step cap [] t (Insert d))), sp') /\ sp_inv isz cap sp' (snd (tab_step cap [] t (Insert d))).
Proof.
  intros I Ld. unfold sq8_insert. cbn [tab_step].
  destruct (N.leb_spec cap (N.of_nat (length t))) as [L|L]; cbn [fst snd id_of].
  - unfold st_reserve. rewrite (iv_cap _ _ _ _ _ _ (pv_store _ _ _ _ I)), (iv_pos _ _ _ _ _ _ (pv_store _ _ _ _ I)).
    destruct (N.leb_spec cap (N.of_nat (length t))); [|lia]. cbn [bind]. rewrite N.eqb_refl. eexists. split; [reflexivity|]. destruct I. constructor; auto.
  - destruct (reserve_ok w isz cap 6 0 SZ (sp_store sp) t (pv_store _ _ _ _ I) L) as (s' & E & I'). rewrite E. cbn [bind].
    pose proof SZ as SZ'. destruct SZ' as (_ & Hc & _). destruct (N.eqb_spec (N.of_nat (length t)) (no_id w)) as [X|_]; [unfold no_id in X; lia|].
    destruct (write_slot_ok w isz cap 6 0 SZ s' _ (N.of_nat (length t)) d I' L Ld) as (m & -> & I2).
    { rewrite live_app, N.eqb_refl. reflexivity. }
    cbn [bind]. rewrite Nat2N.id, upd_last in I2. eexists. split; [reflexivity|]. constructor; cbn [sp_store sp_items sp_deleted]; [assumption| |].
    + rewrite (pv_items _ _ _ _ I), app_length. cbn [length]. rewrite N.mod_small; lia.
    + rewrite available_app, app_length. cbn [length is_live]. pose proof (pv_deleted _ _ _ _ I). lia.
Qed.
Lemma sp_remove_ok sp t id : sp_inv isz cap sp t -> id < cap -> live t id = true ->
  exists sp', sp_remove w sp id = Ok (id, sp') /\ sp_inv isz cap sp' (snd (tab_step cap [] t (Remove id))).
Proof.
  intros I H Lv. destruct (remove_ok w isz cap 6 0 SZ (sp_store sp) t id (pv_store _ _ _ _ I) H) as (s' & E & I'). unfold sp_remove. rewrite Lv in *. rewrite E. cbn [bind].
  destruct (live_some _ _ Lv) as (Lt & b & Eb). cbn [tab_step]. rewrite Eb. cbn [snd]. eexists. split; [reflexivity|].
  pose proof (available_remove _ _ _ Eb). pose proof (pv_deleted _ _ _ _ I). pose proof (iv_le _ _ _ _ _ _ (pv_store _ _ _ _ I)). destruct SZ as (_ & Hc & _).
  constructor; cbn [sp_store sp_items sp_deleted]; rewrite ?upd_length; [assumption|now rewrite (pv_items _ _ _ _ I)|]. rewrite N.mod_small; lia.
Qed.
Lemma tab_blank t o b b' : tab_step cap b t (as_st o) = tab_step cap b' t (as_st o).
Proof. now destruct o. Qed.
Lemma raw_run_ok ops : forall sp t, sp_inv isz cap sp t -> Forall (fun o => st_op_ok isz cap 6 (as_st o)) ops ->
  along step_removes_live cap t ops -> along (step_has_room cap) cap t ops ->
  exists sp', sp_run (raw_step w) sp ops = Ok sp' /\ sp_inv isz cap sp' (snd (tab_run cap [] t (map as_st ops))).
Proof.
  induction ops as [|o ops IH]; intros sp t I F A1 A2; [exists sp; auto|]. inversion_clear F as [|? ? Ho Fo]. destruct A1 as [P1 A1], A2 as [P2 A2].
  cbn [sp_run map tab_run].
  assert (S : exists r sp1, raw_step w sp o = Ok (r, sp1) /\ sp_inv isz cap sp1 (snd (tab_step cap [] t (as_st o)))).
  { destruct o as [d|id]; cbn [raw_step as_st st_op_ok step_removes_live step_has_room] in *.
    - destruct (raw_insert_ok sp t d I Ho P2) as (sp1 & E & I1). exists (N.of_nat (length t)), sp1. split; [exact E|]. cbn [tab_step].
      destruct (N.leb_spec cap (N.of_nat (length t))); [lia|exact I1].
    - destruct (sp_remove_ok sp t id I Ho P1) as (sp1 & E & I1). eauto. }
  destruct S as (r & sp1 & -> & I1). cbn [bind]. destruct (IH sp1 _ I1 Fo A1 A2) as (sp2 & -> & I2). exists sp2. split; [reflexivity|].
  destruct (tab_step cap [] t (as_st o)) as [x t1]. cbn [snd] in *. now destruct (tab_run cap [] t1 (map as_st ops)).
Qed.
Lemma sq8_run_ok ops : forall sp t, sp_inv isz cap sp t -> Forall (fun o => st_op_ok isz cap 6 (as_st o)) ops ->
  along step_removes_live cap t ops ->
  exists sp', sp_run (sq8_step w) sp ops = Ok sp' /\ sp_inv isz cap sp' (snd (tab_run cap [] t (map as_st ops))).
Proof.
  induction ops as [|o ops IH]; intros sp t I F A1; [exists sp; auto|]. inversion_clear F as [|? ? Ho Fo]. destruct A1 as [P1 A1].
  cbn [sp_run map tab_run].
  assert (S : exists r sp1, sq8_step w sp o = Ok (r, sp1) /\ sp_inv isz cap sp1 (snd (tab_step cap [] t (as_st o)))).
  { destruct o as [d|id]; cbn [sq8_step as_st st_op_ok step_removes_live] in *.
    - destruct (sq8_insert_ok sp t d I Ho) as (sp1 & E & I1). eauto.
    - destruct (sp_remove_ok sp t id I Ho P1) as (sp1 & E & I1). eauto. }
  destruct S as (r & sp1 & -> & I1). cbn [bind]. destruct (IH sp1 _ I1 Fo A1) as (sp2 & -> & I2). exists sp2. split; [reflexivity|].
  destruct (tab_step cap [] t (as_st o)) as [x t1]. cbn [snd] in *. now destruct (tab_run cap [] t1 (map as_st ops)).
Qed.
End Space.
