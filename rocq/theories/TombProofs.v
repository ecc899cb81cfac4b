(** Proofs about the tombstone bitmap and the slot allocator. *)
From Coq Require Import FinFun.
From Verif Require Import BitsetModel BitsetSpec BitsetProofs TombModel TombSpec.
Local Open Scope N_scope.

(** ** Counting *)
Definition upto (n : N) : list N := map N.of_nat (seq 0 (N.to_nat n)).
Definition card (mem : N -> bool) (n : N) : N := N.of_nat (length (filter mem (upto n))).
Lemma upto_in n p : In p (upto n) <-> p < n.
Proof.
  unfold upto. rewrite in_map_iff. split.
  - intros (k & <- & H). apply in_seq in H. lia.
  - intros H. exists (N.to_nat p). split; [lia|]. apply in_seq. lia.
Qed.
Lemma upto_nodup n : NoDup (upto n).
Proof. unfold upto. apply FinFun.Injective_map_NoDup; [intros x y H; lia|apply seq_NoDup]. Qed.
Lemma filter_ext_len {A} (f g : A -> bool) l : (forall x, In x l -> f x = g x) -> length (filter f l) = length (filter g l).
Proof. intros H. now rewrite (filter_ext_in f g l H). Qed.
Lemma card_ext f g n : (forall p, p < n -> f p = g p) -> card f n = card g n.
Proof. intros H. unfold card. f_equal. apply filter_ext_len. intros x Hx. apply H. now apply upto_in. Qed.
Lemma card_false f n : (forall p, p < n -> f p = false) -> card f n = 0.
Proof.
  intros H. unfold card. assert (E : filter f (upto n) = []); [|now rewrite E]. 
  destruct (filter f (upto n)) as [|x l] eqn:E; auto. assert (X : In x (filter f (upto n))) by (rewrite E; now left).
  apply filter_In in X as [X Y]. rewrite H in Y; [discriminate|now apply upto_in].
Qed.
Lemma len_add (l : list N) (mem : N -> bool) q : NoDup l -> In q l -> mem q = false ->
  length (filter (fun p => N.eqb q p || mem p) l) = S (length (filter mem l)).
Proof.
  intros N H M. induction N as [|x l Hx N IH]; [destruct H|]. cbn [filter]. destruct (N.eqb_spec q x) as [->|Ne].
  - cbn [orb]. rewrite M. cbn [length]. f_equal. apply filter_ext_len. intros y Hy. destruct (N.eqb_spec x y) as [->|]; [contradiction|reflexivity].
  - cbn [orb]. destruct H as [->|H]; [congruence|]. destruct (mem x); cbn [length]; now rewrite IH.
Qed.
Lemma len_del (l : list N) (mem : N -> bool) q : NoDup l -> In q l -> mem q = true ->
  length (filter mem l) = S (length (filter (fun p => negb (N.eqb q p) && mem p) l)).
Proof.
  intros N H M. rewrite <- (len_add l (fun p => negb (N.eqb q p) && mem p) q N H).
  - apply filter_ext_len. intros p _. destruct (N.eqb_spec q p) as [->|]; cbn; auto.
  - now rewrite N.eqb_refl.
Qed.
Lemma card_add mem q n : q < n -> mem q = false -> card (fun p => N.eqb q p || mem p) n = card mem n + 1.
Proof. intros H M. unfold card. rewrite len_add; [lia|apply upto_nodup|now apply upto_in|assumption]. Qed.
Lemma card_del mem q n : q < n -> mem q = true -> card mem n = card (fun p => negb (N.eqb q p) && mem p) n + 1.
Proof. intros H M. unfold card. rewrite (len_del _ _ q); [lia|apply upto_nodup|now apply upto_in|assumption]. Qed.
Lemma upto_split a b : upto (a + b) = upto a ++ map (fun p => a + p) (upto b).
Proof.
  unfold upto. rewrite N2Nat.inj_add, seq_app, map_app. f_equal. rewrite map_map. cbn [Nat.add].
  replace (N.to_nat a) with (N.to_nat a + 0)%nat at 1 by lia. rewrite <- (map_id (seq (N.to_nat a + 0) (N.to_nat b))).
  generalize 0%nat. intros k. revert k. induction (N.to_nat b) as [|n IH]; intros k; cbn [seq map]; [reflexivity|]. f_equal; [lia|].
  replace (S (N.to_nat a + k)) with (N.to_nat a + S k)%nat by lia. apply IH.
Qed.
Lemma filter_map_len {A B} (f : B -> bool) (g : A -> B) l : length (filter f (map g l)) = length (filter (fun x => f (g x)) l).
Proof. induction l as [|x l IH]; cbn; auto. destruct (f (g x)); cbn; auto. Qed.
Lemma card_split mem a b : card mem (a + b) = card mem a + card (fun p => mem (a + p)) b.
Proof. unfold card. rewrite upto_split, filter_app, app_length, filter_map_len. lia. Qed.
Lemma card_grow mem a b : a <= b -> (forall p, a <= p -> p < b -> mem p = false) -> card mem b = card mem a.
Proof.
  intros H Z. replace b with (a + (b - a)) by lia. rewrite card_split. rewrite (card_false (fun p => mem (a + p))); [lia|].
  intros p Hp. apply Z; lia.
Qed.
Lemma filter_len {A} (f : A -> bool) l : (length (filter f l) <= length l)%nat.
Proof. induction l as [|x l IH]; cbn; [lia|]. destruct (f x); cbn; lia. Qed.
Lemma card_le mem n : card mem n <= n.
Proof.
  unfold card. pose proof (filter_len mem (upto n)) as H. unfold upto in H at 2. rewrite map_length, seq_length in H. lia.
Qed.
Lemma card_cardinality mem n : (forall p, mem p = true -> p < n) -> cardinality mem (card mem n).
Proof.
  intros H. exists (filter mem (upto n)). split; [apply NoDup_filter, upto_nodup|]. split; [|reflexivity].
  intros p. rewrite filter_In, upto_in. split; [tauto|]. auto.
Qed.
Lemma popcount_card w : popcount w = card (N.testbit w) 64.
Proof. unfold popcount, card. rewrite <- (filter_map_len (N.testbit w) N.of_nat). reflexivity. Qed.
Lemma popcounts_card ws : fold_right N.add 0 (map popcount ws) = card (bit ws) (64 * N.of_nat (length ws)).
Proof.
  induction ws as [|w ws IH]; [reflexivity|]. cbn [map fold_right]. rewrite IH, popcount_card.
  replace (64 * N.of_nat (length (w :: ws))) with (64 + 64 * N.of_nat (length ws)) by (cbn [length]; lia). rewrite card_split. apply (f_equal2 N.add).
  - apply card_ext. intros p Hp. unfold bit. rewrite N.div_small, N.mod_small by assumption. reflexivity.
  - apply card_ext. intros p Hp. unfold bit. replace ((64 + p) / 64) with (1 + p / 64) by lia. replace ((64 + p) mod 64) with (p mod 64) by lia.
    rewrite N2Nat.inj_add. reflexivity.
Qed.

(** ** The bitmap's invariant *)
Definition tbit (t : tomb) (p : N) : bool :=
  match tb_table t (p / 65536) with None => false | Some ws => bit ws (p mod 65536) end.
Record tomb_inv (t : tomb) (mem : N -> bool) : Prop := {
  ti_mod : tb_bits t mod 65536 = 0;
  ti_max : tb_bits t <= 2 ^ 32;
  ti_chunk : forall c ws, tb_table t c = Some ws ->
    c < 65536 /\ length ws = 1024%nat /\ words ws /\ (c + 1) * 65536 <= tb_bits t;
  ti_bit : forall p, tbit t p = mem p;
  ti_count : tb_count t = card mem (tb_bits t);
}.
Lemma inv_below t mem p : tomb_inv t mem -> mem p = true -> p < tb_bits t.
Proof.
  intros I H. rewrite <- (ti_bit _ _ I) in H. unfold tbit in H. destruct (tb_table t (p / 65536)) eqn:E; [|discriminate].
  apply (ti_chunk _ _ I) in E. lia.
Qed.
Lemma inv_ext t m1 m2 : tomb_inv t m1 -> (forall p, m2 p = m1 p) -> tomb_inv t m2.
Proof.
  intros [A B C D E] X. constructor; auto.
  - intros p. rewrite X. auto.
  - rewrite E. apply card_ext. intros p _. now rewrite X.
Qed.
Lemma chunk_of id : N.shiftr id 16 = id / 65536.
Proof. now rewrite N.shiftr_div_pow2. Qed.
Lemma word_in_spec id : word_in id = (id mod 65536) / 64.
Proof.
  unfold word_in. rewrite N.shiftr_div_pow2. change (2 ^ 6) with 64. change (kChunkWords - 1) with (N.ones 10). rewrite N.land_ones.
  change (2 ^ 10) with 1024. lia.
Qed.
Lemma mask_in_spec id : mask_of id = 2 ^ ((id mod 65536) mod 64).
Proof. rewrite mask_pow. f_equal. lia. Qed.
Lemma covers_chunk ws id : length ws = 1024%nat -> covers ws (id mod 65536).
Proof. intros L. unfold covers. rewrite L. lia. Qed.
Lemma fresh_len : length fresh_chunk = 1024%nat.
Proof. unfold fresh_chunk. rewrite repeat_length. reflexivity. Qed.
Lemma fresh_words : words fresh_chunk.
Proof. unfold words, fresh_chunk. apply Forall_forall. intros x Hx. apply repeat_spec in Hx. subst. reflexivity. Qed.
Lemma fresh_bit p : bit fresh_chunk p = false.
Proof.
  unfold bit, fresh_chunk. assert (E : forall k i, nth i (repeat 0 k) 0 = 0) by (clear; induction k; intros [|i]; cbn; auto).
  rewrite E. apply N.bits_0.
Qed.

Lemma tb_empty_inv : tomb_inv tb_empty (fun _ => false).
Proof. constructor; cbn; auto; try lia; try discriminate. Qed.
Lemma chunk_grow_ok t mem id : tomb_inv t mem -> id < 2 ^ 32 ->
  exists ws t', chunk_grow t id = Ok (ws, t') /\ tomb_inv t' mem /\ tb_table t' (id / 65536) = Some ws
    /\ (forall d, d <> id / 65536 -> tb_table t' d = tb_table t d)
    /\ (tb_table t (id / 65536) = None -> ws = fresh_chunk)
    /\ tb_bits t' = N.max (tb_bits t) ((id / 65536 + 1) * 65536).
Proof.
  intros I H. unfold chunk_grow. rewrite chunk_of. destruct (N.leb_spec kMaxChunks (id / 65536)) as [L|L]; [unfold kMaxChunks in L; lia|]. change kMaxChunks with 65536 in L.
  destruct (tb_table t (id / 65536)) as [ws|] eqn:E.
  - exists ws, t. split; [reflexivity|]. split; [assumption|]. split; [assumption|]. split; [reflexivity|]. split; [discriminate|].
    apply (ti_chunk _ _ I) in E. lia.
  - exists fresh_chunk. eexists. split; [reflexivity|]. unfold bump_capacity, table_put. cbn [tb_table tb_bits tb_count].
    change kChunkBits with 65536. split; [|split; [now rewrite N.eqb_refl|split; [intros d Hd; now destruct (N.eqb_spec d (id / 65536))|split; reflexivity]]].
    constructor; cbn [tb_table tb_bits tb_count].
    + pose proof (ti_mod _ _ I). set (q := id / 65536) in *. destruct (N.max_spec (tb_bits t) ((q + 1) * 65536)) as [[_ ->]|[_ ->]]; lia.
    + pose proof (ti_max _ _ I). change (2 ^ 32) with 4294967296 in *. lia.
    + intros c ws. destruct (N.eqb_spec c (id / 65536)) as [->|Ne].
      * intros X. injection X as <-. split; [assumption|]. split; [apply fresh_len|]. split; [apply fresh_words|lia].
      * intros X. apply (ti_chunk _ _ I) in X as (X1 & X2 & X3 & X4). repeat (split; [assumption|]). lia.
    + intros p. rewrite <- (ti_bit _ _ I p). unfold tbit. cbn [tb_table]. destruct (N.eqb_spec (p / 65536) (id / 65536)) as [->|Ne]; [|reflexivity].
      rewrite E. apply fresh_bit.
    + rewrite (ti_count _ _ I). symmetry. apply card_grow; [lia|]. intros p Hp _. destruct (mem p) eqn:M; auto. apply (inv_below _ _ _ I) in M. lia.
Qed.
Lemma count64 t mem : tomb_inv t mem -> tb_count t <= 2 ^ 32.
Proof. intros I. rewrite (ti_count _ _ I). pose proof (card_le mem (tb_bits t)). pose proof (ti_max _ _ I). lia. Qed.

Lemma tb_set_ok t mem id : tomb_inv t mem -> id < 2 ^ 32 ->
  exists t', tb_set t id = Ok t' /\ tomb_inv t' (fun p => N.eqb id p || mem p).
Proof.
  intros I H. unfold tb_set. destruct (chunk_grow_ok t mem id I H) as (ws & t1 & -> & I1 & E1 & _ & _ & _). cbn [bind].
  pose proof (ti_chunk _ _ I1 _ _ E1) as (Hc & Hl & Hw & Hb).
  rewrite word_in_spec, mask_in_spec, chunk_of. pose proof (covers_chunk ws id Hl) as Cv.
  rewrite (aget_nth ws _ 0) by exact Cv. cbn [bind].
  destruct (or_word_spec ws (id mod 65536) Cv) as (ws' & -> & Lw & Ww & Bw). cbn [bind].
  pose proof (mask_bit (nth (N.to_nat ((id mod 65536) / 64)) ws 0) ((id mod 65536) mod 64)) as MB. fold (bit ws (id mod 65536)) in MB.
  assert (TB : bit ws (id mod 65536) = mem id). { rewrite <- (ti_bit _ _ I1 id). unfold tbit. now rewrite E1. }
  set (z := N.eqb (N.land _ _) 0) in *.
  eexists. split; [reflexivity|].
  assert (TT : tb_table (if z then with_count (table_put t1 (id / 65536) ws') ((tb_count (table_put t1 (id / 65536) ws') + 1) mod 2 ^ 64) else table_put t1 (id / 65536) ws')
    = fun d => if N.eqb d (id / 65536) then Some ws' else tb_table t1 d) by (now destruct z).
  assert (TBs : tb_bits (if z then with_count (table_put t1 (id / 65536) ws') ((tb_count (table_put t1 (id / 65536) ws') + 1) mod 2 ^ 64) else table_put t1 (id / 65536) ws')
    = tb_bits t1) by (now destruct z).
  assert (Hid : id < tb_bits t1) by lia.
  constructor; rewrite ?TBs; try apply I1.
  - rewrite TT. intros c x. destruct (N.eqb_spec c (id / 65536)) as [->|Ne]; [|apply I1]. intros X. injection X as <-. rewrite Lw. auto.
  - intros p. unfold tbit. rewrite TT. destruct (N.eqb_spec (p / 65536) (id / 65536)) as [Ep|Ne].
    + rewrite Bw. rewrite <- (ti_bit _ _ I1 p). unfold tbit. rewrite Ep, E1. f_equal.
      destruct (N.eqb_spec (id mod 65536) (p mod 65536)) as [Em|Em], (N.eqb_spec id p) as [Ei|Ei]; auto; exfalso; [lia|congruence].
    + fold (tbit t1 p). rewrite (ti_bit _ _ I1). destruct (N.eqb_spec id p) as [->|]; [contradiction|reflexivity].
  - rewrite TB in MB. destruct z; cbn [negb] in MB.
    + cbn [with_count tb_count table_put]. pose proof (count64 _ _ I1). rewrite N.mod_small by lia. rewrite (ti_count _ _ I1).
      symmetry. now apply card_add.
    + cbn [tb_count table_put]. rewrite (ti_count _ _ I1). apply card_ext. intros p _. destruct (N.eqb_spec id p) as [->|]; auto.
Qed.
Lemma tb_clear_ok t mem id : tomb_inv t mem ->
  exists t', tb_clear t id = Ok t' /\ tomb_inv t' (fun p => negb (N.eqb id p) && mem p).
Proof.
  intros I. unfold tb_clear, chunk_at. rewrite chunk_of.
  assert (Absent : tb_table t (id / 65536) = None -> tomb_inv t (fun p => negb (N.eqb id p) && mem p)).
  { intros E. apply (inv_ext _ _ _ I). intros p. destruct (N.eqb_spec id p) as [->|]; [|reflexivity]. cbn.
    rewrite <- (ti_bit _ _ I p). unfold tbit. now rewrite E. }
  destruct (N.leb_spec kMaxChunks (id / 65536)) as [L|L].
  { exists t. split; [reflexivity|]. apply Absent. destruct (tb_table t (id / 65536)) eqn:E; auto. apply (ti_chunk _ _ I) in E. unfold kMaxChunks in L. lia. }
  destruct (tb_table t (id / 65536)) as [ws|] eqn:E1; [|exists t; auto].
  pose proof (ti_chunk _ _ I _ _ E1) as (Hc & Hl & Hw & Hb).
  rewrite word_in_spec, mask_in_spec. pose proof (covers_chunk ws id Hl) as Cv.
  rewrite (aget_nth ws _ 0) by exact Cv. cbn [bind].
  destruct (andn_word_spec ws (id mod 65536) Cv) as (ws' & -> & Lw & Ww & Bw). cbn [bind].
  pose proof (mask_bit (nth (N.to_nat ((id mod 65536) / 64)) ws 0) ((id mod 65536) mod 64)) as MB. fold (bit ws (id mod 65536)) in MB.
  assert (TB : bit ws (id mod 65536) = mem id). { rewrite <- (ti_bit _ _ I id). unfold tbit. now rewrite E1. }
  set (z := N.eqb (N.land _ _) 0) in *.
  eexists. split; [reflexivity|].
  set (t2 := table_put t (id / 65536) ws').
  assert (TT : tb_table (if z then t2 else with_count t2 ((2 ^ 64 + tb_count t2 - 1) mod 2 ^ 64))
    = fun d => if N.eqb d (id / 65536) then Some ws' else tb_table t d) by (now destruct z).
  assert (TBs : tb_bits (if z then t2 else with_count t2 ((2 ^ 64 + tb_count t2 - 1) mod 2 ^ 64)) = tb_bits t) by (now destruct z).
  assert (Hid : id < tb_bits t) by lia.
  constructor; rewrite ?TBs; try apply I.
  - rewrite TT. intros c x. destruct (N.eqb_spec c (id / 65536)) as [->|Ne]; [|apply I]. intros X. injection X as <-. rewrite Lw. auto.
  - intros p. unfold tbit. rewrite TT. destruct (N.eqb_spec (p / 65536) (id / 65536)) as [Ep|Ne].
    + rewrite Bw. rewrite <- (ti_bit _ _ I p). unfold tbit. rewrite Ep, E1. f_equal. f_equal.
      destruct (N.eqb_spec (id mod 65536) (p mod 65536)) as [Em|Em], (N.eqb_spec id p) as [Ei|Ei]; auto; exfalso; [lia|congruence].
    + fold (tbit t p). rewrite (ti_bit _ _ I). destruct (N.eqb_spec id p) as [->|]; [contradiction|reflexivity].
  - rewrite TB in MB. destruct z; cbn [negb] in MB.
    + unfold t2. cbn [tb_count table_put]. rewrite (ti_count _ _ I). apply card_ext. intros p _. destruct (N.eqb_spec id p) as [->|]; auto.
    + cbn [with_count tb_count]. unfold t2. cbn [tb_count table_put]. pose proof (count64 _ _ I) as C64. rewrite (ti_count _ _ I) in *.
      pose proof (card_del mem id (tb_bits t) Hid (eq_sym MB)) as CD. set (a := card mem (tb_bits t)) in *. set (b := card (fun p => negb (N.eqb id p) && mem p) (tb_bits t)) in *.
      clearbody a b. change (2 ^ 64) with 18446744073709551616. change (2 ^ 32) with 4294967296 in C64. lia.
Qed.
Lemma tb_is_deleted_ok t mem id : tomb_inv t mem -> tb_is_deleted t id = Ok (mem id).
Proof.
  intros I. unfold tb_is_deleted, chunk_at. rewrite chunk_of, <- (ti_bit _ _ I id). unfold tbit.
  destruct (N.leb_spec kMaxChunks (id / 65536)) as [L|L].
  { destruct (tb_table t (id / 65536)) eqn:E; auto. apply (ti_chunk _ _ I) in E. unfold kMaxChunks in L. lia. }
  destruct (tb_table t (id / 65536)) as [ws|] eqn:E1; [|reflexivity].
  pose proof (ti_chunk _ _ I _ _ E1) as (Hc & Hl & Hw & Hb). pose proof (covers_chunk ws id Hl) as Cv.
  rewrite word_in_spec, (aget_nth ws _ 0) by exact Cv. cbn [bind]. f_equal. rewrite land63, low_bit. unfold bit. f_equal. lia.
Qed.

(** ** Capacity *)
Lemma grow_loop_ok mem bits : bits <= 2 ^ 32 -> forall fuel t c, (N.to_nat ((bits + 65535) / 65536 - c) < fuel)%nat ->
  tomb_inv t mem -> (forall d, d < c -> tb_table t d <> None) -> (forall d, c <= d -> tb_table t d = None) -> tb_bits t = c * 65536 ->
  c <= (bits + 65535) / 65536 ->
  exists t', grow_loop fuel t c bits = Ok t' /\ tomb_inv t' mem
    /\ (forall d, d < (bits + 65535) / 65536 -> tb_table t' d <> None) /\ (forall d, (bits + 65535) / 65536 <= d -> tb_table t' d = None)
    /\ tb_bits t' = (bits + 65535) / 65536 * 65536.
Proof.
  intros Hb. induction fuel as [|k IH]; intros t c Hf I A N B Hc; [lia|]. cbn [grow_loop]. change kChunkBits with 65536.
  change (2 ^ 32) with 4294967296 in *.
  destruct (N.ltb_spec (c * 65536) bits) as [L|L].
  - destruct (chunk_grow_ok t mem (c * 65536) I) as (ws & t1 & -> & I1 & E1 & O1 & F1 & B1); [change (2 ^ 32) with 4294967296; lia|]. cbn [bind].
    replace (c * 65536 / 65536) with c in * by lia. apply IH; auto.
    + lia.
    + intros d Hd. destruct (N.eq_dec d c) as [->|]; [congruence|]. rewrite O1 by assumption. apply A. lia.
    + intros d Hd. rewrite O1 by lia. apply N. lia.
    + lia.
    + lia.
  - assert (c = (bits + 65535) / 65536) by lia. subst c. exists t. repeat (split; [reflexivity || assumption|]). assumption.
Qed.
Lemma ensure_empty_ok bits : bits <= 2 ^ 32 ->
  exists t, ensure_capacity tb_empty bits = Ok t /\ tomb_inv t (fun _ => false)
    /\ (forall d, d < (bits + 65535) / 65536 -> tb_table t d <> None) /\ (forall d, (bits + 65535) / 65536 <= d -> tb_table t d = None)
    /\ tb_bits t = (bits + 65535) / 65536 * 65536.
Proof.
  intros Hb. unfold ensure_capacity. change (2 ^ 32) with 4294967296 in *. destruct (N.eqb_spec bits 0) as [->|Hz].
  - exists tb_empty. split; [reflexivity|]. split; [apply tb_empty_inv|]. split; [intros d Hd; lia|]. split; reflexivity.
  - destruct (grow_loop_ok (fun _ => false) bits Hb (N.to_nat (kMaxChunks + 2)) tb_empty 0) as (t & -> & I & A & N & B); auto; try lia.
    { change (kMaxChunks + 2) with 65538. lia. }
    { apply tb_empty_inv. }
    cbn [bind]. change kChunkBits with 65536. rewrite N.mod_small by (change (2 ^ 64) with 18446744073709551616; lia).
    replace (bits + 65536 - 1) with (bits + 65535) by lia.
    assert (E : bump_capacity t ((bits + 65535) / 65536 * 65536) = t).
    { unfold bump_capacity. rewrite B, N.max_id. rewrite <- B. now destruct t. }
    rewrite E. exists t. auto.
Qed.

(** ** Snapshots *)
Lemma snap_words_ok t mem : tomb_inv t mem -> forall n w, w + N.of_nat n <= tb_bits t / 64 ->
  exists ws, snap_words n t w = Ok ws /\ length ws = n
    /\ forall i, (i < n)%nat -> nth i ws 0 = match tb_table t ((w + N.of_nat i) / 1024) with None => 0 | Some c => nth (N.to_nat ((w + N.of_nat i) mod 1024)) c 0 end.
Proof.
  intros I. induction n as [|n IH]; intros w H; cbn [snap_words].
  - exists []. split; [reflexivity|]. split; [reflexivity|]. intros i Hi. lia.
  - pose proof (ti_max _ _ I) as M. change (2 ^ 32) with 4294967296 in M. unfold table_at. change kChunkWords with 1024. change kMaxChunks with 65536.
    destruct (N.ltb_spec (w / 1024) 65536) as [_|]; [|lia]. cbn [bind].
    assert (G : (match tb_table t (w / 1024) with None => Ok 0 | Some ws => aget ws (N.land w (1024 - 1)) end)
      = Ok (match tb_table t (w / 1024) with None => 0 | Some c => nth (N.to_nat (w mod 1024)) c 0 end)).
    { destruct (tb_table t (w / 1024)) as [c|] eqn:E; [|reflexivity]. change (1024 - 1) with (N.ones 10). rewrite N.land_ones. change (2 ^ 10) with 1024.
      apply (ti_chunk _ _ I) in E as (_ & L & _). apply aget_nth. rewrite L. lia. }
    rewrite G. cbn [bind]. destruct (IH (w + 1)) as (ws & -> & L & Nth); [lia|]. cbn [bind]. eexists. split; [reflexivity|]. split; [cbn [length]; lia|].
    intros [|i] Hi; cbn [nth]; [now rewrite N.add_0_r|]. rewrite Nth by lia. replace (w + 1 + N.of_nat i) with (w + N.of_nat (S i)) by lia. reflexivity.
Qed.
Lemma snapshot_ok t mem : tomb_inv t mem -> exists s, snapshot t = Ok s /\ forall p, sn_is_deleted s p = Ok (mem p).
Proof.
  intros I. unfold snapshot. destruct (snap_words_ok t mem I (N.to_nat (tb_bits t / 64)) 0) as (ws & -> & L & Nth); [lia|]. cbn [bind].
  eexists. split; [reflexivity|]. intros p. unfold sn_is_deleted. cbn [sn_words sn_bits]. pose proof (ti_mod _ _ I) as Md.
  destruct (N.leb_spec (tb_bits t / 64 * 64) p) as [H|H].
  - destruct (mem p) eqn:E; auto. apply (inv_below _ _ _ I) in E. lia.
  - rewrite N.shiftr_div_pow2. change (2 ^ 6) with 64. rewrite (aget_nth _ _ 0) by (rewrite L; lia). cbn [bind]. f_equal.
    rewrite land63, low_bit, Nth by lia. rewrite <- (ti_bit _ _ I p). unfold tbit, bit.
    replace ((0 + N.of_nat (N.to_nat (p / 64))) / 1024) with (p / 65536) by lia.
    destruct (tb_table t (p / 65536)) as [c|]; [|apply N.bits_0].
    replace ((0 + N.of_nat (N.to_nat (p / 64))) mod 1024) with (p mod 65536 / 64) by lia. f_equal. lia.
Qed.

(** ** Saving and loading the bitmap *)
Lemma words_bytes_len ws : length (words_bytes ws) = (8 * length ws)%nat.
Proof. unfold words_bytes. induction ws as [|w ws IH]; [reflexivity|]. cbn [flat_map]. rewrite app_length, le_enc_length, IH. cbn [length]. lia. Qed.
Lemma bytes_words_enc ws r : words ws -> bytes_words (length ws) (words_bytes ws ++ r) = ws.
Proof.
  intros W. revert r. induction W as [|w ws Hw W IH]; intros r; [reflexivity|]. cbn [length bytes_words words_bytes flat_map]. fold (words_bytes ws).
  rewrite <- app_assoc. rewrite firstn_app, le_enc_length, Nat.sub_diag, firstn_O, app_nil_r, firstn_all2 by (rewrite le_enc_length; lia).
  rewrite skipn_app, le_enc_length, Nat.sub_diag, skipn_all2 by (rewrite le_enc_length; lia). cbn [app skipn]. rewrite IH.
  f_equal. now apply le_dec_enc.
Qed.
Definition chunk_words (t : tomb) (c : N) : list N := match tb_table t c with None => fresh_chunk | Some ws => ws end.
Lemma chunk_words_ok t mem c : tomb_inv t mem -> length (chunk_words t c) = 1024%nat /\ words (chunk_words t c).
Proof.
  intros I. unfold chunk_words. destruct (tb_table t c) eqn:E; [|split; [apply fresh_len|apply fresh_words]].
  apply (ti_chunk _ _ I) in E. tauto.
Qed.
(** The chunks [c], ..., [c + n - 1] in the file. *)
Definition chunks_bytes (t : tomb) (c : N) (n : nat) : bytes := flat_map (fun d => words_bytes (chunk_words t (c + N.of_nat d))) (seq 0 n).
Lemma chunks_bytes_S t c n : chunks_bytes t c (S n) = words_bytes (chunk_words t c) ++ chunks_bytes t (c + 1) n.
Proof.
  unfold chunks_bytes. cbn [seq flat_map]. rewrite N.add_0_r. f_equal. rewrite <- seq_shift, flat_map_concat_map, map_map, <- flat_map_concat_map.
  apply flat_map_ext. intros d. f_equal. f_equal. lia.
Qed.
Lemma ser_chunks_ok t mem : tomb_inv t mem -> forall n c, c + N.of_nat n = tb_bits t / 65536 ->
  ser_chunks n t (c * 1024) (tb_bits t / 64) = Ok (chunks_bytes t c n).
Proof.
  intros I. pose proof (ti_mod _ _ I) as Md. pose proof (ti_max _ _ I) as M. change (2 ^ 32) with 4294967296 in M.
  induction n as [|n IH]; intros c H; [reflexivity|]. cbn [ser_chunks]. change kChunkWords with 1024.
  destruct (N.ltb_spec (c * 1024) (tb_bits t / 64)) as [_|]; [|lia]. unfold table_at. change kMaxChunks with 65536.
  destruct (N.ltb_spec (c * 1024 / 1024) 65536) as [_|]; [|lia]. cbn [bind]. replace (c * 1024 + 1024) with ((c + 1) * 1024) by lia.
  rewrite IH by lia. cbn [bind]. rewrite chunks_bytes_S. replace (c * 1024 / 1024) with c by lia.
  replace (N.min 1024 (tb_bits t / 64 - c * 1024)) with 1024 by lia. f_equal. f_equal. f_equal. unfold chunk_words.
  destruct (tb_table t c) as [ws|] eqn:E; [|reflexivity]. apply (ti_chunk _ _ I) in E as (_ & L & _). apply firstn_all2. lia.
Qed.
Lemma serialize_ok t mem : tomb_inv t mem ->
  tb_serialize t = Ok (le_enc 8 kTombMagic ++ le_enc 8 (tb_bits t / 64) ++ chunks_bytes t 0 (N.to_nat (tb_bits t / 65536))).
Proof.
  intros I. unfold tb_serialize. pose proof (ti_mod _ _ I) as Md. change kChunkWords with 1024.
  replace ((tb_bits t / 64 + 1024 - 1) / 1024) with (tb_bits t / 65536) by lia.
  pose proof (ser_chunks_ok t mem I (N.to_nat (tb_bits t / 65536)) 0) as S. rewrite N.mul_0_l in S. rewrite S by lia. reflexivity.
Qed.

Lemma chunk_card t mem c : tomb_inv t mem -> fold_right N.add 0 (map popcount (chunk_words t c)) = card (fun p => mem (c * 65536 + p)) 65536.
Proof.
  intros I. rewrite popcounts_card. destruct (chunk_words_ok t mem c I) as [-> _]. change (64 * N.of_nat 1024) with 65536. apply card_ext. intros p Hp.
  rewrite <- (ti_bit _ _ I). unfold tbit, chunk_words. replace ((c * 65536 + p) / 65536) with c by lia. replace ((c * 65536 + p) mod 65536) with p by lia.
  destruct (tb_table t c); [reflexivity|]. apply fresh_bit.
Qed.
Lemma chunks_bytes_len t mem : tomb_inv t mem -> forall n c, length (chunks_bytes t c n) = (8 * 1024 * n)%nat.
Proof.
  intros I. induction n as [|n IH]; intros c; [reflexivity|]. rewrite chunks_bytes_S, app_length, IH, words_bytes_len.
  destruct (chunk_words_ok t mem c I) as [-> _]. lia.
Qed.
Lemma deser_chunks_ok t mem C rest : tomb_inv t mem -> C <= 65536 -> C * 65536 = tb_bits t -> forall n c fuel u, (n < fuel)%nat -> c + N.of_nat n = C ->
  (forall d, c <= d -> d < C -> exists ws, tb_table u d = Some ws /\ length ws = 1024%nat) ->
  exists u', deser_chunks fuel u (c * 1024) (C * 1024) (card mem (c * 65536)) (chunks_bytes t c n ++ rest) = Ok (u', card mem (C * 65536), rest)
    /\ tb_bits u' = tb_bits u
    /\ forall d, tb_table u' d = if N.leb c d && N.ltb d C then Some (chunk_words t d) else tb_table u d.
Proof.
  intros I HC HB. induction n as [|n IH]; intros c fuel u Hf Hc Hu; destruct fuel as [|fuel]; try lia; cbn [deser_chunks].
  - assert (c = C) by lia. subst c. rewrite N.ltb_irrefl. exists u. split; [reflexivity|]. split; [reflexivity|].
    intros d. destruct (N.leb_spec C d), (N.ltb_spec d C); try lia; reflexivity.
  - destruct (N.ltb_spec (c * 1024) (C * 1024)) as [_|]; [|lia]. change kChunkWords with 1024.
    replace (N.min 1024 (C * 1024 - c * 1024)) with 1024 by lia. change (1024 * 8) with 8192. rewrite chunks_bytes_S, <- app_assoc.
    destruct (chunk_words_ok t mem c I) as [CL CW].
    rewrite take_bytes_app by (rewrite words_bytes_len, CL; reflexivity).
    assert (BW : bytes_words (N.to_nat 1024) (words_bytes (chunk_words t c)) = chunk_words t c).
    { change (N.to_nat 1024) with 1024%nat. rewrite <- CL at 1. rewrite <- (app_nil_r (words_bytes (chunk_words t c))). now apply bytes_words_enc. }
    rewrite BW. unfold table_at. replace (c * 1024 / 1024) with c by lia. change kMaxChunks with 65536.
    destruct (N.ltb_spec c 65536) as [_|]; [|lia]. cbn [bind]. destruct (Hu c) as (ws & -> & Lws); [lia|lia|].
    rewrite (chunk_card t mem c I), <- card_split. rewrite skipn_all2, app_nil_r by lia.
    replace (c * 65536 + 65536) with ((c + 1) * 65536) by lia. replace (c * 1024 + 1024) with ((c + 1) * 1024) by lia.
    destruct (IH (c + 1) fuel (table_put u c (chunk_words t c))) as (u' & E & B & T); [lia|lia| |].
    { intros d H1 H2. cbn [table_put tb_table]. destruct (N.eqb_spec d c); [lia|]. apply Hu; lia. }
    exists u'. split; [exact E|]. split; [exact B|]. intros d. rewrite T. cbn [table_put tb_table].
    destruct (N.eqb_spec d c) as [->|].
    + destruct (N.leb_spec (c + 1) c); [lia|]. cbn [andb]. destruct (N.leb_spec c c), (N.ltb_spec c C); try lia. reflexivity.
    + destruct (N.leb_spec (c + 1) d), (N.leb_spec c d), (N.ltb_spec d C); try lia; reflexivity.
Qed.
Lemma reload_ok t mem t0 rest : tomb_inv t mem ->
  exists file t', tb_serialize t = Ok file /\ tb_deserialize t0 (file ++ rest) = Ok (t', rest) /\ tomb_inv t' mem /\ tb_bits t' = tb_bits t.
Proof.
  intros I. rewrite (serialize_ok _ _ I). exists (le_enc 8 kTombMagic ++ le_enc 8 (tb_bits t / 64) ++ chunks_bytes t 0 (N.to_nat (tb_bits t / 65536))).
  pose proof (ti_mod _ _ I) as Md. pose proof (ti_max _ _ I) as M. change (2 ^ 32) with 4294967296 in M.
  unfold tb_deserialize. rewrite <- !app_assoc. rewrite take_bytes_app by apply le_enc_length. rewrite take_bytes_app by apply le_enc_length.
  rewrite (le_dec_enc 8 kTombMagic) by reflexivity. rewrite N.eqb_refl. cbn [negb].
  rewrite (le_dec_enc 8 (tb_bits t / 64)) by (change (2 ^ (8 * N.of_nat 8)) with 18446744073709551616; lia).
  unfold tb_reset. change (ensure_capacity tb_empty 0) with (Ok tb_empty). cbn [bind].
  rewrite N.mod_small by (change (2 ^ 64) with 18446744073709551616; lia). replace (tb_bits t / 64 * 64) with (tb_bits t) by lia.
  destruct (ensure_empty_ok (tb_bits t)) as (t2 & -> & I2 & A2 & N2 & B2); [change (2 ^ 32) with 4294967296; lia|]. cbn [bind].
  replace ((tb_bits t + 65535) / 65536) with (tb_bits t / 65536) in * by lia. set (C := tb_bits t / 65536) in *.
  assert (HB : C * 65536 = tb_bits t) by (unfold C; lia). replace (tb_bits t / 64) with (C * 1024) by lia.
  pose proof (deser_chunks_ok t mem C rest I ltac:(lia) HB (N.to_nat C) 0 (S (length (chunks_bytes t 0 (N.to_nat C) ++ rest))) t2) as D.
  destruct D as (u & E & B & T).
  { rewrite app_length, (chunks_bytes_len t mem I). lia. }
  { lia. }
  { intros d _ Hd. specialize (A2 d Hd). destruct (tb_table t2 d) as [ws|] eqn:Et; [|congruence]. exists ws. split; [reflexivity|]. apply (ti_chunk _ _ I2) in Et. tauto. }
  change (0 * 1024) with 0 in E. change (card mem (0 * 65536)) with 0 in E. rewrite E. cbn [bind].
  exists (with_count u (card mem (C * 65536) mod 2 ^ 64)). split; [reflexivity|]. split; [reflexivity|].
  assert (Bu : tb_bits u = tb_bits t) by (rewrite B, B2; lia).
  split; [|exact Bu]. constructor; cbn [with_count tb_bits tb_table tb_count]; rewrite ?Bu; auto.
  - intros c ws. rewrite T. destruct (N.leb_spec 0 c); [|lia]. cbn [andb]. destruct (N.ltb_spec c C) as [L|L]; [|rewrite N2 by assumption; discriminate].
    intros X. injection X as <-. destruct (chunk_words_ok t mem c I). repeat (split; [lia || assumption|]). lia.
  - intros p. rewrite <- (ti_bit _ _ I p). unfold tbit. cbn [with_count tb_table]. rewrite T. destruct (N.leb_spec 0 (p / 65536)); [|lia]. cbn [andb].
    destruct (N.ltb_spec (p / 65536) C) as [L|L].
    + unfold chunk_words. destruct (tb_table t (p / 65536)); [reflexivity|]. apply fresh_bit.
    + rewrite N2 by assumption. destruct (tb_table t (p / 65536)) eqn:Et; [|reflexivity]. apply (ti_chunk _ _ I) in Et. lia.
  - rewrite HB. apply N.mod_small. pose proof (card_le mem (tb_bits t)). change (2 ^ 64) with 18446744073709551616. lia.
Qed.

(** ** Histories of the bitmap *)
Lemma tomb_history : forall init ops, init <= 2 ^ 32 -> Forall tomb_op_ok ops ->
  exists t0 t, tb_new init = Ok t0 /\ run_ops tomb_step t0 ops = Ok t /\ tomb_inv t (member ops).
Proof.
  intros init ops Hi F. destruct (ensure_empty_ok init Hi) as (t0 & E & I0 & _). exists t0.
  destruct (run_ops_ind tomb_step (fun t done => tomb_inv t (member done)) tomb_op_ok t0) with (ops := ops) as (t & Et & It); auto.
  - intros t done o I Ho. destruct o as [p|p| |]; cbn [tomb_step tomb_op_ok] in *.
    + destruct (tb_set_ok t _ p I Ho) as (t' & -> & I'). exists t'. split; [reflexivity|]. apply (inv_ext _ _ _ I'). intros q. now rewrite member_snoc.
    + destruct (tb_clear_ok t _ p I) as (t' & -> & I'). exists t'. split; [reflexivity|]. apply (inv_ext _ _ _ I'). intros q. now rewrite member_snoc.
    + destruct Ho.
    + exists tb_empty. split; [reflexivity|]. apply (inv_ext _ _ _ tb_empty_inv). intros q. now rewrite member_snoc.
  - exists t. auto.
Qed.

(** ** The slot allocator *)
Lemma status_snoc n0 h e id : status n0 (h ++ [e]) id =
  match e with
  | EAlloc i => if N.eqb i id then Dark else status n0 h id
  | EPublish i => if N.eqb i id then Visible else status n0 h id
  | EFree i => if N.eqb i id then Freed else status n0 h id
  end.
Proof. unfold status. rewrite fold_left_app. reflexivity. Qed.
Lemma fits_snoc n0 h e : fits n0 (h ++ [e]) -> fits n0 h.
Proof. unfold fits. rewrite status_snoc. destruct e; destruct (N.eqb _ (2 ^ 32 - 1)); auto; discriminate. Qed.
Definition hidden (st : slot_status) : bool := match st with Dark | Freed => true | _ => false end.
Definition in_free_order (n0 : N) (h : list slot_event) (l : list N) : Prop :=
  forall l1 x l2, l = l1 ++ x :: l2 -> exists h1 h2, h = h1 ++ EFree x :: h2
    /\ forall j, In (EFree j) h2 -> status n0 h j = Freed -> In j l2.
Record slots_inv (n0 : N) (s : slots) (h : list slot_event) : Prop := {
  si_tomb : tomb_inv (sl_tomb s) (fun id => hidden (status n0 h id));
  si_next : sl_next s < 2 ^ 32;
  si_used : forall id, id < sl_next s <-> status n0 h id <> Unused;
  si_nodup : NoDup (sl_free s);
  si_free : forall id, In id (sl_free s) <-> status n0 h id = Freed;
  si_order : in_free_order n0 h (sl_free s);
}.
Lemma snoc_cases {A} (l : list A) : l = [] \/ exists l' x, l = l' ++ [x].
Proof. destruct l as [|a l]; [now left|]. right. destruct (exists_last (l := a :: l)) as (l' & x & E); [discriminate|]. eauto. Qed.
Lemma app_snoc_cases {A} (l1 l2 l : list A) x y : l1 ++ x :: l2 = l ++ [y] -> (l2 = [] /\ l1 = l /\ x = y) \/ exists l3, l2 = l3 ++ [y] /\ l = l1 ++ x :: l3.
Proof.
  intros E. destruct (snoc_cases l2) as [->|(l3 & z & ->)].
  - left. apply app_inj_tail in E as [-> ->]. auto.
  - right. rewrite app_comm_cons, app_assoc in E. apply app_inj_tail in E as [<- <-]. eauto.
Qed.

Lemma slots_new_ok n0 : n0 < 2 ^ 32 -> exists s, sl_new n0 = Ok s /\ slots_inv n0 s [].
Proof.
  intros H. unfold sl_new. destruct (ensure_empty_ok n0) as (t & E & I & _); [lia|]. unfold tb_new. rewrite E. cbn [bind].
  eexists. split; [reflexivity|]. assert (St : forall id, status n0 [] id = if N.ltb id n0 then Visible else Unused) by reflexivity.
  constructor; cbn [sl_tomb sl_next sl_free].
  - apply (inv_ext _ _ _ I). intros p. rewrite St. now destruct (N.ltb p n0).
  - exact H.
  - intros id. rewrite St. destruct (N.ltb_spec id n0); split; intros; try congruence; try discriminate; lia.
  - constructor.
  - intros id. rewrite St. split; [intros []|]. destruct (N.ltb id n0); discriminate.
  - intros l1 x l2 X. now destruct l1.
Qed.
(** What alloc returns. *)
Lemma slots_alloc_ok n0 s h : slots_inv n0 s h ->
  exists id s', sl_alloc s = Ok (id, s')
    /\ ((sl_free s = [] /\ id = sl_next s /\ sl_free s' = [] /\ sl_next s' = (sl_next s + 1) mod 2 ^ 32) \/ (exists l, sl_free s = l ++ [id] /\ sl_free s' = l /\ sl_next s' = sl_next s))
    /\ tomb_inv (sl_tomb s') (fun p => N.eqb id p || hidden (status n0 h p))
    /\ id < 2 ^ 32.
Proof.
  intros I. unfold sl_alloc. pose proof (si_next _ _ _ I) as Nx.
  destruct (snoc_cases (sl_free s)) as [E|(l & x & E)].
  - rewrite E. destruct (tb_set_ok (sl_tomb s) _ (sl_next s) (si_tomb _ _ _ I)) as (t & -> & It); [lia|]. cbn [bind].
    eexists _, _. split; [reflexivity|]. split; [left; auto|]. split; [exact It|lia].
  - assert (Hx : status n0 h x = Freed) by (apply (si_free _ _ _ I); rewrite E; apply in_or_app; right; now left).
    assert (x < sl_next s) by (apply (si_used _ _ _ I); congruence).
    destruct (sl_free s) as [|a f] eqn:Ef; [destruct l; discriminate|]. rewrite <- Ef in *. rewrite E, last_last, removelast_last.
    destruct (tb_set_ok (sl_tomb s) _ x (si_tomb _ _ _ I)) as (t & -> & It); [lia|]. cbn [bind].
    eexists _, _. split; [reflexivity|]. split; [right; eauto|]. split; [exact It|lia].
Qed.
Lemma slots_alloc_inv n0 s h id s' : slots_inv n0 s h -> fits n0 (h ++ [EAlloc id]) -> sl_alloc s = Ok (id, s') -> slots_inv n0 s' (h ++ [EAlloc id]).
Proof.
  intros I F E. unfold fits in F. rewrite status_snoc in F.
  destruct (slots_alloc_ok n0 s h I) as (id' & s'' & E' & C & It & Hid). rewrite E in E'. injection E' as <- <-.
  pose proof (si_next _ _ _ I) as Nx.
  destruct C as [(Ef & -> & Ef' & En)|(l & Ef & Ef' & En)].
  - destruct (N.eqb_spec (sl_next s) (2 ^ 32 - 1)) as [|Nl]; [discriminate|]. rewrite N.mod_small in En by lia.
    constructor.
    + apply (inv_ext _ _ _ It). intros p. rewrite status_snoc. destruct (N.eqb (sl_next s) p); reflexivity.
    + rewrite En. lia.
    + intros p. rewrite En, status_snoc. destruct (N.eqb_spec (sl_next s) p) as [<-|Np]; [split; [discriminate|lia]|].
      rewrite <- (si_used _ _ _ I). lia.
    + rewrite Ef'. constructor.
    + intros p. rewrite Ef', status_snoc. destruct (N.eqb_spec (sl_next s) p) as [<-|Np]; [split; [intros []|discriminate]|].
      rewrite <- (si_free _ _ _ I), Ef. reflexivity.
    + rewrite Ef'. intros l1 x l2 X. now destruct l1.
  - assert (ND : NoDup (l ++ [id])) by (rewrite <- Ef; apply I).
    assert (Nid : ~ In id l). { apply NoDup_remove_2 in ND. now rewrite app_nil_r in ND. }
    assert (Hid2 : status n0 h id = Freed) by (apply (si_free _ _ _ I); rewrite Ef; apply in_or_app; right; now left).
    constructor.
    + apply (inv_ext _ _ _ It). intros p. rewrite status_snoc. destruct (N.eqb id p); reflexivity.
    + rewrite En. lia.
    + intros p. rewrite En, status_snoc. destruct (N.eqb_spec id p) as [<-|Np]; [|apply (si_used _ _ _ I)].
      rewrite (si_used _ _ _ I). split; congruence.
    + rewrite Ef'. apply NoDup_remove_1 in ND. now rewrite app_nil_r in ND.
    + intros p. rewrite Ef', status_snoc. destruct (N.eqb_spec id p) as [<-|Np]; [split; [contradiction|discriminate]|].
      rewrite <- (si_free _ _ _ I), Ef, in_app_iff. cbn [In]. intuition.
    + rewrite Ef'. intros l1 x l2 X. destruct (si_order _ _ _ I l1 x (l2 ++ [id])) as (h1 & h2 & Eh & H2).
      { rewrite Ef, X, <- app_assoc. reflexivity. }
      exists h1, (h2 ++ [EAlloc id]). split; [rewrite Eh, <- app_assoc; reflexivity|]. intros j Hj Sj.
      rewrite status_snoc in Sj. destruct (N.eqb_spec id j) as [|Nj]; [discriminate|].
      apply in_app_or in Hj as [Hj|[Hj|[]]]; [|discriminate]. specialize (H2 j Hj Sj). apply in_app_or in H2 as [|[|[]]]; [assumption|congruence].
Qed.
Lemma slots_publish_inv n0 s h id s' : slots_inv n0 s h -> status n0 h id = Dark -> sl_publish s id = Ok s' -> slots_inv n0 s' (h ++ [EPublish id]).
Proof.
  intros I D E. unfold sl_publish in E. destruct (tb_clear_ok _ _ id (si_tomb _ _ _ I)) as (t & Et & It). rewrite Et in E. cbn [bind] in E. injection E as <-.
  constructor; cbn [sl_tomb sl_next sl_free].
  - apply (inv_ext _ _ _ It). intros p. rewrite status_snoc. destruct (N.eqb id p); reflexivity.
  - exact (si_next _ _ _ I).
  - intros p. rewrite status_snoc. destruct (N.eqb_spec id p) as [<-|Np]; [|apply (si_used _ _ _ I)]. rewrite (si_used _ _ _ I). split; congruence.
  - apply I.
  - intros p. rewrite status_snoc. destruct (N.eqb_spec id p) as [<-|Np]; [|apply (si_free _ _ _ I)]. rewrite (si_free _ _ _ I). split; congruence.
  - intros l1 x l2 X. destruct (si_order _ _ _ I l1 x l2 X) as (h1 & h2 & Eh & H2).
    exists h1, (h2 ++ [EPublish id]). split; [rewrite Eh, <- app_assoc; reflexivity|]. intros j Hj Sj. apply in_app_or in Hj as [Hj|[Hj|[]]]; [|discriminate].
    rewrite status_snoc in Sj. destruct (N.eqb_spec id j) as [|Nj]; [discriminate|auto].
Qed.
Lemma slots_free_inv n0 s h id s' : slots_inv n0 s h -> in_use (status n0 h id) = true -> sl_free_slot s id = Ok s' -> slots_inv n0 s' (h ++ [EFree id]).
Proof.
  intros I U E. assert (Hid : id < sl_next s). { apply (si_used _ _ _ I). intros X. rewrite X in U. discriminate. }
  pose proof (si_next _ _ _ I) as Nx.
  unfold sl_free_slot in E. destruct (tb_set_ok _ _ id (si_tomb _ _ _ I)) as (t & Et & It); [lia|]. rewrite Et in E. cbn [bind] in E. injection E as <-.
  assert (Nf : ~ In id (sl_free s)). { intros X. apply (si_free _ _ _ I) in X. rewrite X in U. discriminate. }
  constructor; cbn [sl_tomb sl_next sl_free].
  - apply (inv_ext _ _ _ It). intros p. rewrite status_snoc. destruct (N.eqb id p); reflexivity.
  - exact Nx.
  - intros p. rewrite status_snoc. destruct (N.eqb_spec id p) as [<-|Np]; [|apply (si_used _ _ _ I)]. split; [discriminate|auto].
  - apply (NoDup_Add (a := id) (l := sl_free s)); [|split; [apply I|assumption]]. rewrite <- (app_nil_r (sl_free s)) at 1. apply Add_app.
  - intros p. rewrite status_snoc, in_app_iff. cbn [In]. destruct (N.eqb_spec id p) as [<-|Np]; [tauto|]. rewrite (si_free _ _ _ I). intuition.
  - intros l1 x l2 X. apply eq_sym, app_snoc_cases in X as [(-> & -> & ->)|(l3 & -> & Ef)].
    + exists h, []. split; [reflexivity|]. intros j [].
    + destruct (si_order _ _ _ I l1 x l3 Ef) as (h1 & h2 & Eh & H2). exists h1, (h2 ++ [EFree id]). split; [rewrite Eh, <- app_assoc; reflexivity|].
      intros j Hj Sj. apply in_or_app. rewrite status_snoc in Sj. destruct (N.eqb_spec id j) as [->|Nj]; [right; now left|]. left.
      apply in_app_or in Hj as [Hj|[Hj|[]]]; [auto|congruence].
Qed.
Lemma u32s_enc l r : Forall (fun x => x < 2 ^ 32) l -> bytes_u32s (length l) (flat_map (le_enc 4) l ++ r) = l.
Proof.
  intros W. revert r. induction W as [|w ws Hw W IH]; intros r; [reflexivity|]. cbn [length bytes_u32s flat_map].
  rewrite <- app_assoc. rewrite firstn_app, le_enc_length, Nat.sub_diag, firstn_O, app_nil_r, firstn_all2 by (rewrite le_enc_length; lia).
  rewrite skipn_app, le_enc_length, Nat.sub_diag, skipn_all2 by (rewrite le_enc_length; lia). cbn [app skipn]. rewrite IH.
  f_equal. now apply le_dec_enc.
Qed.
Lemma u32s_len l : length (flat_map (le_enc 4) l) = (4 * length l)%nat.
Proof. induction l as [|w l IH]; [reflexivity|]. cbn [flat_map]. rewrite app_length, le_enc_length, IH. cbn [length]. lia. Qed.
Lemma slots_reload n0 s h s0 : slots_inv n0 s h ->
  exists file s', sl_save s = Ok file /\ sl_load s0 file = Ok s' /\ slots_inv n0 s' h
    /\ sl_free s' = sl_free s /\ sl_next s' = sl_next s.
Proof.
  intros I. pose proof (si_next _ _ _ I) as Nx. unfold sl_save.
  destruct (reload_ok (sl_tomb s) _ (sl_tomb s0) [] (si_tomb _ _ _ I)) as (body & t' & -> & D & It & _). rewrite app_nil_r in D. cbn [bind].
  assert (FL : Forall (fun x => x < 2 ^ 32) (sl_free s)).
  { apply Forall_forall. intros x Hx. apply (si_free _ _ _ I) in Hx. assert (x < sl_next s) by (apply (si_used _ _ _ I); congruence). lia. }
  assert (Len : N.of_nat (length (sl_free s)) <= 2 ^ 32).
  { pose proof (NoDup_incl_length (si_nodup _ _ _ I) (l' := upto (sl_next s))) as Q. unfold upto in Q at 2. rewrite map_length, seq_length in Q.
    assert (length (sl_free s) <= N.to_nat (sl_next s))%nat; [|lia]. apply Q. intros x Hx. apply upto_in. apply (si_free _ _ _ I) in Hx. apply (si_used _ _ _ I). congruence. }
  change (2 ^ 32) with 4294967296 in *.
  set (hd := le_enc 8 kSlotMagic ++ le_enc 8 (sl_next s) ++ le_enc 8 (N.of_nat (length (sl_free s)))).
  assert (Eh : le_enc 8 kSlotMagic ++ le_enc 8 (sl_next s) ++ le_enc 8 (N.of_nat (length (sl_free s))) ++ flat_map (le_enc 4) (sl_free s) ++ body
    = hd ++ flat_map (le_enc 4) (sl_free s) ++ body) by (unfold hd; now rewrite <- !app_assoc).
  rewrite Eh. exists (hd ++ flat_map (le_enc 4) (sl_free s) ++ body).
  exists {| sl_free := sl_free s; sl_next := sl_next s; sl_tomb := t' |}. split; [reflexivity|]. unfold sl_load.
  assert (Lh : length hd = 24%nat) by (unfold hd; rewrite !app_length, !le_enc_length; reflexivity).
  rewrite take_bytes_app by assumption.
  assert (H1 : firstn 8 hd = le_enc 8 kSlotMagic) by (unfold hd; rewrite firstn_app, le_enc_length, Nat.sub_diag, firstn_O, app_nil_r; apply firstn_all2; rewrite le_enc_length; lia).
  assert (S1 : skipn 8 hd = le_enc 8 (sl_next s) ++ le_enc 8 (N.of_nat (length (sl_free s)))).
  { unfold hd. rewrite skipn_app, le_enc_length, Nat.sub_diag, skipn_all2 by (rewrite le_enc_length; lia). reflexivity. }
  assert (H2 : firstn 8 (skipn 8 hd) = le_enc 8 (sl_next s)) by (rewrite S1, firstn_app, le_enc_length, Nat.sub_diag, firstn_O, app_nil_r; apply firstn_all2; rewrite le_enc_length; lia).
  assert (S2 : skipn 16 hd = le_enc 8 (N.of_nat (length (sl_free s)))).
  { change 16%nat with (8 + 8)%nat. unfold hd. rewrite app_assoc, skipn_app, skipn_all2 by (rewrite app_length, !le_enc_length; lia).
    rewrite app_length, !le_enc_length. reflexivity. }
  rewrite H1, H2, S2. rewrite !le_dec_enc by (change (2 ^ (8 * N.of_nat 8)) with 18446744073709551616; try (unfold kSlotMagic); lia).
  rewrite N.eqb_refl. cbn [negb]. rewrite app_length, u32s_len.
  destruct (N.ltb_spec (N.of_nat (4 * length (sl_free s) + length body)) (N.of_nat (length (sl_free s)) * 4)) as [X|_]; [lia|].
  destruct (N.ltb_spec (2 ^ 32 - 1) (sl_next s)) as [X|_]; [change (2 ^ 32) with 4294967296 in X; lia|].
  rewrite skipn_app, u32s_len. replace (N.to_nat (N.of_nat (length (sl_free s)) * 4) - 4 * length (sl_free s))%nat with 0%nat by lia.
  rewrite skipn_all2 by (rewrite u32s_len; lia). cbn [app skipn]. rewrite D. cbn [bind]. rewrite Nat2N.id, u32s_enc by exact FL.
  split; [reflexivity|]. split; [|split; reflexivity]. destruct I. constructor; auto.
Qed.
Lemma reach_inv n0 s h : n0 < 2 ^ 32 -> reach n0 s h -> fits n0 h -> slots_inv n0 s h.
Proof.
  intros H0 R. induction R as [s E|s h id s' R IH E|s h id s' R IH D E|s h id s' R IH U E|s h s0 file s' R IH E1 E2]; intros F.
  - destruct (slots_new_ok n0 H0) as (s1 & E1 & I). congruence.
  - apply slots_alloc_inv with (s := s); auto. apply IH. now apply fits_snoc in F.
  - apply slots_publish_inv with (s := s); auto. apply IH. now apply fits_snoc in F.
  - apply fits_snoc in F. apply slots_free_inv with (s := s); auto.
  - destruct (slots_reload n0 s h s0 (IH F)) as (f & s2 & Ef & El & I & _). congruence.
Qed.
