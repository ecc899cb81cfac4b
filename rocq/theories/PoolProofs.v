(** Proofs about the candidate pools. *)
From Verif Require Import PoolModel PoolSpec BitsetProofs.

(** ** The mark *)
Lemma is_checked_le id : (id < 2 ^ 32)%N -> is_checked id = N.leb (2 ^ 31) id.
Proof.
  intros H. unfold is_checked. rewrite low_bit.
  assert (E : N.b2n (N.testbit id 31) = ((id / 2 ^ 31) mod 2)%N) by apply N.testbit_spec'.
  change (2 ^ 32)%N with 4294967296%N in H. change (2 ^ 31)%N with 2147483648%N in *.
  destruct (N.testbit id 31); cbn [N.b2n] in E; destruct (N.leb_spec 2147483648 id); auto; exfalso; lia.
Qed.
Lemma get_id_mod id : get_id id = (id mod 2 ^ 31)%N.
Proof. unfold get_id. change 2147483647%N with (N.ones 31). apply N.land_ones. Qed.
Lemma set_checked_add id : (id < 2 ^ 31)%N -> set_checked id = (id + 2 ^ 31)%N.
Proof.
  intros H. unfold set_checked. assert (Z0 : N.land id (2 ^ 31) = 0%N).
  { assert (T : N.testbit id 31 = false).
    { destruct (N.eq_dec id 0) as [->|]; [reflexivity|]. apply N.bits_above_log2. apply N.log2_lt_pow2; lia. }
    rewrite <- mask_bit in T. apply negb_false_iff, N.eqb_eq in T. exact T. }
  rewrite N.add_nocarry_lxor by assumption. symmetry. now apply N.lxor_lor.
Qed.

(** ** Lists *)
Definition ins_at {A} (lo : nat) (x : A) (l : list A) : list A := firstn lo l ++ x :: skipn lo l.
Lemma upd_split {A} (l : list A) i x : i < length l -> upd l i x = firstn i l ++ x :: skipn (i + 1) l.
Proof.
  revert i. induction l as [|y l IH]; intros [|i] H; cbn in *; try lia; auto. f_equal. apply IH. lia.
Qed.
Lemma ins_at_length {A} lo (x : A) l : lo <= length l -> length (ins_at lo x l) = S (length l).
Proof. intros H. unfold ins_at. rewrite app_length, firstn_length, Nat.min_l by lia. cbn. rewrite skipn_length. lia. Qed.
Lemma nth_error_firstn {A} (l : list A) n i : nth_error (firstn n l) i = if Nat.ltb i n then nth_error l i else None.
Proof.
  revert l i. induction n as [|n IH]; intros l i; [now destruct i|]. destruct l as [|x l]; [destruct i as [|i]; [reflexivity|]; cbn [firstn nth_error]; now destruct (Nat.ltb (S i) (S n))|].
  destruct i as [|i]; [reflexivity|]. cbn [firstn nth_error]. rewrite IH. reflexivity.
Qed.
Lemma nth_error_skipn {A} (l : list A) n i : nth_error (skipn n l) i = nth_error l (n + i).
Proof. revert l. induction n as [|n IH]; intros [|x l]; cbn; auto. now destruct i. Qed.
Lemma skipn_skipn_add {A} (l : list A) a b : skipn b (skipn a l) = skipn (a + b) l.
Proof. revert l. induction a as [|a IH]; intros [|x l]; cbn; auto. now destruct b. Qed.
Lemma nth_error_ins {A} lo (x : A) l i : lo <= length l ->
  nth_error (ins_at lo x l) i = if Nat.ltb i lo then nth_error l i else if Nat.eqb i lo then Some x else nth_error l (i - 1).
Proof.
  intros H. unfold ins_at. destruct (Nat.ltb_spec i lo) as [L|L].
  - rewrite nth_error_app1 by (rewrite firstn_length; lia). rewrite nth_error_firstn. now destruct (Nat.ltb_spec i lo); [|lia].
  - rewrite nth_error_app2 by (rewrite firstn_length; lia). rewrite firstn_length, Nat.min_l by lia.
    destruct (Nat.eqb_spec i lo) as [->|Hn]; [now rewrite Nat.sub_diag|].
    replace (i - lo) with (S (i - lo - 1)) by lia. cbn [nth_error]. rewrite nth_error_skipn. f_equal. lia.
Qed.
Lemma get_nth {A} (l : list A) i : i < length l -> exists x, nth_error l i = Some x /\ get l i = Ok x.
Proof.
  intros H. unfold get. destruct (nth_error l i) as [x|] eqn:E; [eauto|]. apply nth_error_None in E. lia.
Qed.
Lemma put_ok {A} (l : list A) i x : i < length l -> put l i x = Ok (upd l i x).
Proof. intros H. unfold put. destruct (Nat.ltb_spec i (length l)); [reflexivity|lia]. Qed.

(** ** Sorted arrays *)
Definition sorted (l : list cand) : Prop :=
  forall i j a b, i < j -> nth_error l i = Some a -> nth_error l j = Some b -> (c_dist a <= c_dist b)%Z.
(** [lo] is a place for distance [d]. *)
Definition place (l : list cand) (lo : nat) (d : Z) : Prop :=
  lo <= length l /\ forall i c, nth_error l i = Some c ->
    (i < lo -> (c_dist c <= d)%Z) /\ (lo <= i -> (d <= c_dist c)%Z).
Lemma sorted_ins l lo d id : sorted l -> place l lo d -> sorted (ins_at lo {| c_id := id; c_dist := d |} l).
Proof.
  intros S [Hlo P] i j a b Hij. rewrite !nth_error_ins by assumption. intros Ha Hb.
  destruct (Nat.ltb_spec i lo) as [Li|Li].
  - destruct (Nat.ltb_spec j lo) as [Lj|Lj]; [eapply (S i j); eauto|].
    destruct (Nat.eqb_spec j lo) as [->|Nj]; [injection Hb as <-; cbn; now apply (P i a)|].
    eapply (S i (j - 1)); eauto. lia.
  - destruct (Nat.ltb_spec j lo) as [Lj|Lj]; [lia|].
    destruct (Nat.eqb_spec j lo) as [->|Nj]; [lia|].
    destruct (Nat.eqb_spec i lo) as [->|Ni]; [injection Ha as <-; cbn; apply (P (j - 1) b); auto; lia|].
    eapply (S (i - 1) (j - 1)); eauto. lia.
Qed.
Lemma sorted_firstn n l : sorted l -> sorted (firstn n l).
Proof.
  intros S i j a b Hij. rewrite !nth_error_firstn. destruct (Nat.ltb i n), (Nat.ltb j n); try discriminate. eauto.
Qed.
Lemma sorted_strong l : sorted l -> StronglySorted (fun a b => (c_dist a <= c_dist b)%Z) l.
Proof.
  induction l as [|x l IH]; intros S; constructor.
  - apply IH. intros i j a b Hij Ha Hb. apply (S (Datatypes.S i) (Datatypes.S j)); auto; lia.
  - apply Forall_forall. intros y Hy. apply In_nth_error in Hy as [j Hj]. apply (S 0 (Datatypes.S j)); auto; lia.
Qed.

Lemma bsearch_spec data size d : forall fuel l r,
  size <= length data -> sorted (firstn size data) -> r - l <= fuel -> l <= r <= size ->
  (forall i c, nth_error (firstn size data) i = Some c ->
    (i < l -> (c_dist c <= d)%Z) /\ (r <= i -> (d < c_dist c)%Z)) ->
  exists lo, bsearch_loop fuel data l r d = Ok lo /\ lo <= size /\
    forall i c, nth_error (firstn size data) i = Some c -> (i < lo -> (c_dist c <= d)%Z) /\ (lo <= i -> (d < c_dist c)%Z).
Proof.
  induction fuel as [|k IH]; intros l r Hs S Hf Hr B; cbn [bsearch_loop].
  - exists l. replace r with l in * by lia. repeat split; auto; try lia; intros; eapply B; eauto.
  - destruct (Nat.ltb_spec l r) as [Lt|Ge].
    + set (mid := Nat.div (l + r) 2). assert (Hm : l <= mid < r) by (unfold mid; lia).
      destruct (get_nth data mid) as (c & Ec & ->); [lia|]. cbn [bind].
      assert (Ec' : nth_error (firstn size data) mid = Some c) by (rewrite nth_error_firstn; destruct (Nat.ltb_spec mid size); [assumption|lia]).
      destruct (Z.ltb_spec d (c_dist c)) as [Lc|Lc]; apply IH; auto; try lia; intros i e Ee; split; intros Hi.
      * eapply B; eauto.
      * destruct (Nat.eq_dec i mid) as [->|Ni]; [congruence|]. pose proof (S mid i c e ltac:(lia) Ec' Ee). lia.
      * destruct (Nat.eq_dec i mid) as [->|Ni]; [congruence|].
        pose proof (S i mid e c ltac:(lia) Ee Ec'). lia.
      * eapply B; eauto.
    + exists l. replace r with l in * by lia. repeat split; auto; try lia; intros; eapply B; eauto.
Qed.
Lemma half_spec data size d : forall fuel lo len,
  size <= length data -> sorted (firstn size data) -> len <= fuel + 1 -> lo + len <= size -> (0 < size -> 0 < len) ->
  (forall i c, nth_error (firstn size data) i = Some c ->
    (i < lo -> (c_dist c < d)%Z) /\ (lo + len <= i -> (d <= c_dist c)%Z)) ->
  exists lo', half_loop fuel data lo len d = Ok lo' /\ (0 < size -> lo' < size) /\ lo' <= size /\
    forall i c, nth_error (firstn size data) i = Some c -> (i < lo' -> (c_dist c < d)%Z) /\ (lo' + 1 <= i -> (d <= c_dist c)%Z).
Proof.
  induction fuel as [|k IH]; intros lo len Hs S Hf Hr Hl B; cbn [half_loop].
  - exists lo. repeat split; auto; try lia; intros; eapply B; eauto. lia.
  - destruct (Nat.ltb_spec 1 len) as [Lt|Ge].
    + set (half := Nat.div len 2). assert (Hh : 0 < half < len) by (unfold half; lia).
      destruct (get_nth data (lo + half - 1)) as (c & Ec & ->); [lia|]. cbn [bind].
      assert (Ec' : nth_error (firstn size data) (lo + half - 1) = Some c)
        by (rewrite nth_error_firstn; destruct (Nat.ltb_spec (lo + half - 1) size); [assumption|lia]).
      assert (Hhh : half <= len - half) by (unfold half; lia).
      apply IH; auto; try lia.
      * destruct (Z.ltb (c_dist c) d); lia.
      * intros i e Ee. destruct (Z.ltb_spec (c_dist c) d) as [Lc|Lc]; split; intros Hi.
        -- destruct (Nat.eq_dec i (lo + half - 1)) as [->|Ni]; [congruence|].
           pose proof (S i (lo + half - 1) e c ltac:(lia) Ee Ec'). lia.
        -- apply (B i e Ee). lia.
        -- now apply (B i e Ee).
        -- pose proof (S (lo + half - 1) i c e ltac:(lia) Ec' Ee). lia.
    + exists lo. repeat split; auto; try lia; intros; eapply B; eauto. lia.
Qed.
Lemma advance_spec data size : forall fuel cur, size <= length data -> size - cur <= fuel -> cur <= size ->
  exists c', advance fuel data cur size = Ok c' /\ cur <= c' <= size
    /\ (forall i c, nth_error data i = Some c -> cur <= i < c' -> is_checked (c_id c) = true)
    /\ (forall c, nth_error data c' = Some c -> c' < size -> is_checked (c_id c) = false).
Proof.
  induction fuel as [|k IH]; intros cur Hs Hf Hc; cbn [advance].
  - exists cur. repeat split; try lia; intros; lia.
  - destruct (Nat.ltb_spec cur size) as [Lt|Ge].
    + destruct (get_nth data cur) as (c & Ec & ->); [lia|]. cbn [bind]. destruct (is_checked (c_id c)) eqn:K.
      * destruct (IH (cur + 1)) as (c' & E & B & A & F); auto; try lia. exists c'. split; [assumption|]. split; [lia|]. split; [|assumption].
        intros i e Ee Hi. destruct (Nat.eq_dec i cur) as [->|]; [congruence|]. eapply A; eauto. lia.
      * exists cur. repeat split; try lia; intros; try lia. congruence.
    + exists cur. repeat split; try lia; intros; lia.
Qed.

(** ** The invariant *)
Record pool_inv (cap : nat) (p : pool) : Prop := {
  pi_cap : p_cap p = cap;
  pi_len : length (p_data p) = cap + 1;
  pi_size : p_size p <= cap;
  pi_cur : p_cur p <= p_size p;
  pi_sorted : sorted (firstn (p_size p) (p_data p));
  pi_flags : forall i c, nth_error (firstn (p_size p) (p_data p)) i = Some c ->
     (c_id c < 2 ^ 32)%N /\ (i < p_cur p -> is_checked (c_id c) = true) /\ (i = p_cur p -> is_checked (c_id c) = false);
}.
Lemma pool_new_inv cap : pool_inv cap (pool_new cap).
Proof.
  constructor; cbn [pool_new p_cap p_data p_size p_cur firstn]; auto; try lia.
  - apply repeat_length.
  - intros i j a b _ H. now destruct i.
  - intros i c H. now destruct i.
Qed.
Lemma pre_length cap p : pool_inv cap p -> length (firstn (p_size p) (p_data p)) = p_size p.
Proof. intros I. rewrite firstn_length, (pi_len _ _ I). pose proof (pi_size _ _ I). lia. Qed.

Lemma insert_at_spec cap p lo id d : 0 < cap -> pool_inv cap p -> (id < 2 ^ 31)%N ->
  place (firstn (p_size p) (p_data p)) lo d ->
  exists p', insert_at p lo id d = Ok p' /\ pool_inv cap p'
    /\ firstn (p_size p') (p_data p') = firstn cap (ins_at lo {| c_id := id; c_dist := d |} (firstn (p_size p) (p_data p))).
Proof.
  intros Hc I Hid P. set (pre := firstn (p_size p) (p_data p)) in *. pose proof (pre_length _ _ I) as PL. fold pre in PL.
  pose proof (pi_size _ _ I) as Hs. pose proof (pi_len _ _ I) as HL. pose proof (proj1 P) as Hlo. rewrite PL in Hlo.
  set (x := {| c_id := id; c_dist := d |}).
  assert (E : exists tail, insert_at p lo id d = Ok
     {| p_size := if Nat.ltb (p_size p) (p_cap p) then p_size p + 1 else p_size p;
        p_cur := if Nat.ltb lo (p_cur p) then lo else p_cur p; p_cap := p_cap p; p_data := ins_at lo x pre ++ tail |}
     /\ length (ins_at lo x pre ++ tail) = cap + 1).
  { unfold insert_at, memmove_up. exists (skipn (p_size p + 1) (p_data p)).
    assert (F1 : firstn lo pre = firstn lo (p_data p)).
    { unfold pre. rewrite firstn_firstn. f_equal. lia. }
    assert (F2 : skipn lo pre = firstn (p_size p - lo) (skipn lo (p_data p))).
    { unfold pre. apply skipn_firstn_comm. }
    assert (LL : length (ins_at lo x pre ++ skipn (p_size p + 1) (p_data p)) = cap + 1).
    { rewrite app_length, ins_at_length, skipn_length by lia. lia. }
    destruct (Nat.eqb_spec (p_size p - lo) 0) as [Z0|NZ].
    - assert (lo = p_size p) by lia. subst lo. cbn [bind]. rewrite put_ok by lia. cbn [bind].
      split; [|exact LL]. do 2 f_equal. rewrite upd_split by lia. unfold ins_at. rewrite F1, F2, Nat.sub_diag. rewrite <- app_assoc. reflexivity.
    - destruct (Nat.leb_spec (lo + 1 + (p_size p - lo)) (length (p_data p))) as [_|]; [|lia]. cbn [bind].
      set (mid := firstn (p_size p - lo) (skipn lo (p_data p)) ++ skipn (lo + 1 + (p_size p - lo)) (p_data p)).
      assert (Lm : length (firstn (lo + 1) (p_data p) ++ mid) = cap + 1).
      { unfold mid. rewrite !app_length, !firstn_length, !skipn_length. lia. }
      rewrite put_ok by lia. cbn [bind]. split; [|exact LL]. do 2 f_equal. rewrite upd_split by lia.
      rewrite firstn_app, firstn_firstn, firstn_length. replace (Nat.min lo (lo + 1)) with lo by lia.
      replace (lo - Nat.min (lo + 1) (length (p_data p))) with 0 by lia. cbn [firstn]. rewrite app_nil_r.
      rewrite skipn_app, firstn_length. rewrite skipn_all2 by (rewrite firstn_length; lia).
      replace (lo + 1 - Nat.min (lo + 1) (length (p_data p))) with 0 by lia. cbn [skipn app].
      unfold ins_at, mid. rewrite F1, F2. replace (lo + 1 + (p_size p - lo)) with (p_size p + 1) by lia. now rewrite <- app_assoc. }
  destruct E as (tail & E & TL). rewrite E. eexists. split; [reflexivity|].
  assert (IL : length (ins_at lo x pre) = p_size p + 1) by (rewrite ins_at_length; lia).
  set (size' := if Nat.ltb (p_size p) (p_cap p) then p_size p + 1 else p_size p).
  assert (Hs' : size' <= cap /\ size' <= p_size p + 1 /\ (size' = p_size p + 1 \/ size' = cap)).
  { unfold size'. rewrite (pi_cap _ _ I). destruct (Nat.ltb_spec (p_size p) cap); lia. }
  assert (K : firstn size' (ins_at lo x pre ++ tail) = firstn cap (ins_at lo x pre)).
  { rewrite firstn_app, IL. replace (size' - (p_size p + 1)) with 0 by lia. cbn [firstn]. rewrite app_nil_r.
    destruct Hs' as (H1 & _ & [E1|E1]); rewrite E1 in *; [|reflexivity]. rewrite !firstn_all2 by lia. reflexivity. }
  split; [|exact K]. constructor; cbn [p_cap p_data p_size p_cur].
  - apply I.
  - exact TL.
  - apply Hs'.
  - fold size'. pose proof (pi_cur _ _ I). unfold size'. rewrite (pi_cap _ _ I).
    destruct (Nat.ltb_spec lo (p_cur p)), (Nat.ltb_spec (p_size p) cap); lia.
  - fold size'. rewrite K. apply sorted_firstn, sorted_ins; [apply I|assumption].
  - fold size'. rewrite K. intros i c. rewrite nth_error_firstn. destruct (Nat.ltb_spec i cap) as [Li|]; [|discriminate].
    rewrite nth_error_ins by lia.
    assert (Kx : is_checked id = false).
    { rewrite is_checked_le by (eapply N.lt_trans; [exact Hid|reflexivity]). apply N.leb_gt. exact Hid. }
    destruct (Nat.ltb_spec i lo) as [L1|L1].
    + intros Ec. destruct (pi_flags _ _ I i c Ec) as (F1 & F2 & F3). split; [assumption|].
      destruct (Nat.ltb_spec lo (p_cur p)) as [Lc|Lc]; split; intros Hi; try (apply F2; lia); try (apply F3; lia).
    + destruct (Nat.eqb_spec i lo) as [->|Ni].
      * intros Ec. injection Ec as <-. cbn [c_id x]. split; [eapply N.lt_trans; [exact Hid|reflexivity]|]. split; [|auto].
        destruct (Nat.ltb_spec lo (p_cur p)); lia.
      * intros Ec. destruct (pi_flags _ _ I (i - 1) c Ec) as (F1 & F2 & F3). split; [assumption|].
        destruct (Nat.ltb_spec lo (p_cur p)) as [Lc|Lc]; split; intros Hi; lia.
Qed.

Lemma in_pre_last l n c : sorted l -> nth_error l n = Some c -> length l = S n ->
  forall e, In e l -> (c_dist e <= c_dist c)%Z.
Proof.
  intros S Hc L e He. apply In_nth_error in He as [i Hi].
  assert (i < length l) by (apply nth_error_Some; congruence).
  destruct (Nat.eq_dec i n) as [->|]; [rewrite Hc in Hi; injection Hi as <-; lia|]. apply (S i n e c); auto. lia.
Qed.

(** What an insertion may do: refuse because the pool is full of candidates
    at least as close, or insert at a place. *)
Definition insert_does (cap : nat) (p : pool) (id : N) (d : Z) (r : res (bool * pool)) : Prop :=
  let pre := firstn (p_size p) (p_data p) in
  (r = Ok (false, p) /\ p_size p = cap /\ forall c, In c pre -> (c_dist c <= d)%Z)
  \/ exists p' lo, r = Ok (true, p') /\ pool_inv cap p' /\ place pre lo d
       /\ firstn (p_size p') (p_data p') = firstn cap (ins_at lo {| c_id := id; c_dist := d |} pre).

Lemma lp_insert_spec cap p id d : 0 < cap -> pool_inv cap p -> (id < 2 ^ 31)%N -> insert_does cap p id d (lp_insert p id d).
Proof.
  intros Hc I Hid. unfold insert_does, lp_insert. cbv zeta. pose proof (pre_length _ _ I) as PL.
  pose proof (pi_size _ _ I) as Hs. pose proof (pi_len _ _ I) as HL. rewrite (pi_cap _ _ I).
  assert (INS : exists p' lo, (let* lo := find_bsearch p d in let* p' := insert_at p lo id d in Ok (true, p')) = Ok (true, p')
     /\ pool_inv cap p' /\ place (firstn (p_size p) (p_data p)) lo d
     /\ firstn (p_size p') (p_data p') = firstn cap (ins_at lo {| c_id := id; c_dist := d |} (firstn (p_size p) (p_data p)))).
  { unfold find_bsearch. destruct (bsearch_spec (p_data p) (p_size p) d (p_size p) 0 (p_size p)) as (lo & -> & Hlo & B); auto; try lia; [apply I| |].
    { intros i c Ec. assert (i < length (firstn (p_size p) (p_data p))) by (apply nth_error_Some; congruence). lia. }
    cbn [bind]. assert (P : place (firstn (p_size p) (p_data p)) lo d).
    { split; [lia|]. intros i c Ec. destruct (B i c Ec) as [B1 B2]. split; [assumption|]. intros Hi. specialize (B2 Hi). lia. }
    destruct (insert_at_spec cap p lo id d Hc I Hid P) as (p' & -> & I' & K). cbn [bind]. eauto 6. }
  destruct (Nat.eqb_spec (p_size p) cap) as [E|E].
  - destruct (p_size p) as [|n] eqn:Es; [lia|]. destruct (get_nth (p_data p) n) as (c & Ec & ->); [lia|]. cbn [bind].
    destruct (Z.leb_spec (c_dist c) d) as [L|L].
    + left. split; [reflexivity|]. split; [assumption|]. intros e He.
      enough (c_dist e <= c_dist c)%Z by lia. eapply (in_pre_last (firstn (S n) (p_data p)) n); eauto.
      * rewrite <- Es. apply I.
      * rewrite nth_error_firstn. destruct (Nat.ltb_spec n (S n)); [assumption|lia].
    + right. exact INS.
  - cbn [bind]. right. exact INS.
Qed.
Lemma binary_search_spec cap p d : pool_inv cap p ->
  exists lo, binary_search p d = Ok lo /\ place (firstn (p_size p) (p_data p)) lo d.
Proof.
  intros I. pose proof (pre_length _ _ I) as PL. pose proof (pi_size _ _ I) as Hs. pose proof (pi_len _ _ I) as HL.
  unfold binary_search. destruct (half_spec (p_data p) (p_size p) d (p_size p) 0 (p_size p)) as (lo & -> & H1 & H2 & B); auto; try lia; [apply I| |].
  { intros i c Ec. assert (i < length (firstn (p_size p) (p_data p))) by (apply nth_error_Some; congruence). lia. }
  cbn [bind]. destruct (Nat.ltb_spec lo (p_size p)) as [L|L].
  - destruct (get_nth (p_data p) lo) as (c & Ec & ->); [lia|]. cbn [bind].
    assert (Ec' : nth_error (firstn (p_size p) (p_data p)) lo = Some c)
      by (rewrite nth_error_firstn; destruct (Nat.ltb_spec lo (p_size p)); [assumption|lia]).
    eexists. split; [reflexivity|]. destruct (Z.ltb_spec (c_dist c) d) as [Lc|Lc]; (split; [lia|]); intros i e Ee; split; intros Hi.
    + destruct (Nat.eq_dec i lo) as [->|]; [assert (e = c) by congruence; subst; lia|].
      pose proof (proj1 (B i e Ee) ltac:(lia)). lia.
    + apply (B i e Ee). lia.
    + pose proof (proj1 (B i e Ee) ltac:(lia)). lia.
    + destruct (Nat.eq_dec i lo) as [->|]; [assert (e = c) by congruence; subst; lia|]. apply (B i e Ee). lia.
  - eexists. split; [reflexivity|]. split; [lia|]. intros i e Ee.
    assert (i < length (firstn (p_size p) (p_data p))) by (apply nth_error_Some; congruence).
    split; intros Hi; [|lia]. pose proof (proj1 (B i e Ee) ltac:(lia)). lia.
Qed.
Lemma sb_insert_spec cap p id d : 0 < cap -> pool_inv cap p -> (id < 2 ^ 31)%N -> (d <= float_max)%Z ->
  insert_does cap p id d (sb_insert p id d).
Proof.
  intros Hc I Hid Hd. unfold insert_does, sb_insert, top_dist. cbv zeta. pose proof (pre_length _ _ I) as PL.
  pose proof (pi_size _ _ I) as Hs. pose proof (pi_len _ _ I) as HL. rewrite (pi_cap _ _ I).
  destruct (Nat.eqb_spec cap 0); [lia|]. rewrite orb_false_r.
  assert (INS : exists p' lo, (let* lo := binary_search p d in let* p' := insert_at p lo id d in Ok (true, p')) = Ok (true, p')
     /\ pool_inv cap p' /\ place (firstn (p_size p) (p_data p)) lo d
     /\ firstn (p_size p') (p_data p') = firstn cap (ins_at lo {| c_id := id; c_dist := d |} (firstn (p_size p) (p_data p)))).
  { destruct (binary_search_spec cap p d I) as (lo & -> & P). cbn [bind].
    destruct (insert_at_spec cap p lo id d Hc I Hid P) as (p' & -> & I' & K). cbn [bind]. eauto 6. }
  destruct (Nat.eqb_spec (p_size p) 0) as [Z0|NZ].
  - cbn [bind]. destruct (Z.ltb_spec float_max d); [lia|]. right. exact INS.
  - destruct (Nat.eqb_spec (p_size p) cap) as [E|E].
    + destruct (get_nth (p_data p) (p_size p - 1)) as (c & Ec & ->); [lia|]. cbn [bind].
      destruct (Z.ltb_spec (c_dist c) d) as [L|L]; [|right; exact INS].
      left. split; [reflexivity|]. split; [assumption|]. intros e He.
      enough (c_dist e <= c_dist c)%Z by lia. eapply (in_pre_last (firstn (p_size p) (p_data p)) (p_size p - 1)); eauto; [apply I| |lia].
      rewrite nth_error_firstn. destruct (Nat.ltb_spec (p_size p - 1) (p_size p)); [assumption|lia].
    + cbn [bind]. destruct (Z.ltb_spec float_max d); [lia|]. right. exact INS.
Qed.
Lemma laser_insert_spec cap p id d : 0 < cap -> pool_inv cap p -> (id < 2 ^ 31)%N ->
  insert_does cap p id d (laser_insert p id d).
Proof.
  intros Hc I Hid. right. unfold laser_insert. destruct (binary_search_spec cap p d I) as (lo & -> & P). cbn [bind].
  destruct (insert_at_spec cap p lo id d Hc I Hid P) as (p' & -> & I' & K). cbn [bind]. eauto 6.
Qed.

(** ** Pop *)
Definition pop_does (cap : nat) (p : pool) (r : res ((N * Z) * pool)) : Prop :=
  exists c p', r = Ok ((c_id c, c_dist c), p') /\ pool_inv cap p'
    /\ nth_error (firstn (p_size p) (p_data p)) (p_cur p) = Some c /\ (c_id c < 2 ^ 31)%N
    /\ firstn (p_size p') (p_data p') = upd (firstn (p_size p) (p_data p)) (p_cur p) {| c_id := (c_id c + 2 ^ 31)%N; c_dist := c_dist c |}.
Lemma firstn_upd {A} (l : list A) n i x : i < n -> firstn n (upd l i x) = upd (firstn n l) i x.
Proof.
  revert n i. induction l as [|y l IH]; intros [|n] [|i] H; cbn; auto; try lia. f_equal. apply IH. lia.
Qed.
Lemma pop_common cap p c cur' : pool_inv cap p -> p_cur p < p_size p ->
  nth_error (p_data p) (p_cur p) = Some c -> (c_id c < 2 ^ 31)%N ->
  let data := upd (p_data p) (p_cur p) {| c_id := (c_id c + 2 ^ 31)%N; c_dist := c_dist c |} in
  p_cur p + 1 <= cur' <= p_size p ->
  (forall i e, nth_error data i = Some e -> p_cur p + 1 <= i < cur' -> is_checked (c_id e) = true) ->
  (forall e, nth_error data cur' = Some e -> cur' < p_size p -> is_checked (c_id e) = false) ->
  pool_inv cap {| p_size := p_size p; p_cur := cur'; p_cap := p_cap p; p_data := data |}.
Proof.
  intros I Hc Ec Hid data Hcur A F. pose proof (pi_size _ _ I) as Hs. pose proof (pi_len _ _ I) as HL.
  assert (Ld : length data = length (p_data p)) by apply upd_length.
  assert (Nd : forall i, nth_error data i = if Nat.eqb (p_cur p) i then Some {| c_id := (c_id c + 2 ^ 31)%N; c_dist := c_dist c |} else nth_error (p_data p) i).
  { intros i. apply nth_error_upd. lia. }
  constructor; cbn [p_size p_cur p_cap p_data]; try apply I; auto; try lia.
  - intros i j a b Hij. rewrite !nth_error_firstn. destruct (Nat.ltb_spec i (p_size p)) as [Li|]; [|discriminate].
    destruct (Nat.ltb_spec j (p_size p)) as [Lj|]; [|discriminate]. rewrite !Nd.
    assert (K : forall k e, nth_error (p_data p) k = Some e -> k < p_size p -> nth_error (firstn (p_size p) (p_data p)) k = Some e).
    { intros k e Ek Hk. rewrite nth_error_firstn. now destruct (Nat.ltb_spec k (p_size p)); [|lia]. }
    destruct (Nat.eqb_spec (p_cur p) i) as [Ei|Ei], (Nat.eqb_spec (p_cur p) j) as [Ej|Ej]; intros Ha Hb; try lia.
    + injection Ha as <-. cbn [c_dist]. subst i. eapply (pi_sorted _ _ I (p_cur p) j); eauto.
    + injection Hb as <-. cbn [c_dist]. subst j. eapply (pi_sorted _ _ I i (p_cur p)); eauto.
    + eapply (pi_sorted _ _ I i j); eauto.
  - intros i e Ee. rewrite nth_error_firstn in Ee. destruct (Nat.ltb_spec i (p_size p)) as [Li|]; [|discriminate].
    assert (K : nth_error (firstn (p_size p) (p_data p)) i = nth_error (p_data p) i).
    { rewrite nth_error_firstn. now destruct (Nat.ltb_spec i (p_size p)); [|lia]. }
    pose proof (F e) as F'. rewrite Nd in Ee. destruct (Nat.eqb_spec (p_cur p) i) as [Ei|Ei].
    + injection Ee as <-. cbn [c_id]. assert (c_id c + 2 ^ 31 < 2 ^ 32)%N by (change (2 ^ 32)%N with (2 ^ 31 + 2 ^ 31)%N; lia).
      split; [assumption|]. rewrite is_checked_le by assumption. split; [intros _; apply N.leb_le; lia|]. intros; lia.
    + rewrite <- K in Ee. destruct (pi_flags _ _ I i e Ee) as (F1 & F2 & F3). split; [assumption|]. split.
      * intros Hi. destruct (Nat.lt_ge_cases i (p_cur p)); [auto|]. apply (A i e); [|lia]. rewrite Nd.
        destruct (Nat.eqb_spec (p_cur p) i); [lia|]. congruence.
      * intros ->. apply F'; [|assumption]. rewrite Nd. destruct (Nat.eqb_spec (p_cur p) cur'); [lia|]. congruence.
Qed.
Lemma pop_head cap p : pool_inv cap p -> p_cur p < p_size p ->
  exists c, nth_error (p_data p) (p_cur p) = Some c /\ get (p_data p) (p_cur p) = Ok c /\ (c_id c < 2 ^ 31)%N
    /\ nth_error (firstn (p_size p) (p_data p)) (p_cur p) = Some c.
Proof.
  intros I Hc. pose proof (pi_size _ _ I) as Hs. pose proof (pi_len _ _ I) as HL.
  destruct (get_nth (p_data p) (p_cur p)) as (c & Ec & G); [lia|].
  assert (Ec' : nth_error (firstn (p_size p) (p_data p)) (p_cur p) = Some c)
    by (rewrite nth_error_firstn; destruct (Nat.ltb_spec (p_cur p) (p_size p)); [assumption|lia]).
  exists c. repeat split; auto. destruct (pi_flags _ _ I _ c Ec') as (F1 & _ & F3). specialize (F3 eq_refl).
  rewrite is_checked_le in F3 by assumption. apply N.leb_gt in F3. exact F3.
Qed.
Lemma lp_pop_spec cap p : pool_inv cap p -> p_cur p < p_size p -> pop_does cap p (lp_pop p).
Proof.
  intros I Hc. pose proof (pi_size _ _ I) as Hs. pose proof (pi_len _ _ I) as HL.
  destruct (pop_head cap p I Hc) as (c & Ec & G & Hid & Ec'). unfold pop_does, lp_pop. rewrite G. cbn [bind].
  rewrite put_ok by lia. cbn [bind]. rewrite set_checked_add by assumption.
  set (m := {| c_id := (c_id c + 2 ^ 31)%N; c_dist := c_dist c |}). set (data := upd (p_data p) (p_cur p) m).
  assert (Nd : forall i, nth_error data i = if Nat.eqb (p_cur p) i then Some m else nth_error (p_data p) i)
    by (intros i; apply nth_error_upd; lia).
  destruct (advance_spec data (p_size p) (p_size p - p_cur p) (p_cur p)) as (c' & -> & B & A & F); try lia.
  { unfold data. rewrite upd_length. lia. }
  cbn [bind]. assert (Gm : get data (p_cur p) = Ok m) by (unfold get; rewrite Nd, Nat.eqb_refl; reflexivity). rewrite Gm. cbn [bind].
  assert (Hc' : p_cur p + 1 <= c').
  { destruct (Nat.eq_dec c' (p_cur p)) as [->|]; [|lia]. specialize (F m). rewrite Nd, Nat.eqb_refl in F. specialize (F eq_refl Hc).
    assert (c_id m < 2 ^ 32)%N by (cbn [c_id m]; change (2 ^ 32)%N with (2 ^ 31 + 2 ^ 31)%N; lia).
    rewrite is_checked_le in F by assumption. apply N.leb_gt in F. cbn [c_id m] in F. lia. }
  exists c. eexists. split; [|split; [apply (pop_common cap p c c')|split; [assumption|split; [assumption|]]]]; auto.
  - cbn [c_dist m]. rewrite get_id_mod. cbn [c_id m].
    replace ((c_id c + 2 ^ 31) mod 2 ^ 31)%N with (c_id c); [reflexivity|].
    rewrite <- (N.mul_1_l (2 ^ 31)) at 1. rewrite N.mod_add by discriminate. symmetry. now apply N.mod_small.
  - lia.
  - intros i e Ee Hi. apply (A i e Ee). lia.
  - cbn [p_size p_data]. apply firstn_upd. assumption.
Qed.
Lemma sb_pop_spec cap p : pool_inv cap p -> p_cur p < p_size p -> pop_does cap p (sb_pop p).
Proof.
  intros I Hc. pose proof (pi_size _ _ I) as Hs. pose proof (pi_len _ _ I) as HL.
  destruct (pop_head cap p I Hc) as (c & Ec & G & Hid & Ec'). unfold pop_does, sb_pop. rewrite G. cbn [bind].
  rewrite put_ok by lia. cbn [bind]. rewrite set_checked_add by assumption.
  set (m := {| c_id := (c_id c + 2 ^ 31)%N; c_dist := c_dist c |}). set (data := upd (p_data p) (p_cur p) m).
  destruct (advance_spec data (p_size p) (p_size p - (p_cur p + 1)) (p_cur p + 1)) as (c' & -> & B & A & F); try lia.
  { unfold data. rewrite upd_length. lia. }
  cbn [bind]. exists c. eexists. split; [reflexivity|split; [apply (pop_common cap p c c')|split; [assumption|split; [assumption|]]]]; auto.
  cbn [p_size p_data]. apply firstn_upd. assumption.
Qed.

(** ** Consequences for the content *)
Lemma map_ins {A B} (f : A -> B) lo c l : map f (ins_at lo c l) = ins_at lo (f c) (map f l).
Proof. unfold ins_at. rewrite map_app, firstn_map. cbn [map]. now rewrite skipn_map. Qed.
Lemma entry_new id d : (id < 2 ^ 31)%N -> entry_of {| c_id := id; c_dist := d |} = ((id, d), false).
Proof.
  intros H. unfold entry_of. cbn [c_id c_dist]. rewrite N.mod_small by assumption. do 2 f_equal. now apply N.leb_gt.
Qed.
Lemma entry_marked id d : (id < 2 ^ 31)%N -> entry_of {| c_id := (id + 2 ^ 31)%N; c_dist := d |} = ((id, d), true).
Proof.
  intros H. unfold entry_of. cbn [c_id c_dist]. f_equal; [|apply N.leb_le; lia]. f_equal.
  rewrite <- (N.mul_1_l (2 ^ 31)) at 1. rewrite N.mod_add by discriminate. now apply N.mod_small.
Qed.
Definition dist_le (a b : entry) : Prop := (e_dist a <= e_dist b)%Z.
Lemma content_sorted cap p : pool_inv cap p -> StronglySorted dist_le (content p).
Proof.
  intros I. pose proof (sorted_strong _ (pi_sorted _ _ I)) as S. unfold content. revert S.
  generalize (firstn (p_size p) (p_data p)). induction l as [|x l IH]; intros S; cbn [map]; constructor; inversion S; subst; auto.
  apply Forall_forall. intros y Hy. apply in_map_iff in Hy as (z & <- & Hz). rewrite Forall_forall in H2. apply (H2 z Hz).
Qed.
Definition kept (p : pool) : list (N * Z) := map fst (content p).
Lemma kept_map p : kept p = map (fun c => fst (entry_of c)) (firstn (p_size p) (p_data p)).
Proof. unfold kept, content. apply map_map. Qed.
Lemma insert_closest cap p id d r all : 0 < cap -> pool_inv cap p -> (id < 2 ^ 31)%N -> insert_does cap p id d r ->
  keeps_closest cap all (kept p) ->
  exists b p', r = Ok (b, p') /\ pool_inv cap p' /\ keeps_closest cap (all ++ [(id, d)]) (kept p').
Proof.
  intros Hc I Hid D (HL & rest & Pm & Fu & Far).
  assert (KL : length (kept p) = p_size p) by (unfold kept, content; rewrite !map_length; eapply pre_length; eauto).
  destruct D as [(-> & Hs & Le)|(p' & lo & -> & I' & Pl & K)].
  - exists false, p. split; [reflexivity|]. split; [assumption|]. split; [lia|]. exists (rest ++ [(id, d)]). split; [|split].
    + rewrite app_assoc. now apply Permutation_app_tail.
    + intros _. lia.
    + intros x y Hx Hy. apply in_app_or in Hy as [Hy|[<-|[]]]; [auto|]. cbn [snd].
      unfold kept, content in Hx. rewrite map_map in Hx. apply in_map_iff in Hx as (c & <- & Hcc). cbn. now apply Le.
  - exists true, p'. split; [reflexivity|]. split; [assumption|].
    set (whole := ins_at lo (id, d) (kept p)).
    assert (KW : kept p' = firstn cap whole).
    { unfold whole. rewrite !kept_map, K, <- firstn_map, map_ins, entry_new by assumption. reflexivity. }
    assert (WL : length whole = S (p_size p)).
    { unfold whole. rewrite ins_at_length; [lia|]. rewrite KL. destruct Pl as [Pl _]. rewrite (pre_length _ _ I) in Pl. exact Pl. }
    assert (WP : Permutation (all ++ [(id, d)]) (whole ++ rest)).
    { transitivity (((id, d) :: kept p) ++ rest).
      - rewrite Permutation_app_comm. cbn. now constructor.
      - apply Permutation_app_tail. unfold whole, ins_at. rewrite <- (firstn_skipn lo (kept p)) at 1. apply Permutation_middle. }
    rewrite KW. split; [rewrite firstn_length; lia|]. exists (skipn cap whole ++ rest). split; [|split].
    + rewrite app_assoc, firstn_skipn. exact WP.
    + intros NE. rewrite firstn_length, WL. pose proof (pi_size _ _ I) as Hs.
      destruct (Nat.eq_dec (p_size p) cap) as [->|]; [lia|].
      assert (skipn cap whole = []) by (apply skipn_all2; lia). rewrite H in NE. cbn in NE. specialize (Fu NE). lia.
    + pose proof (content_sorted _ _ I') as S'. 
      assert (WS : StronglySorted (fun a b : N * Z => (snd a <= snd b)%Z) whole).
      { pose proof (sorted_ins _ lo d id (pi_sorted _ _ I) Pl) as S0. apply sorted_strong in S0.
        assert (EW : whole = map (fun c => fst (entry_of c)) (ins_at lo {| c_id := id; c_dist := d |} (firstn (p_size p) (p_data p)))).
        { unfold whole. now rewrite kept_map, map_ins, entry_new by assumption. }
        rewrite EW. clear - S0. induction S0; cbn [map]; constructor; auto. apply Forall_forall. intros y Hy.
        apply in_map_iff in Hy as (z & <- & Hz). rewrite Forall_forall in H. apply (H z Hz). }
      assert (WR : forall x y, In x (firstn cap whole) -> In y (skipn cap whole) -> (snd x <= snd y)%Z).
      { clear - WS. revert cap. induction WS as [|a l S IH F]; intros cap x y Hx Hy; [now destruct cap|].
        destruct cap as [|cap]; [destruct Hx|]. cbn [firstn skipn] in *. destruct Hx as [<-|Hx]; [|eauto].
        rewrite Forall_forall in F. apply F. rewrite <- (firstn_skipn cap l). apply in_or_app. now right. }
      intros x y Hx Hy. apply in_app_or in Hy as [Hy|Hy]; [eauto|].
      (* y was left out before: the pool was already full *)
      assert (Fu' : length (kept p) = cap) by (apply Fu; intros ->; destruct Hy). 
      destruct (Nat.lt_ge_cases lo cap) as [Llo|Llo].
      * (* the last one is pushed out, it is at most y and at least x *)
        assert (exists z, In z (skipn cap whole) /\ In z (kept p)) as (z & Hz & Hz').
        { unfold whole, ins_at. rewrite skipn_app, firstn_length, KL, Nat.min_l by lia.
          rewrite skipn_all2 by (rewrite firstn_length; lia). cbn [app]. replace (cap - lo) with (S (cap - lo - 1)) by lia. cbn [skipn].
          rewrite skipn_skipn_add. destruct (skipn (lo + (cap - lo - 1)) (kept p)) as [|z l] eqn:E.
          - apply (f_equal (@length _)) in E. rewrite skipn_length in E. cbn in E. lia.
          - exists z. split; [now left|]. rewrite <- (firstn_skipn (lo + (cap - lo - 1)) (kept p)), E. apply in_or_app. right. now left. }
        specialize (WR x z Hx Hz). specialize (Far z y Hz' Hy). lia.
      * assert (EF : firstn cap whole = kept p).
        { unfold whole, ins_at. rewrite firstn_app, firstn_firstn, firstn_length, KL.
          destruct Pl as [Pl _]. rewrite (pre_length _ _ I) in Pl. assert (lo = cap) by lia. subst lo.
          replace (cap - Nat.min cap (p_size p)) with 0 by lia. cbn [firstn]. rewrite app_nil_r, Nat.min_id. apply firstn_all2. lia. }
        rewrite EF in Hx. auto.
Qed.
Lemma pop_kept cap p r : pop_does cap p r -> exists x p', r = Ok (x, p') /\ pool_inv cap p' /\ kept p' = kept p.
Proof.
  intros (c & p' & -> & I' & Ec & Hid & K). eexists _, p'. split; [reflexivity|]. split; [assumption|].
  rewrite !kept_map, K. clear K. generalize dependent (firstn (p_size p) (p_data p)). intros l. generalize (p_cur p). clear - Hid.
  induction l as [|y l IH]; intros [|i] Ec; cbn [upd map] in *; auto; try discriminate.
  - injection Ec as ->. rewrite entry_marked by assumption. f_equal. unfold entry_of. cbn [fst]. f_equal. symmetry. now apply N.mod_small.
  - f_equal. apply IH; auto.
Qed.

Lemma sb_clear_inv cap p : pool_inv cap p -> pool_inv cap (sb_clear p).
Proof.
  intros I. constructor; cbn [sb_clear p_cap p_data p_size p_cur firstn]; try lia; try apply I.
  - intros i j a b _ H. now destruct i.
  - intros i c H. now destruct i.
Qed.

Section Generic.
  Variables (insert : pool -> N -> Z -> res (bool * pool)) (pop : pool -> res ((N * Z) * pool)) (cap : nat) (dmax : Z).
  Hypothesis cap_pos : 0 < cap.
  Hypothesis insert_ok : forall p id d, pool_inv cap p -> (id < 2 ^ 31)%N -> (d <= dmax)%Z -> insert_does cap p id d (insert p id d).
  Hypothesis pop_ok : forall p, pool_inv cap p -> p_cur p < p_size p -> pop_does cap p (pop p).

  Lemma reached_from p0 ops : pool_inv cap p0 -> p_size p0 = 0 -> Forall (op_ok dmax) ops ->
    exists p, run_pool insert pop p0 ops = Ok p /\ pool_inv cap p /\ keeps_closest cap (inserted ops) (kept p).
  Proof.
    intros I0 Z0 F. assert (G : forall todo all p, Forall (op_ok dmax) todo -> pool_inv cap p -> keeps_closest cap all (kept p) ->
      exists p', run_pool insert pop p todo = Ok p' /\ pool_inv cap p' /\ keeps_closest cap (all ++ inserted todo) (kept p')).
    { induction todo as [|o todo IH]; intros all p Fo I Kc; cbn [run_pool].
      - exists p. cbn [inserted flat_map]. rewrite app_nil_r. auto.
      - apply Forall_cons_iff in Fo as [Ho Fo]. destruct o as [id d|]; cbn [pool_step].
        + destruct Ho as [Hid Hd]. destruct (insert_closest cap p id d _ all cap_pos I Hid (insert_ok p id d I Hid Hd) Kc) as (b & p1 & -> & I1 & K1).
          cbn [bind snd]. destruct (IH _ _ Fo I1 K1) as (p2 & -> & I2 & K2). exists p2. rewrite <- app_assoc in K2. auto.
        + unfold has_next. destruct (Nat.ltb_spec (p_cur p) (p_size p)) as [L|L].
          * destruct (pop_kept cap p _ (pop_ok p I L)) as (x & p1 & -> & I1 & K1). cbn [bind snd].
            rewrite <- K1 in Kc. destruct (IH _ _ Fo I1 Kc) as (p2 & -> & I2 & K2). exists p2. auto.
          * cbn [bind]. destruct (IH _ _ Fo I Kc) as (p2 & -> & I2 & K2). exists p2. auto. }
    apply (G ops [] p0 F I0). unfold kept, content. rewrite Z0. split; [cbn; lia|]. exists []. repeat split; auto; intros; try contradiction; congruence.
  Qed.
  Lemma reached ops : Forall (op_ok dmax) ops ->
    exists p, run_pool insert pop (pool_new cap) ops = Ok p /\ pool_inv cap p /\ keeps_closest cap (inserted ops) (kept p).
  Proof. apply reached_from; [apply pool_new_inv|reflexivity]. Qed.
  Lemma closest_from p0 ops : pool_inv cap p0 -> p_size p0 = 0 -> Forall (op_ok dmax) ops -> holds_closest_from insert pop p0 cap ops.
  Proof.
    intros I0 Z0 F. destruct (reached_from p0 ops I0 Z0 F) as (p & E & I & K). exists p. split; [assumption|]. split; [|assumption].
    apply (content_sorted cap p I).
  Qed.
  Lemma closest_lemma ops : Forall (op_ok dmax) ops -> holds_closest insert pop cap ops.
  Proof. apply closest_from; [apply pool_new_inv|reflexivity]. Qed.
  Lemma refuses_lemma ops : Forall (op_ok dmax) ops -> refuses_only_far insert pop cap dmax ops.
  Proof.
    intros F. destruct (reached ops F) as (p & E & I & _). exists p. split; [assumption|]. intros id d [Hid Hd].
    assert (CL : length (content p) = p_size p) by (unfold content; rewrite map_length; apply (pre_length cap p I)).
    destruct (insert_ok p id d I Hid Hd) as [(-> & Hs & Le)|(p' & lo & -> & I' & Pl & K)].
    - right. split; [reflexivity|]. split; [lia|]. intros e He. apply in_map_iff in He as (c & <- & Hc). now apply Le.
    - left. set (new := ins_at lo (((id, d), false) : entry) (content p)).
      assert (Kc : content p' = firstn cap new).
      { unfold content at 1. rewrite K, <- firstn_map, map_ins, entry_new by assumption. reflexivity. }
      destruct Pl as [Pl _]. rewrite (pre_length _ _ I) in Pl.
      assert (NL : length new = S (p_size p)) by (unfold new; rewrite ins_at_length; lia).
      exists p', (firstn lo (content p)), (skipn lo (content p)), (skipn cap new).
      split; [reflexivity|]. split; [now rewrite firstn_skipn|]. rewrite Kc, firstn_skipn. split; [reflexivity|].
      pose proof (pi_size _ _ I). destruct (Nat.eq_dec (p_size p) cap).
      + right. split; [lia|]. rewrite skipn_length. lia.
      + left. apply skipn_all2. lia.
  Qed.
  Lemma skips_from p0 ops : pool_inv cap p0 -> p_size p0 = 0 -> Forall (op_ok dmax) ops -> never_skips_from insert pop p0 ops.
  Proof.
    intros I0 Z0 F. destruct (reached_from p0 ops I0 Z0 F) as (p & E & I & _). exists p. split; [assumption|]. unfold has_next. split.
    - intros H e He. apply Nat.ltb_ge in H. apply in_map_iff in He as (c & <- & Hc). apply In_nth_error in Hc as [i Hi].
      assert (i < length (firstn (p_size p) (p_data p))) by (apply nth_error_Some; congruence). rewrite (pre_length _ _ I) in H0.
      destruct (pi_flags _ _ I i c Hi) as (F1 & F2 & _). cbn. rewrite <- is_checked_le by assumption. apply F2. lia.
    - intros H. apply Nat.ltb_lt in H. destruct (pop_ok p I H) as (c & p' & -> & I' & Ec & Hid & K).
      exists (c_id c), (c_dist c), p', (firstn (p_cur p) (content p)), (skipn (p_cur p + 1) (content p)).
      split; [reflexivity|].
      assert (CL : length (content p) = p_size p) by (unfold content; rewrite map_length; apply (pre_length cap p I)).
      assert (EN : nth_error (content p) (p_cur p) = Some ((c_id c, c_dist c), false)).
      { unfold content. rewrite (map_nth_error entry_of _ _ Ec). f_equal. unfold entry_of. rewrite N.mod_small by assumption.
        f_equal. now apply N.leb_gt. }
      split; [|split].
      + apply list_eq_nth.
        * rewrite app_length, firstn_length. cbn [length]. rewrite skipn_length. lia.
        * intros i Hi. destruct (Nat.lt_ge_cases i (p_cur p)).
          -- rewrite nth_error_app1 by (rewrite firstn_length; lia). rewrite nth_error_firstn. now destruct (Nat.ltb_spec i (p_cur p)); [|lia].
          -- rewrite nth_error_app2 by (rewrite firstn_length; lia). rewrite firstn_length, Nat.min_l by lia.
             destruct (Nat.eq_dec i (p_cur p)) as [->|]; [now rewrite Nat.sub_diag|].
             replace (i - p_cur p) with (S (i - p_cur p - 1)) by lia. cbn [nth_error]. rewrite nth_error_skipn. f_equal. lia.
      + unfold content at 1. rewrite K, upd_split by (rewrite (pre_length _ _ I); assumption).
        rewrite map_app. cbn [map]. rewrite entry_marked by assumption. now rewrite <- firstn_map, <- skipn_map.
      + intros e He Hu. unfold content in He. apply in_map_iff in He as (y & <- & Hy). apply In_nth_error in Hy as [i Hi].
        destruct (pi_flags _ _ I i y Hi) as (F1 & F2 & _). cbn [snd entry_of] in Hu. rewrite <- is_checked_le in Hu by assumption.
        cbn. destruct (Nat.lt_ge_cases i (p_cur p)) as [L|L]; [rewrite F2 in Hu by assumption; discriminate|].
        destruct (Nat.eq_dec i (p_cur p)) as [->|]; [rewrite Ec in Hi; injection Hi as <-; lia|].
        apply (pi_sorted _ _ I (p_cur p) i c y); auto. lia.
  Qed.
  Lemma skips_lemma ops : Forall (op_ok dmax) ops -> never_skips insert pop cap ops.
  Proof. apply skips_from; [apply pool_new_inv|reflexivity]. Qed.
End Generic.
