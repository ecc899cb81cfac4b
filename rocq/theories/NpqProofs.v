(** Proofs about the search frontier. *)
From Verif Require Import NpqModel NpqSpec PoolProofs.

Definition of_nbr (e : nbr) : N * Z := (n_id e, n_dist e).
Lemma nbr_lt_spec a b : nbr_lt a b = true <-> cand_lt (of_nbr a) (of_nbr b).
Proof.
  unfold nbr_lt, cand_lt, of_nbr. cbn [fst snd]. rewrite orb_true_iff, andb_true_iff, Z.ltb_lt, Z.eqb_eq, N.ltb_lt. tauto.
Qed.
Lemma lt_trans a b c : cand_lt a b -> cand_lt b c -> cand_lt a c.
Proof. unfold cand_lt. lia. Qed.
Lemma lt_irrefl a : ~ cand_lt a a.
Proof. unfold cand_lt. lia. Qed.
Lemma lt_total a b : cand_lt a b \/ a = b \/ cand_lt b a.
Proof.
  unfold cand_lt. destruct a as [i d], b as [j e]. cbn [fst snd].
  destruct (Z.lt_trichotomy d e) as [?|[->|?]]; auto. destruct (N.lt_trichotomy i j) as [?|[->|?]]; auto.
Qed.

(** Storing at [lo] after shifting, in an array with one spare entry. *)
Lemma shift_put {A} (data : list A) size cap lo (x : A) :
  cap + 1 <= length data -> size <= cap -> lo <= size ->
  exists tail, (let* m := (if Nat.ltb lo cap then memmove_up data lo (size - lo) else Ok data) in put m lo x)
    = Ok (ins_at lo x (firstn size data) ++ tail) /\ cap + 1 <= length (ins_at lo x (firstn size data) ++ tail).
Proof.
  intros HL Hs Hlo. set (pre := firstn size data). assert (PL : length pre = size) by (unfold pre; rewrite firstn_length; lia).
  unfold memmove_up. exists (skipn (size + 1) data).
  assert (F1 : firstn lo pre = firstn lo data) by (unfold pre; rewrite firstn_firstn; f_equal; lia).
  assert (F2 : skipn lo pre = firstn (size - lo) (skipn lo data)) by (unfold pre; apply skipn_firstn_comm).
  assert (LL : cap + 1 <= length (ins_at lo x pre ++ skipn (size + 1) data)).
  { rewrite app_length, ins_at_length, skipn_length by lia. lia. }
  destruct (Nat.eqb_spec (size - lo) 0) as [Z0|NZ].
  - assert (lo = size) by lia. subst lo.
    assert (EM : (if Nat.ltb size cap then Ok data else Ok data) = Ok data) by (now destruct (Nat.ltb size cap)). rewrite EM.
    cbn [bind]. rewrite put_ok by lia.
    split; [|exact LL]. f_equal. rewrite upd_split by lia. unfold ins_at. rewrite F1, F2, Nat.sub_diag. rewrite <- app_assoc. reflexivity.
  - destruct (Nat.ltb_spec lo cap) as [_|]; [|lia].
    destruct (Nat.leb_spec (lo + 1 + (size - lo)) (length data)) as [_|]; [|lia]. cbn [bind].
    set (mid := firstn (size - lo) (skipn lo data) ++ skipn (lo + 1 + (size - lo)) data).
    assert (Lm : cap + 1 <= length (firstn (lo + 1) data ++ mid)).
    { unfold mid. rewrite !app_length, !firstn_length, !skipn_length. lia. }
    rewrite put_ok by lia. split; [|exact LL]. f_equal. rewrite upd_split by lia.
    rewrite firstn_app, firstn_firstn, firstn_length. replace (Nat.min lo (lo + 1)) with lo by lia.
    replace (lo - Nat.min (lo + 1) (length data)) with 0 by lia. cbn [firstn]. rewrite app_nil_r.
    rewrite skipn_app, firstn_length. rewrite skipn_all2 by (rewrite firstn_length; lia).
    replace (lo + 1 - Nat.min (lo + 1) (length data)) with 0 by lia. cbn [skipn app].
    unfold ins_at, mid. rewrite F1, F2. replace (lo + 1 + (size - lo)) with (size + 1) by lia. now rewrite <- app_assoc.
Qed.

Definition q_sorted (l : list nbr) : Prop :=
  forall i j a b, i < j -> nth_error l i = Some a -> nth_error l j = Some b -> cand_lt (of_nbr a) (of_nbr b).
Record q_inv (cap : nat) (q : npq) : Prop := {
  qi_cap : q_cap q = cap;
  qi_len : cap + 1 <= length (q_data q);
  qi_size : q_size q <= cap;
  qi_cur : q_cur q <= q_size q;
  qi_sorted : q_sorted (q_entries q);
  qi_flags : forall i e, nth_error (q_entries q) i = Some e ->
     (i < q_cur q -> n_exp e = true) /\ (i = q_cur q -> n_exp e = false);
}.
Lemma npq_new_inv cap : q_inv cap (npq_new cap).
Proof.
  constructor; unfold q_entries; cbn [npq_new q_cap q_data q_size q_cur firstn]; auto; try lia.
  - rewrite repeat_length. lia.
  - intros i j a b _ H. now destruct i.
  - intros i c H. now destruct i.
Qed.
Lemma entries_length cap q : q_inv cap q -> length (q_entries q) = q_size q.
Proof. intros I. unfold q_entries. rewrite firstn_length. pose proof (qi_len _ _ I). pose proof (qi_size _ _ I). lia. Qed.
Lemma entry_at q i e : nth_error (q_data q) i = Some e -> i < q_size q -> nth_error (q_entries q) i = Some e.
Proof. intros H Hi. unfold q_entries. rewrite nth_error_firstn. now destruct (Nat.ltb_spec i (q_size q)); [|lia]. Qed.

(** The place of a new candidate. *)
Definition q_place (l : list nbr) (lo : nat) (x : N * Z) : Prop :=
  lo <= length l /\ forall i e, nth_error l i = Some e ->
    (i < lo -> cand_lt (of_nbr e) x) /\ (lo <= i -> cand_lt x (of_nbr e)).
Lemma search_spec cap q x : q_inv cap q ->
  (forall e, In e (q_entries q) -> n_id e = n_id x -> n_dist e = n_dist x) ->
  forall fuel lo hi, hi - lo <= fuel -> lo <= hi <= q_size q ->
  (forall i e, nth_error (q_entries q) i = Some e ->
    (i < lo -> cand_lt (of_nbr e) (of_nbr x)) /\ (hi <= i -> cand_lt (of_nbr x) (of_nbr e))) ->
  npq_search fuel (q_data q) lo hi x = Ok None /\ In (of_nbr x) (q_content q)
  \/ exists p, npq_search fuel (q_data q) lo hi x = Ok (Some p) /\ q_place (q_entries q) p (of_nbr x).
Proof.
  intros I Fn. pose proof (qi_len _ _ I) as HL. pose proof (qi_size _ _ I) as Hs. pose proof (entries_length _ _ I) as EL.
  induction fuel as [|k IH]; intros lo hi Hf Hr B; cbn [npq_search].
  - right. exists lo. replace hi with lo in * by lia. split; [reflexivity|]. split; [lia|]. auto.
  - destruct (Nat.ltb_spec lo hi) as [Lt|Ge].
    2:{ right. exists lo. replace hi with lo in * by lia. split; [reflexivity|]. split; [lia|]. auto. }
    set (mid := Nat.div (lo + hi) 2). assert (Hm : lo <= mid < hi) by (unfold mid; lia).
    destruct (get_nth (q_data q) mid) as (c & Ec & ->); [lia|]. cbn [bind].
    assert (Ec' : nth_error (q_entries q) mid = Some c) by (apply entry_at; [assumption|lia]).
    destruct (nbr_lt x c) eqn:Lx.
    + apply nbr_lt_spec in Lx. apply IH; try lia. intros i e Ee. split; intros Hi; [now apply (B i e Ee)|].
      destruct (Nat.eq_dec i mid) as [->|]; [congruence|]. eapply lt_trans; [exact Lx|]. apply (qi_sorted _ _ I mid i); auto. lia.
    + assert (NL : ~ cand_lt (of_nbr x) (of_nbr c)) by (rewrite <- nbr_lt_spec; congruence).
      destruct (N.eqb_spec (n_id c) (n_id x)) as [Eid|Nid].
      * left. split; [reflexivity|]. unfold q_content. apply in_map_iff. exists c.
        assert (Hin : In c (q_entries q)) by (eapply nth_error_In; eauto). split; [|assumption].
        unfold of_nbr. rewrite Eid. f_equal. auto.
      * assert (Lc : cand_lt (of_nbr c) (of_nbr x)).
        { destruct (lt_total (of_nbr x) (of_nbr c)) as [?|[E|?]]; auto; [contradiction|]. injection E. congruence. }
        apply IH; try lia. intros i e Ee. split; intros Hi; [|now apply (B i e Ee)].
        destruct (Nat.eq_dec i mid) as [->|]; [congruence|]. eapply lt_trans; [|exact Lc]. apply (qi_sorted _ _ I i mid); auto. lia.
Qed.

(** What an insertion does. *)
Definition q_insert_does (cap : nat) (q : npq) (x : N * Z) (r : res (insert_result * npq)) : Prop :=
  (r = Ok (not_inserted, q) /\ (In x (q_content q) \/ (q_size q = cap /\ forall e, In e (q_entries q) -> cand_lt (of_nbr e) x)))
  \/ exists q' lo ev, r = Ok ({| r_inserted := true; r_evicted := ev |}, q') /\ q_inv cap q' /\ q_place (q_entries q) lo x
       /\ lo < cap
       /\ q_entries q' = firstn cap (ins_at lo {| n_id := fst x; n_dist := snd x; n_exp := false |} (q_entries q))
       /\ match ev with
          | None => q_size q < cap
          | Some id => q_size q = cap /\ exists e, nth_error (q_entries q) (cap - 1) = Some e /\ n_id e = id
          end.
Lemma npq_insert_spec cap q id d : 0 < cap -> q_inv cap q ->
  (forall e, In e (q_entries q) -> n_id e = id -> n_dist e = d) ->
  q_insert_does cap q (id, d) (npq_insert q {| n_id := id; n_dist := d; n_exp := false |}).
Proof.
  intros Hc I Fn. set (x := {| n_id := id; n_dist := d; n_exp := false |}).
  unfold q_insert_does, npq_insert. rewrite (qi_cap _ _ I). destruct (Nat.eqb_spec cap 0); [lia|].
  pose proof (qi_len _ _ I) as HL. pose proof (qi_size _ _ I) as Hs. pose proof (entries_length _ _ I) as EL.
  set (full := Nat.eqb (q_size q) cap).
  assert (REF : exists refuse, (if full then let* c := get (q_data q) (q_size q - 1) in Ok (nbr_lt c x) else Ok false) = Ok refuse
     /\ if refuse then q_size q = cap /\ (forall e, In e (q_entries q) -> cand_lt (of_nbr e) (id, d))
        else q_size q = cap -> exists c, nth_error (q_entries q) (cap - 1) = Some c /\ ~ cand_lt (of_nbr c) (id, d)).
  { unfold full. destruct (Nat.eqb_spec (q_size q) cap) as [E|E]; [|exists false; split; [reflexivity|contradiction]].
    destruct (get_nth (q_data q) (q_size q - 1)) as (c & Ec & ->); [lia|]. cbn [bind].
    assert (Ec' : nth_error (q_entries q) (cap - 1) = Some c) by (rewrite <- E; apply entry_at; [assumption|lia]).
    exists (nbr_lt c x). split; [reflexivity|]. destruct (nbr_lt c x) eqn:Lc.
    - apply nbr_lt_spec in Lc. split; [assumption|]. intros e He. apply In_nth_error in He as [i Hi].
      assert (i < length (q_entries q)) by (apply nth_error_Some; congruence).
      destruct (Nat.eq_dec i (cap - 1)) as [->|]; [rewrite Ec' in Hi; injection Hi as <-; exact Lc|].
      eapply lt_trans; [|exact Lc]. apply (qi_sorted _ _ I i (cap - 1)); auto. lia.
    - intros _. exists c. split; [assumption|]. change (id, d) with (of_nbr x). rewrite <- nbr_lt_spec. congruence. }
  destruct REF as (refuse & -> & REF). cbn [bind]. destruct refuse; [left; auto|].
  assert (B0 : forall i e, nth_error (q_entries q) i = Some e ->
    (i < 0 -> cand_lt (of_nbr e) (of_nbr x)) /\ (q_size q <= i -> cand_lt (of_nbr x) (of_nbr e))).
  { intros i e Ee. assert (i < length (q_entries q)) by (apply nth_error_Some; congruence). lia. }
  destruct (search_spec cap q x I Fn (q_size q) 0 (q_size q) ltac:(lia) ltac:(lia) B0) as [(-> & Hin)|(lo & -> & P)].
  { cbn [bind]. left. auto. }
  cbn [bind]. right. destruct P as [Plo P]. rewrite EL in Plo.
  assert (Llo : lo < cap).
  { destruct (Nat.eq_dec lo cap) as [->|]; [|lia]. exfalso. assert (E : q_size q = cap) by lia.
    destruct (REF E) as (c & Ec & NL). apply NL. apply (P (cap - 1) c Ec). lia. }
  assert (EV : exists ev, (if full then let* c := get (q_data q) (cap - 1) in Ok (Some (n_id c)) else Ok None) = Ok ev
     /\ match ev with None => q_size q < cap | Some i => q_size q = cap /\ exists e, nth_error (q_entries q) (cap - 1) = Some e /\ n_id e = i end).
  { unfold full. destruct (Nat.eqb_spec (q_size q) cap) as [E|E]; [|exists None; split; [reflexivity|lia]].
    destruct (get_nth (q_data q) (cap - 1)) as (c & Ec & ->); [lia|]. cbn [bind]. eexists. split; [reflexivity|]. split; [assumption|].
    exists c. split; [apply entry_at; [assumption|lia]|reflexivity]. }
  destruct EV as (ev & -> & EV). cbn [bind].
  destruct (shift_put (q_data q) (q_size q) cap lo x HL Hs Plo) as (tail & SP & TL). fold (q_entries q) in SP, TL.
  assert (SPd : forall (f : list nbr -> res (insert_result * npq)),
     (let* moved := (if Nat.ltb lo cap then memmove_up (q_data q) lo (q_size q - lo) else Ok (q_data q)) in
      let* data := put moved lo x in f data) = f (ins_at lo x (q_entries q) ++ tail)).
  { intros f. destruct (if Nat.ltb lo cap then memmove_up (q_data q) lo (q_size q - lo) else Ok (q_data q)) as [m| | |]; cbn [bind] in SP |- *; try discriminate.
    rewrite SP. reflexivity. }
  change {| n_id := n_id x; n_dist := n_dist x; n_exp := false |} with x. rewrite SPd.
  set (size' := if Nat.ltb (q_size q) cap then q_size q + 1 else q_size q).
  assert (IL : length (ins_at lo x (q_entries q)) = q_size q + 1) by (rewrite ins_at_length; lia).
  assert (Hs' : size' <= cap /\ size' <= q_size q + 1 /\ (size' = q_size q + 1 \/ size' = cap)).
  { unfold size'. destruct (Nat.ltb_spec (q_size q) cap); lia. }
  assert (K : firstn size' (ins_at lo x (q_entries q) ++ tail) = firstn cap (ins_at lo x (q_entries q))).
  { rewrite firstn_app, IL. replace (size' - (q_size q + 1)) with 0 by lia. cbn [firstn]. rewrite app_nil_r.
    destruct Hs' as (H1 & _ & [E1|E1]); rewrite E1 in *; [|reflexivity]. rewrite !firstn_all2 by lia. reflexivity. }
  eexists _, lo, ev. split; [reflexivity|]. split; [|split; [split; [lia|exact P]|split; [assumption|split; [exact K|exact EV]]]].
  constructor; cbn [q_cap q_data q_size q_cur]; auto.
  - apply Hs'.
  - unfold size'. pose proof (qi_cur _ _ I). destruct (Nat.ltb_spec lo (q_cur q)), (Nat.ltb_spec (q_size q) cap); lia.
  - unfold q_entries at 1. cbn [q_size q_data]. rewrite K. intros i j a b Hij. rewrite !nth_error_firstn. destruct (Nat.ltb i cap); [|discriminate]. destruct (Nat.ltb j cap); [|discriminate].
    rewrite !nth_error_ins by lia. intros Ha Hb.
    destruct (Nat.ltb_spec i lo) as [Li|Li].
    + destruct (Nat.ltb_spec j lo) as [Lj|Lj]; [eapply (qi_sorted _ _ I i j); eauto|].
      destruct (Nat.eqb_spec j lo) as [->|Nj]; [injection Hb as <-; now apply (P i a)|].
      eapply (qi_sorted _ _ I i (j - 1)); eauto. lia.
    + destruct (Nat.ltb_spec j lo) as [Lj|Lj]; [lia|].
      destruct (Nat.eqb_spec j lo) as [->|Nj]; [lia|].
      destruct (Nat.eqb_spec i lo) as [->|Ni]; [injection Ha as <-; apply (P (j - 1) b); auto; lia|].
      eapply (qi_sorted _ _ I (i - 1) (j - 1)); eauto. lia.
  - unfold q_entries at 1. cbn [q_size q_data]. rewrite K. intros i e. rewrite nth_error_firstn. destruct (Nat.ltb_spec i cap) as [Li|]; [|discriminate].
    rewrite nth_error_ins by lia. destruct (Nat.ltb_spec i lo) as [L1|L1].
    + intros Ec. destruct (qi_flags _ _ I i e Ec) as (F2 & F3).
      destruct (Nat.ltb_spec lo (q_cur q)) as [Lc|Lc]; split; intros Hi; try (apply F2; lia); try (apply F3; lia).
    + destruct (Nat.eqb_spec i lo) as [->|Ni].
      * intros Ec. injection Ec as <-. cbn [n_exp x]. split; [|auto]. destruct (Nat.ltb_spec lo (q_cur q)); lia.
      * intros Ec. destruct (qi_flags _ _ I (i - 1) e Ec) as (F2 & F3).
        destruct (Nat.ltb_spec lo (q_cur q)) as [Lc|Lc]; split; intros Hi; lia.
Qed.

Lemma npq_advance_spec data size : forall fuel cur, size <= length data -> size - cur <= fuel -> cur <= size ->
  exists c', npq_advance fuel data cur size = Ok c' /\ cur <= c' <= size
    /\ (forall i c, nth_error data i = Some c -> cur <= i < c' -> n_exp c = true)
    /\ (forall c, nth_error data c' = Some c -> c' < size -> n_exp c = false).
Proof.
  induction fuel as [|k IH]; intros cur Hs Hf Hc; cbn [npq_advance].
  - exists cur. repeat split; try lia; intros; lia.
  - destruct (Nat.ltb_spec cur size) as [Lt|Ge].
    + destruct (get_nth data cur) as (c & Ec & ->); [lia|]. cbn [bind]. destruct (n_exp c) eqn:K.
      * destruct (IH (cur + 1)) as (c' & E & B & A & F); auto; try lia. exists c'. split; [assumption|]. split; [lia|]. split; [|assumption].
        intros i e Ee Hi. destruct (Nat.eq_dec i cur) as [->|]; [congruence|]. eapply A; eauto. lia.
      * exists cur. repeat split; try lia; intros; try lia. congruence.
    + exists cur. repeat split; try lia; intros; lia.
Qed.
(** What closest_unexpanded does. *)
Lemma expand_spec cap q : q_inv cap q -> q_cur q < q_size q ->
  exists id d q', closest_unexpanded q = Ok ({| n_id := id; n_dist := d; n_exp := true |}, q') /\ q_inv cap q'
    /\ nth_error (q_entries q) (q_cur q) = Some {| n_id := id; n_dist := d; n_exp := false |}
    /\ q_entries q' = upd (q_entries q) (q_cur q) {| n_id := id; n_dist := d; n_exp := true |}.
Proof.
  intros I Hc. pose proof (qi_size _ _ I) as Hs. pose proof (qi_len _ _ I) as HL.
  destruct (get_nth (q_data q) (q_cur q)) as (c & Ec & G); [lia|]. pose proof (entry_at q _ _ Ec Hc) as Ec'.
  unfold closest_unexpanded. rewrite G. cbn [bind]. rewrite put_ok by lia. cbn [bind].
  set (m := {| n_id := n_id c; n_dist := n_dist c; n_exp := true |}). set (data := upd (q_data q) (q_cur q) m).
  assert (Nd : forall i, nth_error data i = if Nat.eqb (q_cur q) i then Some m else nth_error (q_data q) i)
    by (intros i; apply nth_error_upd; lia).
  assert (Ld : cap + 1 <= length data) by (unfold data; now rewrite upd_length).
  destruct (npq_advance_spec data (q_size q) (q_size q - q_cur q) (q_cur q)) as (c' & -> & B & A & F); try lia.
  cbn [bind]. assert (Gm : get data (q_cur q) = Ok m) by (unfold get; rewrite Nd, Nat.eqb_refl; reflexivity). rewrite Gm. cbn [bind].
  assert (Hc' : q_cur q + 1 <= c').
  { destruct (Nat.eq_dec c' (q_cur q)) as [->|]; [|lia]. specialize (F m). rewrite Nd, Nat.eqb_refl in F. now specialize (F eq_refl Hc). }
  exists (n_id c), (n_dist c). eexists. split; [reflexivity|].
  assert (KE : firstn (q_size q) data = upd (q_entries q) (q_cur q) m) by (apply firstn_upd; assumption).
  split; [|split; [|exact KE]].
  2:{ rewrite Ec'. destruct (qi_flags _ _ I _ c Ec') as [_ F3]. specialize (F3 eq_refl). destruct c as [i0 d0 e0]. cbn in *. now subst. }
  constructor; cbn [q_size q_cur q_cap q_data]; try apply I; auto; try lia.
  - unfold q_entries. cbn [q_size q_data]. intros i j a b Hij. rewrite !nth_error_firstn. destruct (Nat.ltb_spec i (q_size q)) as [Li|]; [|discriminate].
    destruct (Nat.ltb_spec j (q_size q)) as [Lj|]; [|discriminate]. rewrite !Nd.
    destruct (Nat.eqb_spec (q_cur q) i) as [Ei|Ei], (Nat.eqb_spec (q_cur q) j) as [Ej|Ej]; intros Ha Hb; try lia.
    + injection Ha as <-. subst i. change (of_nbr m) with (of_nbr c). eapply (qi_sorted _ _ I (q_cur q) j); eauto using entry_at.
    + injection Hb as <-. subst j. change (of_nbr m) with (of_nbr c). eapply (qi_sorted _ _ I i (q_cur q)); eauto using entry_at.
    + eapply (qi_sorted _ _ I i j); eauto using entry_at.
  - unfold q_entries. cbn [q_size q_data]. intros i e Ee. rewrite nth_error_firstn in Ee. destruct (Nat.ltb_spec i (q_size q)) as [Li|]; [|discriminate].
    split.
    + intros Hi. destruct (Nat.lt_ge_cases i (q_cur q)).
      * rewrite Nd in Ee. destruct (Nat.eqb_spec (q_cur q) i); [lia|]. apply (qi_flags _ _ I i e); [now apply entry_at|assumption].
      * apply (A i e Ee). lia.
    + intros ->. now apply (F e).
Qed.

(** ** Contents *)
Lemma q_sorted_strong l : q_sorted l -> StronglySorted cand_lt (map of_nbr l).
Proof.
  induction l as [|x l IH]; intros S; cbn [map]; constructor.
  - apply IH. intros i j a b Hij Ha Hb. apply (S (Datatypes.S i) (Datatypes.S j)); auto; lia.
  - apply Forall_forall. intros y Hy. apply in_map_iff in Hy as (z & <- & Hz). apply In_nth_error in Hz as [j Hj]. apply (S 0 (Datatypes.S j)); auto; lia.
Qed.
Lemma insert_smallest cap q id d r all : 0 < cap -> q_inv cap q -> q_insert_does cap q (id, d) r ->
  smallest cap all (q_content q) ->
  exists x q', r = Ok (x, q') /\ q_inv cap q' /\ smallest cap (all ++ [(id, d)]) (q_content q').
Proof.
  intros Hc I D (S & L & In1 & Cov).
  assert (CL : length (q_content q) = q_size q) by (unfold q_content; rewrite map_length; apply (entries_length _ _ I)).
  destruct D as [(-> & D)|(q' & lo & ev & -> & I' & [Plo P] & Llo & K & _)].
  - eexists _, q. split; [reflexivity|]. split; [assumption|]. split; [assumption|]. split; [assumption|]. split.
    + intros z Hz. apply in_or_app. left. auto.
    + intros z Hz. apply in_app_or in Hz as [Hz|[<-|[]]]; [auto|]. destruct D as [D|[D1 D2]]; [now left|]. right. split; [lia|].
      intros y Hy. apply in_map_iff in Hy as (e & <- & He). now apply (D2 e).
  - eexists _, q'. split; [reflexivity|]. split; [assumption|].
    assert (KC : q_content q' = firstn cap (ins_at lo (id, d) (q_content q))).
    { unfold q_content. rewrite K, <- firstn_map, map_ins. reflexivity. }
    rewrite (entries_length _ _ I) in Plo.
    set (new := ins_at lo (id, d) (q_content q)) in *.
    assert (NL : length new = q_size q + 1) by (unfold new; rewrite ins_at_length; lia).
    pose proof (qi_size _ _ I) as Hs.
    assert (S' : StronglySorted cand_lt (q_content q')) by (apply (q_sorted_strong _ (qi_sorted _ _ I'))).
    assert (InNew : forall z, In z new <-> z = (id, d) \/ In z (q_content q)).
    { intros z. unfold new, ins_at. rewrite <- (firstn_skipn lo (q_content q)) at 3. rewrite !in_app_iff. cbn [In]. intuition. }
    split; [assumption|]. split; [rewrite KC, firstn_length; lia|]. split.
    + rewrite KC. intros z Hz. apply in_or_app. assert (In z new) by (rewrite <- (firstn_skipn cap new); apply in_or_app; now left).
      apply InNew in H as [->|H]; [right; now left|left; auto].
    + (* x is below everything from position lo on *)
      assert (After : q_size q = cap -> exists e, In e (q_content q) /\ cand_lt (id, d) e).
      { intros E. destruct (nth_error (q_entries q) (cap - 1)) as [e|] eqn:Ee.
        - exists (of_nbr e). split; [apply in_map, (nth_error_In _ _ Ee)|]. apply (P (cap - 1) e Ee). lia.
        - apply nth_error_None in Ee. rewrite (entries_length _ _ I) in Ee. lia. }
      intros z Hz. assert (Hz' : In z new \/ (length (q_content q) = cap /\ forall y, In y (q_content q) -> cand_lt y z)).
      { apply in_app_or in Hz as [Hz|[<-|[]]]; [|left; apply InNew; now left]. destruct (Cov z Hz) as [?|?]; [left; apply InNew; now right|now right]. }
      destruct Hz' as [Hz'|[Hf Hz']].
      * rewrite <- (firstn_skipn cap new) in Hz'. apply in_app_or in Hz' as [Hz'|Hz']; [left; now rewrite KC|].
        destruct (Nat.eq_dec (q_size q) cap) as [E|E].
        2:{ rewrite skipn_all2 in Hz' by lia. destruct Hz'. }
        right. split; [rewrite KC, firstn_length; lia|]. intros y Hy. rewrite KC in Hy.
        (* new is sorted, z after position cap, y before *)
        assert (SN : StronglySorted cand_lt new).
        { unfold new. change (id, d) with (of_nbr {| n_id := id; n_dist := d; n_exp := false |}). unfold q_content. fold of_nbr.
          rewrite <- (map_ins of_nbr). apply q_sorted_strong. intros i j a b Hij. rewrite !nth_error_ins by (rewrite (entries_length _ _ I); lia). intros Ha Hb.
          destruct (Nat.ltb_spec i lo) as [Li|Li].
          - destruct (Nat.ltb_spec j lo) as [Lj|Lj]; [eapply (qi_sorted _ _ I i j); eauto|].
            destruct (Nat.eqb_spec j lo) as [->|Nj]; [injection Hb as <-; now apply (P i a)|].
            eapply (qi_sorted _ _ I i (j - 1)); eauto. lia.
          - destruct (Nat.ltb_spec j lo) as [Lj|Lj]; [lia|].
            destruct (Nat.eqb_spec j lo) as [->|Nj]; [lia|].
            destruct (Nat.eqb_spec i lo) as [->|Ni]; [injection Ha as <-; apply (P (j - 1) b); auto; lia|].
            eapply (qi_sorted _ _ I (i - 1) (j - 1)); eauto. lia. }
        clear - SN Hz' Hy. revert cap Hz' Hy. induction SN as [|a l SN IH F]; intros cap Hz Hy; [now destruct cap|].
        destruct cap as [|cap]; [destruct Hy|]. cbn [firstn skipn] in *. destruct Hy as [<-|Hy]; [|eauto].
        rewrite Forall_forall in F. apply F. rewrite <- (firstn_skipn cap l). apply in_or_app. now right.
      * right. split; [rewrite KC, firstn_length; lia|]. intros y Hy. rewrite KC in Hy.
        assert (In y new) by (rewrite <- (firstn_skipn cap new); apply in_or_app; now left).
        apply InNew in H as [->|H]; [|auto]. destruct After as (e & He & Le); [lia|]. eapply lt_trans; eauto.
Qed.
Lemma expand_content l c m : forall i, nth_error l i = Some c -> of_nbr m = of_nbr c -> map of_nbr (upd l i m) = map of_nbr l.
Proof.
  induction l as [|y l IH]; intros [|i] H E; cbn [upd map nth_error] in *; auto; try discriminate.
  - injection H as ->. congruence.
  - f_equal. eauto.
Qed.

Lemma smallest_nil cap : smallest cap [] [].
Proof. split; [constructor|]. split; [apply Nat.le_0_l|]. split; intros x []. Qed.
Lemma since_in ops : forall acc x, In x (since_reset acc ops) -> In x acc \/ In x (candidates ops).
Proof.
  induction ops as [|o ops IH]; intros acc x H; cbn [since_reset] in H; [now left|].
  destruct o as [id d| |]; cbn [candidates flat_map]; apply IH in H; fold (candidates ops).
  - destruct H as [H|H]; [apply in_app_or in H as [H|H]|]; auto; right; apply in_or_app; auto.
  - exact H.
  - destruct H as [[]|H]; auto.
Qed.
Lemma q_reached cap ops : 0 < cap -> one_distance (candidates ops) ->
  exists q, run_q (npq_new cap) ops = Ok q /\ q_inv cap q /\ smallest cap (since_reset [] ops) (q_content q).
Proof.
  intros Hc OD. assert (G : forall todo acc q, one_distance (acc ++ candidates todo) -> q_inv cap q -> smallest cap acc (q_content q) ->
    exists q', run_q q todo = Ok q' /\ q_inv cap q' /\ smallest cap (since_reset acc todo) (q_content q')).
  { induction todo as [|o todo IH]; intros acc q OD' I Sm; cbn [run_q since_reset]; [eauto|].
    destruct o as [id d| |]; cbn [q_step].
    - cbn [candidates flat_map] in OD'. fold (candidates todo) in OD'. rewrite app_assoc in OD'.
      assert (D : q_insert_does cap q (id, d) (npq_insert q {| n_id := id; n_dist := d; n_exp := false |})).
      { apply npq_insert_spec; auto. intros e He Eid. change (snd (of_nbr e) = snd (id, d)). apply OD'.
        - apply in_or_app. left. apply in_or_app. left. apply Sm. unfold q_content. now apply (in_map of_nbr).
        - apply in_or_app. left. apply in_or_app. right. now left.
        - exact Eid. }
      destruct (insert_smallest cap q id d _ acc Hc I D Sm) as (x & q1 & -> & I1 & S1). cbn [bind snd]. now apply IH.
    - cbn [candidates flat_map app] in OD'. fold (candidates todo) in OD'.
      unfold has_unexpanded_node. destruct (Nat.ltb_spec (q_cur q) (q_size q)) as [L|L]; [|now apply IH].
      destruct (expand_spec cap q I L) as (id & d & q1 & -> & I1 & Ec & K). cbn [bind snd]. apply IH; auto.
      assert (E : q_content q1 = q_content q).
      { unfold q_content. fold of_nbr. rewrite K. eapply (expand_content (q_entries q)); [exact Ec|reflexivity]. }
      now rewrite E.
    - cbn [bind]. cbn [candidates flat_map app] in OD'. fold (candidates todo) in OD'. apply IH.
      + intros x y Hx Hy. apply OD'; apply in_or_app; now right.
      + destruct I as [I1 I2 I3 I4 I5 I6]. constructor; unfold npq_clear, q_entries; cbn [q_size q_cur q_cap q_data firstn]; auto; try lia.
        * intros i j a b _ H. now destruct i.
        * intros i c H. now destruct i.
      + apply smallest_nil. }
  apply (G ops [] (npq_new cap)); auto.
  - apply npq_new_inv.
  - apply smallest_nil.
Qed.

Lemma sorted_same l : forall l', StronglySorted cand_lt l -> StronglySorted cand_lt l' -> (forall x, In x l <-> In x l') -> l = l'.
Proof.
  induction l as [|a l IH]; intros [|b l'] S S' E; auto.
  - exfalso. apply (E b). now left.
  - exfalso. apply (E a). now left.
  - inversion S as [|? ? S1 F1]; subst. inversion S' as [|? ? S2 F2]; subst. rewrite Forall_forall in F1, F2.
    assert (a = b).
    { destruct (proj1 (E a)) as [->|Ha]; [now left|reflexivity|]. destruct (proj2 (E b)) as [->|Hb]; [now left|reflexivity|].
      exfalso. apply (lt_irrefl a). eapply lt_trans; [apply F1; exact Hb|apply F2; exact Ha]. }
    subst b. f_equal. apply IH; auto. intros x. split; intros Hx.
    + destruct (proj1 (E x)) as [<-|H]; [now right| |exact H]. exfalso. apply (lt_irrefl a). now apply F1.
    + destruct (proj2 (E x)) as [<-|H]; [now right| |exact H]. exfalso. apply (lt_irrefl a). now apply F2.
Qed.
Lemma sorted_nodup l : StronglySorted cand_lt l -> NoDup l.
Proof.
  induction 1 as [|a l S IH F]; constructor; auto. intros H. rewrite Forall_forall in F. apply (lt_irrefl a). auto.
Qed.
Lemma smallest_incl cap a b l l' : smallest cap a l -> smallest cap b l' -> (forall x, In x a <-> In x b) -> incl l l'.
Proof.
  intros (S & L & I & C) (S' & L' & I' & C') E x Hx.
  destruct (C' x) as [|[F Lt]]; [apply E; auto|assumption|]. exfalso.
  assert (incl l' l).
  { intros y Hy. destruct (C y) as [|[_ Lt2]]; [apply E; auto|assumption|]. exfalso.
    apply (lt_irrefl x). eapply lt_trans; [apply Lt2; exact Hx|apply Lt; exact Hy]. }
  assert (incl (x :: l') l) by (intros y [<-|Hy]; auto).
  assert (length (x :: l') <= length l).
  { apply NoDup_incl_length; [|assumption]. constructor; [|now apply sorted_nodup]. intros Hx'. apply (lt_irrefl x). auto. }
  cbn in H1. lia.
Qed.
Lemma smallest_unique cap a b l l' : smallest cap a l -> smallest cap b l' -> (forall x, In x a <-> In x b) -> l = l'.
Proof.
  intros H H' E. apply sorted_same; [apply H|apply H'|]. intros x. split; [eapply smallest_incl; eauto|].
  eapply smallest_incl; eauto. intros y. symmetry. apply E.
Qed.
