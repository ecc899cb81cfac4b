(** Lemmas about shards: the nearest centres, the files, the medoid, the number of parts. *)
From Verif Require Import ShardSpec GraphFileProofs.
Import ListNotations.

(** ** The scan for the nearest centres *)

Lemma bubble_length x : forall above, length (bubble x above) = S (length above).
Proof. induction above as [|y above IH]; cbn; [reflexivity|]. destruct (flt (fst x) (fst y)); cbn; [rewrite IH|]; reflexivity. Qed.
Lemma bubble_in x : forall above y, In y (bubble x above) -> y = x \/ In y above.
Proof.
  induction above as [|z above IH]; cbn; intros y H; [intuition|].
  destruct (flt (fst x) (fst z)); cbn in H; [destruct H as [->|H]; [auto|]; destruct (IH y H); auto|intuition].
Qed.
Lemma top_scan_inv : forall row j top m, 0 < m -> j + length row <= m -> Forall (fun e => snd e < m) top ->
  length (top_scan row j top) = length top /\ Forall (fun e => snd e < m) (top_scan row j top).
Proof.
  induction row as [|d row IH]; intros j top m Hm Hj HF; [split; [reflexivity|exact HF]|]. cbn [top_scan length] in *.
  assert (length (top_step top d j) = length top /\ Forall (fun e => snd e < m) (top_step top d j)) as [L F].
  { unfold top_step. destruct top as [|b above]; [split; [reflexivity|constructor]|]. destruct (fge d (fst b)); [split; [reflexivity|exact HF]|].
    split; [now rewrite bubble_length|]. apply Forall_forall. intros y Hy. inversion HF; subst.
    destruct (bubble_in _ _ _ Hy) as [->|Hy']; [cbn; lia|]. rewrite Forall_forall in *. auto. }
  destruct (IH (S j) (top_step top d j) m Hm ltac:(lia) F) as [L' F']. split; [congruence|exact F'].
Qed.
Lemma argmin_lt : forall row j best id m, j + length row <= m -> id < m -> argmin row j best id < m.
Proof.
  induction row as [|d row IH]; intros j best id m Hj Hid; [exact Hid|]. cbn [argmin length] in *.
  destruct (flt d best); apply IH; lia.
Qed.
(** Whatever the distances, [k] numbers of centres come out. *)
Lemma closest_safe k row : row <> [] -> length (closest k row) = k /\ Forall (fun s => s < length row) (closest k row).
Proof.
  intros HR. assert (P : 0 < length row) by (destruct row; [congruence|cbn; lia]). unfold closest. destruct (Nat.eqb_spec k 1) as [->|].
  - split; [reflexivity|]. constructor; [|constructor]. apply argmin_lt; lia.
  - destruct (top_scan_inv row 0 (repeat (Some flt_max, 0) k) (length row) P ltac:(lia)) as [L F].
    { apply Forall_forall. intros e He. apply repeat_spec in He. subst. exact P. }
    split; [rewrite rev_length, map_length, L, repeat_length; reflexivity|].
    apply Forall_forall. intros s Hs. apply in_rev in Hs. apply in_map_iff in Hs. destruct Hs as (e & <- & He).
    rewrite Forall_forall in F. auto.
Qed.

(** The order of positions by value, then by position. *)
Section Order.
Variable val : nat -> Z.
Definition lt (a b : nat) : Prop := (val a < val b)%Z \/ val a = val b /\ a < b.
Lemma lt_trans a b c : lt a b -> lt b c -> lt a c.
Proof. unfold lt. lia. Qed.
Definition desc (a b : nat) : Prop := lt b a.

Fixpoint insert (m : nat) (above : list nat) : list nat :=
  match above with
  | y :: above' => if Z.ltb (val m) (val y) then y :: insert m above' else m :: above
  | [] => [m]
  end.
Lemma insert_in m : forall above p, In p (insert m above) <-> p = m \/ In p above.
Proof.
  induction above as [|y above IH]; cbn; intros p; [intuition|]. destruct (val m <? val y)%Z; cbn; [rewrite IH|]; intuition.
Qed.
Lemma insert_length m above : length (insert m above) = S (length above).
Proof. induction above as [|y above IH]; cbn; [reflexivity|]. destruct (val m <? val y)%Z; cbn; congruence. Qed.
Lemma insert_sorted m : forall above, (forall p, In p above -> p < m) -> StronglySorted desc above -> StronglySorted desc (insert m above).
Proof.
  induction above as [|y above IH]; cbn [insert]; intros Hm HS; [repeat constructor|].
  inversion HS as [|? ? HS' HF]; subst. destruct (Z.ltb_spec (val m) (val y)).
  - constructor; [apply IH; [intros; apply Hm; now right|exact HS']|]. apply Forall_forall. intros p Hp. apply insert_in in Hp.
    destruct Hp as [->|Hp]; [left; exact H|]. rewrite Forall_forall in HF. auto.
  - assert (desc m y) by (specialize (Hm y (or_introl eq_refl)); unfold desc, lt; lia).
    constructor; [exact HS|]. constructor; [exact H0|]. eapply Forall_impl; [|exact HF].
    intros p Hp. unfold desc in *. exact (lt_trans _ _ _ Hp H0).
Qed.

Variable k : nat.
Definition entry (p : nat) : fl * nat := (Some (val p), p - k).
Lemma bubble_entry m : forall above, bubble (entry m) (map entry above) = map entry (insert m above).
Proof.
  induction above as [|y above IH]; cbn; [reflexivity|]. destruct (val m <? val y)%Z; cbn; [now rewrite IH|reflexivity].
Qed.
(** The state of the scan after [m] positions, of which the first [k] are the
    initial entries. *)
Record scanned (m : nat) (ps : list nat) : Prop := {
  sc_length : length ps = k;
  sc_sorted : StronglySorted desc ps;
  sc_in : forall p, In p ps -> p < m;
  sc_best : forall c p, c < m -> ~ In c ps -> In p ps -> lt p c;
}.
Lemma scan_step m ps : k <= m -> scanned m ps ->
  exists ps', top_step (map entry ps) (Some (val m)) (m - k) = map entry ps' /\ scanned (S m) ps'.
Proof.
  intros Hk [L SS In_ Best]. destruct ps as [|b above].
  { exists []. split; [reflexivity|]. split; [exact L|constructor|intros ? []|intros ? ? ? ? []]. }
  cbn [map top_step entry fst fge]. inversion SS as [|? ? SS' HF]; subst. rewrite Forall_forall in HF.
  destruct (Z.leb_spec (val b) (val m)).
  - exists (b :: above). split; [reflexivity|]. split; [exact L|exact SS|intros p Hp; specialize (In_ p Hp); lia|].
    intros c p Hc Hn Hp. destruct (Nat.eq_dec c m) as [->|]; [|apply Best; auto; lia].
    assert (lt b m) by (specialize (In_ b (or_introl eq_refl)); unfold lt; lia).
    destruct Hp as [<-|Hp]; [exact H0|]. apply lt_trans with b; [exact (HF p Hp)|exact H0].
  - exists (insert m above). split; [exact (bubble_entry m above)|].
    assert (A : forall p, In p above -> p < m) by (intros p Hp; apply In_; now right).
    split; [rewrite insert_length; exact L|apply insert_sorted; [exact A|exact SS']|..].
    + intros p Hp. apply insert_in in Hp. destruct Hp as [->|Hp]; [lia|]. specialize (A p Hp). lia.
    + intros c p Hc Hn Hp. rewrite insert_in in Hn, Hp.
      assert (B : forall q, q = m \/ In q above -> lt q b) by (intros q [->|Hq]; [left; lia|exact (HF q Hq)]).
      destruct (Nat.eq_dec c b) as [->|]; [apply B; exact Hp|]. apply lt_trans with b; [apply B; exact Hp|].
      apply Best; [destruct (Nat.eq_dec c m); [subst; tauto|lia]|intros [|]; [congruence|tauto]|now left].
Qed.
Lemma scan_all : forall xs m ps, k <= m -> (forall i x, nth_error xs i = Some x -> val (m + i) = x) -> scanned m ps ->
  exists ps', top_scan (map Some xs) (m - k) (map entry ps) = map entry ps' /\ scanned (m + length xs) ps'.
Proof.
  induction xs as [|x xs IH]; intros m ps Hk HV HS.
  - exists ps. cbn. rewrite Nat.add_0_r. auto.
  - cbn [map top_scan]. pose proof (HV 0 x eq_refl) as V0. rewrite Nat.add_0_r in V0. rewrite <- V0.
    destruct (scan_step m ps Hk HS) as (ps1 & E1 & S1). rewrite E1. replace (S (m - k)) with (S m - k) by lia.
    destruct (IH (S m) ps1 ltac:(lia)) as (ps2 & E2 & S2); [|exact S1|].
    + intros i y Hy. replace (S m + i) with (m + S i) by lia. apply HV. exact Hy.
    + exists ps2. split; [exact E2|]. cbn [length]. now replace (m + S (length xs)) with (S m + length xs) by lia.
Qed.
End Order.

Lemma numbers row : (forall d : fl, In d row -> d <> None) -> exists xs, row = map Some xs.
Proof.
  induction row as [|[x|] row IH]; intros H; [exists []; reflexivity| |destruct (H None (or_introl eq_refl) eq_refl)].
  destruct IH as (xs & ->); [intros d Hd; apply H; now right|]. now exists (x :: xs).
Qed.
Lemma argmin_scan : forall xs j b id, [argmin (map Some xs) j (Some b) id] = rev (map snd (top_scan (map Some xs) j [(Some b, id)])).
Proof.
  induction xs as [|x xs IH]; intros j b id; [reflexivity|]. cbn [map argmin top_scan top_step flt fge fst].
  destruct (Z.ltb_spec x b), (Z.leb_spec b x); try lia; cbn [bubble]; apply IH.
Qed.
Lemma sorted_rev {A} (R : A -> A -> Prop) : forall l, StronglySorted (fun a b => R b a) l -> StronglySorted R (rev l).
Proof.
  assert (snoc : forall l x, StronglySorted R l -> (forall y, In y l -> R y x) -> StronglySorted R (l ++ [x])).
  { induction l as [|y l IH]; intros x HS H; cbn; [repeat constructor|]. inversion HS; subst. constructor.
    - apply IH; [assumption|intros; apply H; now right].
    - apply Forall_app. split; [assumption|]. constructor; [apply H; now left|constructor]. }
  induction l as [|x l IH]; intros H; cbn; [constructor|]. inversion H; subst. apply snoc; [auto|].
  intros y Hy. apply in_rev in Hy. rewrite Forall_forall in *. auto.
Qed.
Lemma sorted_map {A B} (R : A -> A -> Prop) (Q : B -> B -> Prop) (f : A -> B) : forall l,
  (forall a b, In a l -> In b l -> R a b -> Q (f a) (f b)) -> StronglySorted R l -> StronglySorted Q (map f l).
Proof.
  induction l as [|x l IH]; intros H HS; cbn; [constructor|]. inversion HS; subst. constructor.
  - apply IH; [intros; apply H; cbn; auto|assumption].
  - apply Forall_forall. intros y Hy. apply in_map_iff in Hy. destruct Hy as (a & <- & Ha). rewrite Forall_forall in *.
    apply H; cbn; auto.
Qed.
Lemma sorted_nodup {A} (R : A -> A -> Prop) : (forall a, ~ R a a) -> forall l, StronglySorted R l -> NoDup l.
Proof.
  intros IR. induction 1 as [|x l HS IH HF]; constructor; [|exact IH]. intros Hx. rewrite Forall_forall in HF. exact (IR x (HF x Hx)).
Qed.

Lemma closest_nearest k row : 0 < k -> measured k row -> nearest_k k row (closest k row).
Proof.
  intros Hk [HN (cs & ND & LC & HC)]. destruct (numbers row HN) as (xs & ->). clear HN.
  set (val := fun p => if Nat.ltb p k then flt_max else nth (p - k) xs 0%Z).
  assert (VR : forall i x, nth_error xs i = Some x -> val (k + i) = x).
  { intros i x Hx. unfold val. destruct (Nat.ltb_spec (k + i) k); [lia|]. replace (k + i - k) with i by lia. now apply nth_error_nth. }
  assert (VS : forall p, p < k -> val p = flt_max) by (intros p Hp; unfold val; destruct (Nat.ltb_spec p k); [reflexivity|lia]).
  assert (Init : map (entry val k) (rev (seq 0 k)) = repeat (Some flt_max, 0) k).
  { assert (G : forall n, n <= k -> map (entry val k) (rev (seq 0 n)) = repeat (Some flt_max, 0) n).
    { induction n as [|n IH]; intros Hn; [reflexivity|]. rewrite seq_S, rev_app_distr. cbn [rev app map repeat Nat.add].
      rewrite IH by lia. unfold entry at 1. rewrite VS by lia. now replace (n - k) with 0 by lia. }
    apply G. lia. }
  assert (S0 : scanned val k k (rev (seq 0 k))).
  { split.
    - now rewrite rev_length, seq_length.
    - apply sorted_rev. assert (G : forall n s, s + n <= k -> StronglySorted (fun a b => desc val b a) (seq s n)).
      { induction n as [|n IH]; intros s Hs; cbn; constructor; [apply IH; lia|]. apply Forall_forall. intros p Hp. apply in_seq in Hp.
        unfold desc, lt. rewrite !VS by lia. lia. }
      apply G. lia.
    - intros p Hp. apply in_rev, in_seq in Hp. lia.
    - intros c p Hc Hn _. exfalso. apply Hn. apply -> in_rev. apply in_seq. lia. }
  destruct (scan_all val k xs k _ ltac:(lia) VR S0) as (ps & E & [L SS In_ Best]). rewrite Nat.sub_diag, Init in E.
  assert (EC : closest k (map Some xs) = map (fun p => p - k) (rev ps)).
  { unfold closest. destruct (Nat.eqb_spec k 1) as [->|].
    - rewrite argmin_scan. cbn [repeat] in E. rewrite E. rewrite map_map. cbn. now rewrite <- map_rev.
    - rewrite E, map_map. cbn. now rewrite <- map_rev. }
  assert (Real : forall p, In p ps -> k <= p).
  { intros p Hp. destruct (Nat.le_gt_cases k p) as [|Lp]; [assumption|]. exfalso.
    assert (I : incl (p :: map (fun c => k + c) cs) ps).
    { intros q [<-|Hq]; [exact Hp|]. apply in_map_iff in Hq. destruct Hq as (c & <- & Hc). destruct (HC c Hc) as (x & Hx & Lx).
      rewrite nth_error_map in Hx. destruct (nth_error xs c) as [x'|] eqn:Ex; [|discriminate]. inversion Hx; subst x'. 
      destruct (in_dec Nat.eq_dec (k + c) ps) as [|Hn]; [assumption|]. exfalso.
      assert (c < length xs) by (apply nth_error_Some; congruence).
      pose proof (Best (k + c) p ltac:(lia) Hn Hp) as B. unfold lt in B. rewrite (VR c x Ex), (VS p Lp) in B. lia. }
    assert (N1 : NoDup (p :: map (fun c => k + c) cs)).
    { constructor; [intros Hq; apply in_map_iff in Hq; destruct Hq as (c & Hc & _); lia|].
      apply FinFun.Injective_map_NoDup; [intros a b; lia|exact ND]. }
    pose proof (NoDup_incl_length N1 I) as LL. cbn in LL. rewrite map_length in LL. lia. }
  assert (Bef : forall a b, k <= a < k + length xs -> k <= b < k + length xs -> lt val a b -> before (map Some xs) (a - k) (b - k)).
  { intros a b Ha Hb Hl. destruct (nth_error xs (a - k)) as [x|] eqn:Ea; [|apply nth_error_None in Ea; lia].
    destruct (nth_error xs (b - k)) as [y|] eqn:Eb; [|apply nth_error_None in Eb; lia].
    exists x, y. rewrite !nth_error_map, Ea, Eb. split; [reflexivity|split; [reflexivity|]].
    pose proof (VR _ _ Ea) as Va. pose proof (VR _ _ Eb) as Vb. replace (k + (a - k)) with a in Va by lia. replace (k + (b - k)) with b in Vb by lia.
    unfold lt in Hl. lia. }
  rewrite EC. split.
  - now rewrite map_length, rev_length.
  - apply sorted_map with (R := lt val); [|apply sorted_rev; exact SS]. intros a b Ha Hb. apply in_rev in Ha, Hb.
    apply Bef; split; auto.
  - intros c Hc. apply in_map_iff in Hc. destruct Hc as (p & <- & Hp). apply in_rev in Hp. rewrite map_length.
    specialize (In_ p Hp). specialize (Real p Hp). lia.
  - intros c i Hc Hn Hi. rewrite map_length in Hc. apply in_map_iff in Hi. destruct Hi as (p & <- & Hp). apply in_rev in Hp.
    replace c with (k + c - k) at 1 by lia. apply Bef; [split; auto|lia|]. apply Best; [lia| |exact Hp].
    intros Hc'. apply Hn. apply in_map_iff. exists (k + c). split; [lia|]. now apply -> in_rev.
Qed.

(** There is only one list of the nearest centres. *)
Lemma before_irrefl row a : ~ before row a a.
Proof. intros (x & y & Hx & Hy & H). rewrite Hx in Hy. inversion Hy; subst. lia. Qed.
Lemma before_asym row a b : before row a b -> before row b a -> False.
Proof.
  intros (x & y & Hx & Hy & H) (y' & x' & Hy' & Hx' & H'). rewrite Hx in Hx'. rewrite Hy in Hy'. inversion Hx'; inversion Hy'; subst. lia.
Qed.
Lemma sorted_same {A} (R : A -> A -> Prop) : (forall a b, R a b -> R b a -> False) -> forall l l',
  StronglySorted R l -> StronglySorted R l' -> (forall x, In x l <-> In x l') -> l = l'.
Proof.
  intros AS. induction l as [|x l IH]; intros l' HS HS' HE.
  - destruct l' as [|y l']; [reflexivity|]. destruct (proj2 (HE y) (or_introl eq_refl)).
  - destruct l' as [|y l']; [destruct (proj1 (HE x) (or_introl eq_refl))|].
    inversion HS as [|? ? S1 F1]; inversion HS' as [|? ? S2 F2]; subst. rewrite Forall_forall in F1, F2.
    assert (x = y).
    { destruct (proj1 (HE x) (or_introl eq_refl)) as [|Hx]; [congruence|]. destruct (proj2 (HE y) (or_introl eq_refl)) as [|Hy]; [assumption|].
      destruct (AS x y (F1 y Hy) (F2 x Hx)). }
    subst y. f_equal. apply IH; [assumption..|]. intros z.
    assert (NX : ~ In x l) by (intros H; exact (AS x x (F1 x H) (F1 x H))).
    assert (NY : ~ In x l') by (intros H; exact (AS x x (F2 x H) (F2 x H))).
    pose proof (HE z) as E. cbn in E. split; intros Hz; [destruct (proj1 E (or_intror Hz))|destruct (proj2 E (or_intror Hz))]; subst; tauto.
Qed.
Lemma nearest_k_incl k row a b : nearest_k k row a -> nearest_k k row b -> incl a b.
Proof.
  intros [La Sa Ia Ba] [Lb Sb Ib Bb] c Hc. destruct (in_dec Nat.eq_dec c b) as [|Hn]; [assumption|]. exfalso.
  assert (I : incl b a).
  { intros d Hd. destruct (in_dec Nat.eq_dec d a) as [|Hn']; [assumption|]. exfalso.
    exact (before_asym row c d (Ba d c (Ib d Hd) Hn' Hc) (Bb c d (Ia c Hc) Hn Hd)). }
  apply Hn. refine (NoDup_length_incl _ _ I c Hc); [exact (sorted_nodup _ (before_irrefl row) b Sb)|lia].
Qed.
Lemma nearest_k_unique k row a b : nearest_k k row a -> nearest_k k row b -> a = b.
Proof.
  intros Ha Hb. apply (sorted_same (before row)); [exact (before_asym row)|exact (nk_sorted _ _ _ Ha)|exact (nk_sorted _ _ _ Hb)|].
  intros x. split; [exact (nearest_k_incl k row a b Ha Hb x)|exact (nearest_k_incl k row b a Hb Ha x)].
Qed.
