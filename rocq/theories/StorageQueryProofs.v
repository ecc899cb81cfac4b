From Coq Require Import String Permutation.
From Verif Require Import StorageModel StorageSpec ScalarDataSpec ScalarDataProofs IndexEncodingProofs StorageProofs.

(** ** Row keys *)
Lemma dec_acc_length k : forall fuel n, (n < 10 ^ N.of_nat (S k))%N -> length (dec_acc fuel n []) <= S k.
Proof.
  induction k as [|k IH]; intros fuel n Hn.
  - destruct fuel as [|f]; [cbn; lia|]. cbn [dec_acc]. change (10 ^ N.of_nat 1)%N with 10%N in Hn.
    destruct (N.ltb_spec n 10); [cbn; lia|lia].
  - destruct fuel as [|f]; [cbn; lia|]. cbn [dec_acc]. destruct (N.ltb_spec n 10); [cbn; lia|].
    rewrite dec_acc_app, app_length. cbn [length].
    assert (length (dec_acc f (n / 10) []) <= S k); [|lia]. apply IH.
    apply N.div_lt_upper_bound; [lia|]. rewrite Nat2N.inj_succ, N.pow_succ_r in Hn by lia. exact Hn.
Qed.
Lemma dec_length n k : (0 < k) -> (n < 10 ^ N.of_nat k)%N -> length (dec n) <= k.
Proof. intros Hk H. destruct k as [|k]; [lia|]. now apply dec_acc_length. Qed.

Lemma digits_val_lt a : forall b x y va vb, length a = length b -> (x < y)%N ->
  digits_val x a = Some va -> digits_val y b = Some vb -> (va < vb)%N.
Proof.
  induction a as [|c a IH]; intros [|d b] x y va vb L H Ea Eb; try discriminate.
  - cbn in *. inversion Ea; inversion Eb; subst. exact H.
  - cbn [digits_val] in *. destruct (is_digit c) eqn:Dc; [|discriminate]. destruct (is_digit d) eqn:Dd; [|discriminate].
    apply (IH b (10 * x + (c - chr_0)) (10 * y + (d - chr_0)))%N; auto; try congruence.
    unfold is_digit, chr_0 in *. apply andb_true_iff in Dc as [A1 A2], Dd as [B1 B2].
    apply N.leb_le in A1, A2, B1, B2. lia.
Qed.
Lemma digits_cmp a : forall b x va vb, length a = length b ->
  digits_val x a = Some va -> digits_val x b = Some vb -> bytes_cmp a b = N.compare va vb.
Proof.
  induction a as [|c a IH]; intros [|d b] x va vb L Ea Eb; try discriminate.
  - cbn in *. replace vb with va by congruence. symmetry. apply N.compare_refl.
  - cbn [digits_val bytes_cmp] in *. destruct (is_digit c) eqn:Dc; [|discriminate]. destruct (is_digit d) eqn:Dd; [|discriminate].
    unfold is_digit, chr_0 in Dc, Dd. apply andb_true_iff in Dc as [A1 A2], Dd as [B1 B2].
    apply N.leb_le in A1, A2, B1, B2. unfold chr_0 in *.
    destruct (N.compare_spec c d) as [->|Hl|Hg].
    + apply (IH b _ _ _ ltac:(cbn in L; congruence) Ea Eb).
    + symmetry. apply N.compare_lt_iff. eapply digits_val_lt; [|shelve|eassumption|eassumption]. cbn in L; congruence.
      Unshelve. lia.
    + symmetry. apply N.compare_gt_iff. eapply digits_val_lt; [|shelve|eassumption|eassumption]. cbn in L; congruence.
      Unshelve. lia.
Qed.
Lemma padded_length id : (id < 2 ^ 32)%N -> length (padded id) = 10.
Proof.
  intros H. assert (length (dec id) <= 10).
  { apply dec_length; [lia|]. change (10 ^ N.of_nat 10)%N with 10000000000%N. change (2 ^ 32)%N with 4294967296%N in H. lia. }
  unfold padded, kSortableDigits. destruct (Nat.leb_spec 10 (length (dec id))); [lia|].
  rewrite app_length, repeat_length. lia.
Qed.
Lemma data_key_cmp a b : (a < 2 ^ 32)%N -> (b < 2 ^ 32)%N -> bytes_cmp (data_key a) (data_key b) = N.compare a b.
Proof.
  intros Ha Hb. rewrite !data_key_dk. unfold dk. rewrite bytes_cmp_app.
  apply (digits_cmp _ _ 0); [now rewrite !padded_length|apply padded_val|apply padded_val].
Qed.
Lemma parse_dk x id : (id < 2 ^ 32)%N -> digits_val 0 x = Some id -> x <> [] -> parse_data_key (dk x) = Ok (Some id).
Proof.
  intros H D N. unfold parse_data_key, dk. rewrite starts_with_app. cbn [negb].
  change (skipn 2 (str "d_" ++ x)) with x. destruct x as [|c x]; [easy|]. rewrite D.
  assert (N.ltb id (2 ^ 64) = true) as -> by (apply N.ltb_lt; lia). cbn [negb].
  assert (N.ltb (2 ^ 32 - 1) id = false) as -> by (apply N.ltb_ge; lia). reflexivity.
Qed.
Lemma padded_nonempty id : padded id <> [].
Proof.
  intros H. pose proof (padded_val id) as V. rewrite H in V. cbn in V. inversion V; subst. discriminate H.
Qed.
Lemma parse_data_key_ok id : (id < 2 ^ 32)%N -> parse_data_key (data_key id) = Ok (Some id).
Proof. intros H. rewrite data_key_dk. apply parse_dk; [assumption|apply padded_val|apply padded_nonempty]. Qed.
Lemma parse_legacy_ok id : (id < 2 ^ 32)%N -> parse_data_key (legacy_data_key id) = Ok (Some id).
Proof. intros H. rewrite legacy_dk. apply parse_dk; [assumption|apply digits_val_dec|apply dec_nonempty]. Qed.
(** A key that parses to [id] is "d_" followed by digits whose value is [id]. *)
Lemma parse_data_key_inv k id : parse_data_key k = Ok (Some id) ->
  exists x, k = dk x /\ x <> [] /\ digits_val 0 x = Some id /\ (id < 2 ^ 32)%N.
Proof.
  unfold parse_data_key. destruct (starts_with (str "d_") k) eqn:S; [|discriminate]. cbn [negb].
  apply starts_with_iff in S as [x ->]. change (skipn 2 (str "d_" ++ x)) with x.
  destruct x as [|c x]; [discriminate|]. destruct (digits_val 0 (c :: x)) as [v|] eqn:D; [|discriminate].
  destruct (negb (N.ltb v (2 ^ 64))); [discriminate|]. destruct (N.ltb_spec (2 ^ 32 - 1) v); [discriminate|].
  intros Hx. inversion Hx; subst. exists (c :: x). repeat split; [discriminate|assumption|lia].
Qed.

(** ** Scans *)
Definition entry_of (t : table) (e : bytes * bytes) (id : N) (r : scalar_data) : Prop :=
  row t id = Some r /\ snd e = serialize r /\ (fst e = data_key id \/ fst e = legacy_data_key id).

Lemma starts_dk k : starts_with (str "d_") k = true <-> exists x, k = dk x.
Proof. apply starts_with_iff. Qed.

Lemma data_entries s t e : represents s t -> In e (db s) -> starts_with (str "d_") (fst e) = true ->
  exists id r, entry_of t e id r.
Proof.
  intros R HI S. apply starts_dk in S as [x Hx]. destruct e as [k v]. cbn [fst] in Hx. subst k.
  apply kv_get_In in HI; [|apply R]. destruct (rp_keys _ _ R _ _ HI) as (id & r & Hr & K).
  exists id, r. split; [exact Hr|]. cbn [fst snd]. split; [|exact K].
  destruct (rp_data _ _ R _ _ Hr) as [[D L]|[D L]].
  - destruct K as [K|K]; rewrite K in HI; [congruence|].
    destruct (bytes_eqb_spec (legacy_data_key id) (data_key id)) as [X|X]; [rewrite X in HI; congruence|].
    rewrite L in HI by assumption. discriminate.
  - destruct K as [K|K]; rewrite K in HI; congruence.
Qed.
Lemma row_entry s t id r : represents s t -> row t id = Some r ->
  exists e, In e (db s) /\ entry_of t e id r.
Proof.
  intros R Hr. destruct (rp_data _ _ R _ _ Hr) as [[D _]|[_ D]]; apply kv_get_In in D; try apply R;
    eexists; (split; [exact D|]); split; auto; cbn; auto.
Qed.
Lemma entry_unique s t e e' id r r' : represents s t -> In e (db s) -> In e' (db s) ->
  entry_of t e id r -> entry_of t e' id r' -> e = e'.
Proof.
  intros R HI HI' (Hr & V & K) (Hr' & V' & K'). destruct e as [k v], e' as [k' v']. cbn [fst snd] in *.
  assert (r = r') by congruence. subst r'. subst v v'. f_equal.
  apply kv_get_In in HI; [|apply R]. apply kv_get_In in HI'; [|apply R].
  destruct (rp_data _ _ R _ _ Hr) as [[D L]|[D L]].
  - assert (A : forall x, (x = data_key id \/ x = legacy_data_key id) -> kv_get (db s) x = Some (serialize r) -> x = data_key id).
    { intros x [->| ->] G; [reflexivity|]. destruct (bytes_eqb_spec (legacy_data_key id) (data_key id)) as [X|X]; [exact X|].
      rewrite L in G by assumption. discriminate. }
    rewrite (A k), (A k'); auto.
  - assert (A : forall x, (x = data_key id \/ x = legacy_data_key id) -> kv_get (db s) x = Some (serialize r) -> x = legacy_data_key id).
    { intros x [->| ->] G; [congruence|reflexivity]. }
    rewrite (A k), (A k'); auto.
Qed.

Lemma scan_loop_spec s t fn : represents s t -> forall l,
  (forall e, In e l -> In e (db s)) -> NoDup l ->
  exists L, scan_loop fn l = Ok L
    /\ (forall id r, In (id, r) L <-> fn r = true /\ exists e, In e (take_prefix (str "d_") l) /\ entry_of t e id r)
    /\ NoDup (map fst L).
Proof.
  intros R. induction l as [|e l IH]; intros Hin ND.
  { exists []. split; [reflexivity|]. split; [|constructor]. intros id r. split; [easy|]. now intros (_ & e & [] & _). }
  destruct e as [k v]. cbn [scan_loop take_prefix fst]. destruct (starts_with (str "d_") k) eqn:S; cbn [negb].
  2:{ exists []. split; [reflexivity|]. split; [|constructor]. intros id r. split; [easy|]. now intros (_ & e & [] & _). }
  inversion ND as [|? ? Nin ND']; subst.
  destruct (data_entries s t (k, v) R) as (i & sd & Ei); [apply Hin; now left|exact S|].
  destruct IH as (L & EL & IL & NL); [intros e He; apply Hin; now right|exact ND'|].
  assert (P : parse_data_key k = Ok (Some i)).
  { destruct Ei as (Hr & _ & K). cbn [fst] in K. destruct (rp_rows _ _ R _ _ Hr) as [Hi _].
    destruct K as [-> | ->]; [now apply parse_data_key_ok|now apply parse_legacy_ok]. }
  assert (Dv : deserialize v = Ok sd).
  { destruct Ei as (Hr & V & _). cbn [snd] in V. subst v. apply deserialize_serialize. apply (rp_rows _ _ R _ _ Hr). }
  assert (TP : forall e, In e (take_prefix (str "d_") l) -> In e l).
  { clear. induction l as [|x l IH]; cbn [take_prefix]; [easy|]. intros e. destruct (starts_with (str "d_") (fst x)); [|easy].
    intros [->|H]; [now left|right; now apply IH]. }
  exists (if fn sd then (i, sd) :: L else L). rewrite P. cbn [bind]. rewrite Dv. cbn [bind]. rewrite EL. cbn [bind].
  split; [reflexivity|]. split.
  - intros id r. split.
    + intros H. assert ((fn sd = true /\ (id, r) = (i, sd)) \/ In (id, r) L) as [[F E]|H'].
      { destruct (fn sd); [destruct H as [H|H]; [left; auto|now right]|now right]. }
      * inversion E; subst. split; [exact F|]. exists (k, v). split; [now left|exact Ei].
      * apply IL in H' as (F & e & He & Ee). split; [exact F|]. exists e. split; [now right|exact Ee].
    + intros (F & e & [<-|He] & Ee).
      * assert (i = id).
        { destruct Ei as (_ & _ & K), Ee as (_ & _ & K'). cbn [fst] in *.
          destruct K as [->| ->], K' as [X|X].
          - now apply data_key_inj.
          - now apply data_legacy_inj.
          - symmetry in X. now apply data_legacy_inj in X.
          - now apply legacy_inj. }
        subst id. assert (sd = r) by (destruct Ei as (A & _), Ee as (B & _); congruence). subst r.
        rewrite F. now left.
      * assert (In (id, r) L) by (apply IL; split; [exact F|]; now exists e).
        destruct (fn sd); [now right|assumption].
  - destruct (fn sd); [|exact NL]. cbn. constructor; [|exact NL]. intros H.
    apply in_map_iff in H as ((id & r) & E & HI). cbn in E. subst id. apply IL in HI as (_ & e & He & Ee).
    assert ((k, v) = e).
    { eapply entry_unique; [exact R| | |exact Ei|exact Ee]; [apply Hin; now left|]. apply Hin. right. now apply TP. }
    subst e. apply Nin. now apply TP.
Qed.

Definition id_lt (a b : N * scalar_data) : Prop := (fst a < fst b)%N.
Lemma insert_by_id_In e l x : In x (insert_by_id e l) <-> x = e \/ In x l.
Proof.
  induction l as [|y l IH]; cbn; [intuition|]. destruct (N.ltb (fst e) (fst y)); cbn; [intuition|]. rewrite IH. intuition.
Qed.
Lemma insert_by_id_sorted e l : StronglySorted id_lt l -> ~ In (fst e) (map fst l) -> StronglySorted id_lt (insert_by_id e l).
Proof.
  induction l as [|y l IH]; cbn; intros S N; [repeat constructor|]. inversion S as [|? ? S1 F]; subst.
  destruct (N.ltb_spec (fst e) (fst y)) as [H|H].
  - constructor; [exact S|]. constructor; [exact H|]. eapply Forall_impl; [|exact F]. intros z Hz. unfold id_lt in *. lia.
  - constructor; [apply IH; [exact S1|tauto]|]. rewrite Forall_forall in *. intros z Hz.
    apply insert_by_id_In in Hz as [->|Hz]; [|now apply F]. unfold id_lt. assert (fst y <> fst e) by tauto. lia.
Qed.
Lemma sort_by_id_In l x : In x (sort_by_id l) <-> In x l.
Proof. unfold sort_by_id. induction l as [|y l IH]; cbn; [easy|]. rewrite insert_by_id_In, IH. intuition. Qed.
Lemma sort_by_id_sorted l : NoDup (map fst l) -> StronglySorted id_lt (sort_by_id l).
Proof.
  unfold sort_by_id. induction l as [|y l IH]; cbn; intros ND; [constructor|]. inversion ND as [|? ? N ND']; subst.
  apply insert_by_id_sorted; [now apply IH|]. intros H. apply N. apply in_map_iff in H as (x & E & HI).
  fold (sort_by_id l) in HI. rewrite sort_by_id_In in HI. rewrite <- E. now apply in_map.
Qed.

Lemma scan_spec s t fn limit : represents s t -> exists L,
  scan_with_filter s fn limit = Ok (if Nat.eqb limit 0 then L else firstn limit L)
  /\ StronglySorted id_lt L
  /\ forall id r, In (id, r) L <-> row t id = Some r /\ fn r = true.
Proof.
  intros R. unfold scan_with_filter.
  assert (Hsub : forall e, In e (kv_seek (db s) (str "d_")) -> In e (db s)).
  { intros e. rewrite kv_seek_filter by (apply R). intros H. now apply filter_In in H. }
  assert (Hnd : NoDup (kv_seek (db s) (str "d_"))).
  { rewrite kv_seek_filter by (apply R). apply NoDup_filter.
    apply (NoDup_map_inv fst). apply kv_sorted_nodup. apply R. }
  destruct (scan_loop_spec s t fn R _ Hsub Hnd) as (L & EL & IL & NL). rewrite EL. cbn [bind].
  exists (sort_by_id L). split; [|split].
  - f_equal. destruct limit as [|n]; [reflexivity|]. change (Nat.ltb 0 (S n)) with true. cbn [andb Nat.eqb].
    destruct (Nat.ltb_spec (S n) (length (sort_by_id L))); [reflexivity|]. now rewrite firstn_all2.
  - now apply sort_by_id_sorted.
  - intros id r. rewrite sort_by_id_In, IL. split.
    + intros (F & e & _ & (Hr & _)). auto.
    + intros [Hr F]. split; [exact F|]. destruct (row_entry s t id r R Hr) as (e & HI & Ee). exists e. split; [|exact Ee].
      rewrite seek_take by (apply R || apply starts_with_iff; now exists []). apply filter_In. split; [exact HI|].
      assert (S : starts_with (str "d_") (fst e) = true).
      { apply starts_dk. destruct Ee as (_ & _ & [-> | ->]); [rewrite data_key_dk|rewrite legacy_dk]; eauto. }
      rewrite S. cbn [andb]. apply negb_true_iff. now apply prefix_ge.
Qed.

(** ** Lookups through the secondary index *)
Lemma field_entry s t e : represents s t ->
  In e (db s) /\ starts_with (str "f_") (fst e) = true <->
  snd e = [] /\ entry (indexed_fields s) t (fst e).
Proof.
  intros R. destruct e as [k v]. cbn [fst snd]. split.
  - intros [HI S]. apply starts_with_iff in S as [x ->]. apply kv_get_In in HI; [|apply R].
    now apply (rp_field _ _ R).
  - intros [-> E]. pose proof E as E'. destruct E as (id & r & f & w & _ & _ & _ & K). rewrite field_key_fk in K.
    subst k. split; [|apply starts_with_app]. apply kv_get_In; [apply R|]. apply (rp_field _ _ R). auto.
Qed.

Lemma ids_loop_spec fields t prefix l :
  (forall e, In e (take_prefix prefix l) -> entry fields t (fst e)) -> (forall id r, row t id = Some r -> (id < 2 ^ 32)%N) ->
  exists ids, ids_loop prefix l = Ok ids /\
   Forall2 (fun e id => exists r f w, row t id = Some r /\ In f fields /\ meta_find f (meta r) = Some w
       /\ fst e = make_field_index_key f (encode_value w) id) (take_prefix prefix l) ids.
Proof.
  intros H Hid. induction l as [|[k v] l IH]; cbn [ids_loop take_prefix fst] in *; [exists []; split; [reflexivity|constructor]|].
  destruct (starts_with prefix k); cbn [negb]; [|exists []; split; [reflexivity|constructor]].
  destruct (H (k, v) (or_introl eq_refl)) as (id & r & f & w & Hr & Hf & Hm & K). cbn [fst] in K.
  destruct IH as (ids & E & F); [intros e He; apply H; now right|].
  exists (id :: ids). unfold extract_id32. rewrite K, extract_id. rewrite N.mod_small by (eapply Hid; eassumption).
  cbn [bind]. rewrite E. cbn [bind]. split; [reflexivity|]. constructor; [|exact F]. exists r, f, w. auto.
Qed.

Lemma app_prefix_eq (a b x y : bytes) : a ++ x = b ++ y -> length a <= length b -> exists z, b = a ++ z /\ x = z ++ y.
Proof.
  revert b. induction a as [|c a IH]; intros b E L.
  - exists b. auto.
  - destruct b as [|d b]; [cbn in L; lia|]. cbn in E. inversion E as [[E1 E2]]. subst d.
    destruct (IH b E2) as (z & -> & ->); [cbn in L; lia|]. now exists z.
Qed.

(** Two indexed field names such that one followed by '_' starts the other
    share index entries; otherwise a key shows its field. *)
Definition separated (fields : list bytes) : Prop :=
  forall f g, In f fields -> In g fields -> starts_with (g ++ [us]) f = false.

Lemma starts_with_false p s : starts_with p s = false <-> forall r, s <> p ++ r.
Proof.
  split.
  - intros H r ->. rewrite starts_with_app in H. discriminate.
  - intros H. apply not_true_iff_false. intros X. apply starts_with_iff in X as [r X]. now apply (H r).
Qed.
Lemma field_of_key fields f g x y : separated fields -> In f fields -> In g fields ->
  f ++ us :: x = g ++ us :: y -> f = g /\ x = y.
Proof.
  intros S Hf Hg E.
  assert (A : forall f g x y, In f fields -> In g fields -> length f <= length g -> f ++ us :: x = g ++ us :: y -> f = g /\ x = y).
  { clear - S. intros f g x y Hf Hg L E. destruct (app_prefix_eq f g (us :: x) (us :: y) E L) as (z & -> & E2).
    destruct z as [|c z]; [rewrite app_nil_r; split; [reflexivity|cbn [app] in E2; congruence]|].
    cbn [app] in E2. inversion E2; subst. exfalso.
    pose proof (proj1 (starts_with_false _ _) (S _ f Hg Hf)) as N. apply (N z). now rewrite <- app_assoc. }
  destruct (Nat.le_ge_cases (length f) (length g)).
  - now apply A.
  - destruct (A g f y x) as [-> ->]; auto.
Qed.

(** Which values' keys start with the prefix of value [v]. *)
Definition looks_like (v w : value) : Prop :=
  w = v \/ match v, w with VStr a, VStr b => starts_with (a ++ [us]) b = true | _, _ => False end.

Lemma fixed_len_prefix (a b x y : bytes) : length a = length b -> a ++ x = b ++ y -> a = b /\ x = y.
Proof.
  revert b. induction a as [|c a IH]; intros [|d b] L E; try discriminate; [auto|].
  cbn in *. inversion E; subst. destruct (IH b) as [-> ->]; auto.
Qed.
Lemma encode_prefix v w id r : value_ok v -> value_ok w ->
  encode_value w ++ us :: dec id = encode_value v ++ us :: r -> looks_like v w.
Proof.
  intros Hv Hw E. destruct v as [z|b|a|b], w as [z'|b'|a'|b']; cbn [encode_value value_ok] in *;
    rewrite <- ?app_assoc in E; try (exfalso; cbn in E; discriminate).
  - left. cbn [app str] in E. apply app_inv_head in E. apply fixed_len_prefix in E as [E _]; [|unfold encode_int64, encode_double, hex16; now rewrite !hexn_length].
    f_equal. now apply encode_int64_inj.
  - left. apply app_inv_head in E. apply fixed_len_prefix in E as [E _]; [|unfold encode_int64, encode_double, hex16; now rewrite !hexn_length].
    f_equal. now apply encode_double_inj.
  - apply app_inv_head in E.
    destruct (Nat.le_ge_cases (length a) (length a')) as [L|L].
    + symmetry in E. destruct (app_prefix_eq _ _ _ _ E L) as (q & -> & E2).
      destruct q as [|c q]; [left; now rewrite app_nil_r|]. right. cbn [app] in E2. inversion E2; subst.
      apply starts_with_iff. exists q. now rewrite <- app_assoc.
    + destruct (app_prefix_eq _ _ _ _ E L) as (q & -> & E2).
      destruct q as [|c q]; [left; now rewrite app_nil_r|]. exfalso. cbn [app] in E2. inversion E2 as [[E3 E4]].
      apply (dec_no_us id). rewrite E4. apply in_or_app. right. now left.
  - left. destruct b, b'; try reflexivity; discriminate E.
Qed.
Lemma looks_like_prefix v w id : looks_like v w -> exists r, encode_value w ++ us :: dec id = encode_value v ++ us :: r.
Proof.
  intros [->|H]; [eauto|]. destruct v, w; try easy. apply starts_with_iff in H as [q ->].
  exists (q ++ us :: dec id). cbn [encode_value]. now rewrite <- !app_assoc.
Qed.

Lemma value_ok_row s t id r f w : represents s t -> row t id = Some r -> meta_find f (meta r) = Some w -> value_ok w.
Proof.
  intros R Hr Hm. destruct (rp_rows _ _ R _ _ Hr) as [_ St].
  assert (exists k, In (k, w) (meta r)) as [k HI].
  { clear -Hm. induction (meta r) as [|[k x] m IH]; cbn in Hm; [discriminate|].
    destruct (bytes_eqb k f); [inversion Hm; subst; exists k; now left|]. destruct (IH Hm) as [k' H]. exists k'. now right. }
  now apply (st_entries _ St) in HI.
Qed.

Lemma key_split f w id : make_field_index_key f (encode_value w) id = str "f_" ++ f ++ us :: encode_value w ++ us :: dec id.
Proof. unfold make_field_index_key. reflexivity. Qed.
Lemma prefix_split f v : make_field_index_prefix f (encode_value v) = str "f_" ++ f ++ us :: encode_value v ++ [us].
Proof. reflexivity. Qed.

Lemma eq_lookup_spec s t field v : represents s t -> separated (indexed_fields s) -> In field (indexed_fields s) -> value_ok v ->
  exists ids, get_ids_by_field_value s field v = Ok ids /\ NoDup ids /\
   forall id, In id ids <-> exists r w, row t id = Some r /\ meta_find field (meta r) = Some w /\ looks_like v w.
Proof.
  intros R S Hf Hv. unfold get_ids_by_field_value.
  set (p := make_field_index_prefix field (encode_value v)).
  assert (Hp : starts_with p p = true) by (apply starts_with_iff; exists []; now rewrite app_nil_r).
  pose proof (seek_take p p (db s) (rp_sorted _ _ R) Hp) as TP.
  assert (Hin : forall e, In e (take_prefix p (kv_seek (db s) p)) <-> In e (db s) /\ starts_with p (fst e) = true).
  { intros e. rewrite TP, filter_In, andb_true_iff. split; [tauto|]. intros [A B]. split; [exact A|]. split; [exact B|].
    apply negb_true_iff. now apply prefix_ge. }
  assert (Hff : forall k, starts_with p k = true -> starts_with (str "f_") k = true).
  { intros k H. apply starts_with_iff in H as [q ->]. unfold p. rewrite prefix_split, <- app_assoc. apply starts_with_app. }
  destruct (ids_loop_spec (indexed_fields s) t p (kv_seek (db s) p)) as (ids & E & F).
  { intros e He. apply Hin in He as [A B]. apply (field_entry s t e R). split; [exact A|]. now apply Hff. }
  { intros id r Hr. apply (rp_rows _ _ R _ _ Hr). }
  assert (KEY : forall id r f w, row t id = Some r -> In f (indexed_fields s) -> meta_find f (meta r) = Some w ->
     starts_with p (make_field_index_key f (encode_value w) id) = true -> f = field /\ looks_like v w).
  { intros id r f w Hr Hff' Hm SW. apply starts_with_iff in SW as [q Q]. unfold p in Q. rewrite key_split, prefix_split, <- app_assoc in Q.
    apply app_inv_head in Q. rewrite <- app_assoc in Q. cbn [app] in Q.
    destruct (field_of_key (indexed_fields s) f field _ _ S Hff' Hf Q) as [-> Q2]. split; [reflexivity|].
    rewrite <- app_assoc in Q2. eapply encode_prefix; [exact Hv| |exact Q2]. eapply value_ok_row; eassumption. }
  exists ids. split; [exact E|]. split.
  - assert (ND : NoDup (map fst (take_prefix p (kv_seek (db s) p)))).
    { rewrite TP. apply kv_sorted_nodup, kv_sorted_filter, R. }
    assert (PX : forall e, In e (take_prefix p (kv_seek (db s) p)) -> starts_with p (fst e) = true) by (intros e He; now apply Hin in He).
    clear - F ND KEY PX. induction F as [|e id es ids (r & f & w & Hr & Hf & Hm & K) F IH]; [constructor|].
    cbn in ND. inversion ND as [|? ? N ND']; subst. constructor; [|apply IH; [exact ND'|intros; apply PX; now right]].
    intros HI. apply N.
    assert (exists e', In e' es /\ exists r' f' w', row t id = Some r' /\ In f' (indexed_fields s) /\ meta_find f' (meta r') = Some w'
       /\ fst e' = make_field_index_key f' (encode_value w') id) as (e' & He' & r' & f' & w' & Hr' & Hf' & Hm' & K').
    { clear - F HI. induction F as [|x i es ids H F IH]; [easy|]. destruct HI as [->|HI].
      - exists x. split; [now left|exact H].
      - destruct (IH HI) as (e' & A & B). exists e'. split; [now right|exact B]. }
    destruct (KEY id r f w Hr Hf Hm) as [-> _]; [rewrite <- K; apply PX; now left|].
    destruct (KEY id r' f' w' Hr' Hf' Hm') as [-> _]; [rewrite <- K'; apply PX; now right|].
    assert (r' = r) by congruence. subst r'. assert (w' = w) by congruence. subst w'.
    rewrite K, <- K'. now apply in_map.
  - intros id. split.
    + intros HI. assert (exists e, In e (take_prefix p (kv_seek (db s) p)) /\ exists r f w, row t id = Some r /\ In f (indexed_fields s) /\ meta_find f (meta r) = Some w
       /\ fst e = make_field_index_key f (encode_value w) id) as (e & He & r & f & w & Hr & Hf' & Hm & K).
      { clear - F HI. induction F as [|x i es ids H F IH]; [easy|]. destruct HI as [->|HI].
        - exists x. split; [now left|exact H].
        - destruct (IH HI) as (e' & A & B). exists e'. split; [now right|exact B]. }
      apply Hin in He as [_ He]. rewrite K in He. destruct (KEY id r f w Hr Hf' Hm He) as [-> LL]. exists r, w. auto.
    + intros (r & w & Hr & Hm & LL). destruct (looks_like_prefix v w id LL) as [q Q].
      set (k := make_field_index_key field (encode_value w) id).
      assert (He : In (k, []) (take_prefix p (kv_seek (db s) p))).
      { apply Hin. cbn [fst]. split.
        - apply (field_entry s t (k, []) R). cbn. split; [reflexivity|]. exists id, r, field, w. auto.
        - apply starts_with_iff. exists q. unfold k, p. rewrite key_split, prefix_split, Q, <- !app_assoc. cbn [app]. now rewrite <- !app_assoc. }
      clear - F He. remember (take_prefix p (kv_seek (db s) p)) as es eqn:X. clear X.
      induction F as [|x i es ids (r & f & w' & Hr & Hf & Hm & K) F IH]; [easy|]. destruct He as [->|He].
      * cbn [fst] in K. unfold k in K. apply field_key_id in K. subst. now left.
      * right. now apply IH.
Qed.

(** ** Ranges *)
Definition vtag (w : value) : bytes :=
  match w with VStr _ => str "s_" | VBool _ => str "b_" | VInt _ => str "i_" | VDouble _ => str "d_" end.
Definition vbody (w : value) : bytes :=
  match w with VStr s => s | VBool b => if b then str "1" else str "0" | VInt z => encode_int64 z | VDouble b => encode_double b end.
Lemma encode_split w : encode_value w = vtag w ++ vbody w.
Proof. destruct w; reflexivity. Qed.
Lemma vtag_length w : length (vtag w) = 2.
Proof. destruct w; reflexivity. Qed.
Definition numeric_tag (tag : bytes) : Prop := tag = str "i_" \/ tag = str "d_".
Lemma vbody_length w : numeric_tag (vtag w) -> length (vbody w) = 16.
Proof.
  intros [H|H]; destruct w; try discriminate H; cbn [vbody]; unfold encode_int64, encode_double, hex16; apply hexn_length.
Qed.

Lemma rfind_us_none b : forall i, ~ In us b -> rfind_us i b = None.
Proof.
  induction b as [|c b IH]; intros i H; cbn [rfind_us]; [reflexivity|]. rewrite IH by (intros X; apply H; now right).
  destruct (N.eqb_spec c us) as [->|]; [|reflexivity]. exfalso. apply H. now left.
Qed.
Lemma rfind_us_app a b : forall i, ~ In us b -> rfind_us i (a ++ us :: b) = Some (i + length a).
Proof.
  induction a as [|c a IH]; intros i H; cbn [app rfind_us length].
  - rewrite rfind_us_none by assumption. rewrite N.eqb_refl. f_equal. lia.
  - rewrite IH by assumption. f_equal. lia.
Qed.
Lemma cmp_same_len a : forall b x y, length a = length b ->
  bytes_cmp (a ++ x) (b ++ y) = match bytes_cmp a b with Eq => bytes_cmp x y | c => c end.
Proof.
  induction a as [|c a IH]; intros [|d b] x y L; try discriminate; [reflexivity|]. cbn [app bytes_cmp].
  destruct (N.compare c d); [|reflexivity|reflexivity]. apply IH. cbn in L. congruence.
Qed.
Lemma skipn_exact (a b : bytes) : skipn (length a) (a ++ b) = b.
Proof. induction a; [reflexivity|assumption]. Qed.
Lemma firstn_exact (a b : bytes) : firstn (length a) (a ++ b) = a.
Proof. induction a as [|x a IH]; cbn; [reflexivity|]. now rewrite IH. Qed.

Lemma range_body fp tag en w id v l : numeric_tag tag ->
  range_loop fp tag en ((fp ++ encode_value w ++ us :: dec id, v) :: l) =
  if bytes_eqb (vtag w) tag then
    if key_ltb en (vbody w) then Ok []
    else let* i := extract_id32 (fp ++ encode_value w ++ us :: dec id) in
         let* rest := range_loop fp tag en l in Ok (i :: rest)
  else range_loop fp tag en l.
Proof.
  intros NT. rewrite !encode_split, <- !app_assoc. cbn [range_loop]. rewrite starts_with_app. cbn [negb].
  rewrite skipn_exact.
  replace (firstn 2 (vtag w ++ vbody w ++ us :: dec id)) with (vtag w)
    by (rewrite <- (vtag_length w); symmetry; apply firstn_exact).
  assert (Nat.ltb (length (fp ++ vtag w ++ vbody w ++ us :: dec id)) (length fp + 2) = false) as ->.
  { apply Nat.ltb_ge. rewrite !app_length, vtag_length. lia. }
  cbn [orb]. destruct (bytes_eqb_spec (vtag w) tag) as [T|T]; cbn [negb]; [|reflexivity].
  assert (L : length (vbody w) = 16) by (apply vbody_length; now rewrite T).
  replace (fp ++ vtag w ++ vbody w ++ us :: dec id) with ((fp ++ vtag w ++ vbody w) ++ us :: dec id) by (now rewrite <- !app_assoc).
  rewrite rfind_us_app by (apply dec_no_us). rewrite !app_length, vtag_length, L.
  assert (Nat.leb (0 + (length fp + (2 + 16))) (length fp + 2) = false) as -> by (apply Nat.leb_gt; lia).
  replace (firstn (0 + (length fp + (2 + 16)) - (length fp + 2))
     (skipn (length fp + 2) ((fp ++ vtag w ++ vbody w) ++ us :: dec id))) with (vbody w).
  - reflexivity.
  - replace (0 + (length fp + (2 + 16)) - (length fp + 2)) with (length (vbody w)) by lia.
    replace (length fp + 2) with (length (fp ++ vtag w)) by (rewrite app_length, vtag_length; lia).
    rewrite <- !app_assoc. rewrite (app_assoc fp), skipn_exact. symmetry. apply firstn_exact.
Qed.

Definition field_entry_of (t : table) (field : bytes) (k : bytes) (id : N) (r : scalar_data) (w : value) : Prop :=
  row t id = Some r /\ meta_find field (meta r) = Some w
  /\ k = make_field_prefix field ++ encode_value w ++ us :: dec id.
Lemma field_entry_key field w id :
  make_field_prefix field ++ encode_value w ++ us :: dec id = make_field_index_key field (encode_value w) id.
Proof. unfold make_field_prefix. rewrite key_split, <- !app_assoc. reflexivity. Qed.

Lemma range_loop_spec t field tag en l : numeric_tag tag ->
  (forall id r, row t id = Some r -> (id < 2 ^ 32)%N) ->
  let fp := make_field_prefix field in
  kv_sorted l ->
  (forall e, In e (take_prefix fp l) -> exists id r w, field_entry_of t field (fst e) id r w) ->
  exists ids, range_loop fp tag en l = Ok ids /\ NoDup ids /\
   forall id, In id ids <-> exists e r w, In e (take_prefix fp l) /\ field_entry_of t field (fst e) id r w
     /\ vtag w = tag /\ key_ltb en (vbody w) = false.
Proof.
  intros NT Hid fp. induction l as [|[k v] l IH]; intros S HE.
  { exists []. split; [reflexivity|]. split; [constructor|]. intros id. split; [easy|]. now intros (e & r & w & [] & _). }
  cbn [take_prefix fst] in HE. destruct (starts_with fp k) eqn:P.
  2:{ exists []. cbn [range_loop take_prefix fst]. rewrite P. split; [reflexivity|]. split; [constructor|]. intros id. split; [easy|].
      now intros (e & r & w & [] & _). }
  destruct (HE (k, v) (or_introl eq_refl)) as (id0 & r0 & w0 & Hr0 & Hm0 & K0). cbn [fst] in K0.
  unfold kv_sorted in S. cbn [map fst] in S. inversion S as [|? ? S1 F]; subst.
  destruct IH as (ids & E & ND & I); [exact S1|intros e He; apply HE; now right|].
  fold fp in P, F |- *. rewrite range_body by assumption. cbn [take_prefix fst]. rewrite P.
  assert (TP : forall e, In e (take_prefix fp l) -> In e l).
  { clear. induction l as [|x l IH]; cbn [take_prefix]; [easy|]. intros e. destruct (starts_with fp (fst x)); [|easy].
    intros [->|H]; [now left|right; now apply IH]. }
  destruct (bytes_eqb_spec (vtag w0) tag) as [T|T].
  2:{ exists ids. split; [exact E|]. split; [exact ND|]. intros id. rewrite I. split.
      - intros (e & r & w & He & X). exists e, r, w. split; [now right|exact X].
      - intros (e & r & w & [<-|He] & (Hr & Hm & K) & X); [|exists e, r, w; split; [exact He|split; [split; auto|exact X]]].
        exfalso. cbn [fst] in K. fold fp in K. unfold fp in K. rewrite !field_entry_key in K. pose proof (field_key_id _ _ _ _ _ _ K) as <-.
        assert (r = r0) by congruence. subst r. assert (w = w0) by congruence. subst w. now destruct X. }
  destruct (key_ltb en (vbody w0)) eqn:G.
  - exists []. split; [reflexivity|]. split; [constructor|]. intros id. split; [easy|].
    intros (e & r & w & HI & (Hr & Hm & K) & Tw & Gw). exfalso.
    destruct HI as [<-|He].
    + cbn [fst] in K. unfold fp in K. rewrite !field_entry_key in K. pose proof (field_key_id _ _ _ _ _ _ K) as <-.
      assert (r = r0) by congruence. subst r. assert (w = w0) by congruence. subst w. congruence.
    + rewrite Forall_forall in F. assert (L : key_lt (fp ++ encode_value w0 ++ us :: dec id0) (fst e)) by (apply F, in_map; now apply TP).
      rewrite K in L. fold fp in L. unfold key_lt in L. rewrite bytes_cmp_app, !encode_split, T, Tw, <- !app_assoc, bytes_cmp_app in L.
      rewrite cmp_same_len in L by (rewrite !vbody_length; [reflexivity|now rewrite Tw|now rewrite T]).
      assert (key_ltb en (vbody w) = true); [|congruence]. apply key_ltb_iff. apply key_ltb_iff in G.
      destruct (bytes_cmp (vbody w0) (vbody w)) eqn:C; [apply bytes_cmp_eq in C; now rewrite <- C| |discriminate].
      eapply key_lt_trans; eassumption.
  - unfold extract_id32. unfold fp at 1. rewrite field_entry_key, extract_id, N.mod_small by (eapply Hid; eassumption).
    cbn [bind]. rewrite E. cbn [bind]. exists (id0 :: ids). split; [reflexivity|].
    assert (I' : forall id, In id ids -> id <> id0).
    { intros id H ->. apply I in H as (e & r & w & He & (Hr & Hm & K) & _).
      assert (r = r0) by congruence. subst r. assert (w = w0) by congruence. subst w.
      rewrite Forall_forall in F. apply TP in He. apply (in_map fst) in He. apply F in He. rewrite K in He. now apply key_lt_irrefl in He. }
    split; [constructor; [intros H; now apply I' in H|exact ND]|].
    intros id. cbn [In]. rewrite I. split.
    + intros [<-|(e & r & w & He & X)].
      * eexists (_, v), r0, w0. split; [now left|]. split; [|split; assumption]. split; [exact Hr0|]. split; [exact Hm0|reflexivity].
      * exists e, r, w. split; [now right|exact X].
    + intros (e & r & w & [<-|He] & (Hr & Hm & K) & X).
      * left. cbn [fst] in K. unfold fp in K. rewrite !field_entry_key in K. now apply field_key_id in K.
      * right. exists e, r, w. split; [exact He|split; [split; auto|exact X]].
Qed.

Lemma range_lookup_spec s t field tag lo hi : represents s t -> separated (indexed_fields s) -> In field (indexed_fields s) ->
  numeric_tag tag -> length lo = 16 ->
  let fp := make_field_prefix field in
  exists ids, range_loop fp tag hi (kv_seek (db s) (fp ++ tag ++ lo)) = Ok ids /\ NoDup ids /\
   forall id, In id ids <-> exists r w, row t id = Some r /\ meta_find field (meta r) = Some w
     /\ vtag w = tag /\ key_ltb (vbody w) lo = false /\ key_ltb hi (vbody w) = false.
Proof.
  intros R S Hf NT Ll fp.
  assert (Pk : starts_with fp (fp ++ tag ++ lo) = true) by apply starts_with_app.
  pose proof (seek_take fp _ (db s) (rp_sorted _ _ R) Pk) as TP.
  assert (FE : forall e, In e (db s) -> starts_with fp (fst e) = true -> exists id r w, field_entry_of t field (fst e) id r w).
  { intros e HI P. assert (P2 : starts_with (str "f_") (fst e) = true).
    { apply starts_with_iff in P as [q ->]. unfold fp, make_field_prefix. rewrite <- app_assoc. apply starts_with_app. }
    destruct (proj1 (field_entry s t e R) (conj HI P2)) as [_ (id & r & f & w & Hr & Hf' & Hm & K)].
    apply starts_with_iff in P as [q Q]. exists id, r, w.
    assert (f = field) as ->.
    { rewrite K, key_split in Q. unfold fp, make_field_prefix in Q. rewrite <- !app_assoc in Q. apply app_inv_head in Q. cbn [app] in Q.
      now destruct (field_of_key (indexed_fields s) f field _ _ S Hf' Hf Q). }
    split; [exact Hr|]. split; [exact Hm|]. now rewrite K, field_entry_key. }
  destruct (range_loop_spec t field tag hi (kv_seek (db s) (fp ++ tag ++ lo)) NT) as (ids & E & ND & I).
  - intros id r Hr. apply (rp_rows _ _ R _ _ Hr).
  - rewrite kv_seek_filter by (apply R). apply kv_sorted_filter, R.
  - intros e He. fold fp in He. rewrite TP in He. apply filter_In in He as [HI He]. apply andb_true_iff in He as [P _]. now apply FE.
  - exists ids. split; [exact E|]. split; [exact ND|]. intros id. rewrite I. fold fp. rewrite TP.
    assert (C : forall w id', vtag w = tag ->
      key_ltb (fp ++ encode_value w ++ us :: dec id') (fp ++ tag ++ lo) = key_ltb (vbody w) lo).
    { intros w id' T. unfold key_ltb. rewrite bytes_cmp_app, encode_split, T, <- app_assoc, bytes_cmp_app.
      rewrite <- (app_nil_r lo) at 1. rewrite cmp_same_len by (rewrite vbody_length; [now rewrite Ll|now rewrite T]).
      destruct (bytes_cmp (vbody w) lo); reflexivity. }
    split.
    + intros (e & r & w & He & (Hr & Hm & K) & T & G). exists r, w. repeat (split; [assumption|]).
      split; [|exact G]. apply filter_In in He as [_ He]. apply andb_true_iff in He as [_ He]. apply negb_true_iff in He.
      rewrite K in He. fold fp in He. now rewrite C in He.
    + intros (r & w & Hr & Hm & T & G1 & G2). exists (fp ++ encode_value w ++ us :: dec id, []), r, w.
      split; [|split; [split; [exact Hr|split; [exact Hm|reflexivity]]|split; assumption]].
      apply filter_In. cbn [fst]. split.
      * apply (field_entry s t (_, []) R). cbn [fst snd]. split; [reflexivity|]. exists id, r, field, w.
        repeat (split; [assumption|]). apply field_entry_key.
      * rewrite starts_with_app, C by assumption. now rewrite G1.
Qed.

Lemma int_range_spec s t field lo hi : represents s t -> separated (indexed_fields s) -> In field (indexed_fields s) ->
  int64_range lo -> int64_range hi ->
  exists ids, get_ids_by_int_range s field lo hi = Ok ids /\ NoDup ids /\
   forall id, In id ids <-> exists r z, row t id = Some r /\ meta_find field (meta r) = Some (VInt z) /\ (lo <= z <= hi)%Z.
Proof.
  intros R S Hf Hlo Hhi. unfold get_ids_by_int_range.
  destruct (range_lookup_spec s t field (str "i_") (encode_int64 lo) (encode_int64 hi) R S Hf) as (ids & E & ND & I);
    [now left|apply hexn_length|].
  exists ids. split; [exact E|]. split; [exact ND|]. intros id. rewrite I.
  assert (C : forall a b, int64_range a -> int64_range b -> key_ltb (encode_int64 a) (encode_int64 b) = false <-> (b <= a)%Z).
  { intros a b Ha Hb. unfold key_ltb. rewrite encode_int64_cmp by assumption. destruct (Z.compare_spec a b); split; lia || discriminate || reflexivity. }
  split.
  - intros (r & w & Hr & Hm & T & G1 & G2). destruct w as [z| | |]; try discriminate T. exists r, z.
    pose proof (value_ok_row s t id r field _ R Hr Hm) as V. cbn in V. cbn [vbody] in *.
    apply C in G1; auto. apply C in G2; auto.
  - intros (r & z & Hr & Hm & Hz). exists r, (VInt z). pose proof (value_ok_row s t id r field _ R Hr Hm) as V. cbn in V.
    repeat (split; [assumption || reflexivity|]). cbn [vbody]. rewrite !C by assumption. lia.
Qed.

Lemma dbl_range_spec s t field lo hi : represents s t -> separated (indexed_fields s) -> In field (indexed_fields s) ->
  (lo < 2 ^ 64)%N -> (hi < 2 ^ 64)%N ->
  exists ids, get_ids_by_double_range s field lo hi = Ok ids /\ NoDup ids /\
   forall id, In id ids <-> exists r b, row t id = Some r /\ meta_find field (meta r) = Some (VDouble b)
     /\ (double_sort_bits lo <= double_sort_bits b <= double_sort_bits hi)%N.
Proof.
  intros R S Hf Hlo Hhi. unfold get_ids_by_double_range.
  destruct (range_lookup_spec s t field (str "d_") (encode_double lo) (encode_double hi) R S Hf) as (ids & E & ND & I);
    [now right|apply hexn_length|].
  exists ids. split; [exact E|]. split; [exact ND|]. intros id. rewrite I.
  assert (C : forall a b, (a < 2 ^ 64)%N -> (b < 2 ^ 64)%N -> key_ltb (encode_double a) (encode_double b) = false <-> (double_sort_bits b <= double_sort_bits a)%N).
  { intros a b Ha Hb. unfold key_ltb. rewrite encode_double_cmp by assumption.
    destruct (N.compare_spec (double_sort_bits a) (double_sort_bits b)); split; lia || discriminate || reflexivity. }
  split.
  - intros (r & w & Hr & Hm & T & G1 & G2). destruct w as [|b| |]; try discriminate T. exists r, b.
    pose proof (value_ok_row s t id r field _ R Hr Hm) as V. cbn in V. cbn [vbody] in *.
    apply C in G1; auto. apply C in G2; auto.
  - intros (r & b & Hr & Hm & Hz). exists r, (VDouble b). pose proof (value_ok_row s t id r field _ R Hr Hm) as V. cbn in V.
    repeat (split; [assumption || reflexivity|]). cbn [vbody]. rewrite !C by assumption. lia.
Qed.

(** ** From the table to the reader's view *)
From Verif Require Import FilterSpec.
Lemma live_row s t : represents s t -> forall id r, live s id r <-> row t id = Some r.
Proof.
  intros R id r. unfold live, is_valid, read_row. destruct (row t id) as [r'|] eqn:E.
  - destruct (get_data_some _ _ _ _ R E) as (k & -> & _). rewrite deserialize_serialize by (apply (rp_rows _ _ R _ _ E)).
    split; [intros [_ H]; congruence|intros H; split; congruence].
  - rewrite (get_data_none _ _ _ R E). split; [intros [H _]; discriminate|discriminate].
Qed.
Lemma valid_row s t : represents s t -> forall id, is_valid s id = true <-> In id (map fst t).
Proof.
  intros R id. unfold is_valid. destruct (row t id) as [r|] eqn:E.
  - destruct (get_data_some _ _ _ _ R E) as (k & -> & _). split; [|reflexivity]. intros _.
    apply row_In in E; [|apply R]. change id with (fst (id, r)). now apply in_map.
  - rewrite (get_data_none _ _ _ R E). split; [discriminate|]. intros H. apply in_map_iff in H as ((i & r) & <- & HI).
    apply row_In in HI; [|apply R]. cbn [fst] in E. congruence.
Qed.
Lemma reached_represents fields ops s : reached fields ops s ->
  represents s (snd (spec_run [] ops)) /\ indexed_fields s = fields.
Proof.
  intros (H & bs & E). destruct (history fields ops H) as (s' & E' & R & F). rewrite E in E'. inversion E'; subst. auto.
Qed.
Lemma meta_find_In m f w : NoDup (map fst m) -> (meta_find f m = Some w <-> In (f, w) m).
Proof.
  induction m as [|[k x] m IH]; cbn; intros ND; [intuition discriminate|]. inversion ND as [|? ? N ND']; subst.
  destruct (bytes_eqb_spec k f) as [->|Hn].
  - split; [intros H; inversion H; now left|]. intros [H|H]; [congruence|]. exfalso. apply N.
    change f with (fst (f, w)). now apply in_map.
  - rewrite IH by assumption. split; [now right|]. intros [H|H]; [congruence|exact H].
Qed.
Lemma row_meta s t id r f w : represents s t -> row t id = Some r -> (meta_find f (meta r) = Some w <-> In (f, w) (meta r)).
Proof. intros R H. apply meta_find_In. apply (st_nodup r). apply (rp_rows _ _ R _ _ H). Qed.

Lemma item_ids_unique_lemma : forall fields ops s, reached fields ops s ->
  (forall a b ra rb, live s a ra -> live s b rb -> item_id ra = item_id rb -> item_id ra <> [] -> a = b)
  /\ (forall item id, item <> [] ->
      (find_by_item_id (db s) item = Some id <-> exists r, live s id r /\ item_id r = item))
  /\ find_by_item_id (db s) [] = None.
Proof.
  intros fields ops s H. apply reached_represents in H as [R _]. set (t := snd (spec_run [] ops)) in *.
  split; [|split].
  - intros a b ra rb La Lb E N. apply (live_row s t R) in La, Lb. apply (owns_unique s t (item_id ra)); auto.
    + now exists ra.
    + now exists rb.
  - intros item id N. destruct (find_by_item_id_spec s t item R) as [[E H]|(i & E & _ & O)]; rewrite E.
    + split; [discriminate|]. intros (r & L & I). destruct H as [H|H]; [easy|]. exfalso. apply (H id).
      exists r. split; [now apply (live_row s t R)|exact I].
    + split.
      * intros X. inversion X; subst. destruct O as (r & Hr & I). exists r. split; [now apply (live_row s t R)|exact I].
      * intros (r & L & I). f_equal. apply (owns_unique s t item); auto. exists r. split; [now apply (live_row s t R)|exact I].
  - destruct (find_by_item_id_spec s t [] R) as [[E _]|(i & _ & N & _)]; [exact E|easy].
Qed.

Lemma secondary_index_lemma : forall fields ops s, reached fields ops s ->
  forall k v, In (str "f_" ++ k, v) (db s) <->
    v = [] /\ exists id r f w, live s id r /\ In f fields /\ In (f, w) (meta r)
              /\ str "f_" ++ k = make_field_index_key f (encode_value w) id.
Proof.
  intros fields ops s H k v. apply reached_represents in H as [R <-]. set (t := snd (spec_run [] ops)) in *.
  rewrite <- kv_get_In by (apply R). change (str "f_" ++ k) with (fk k). rewrite (rp_field _ _ R). unfold entry.
  split; intros (V & id & r & f & w & L & Hf & Hm & K); (split; [exact V|]); exists id, r, f, w.
  - split; [now apply (live_row s t R)|]. split; [exact Hf|]. split; [now apply (row_meta s t id r f w R L)|exact K].
  - apply (live_row s t R) in L. split; [exact L|]. split; [exact Hf|]. split; [now apply (row_meta s t id r f w R L)|exact K].
Qed.

Lemma separated_iff fields : fields_separated fields <-> separated fields.
Proof.
  unfold fields_separated, separated. split.
  - intros H f g Hf Hg. apply starts_with_false. intros r. rewrite <- app_assoc. now apply H.
  - intros H f g rest Hf Hg. specialize (H f g Hf Hg). rewrite starts_with_false in H. specialize (H rest).
    now rewrite <- app_assoc in H.
Qed.
Lemma encode_value_inj v w : value_ok v -> value_ok w -> encode_value v = encode_value w -> v = w.
Proof.
  intros Hv Hw E. destruct v as [z|b|a|b], w as [z'|b'|a'|b']; cbn [encode_value value_ok] in *; try discriminate E.
  - apply app_inv_head in E. f_equal. now apply encode_int64_inj.
  - apply app_inv_head in E. f_equal. now apply encode_double_inj.
  - apply app_inv_head in E. now subst.
  - destruct b, b'; try reflexivity; discriminate E.
Qed.
Lemma index_key_inj : forall fields f w id f' w' id',
  fields_separated fields -> In f fields -> In f' fields -> value_ok w -> value_ok w' ->
  make_field_index_key f (encode_value w) id = make_field_index_key f' (encode_value w') id' ->
  f = f' /\ w = w' /\ id = id'.
Proof.
  intros fields f w id f' w' id' S Hf Hf' V V' E. apply separated_iff in S.
  pose proof (field_key_id _ _ _ _ _ _ E) as <-. rewrite !key_split in E. apply app_inv_head in E.
  destruct (field_of_key fields f f' _ _ S Hf Hf' E) as [-> E2]. split; [reflexivity|]. split; [|reflexivity].
  apply app_inv_tail in E2. now apply encode_value_inj.
Qed.

Lemma row_count_lemma : forall fields ops s, reached fields ops s ->
  exists ids, NoDup ids /\ (forall id, In id ids <-> is_valid s id = true) /\ cached_count s = N.of_nat (length ids).
Proof.
  intros fields ops s H. apply reached_represents in H as [R _]. set (t := snd (spec_run [] ops)) in *.
  exists (map fst t). split; [apply R|]. split.
  - intros id. symmetry. now apply valid_row.
  - rewrite map_length. apply R.
Qed.

Lemma digits_fold x : forall acc id, digits_val acc x = Some id ->
  Forall (fun c => (48 <= c <= 57)%N) x /\ fold_left (fun n c => 10 * n + (c - 48))%N x acc = id.
Proof.
  induction x as [|c x IH]; intros acc id D; cbn [digits_val fold_left] in *; [split; [constructor|congruence]|].
  destruct (is_digit c) eqn:E; [|discriminate]. destruct (IH _ _ D) as [F1 F2]. split; [|exact F2].
  constructor; [|exact F1]. unfold is_digit in E. apply andb_true_iff in E as [A B]. apply N.leb_le in A, B. lia.
Qed.

Lemma scan_lemma : forall fields ops s fn limit, reached fields ops s ->
  exists L, StronglySorted (fun a b => (fst a < fst b)%N) L
    /\ (forall id r, In (id, r) L <-> live s id r /\ fn r = true)
    /\ scan_with_filter s fn limit = Ok (if Nat.eqb limit 0 then L else firstn limit L).
Proof.
  intros fields ops s fn limit H. apply reached_represents in H as [R _]. set (t := snd (spec_run [] ops)) in *.
  destruct (scan_spec s t fn limit R) as (L & E & S & I). exists L. split; [exact S|]. split; [|exact E].
  intros id r. rewrite I, (live_row s t R). reflexivity.
Qed.

Lemma equality_lookup_lemma : forall fields ops s field v, reached fields ops s ->
  fields_separated fields -> In field fields -> value_ok v ->
  exists ids, get_ids_by_field_value s field v = Ok ids /\ NoDup ids
    /\ forall id, In id ids <-> exists r w, live s id r /\ In (field, w) (meta r) /\ (w = v \/ extends_str v w).
Proof.
  intros fields ops s field v H S Hf V. apply reached_represents in H as [R <-]. set (t := snd (spec_run [] ops)) in *.
  apply separated_iff in S. destruct (eq_lookup_spec s t field v R S Hf V) as (ids & E & ND & I).
  exists ids. split; [exact E|]. split; [exact ND|]. intros id. rewrite I.
  assert (LL : forall w, looks_like v w <-> w = v \/ extends_str v w).
  { intros w. unfold looks_like, extends_str. destruct v, w; try reflexivity. rewrite starts_with_iff.
    split; (intros [X|[q X]]; [now left|right; exists q]); [now rewrite <- app_assoc in X|now rewrite <- app_assoc]. }
  split; intros (r & w & Hr & Hm & X); exists r, w.
  - split; [now apply (live_row s t R)|]. split; [now apply (row_meta s t id r field w R Hr)|now apply LL].
  - apply (live_row s t R) in Hr. split; [exact Hr|]. split; [now apply (row_meta s t id r field w R Hr)|now apply LL].
Qed.

Lemma int_range_lemma : forall fields ops s field lo hi, reached fields ops s ->
  fields_separated fields -> In field fields -> int64_range lo -> int64_range hi ->
  exists ids, get_ids_by_int_range s field lo hi = Ok ids /\ NoDup ids
    /\ forall id, In id ids <-> exists r z, live s id r /\ In (field, VInt z) (meta r) /\ (lo <= z <= hi)%Z.
Proof.
  intros fields ops s field lo hi H S Hf Vl Vh. apply reached_represents in H as [R <-]. set (t := snd (spec_run [] ops)) in *.
  apply separated_iff in S. destruct (int_range_spec s t field lo hi R S Hf Vl Vh) as (ids & E & ND & I).
  exists ids. split; [exact E|]. split; [exact ND|]. intros id. rewrite I.
  split; intros (r & z & Hr & Hm & X); exists r, z.
  - split; [now apply (live_row s t R)|]. split; [now apply (row_meta s t id r field _ R Hr)|exact X].
  - apply (live_row s t R) in Hr. split; [exact Hr|]. split; [now apply (row_meta s t id r field _ R Hr)|exact X].
Qed.

(** Numeric order of doubles through the sort bits. *)
Lemma not_nan_bits b : dbl_val b <> DNan -> dbl_is_nan b = false.
Proof. intros H. destruct (dbl_val_cases b) as [(? & E)|[(_ & E & _)|(_ & E & _)]]; congruence. Qed.
Lemma nan_val b : dbl_is_nan b = true -> dbl_val b = DNan.
Proof. intros H. destruct (dbl_val_cases b) as [(? & E)|[(_ & E & _)|(_ & E & _)]]; congruence. Qed.
Lemma zero_bits b : (b < 2 ^ 64)%N -> is_zero b -> b = 0%N \/ b = (2 ^ 63)%N.
Proof.
  unfold is_zero, dbl_mag. intros H Z. destruct (N.lt_ge_cases b (2 ^ 63)).
  - left. rewrite N.mod_small in Z; assumption.
  - right. assert (b mod 2 ^ 63 = b - 2 ^ 63)%N by (symmetry; apply (N.mod_unique _ _ 1); lia). lia.
Qed.
Definition dle (a b : N) : Prop := dval_lt (dbl_val a) (dbl_val b) \/ dval_eq (dbl_val a) (dbl_val b).
Lemma dle_key a b : dle a b <-> dbl_is_nan a = false /\ dbl_is_nan b = false /\ (dbl_key a <= dbl_key b)%Z.
Proof.
  unfold dle. rewrite <- dbl_ltb_spec, <- dbl_eqb_spec. unfold dbl_ltb, dbl_eqb.
  destruct (dbl_is_nan a), (dbl_is_nan b); cbn [negb andb]; try (split; [intros [H|H]; discriminate|intros (A & B & _); discriminate]).
  rewrite Z.ltb_lt, Z.eqb_eq. intuition lia.
Qed.
(** [b] not below [a] in sort order, when not both are zeros in the wrong order. *)
Lemma sort_le_key a b : (a < 2 ^ 64)%N -> (b < 2 ^ 64)%N -> dbl_is_nan a = false -> dbl_is_nan b = false ->
  ~ (a = 0%N /\ b = (2 ^ 63)%N) ->
  ((double_sort_bits a <= double_sort_bits b)%N <-> (dbl_key a <= dbl_key b)%Z).
Proof.
  intros Ha Hb Na Nb Z. rewrite !sort_bits by assumption. unfold dbl_key.
  pose proof (dbl_mag_lt a). pose proof (dbl_mag_lt b).
  destruct (dbl_sign a) eqn:Sa, (dbl_sign b) eqn:Sb; try lia.
  (* a >= 0, b <= 0 *)
  split; [lia|]. intros L. exfalso. assert (dbl_mag a = 0 /\ dbl_mag b = 0)%N as [A B] by lia.
  apply Z. rewrite dbl_sign_ltb in Sa, Sb by assumption. apply negb_false_iff, N.ltb_lt in Sa. apply negb_true_iff, N.ltb_ge in Sb.
  destruct (zero_bits a Ha A), (zero_bits b Hb B); subst; auto; lia.
Qed.
(** NaN patterns sort outside all numbers. *)
Lemma sort_between a b c : (a < 2 ^ 64)%N -> (b < 2 ^ 64)%N -> (c < 2 ^ 64)%N ->
  dbl_is_nan a = false -> dbl_is_nan c = false ->
  (double_sort_bits a <= double_sort_bits b <= double_sort_bits c)%N -> dbl_is_nan b = false.
Proof.
  intros Ha Hb Hc Na Nc. rewrite !sort_bits by assumption. unfold dbl_is_nan in *. apply N.ltb_ge in Na, Nc. intros H.
  apply N.ltb_ge. pose proof (dbl_mag_lt a). pose proof (dbl_mag_lt b). pose proof (dbl_mag_lt c).
  destruct (dbl_sign a), (dbl_sign b), (dbl_sign c); lia.
Qed.
Lemma double_between lo hi b : (lo < 2 ^ 64)%N -> (hi < 2 ^ 64)%N -> (b < 2 ^ 64)%N ->
  dbl_is_nan lo = false -> dbl_is_nan hi = false -> lo <> 0%N -> hi <> (2 ^ 63)%N ->
  ((double_sort_bits lo <= double_sort_bits b <= double_sort_bits hi)%N <-> dle lo b /\ dle b hi).
Proof.
  intros Hlo Hhi Hb Nl Nh Zl Zh. rewrite !dle_key. split.
  - intros H. assert (Nb : dbl_is_nan b = false) by (apply (sort_between lo b hi); auto). destruct H as [H1 H2].
    apply sort_le_key in H1; auto; [|intros [? ?]; auto]. apply sort_le_key in H2; auto; intros [? ?]; auto.
  - intros [(_ & Nb & H1) (_ & _ & H2)]. split; apply sort_le_key; auto; intros [? ?]; auto.
Qed.

Lemma double_range_lemma : forall fields ops s field lo hi, reached fields ops s ->
  fields_separated fields -> In field fields -> (lo < 2 ^ 64)%N -> (hi < 2 ^ 64)%N ->
  dbl_val lo <> DNan -> dbl_val hi <> DNan -> lo <> 0%N -> hi <> (2 ^ 63)%N ->
  exists ids, get_ids_by_double_range s field lo hi = Ok ids /\ NoDup ids
    /\ forall id, In id ids <-> exists r b, live s id r /\ In (field, VDouble b) (meta r)
         /\ (dval_lt (dbl_val lo) (dbl_val b) \/ dval_eq (dbl_val lo) (dbl_val b))
         /\ (dval_lt (dbl_val b) (dbl_val hi) \/ dval_eq (dbl_val b) (dbl_val hi)).
Proof.
  intros fields ops s field lo hi H S Hf Vl Vh Nl Nh Zl Zh. apply reached_represents in H as [R <-]. set (t := snd (spec_run [] ops)) in *.
  apply separated_iff in S. destruct (dbl_range_spec s t field lo hi R S Hf Vl Vh) as (ids & E & ND & I).
  apply not_nan_bits in Nl, Nh.
  exists ids. split; [exact E|]. split; [exact ND|]. intros id. rewrite I.
  split; intros (r & b & Hr & Hm & X); exists r, b.
  - pose proof (value_ok_row s t id r field _ R Hr Hm) as V. cbn in V.
    split; [now apply (live_row s t R)|]. split; [now apply (row_meta s t id r field _ R Hr)|now apply double_between in X].
  - apply (live_row s t R) in Hr. assert (Hm' : meta_find field (meta r) = Some (VDouble b)) by now apply (row_meta s t id r field _ R Hr).
    pose proof (value_ok_row s t id r field _ R Hr Hm') as V. cbn in V.
    split; [exact Hr|]. split; [exact Hm'|now apply double_between].
Qed.

(** A decidable version of [op_ok], for examples. *)
Definition op_okb (o : op) : bool :=
  match o with
  | Insert id r | Update id r | InsertOldFormat id r => N.ltb id (2 ^ 32) && storableb r
  | Remove id => N.ltb id (2 ^ 32)
  | BatchInsert start rs => N.leb (start + N.of_nat (length rs)) (2 ^ 32) && forallb storableb rs
  | Reopen => true
  end.
Lemma op_okb_ok l : forallb op_okb l = true -> Forall op_ok l.
Proof.
  rewrite forallb_forall, Forall_forall. intros H o Ho. apply H in Ho.
  destruct o as [id r|start rs|id r|id| |id r]; cbn [op_okb op_ok] in *; auto; try (apply andb_true_iff in Ho as [A B]).
  - apply N.ltb_lt in A. split; [exact A|now apply storableb_ok].
  - apply N.leb_le in A. split; [exact A|]. rewrite forallb_forall in B. apply Forall_forall. intros x Hx. apply storableb_ok. now apply B.
  - apply N.ltb_lt in A. split; [exact A|now apply storableb_ok].
  - now apply N.ltb_lt in Ho.
  - apply N.ltb_lt in A. split; [exact A|now apply storableb_ok].
Qed.
