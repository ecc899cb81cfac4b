From Verif Require Import ScalarDataModel ScalarDataSpec.

Definition nlen {A} (l : list A) : N := N.of_nat (length l).

Lemma nlen_app {A} (a b : list A) : nlen (a ++ b) = (nlen a + nlen b)%N.
Proof. unfold nlen. rewrite app_length. lia. Qed.

Lemma memcpy_ok data off n : (off + n <= fsize data)%N ->
  memcpy data off n = Ok (firstn (N.to_nat n) (skipn (N.to_nat off) data)).
Proof. intros H. unfold memcpy. fold (fsize data). destruct (N.leb_spec (off + n) (fsize data)); [reflexivity|lia]. Qed.

(** ** Bounds *)

Lemma deserialize_string_ok data off : exists s o, deserialize_string data off = Ok (s, o).
Proof.
  unfold deserialize_string.
  destruct (N.ltb_spec (fsize data) (off + 4)); [eauto|].
  rewrite memcpy_ok by lia. cbn [bind].
  set (l := le_dec _). clearbody l.
  destruct (N.ltb_spec (fsize data) (off + 4 + l)); [eauto|].
  rewrite memcpy_ok by lia. cbn [bind]. eauto.
Qed.
Lemma skip_string_ok data off : exists o, skip_string data off = Ok o.
Proof.
  unfold skip_string.
  destruct (N.ltb_spec (fsize data) (off + 4)); [eauto|].
  rewrite memcpy_ok by lia. cbn [bind].
  set (l := le_dec _). clearbody l.
  destruct (N.ltb_spec (fsize data) (off + 4 + l)); eauto.
Qed.
Lemma deserialize_value_ok data off :
  (exists v o, deserialize_value data off = Ok (v, o)) \/ deserialize_value data off = InvalidBool.
Proof.
  unfold deserialize_value.
  destruct (N.leb_spec (fsize data) off); [eauto|].
  rewrite memcpy_ok by lia. cbn [bind].
  set (t := le_dec _). clearbody t.
  destruct (N.eqb t 0).
  { destruct (N.ltb_spec (fsize data) (off + 1 + 8)); [eauto|]. rewrite memcpy_ok by lia. cbn [bind]. eauto. }
  destruct (N.eqb t 1).
  { destruct (N.ltb_spec (fsize data) (off + 1 + 8)); [eauto|]. rewrite memcpy_ok by lia. cbn [bind]. eauto. }
  destruct (N.eqb t 2).
  { destruct (deserialize_string_ok data (off + 1)) as (s & o & ->). cbn [bind]. eauto. }
  destruct (N.eqb t 3); [|eauto].
  destruct (N.ltb_spec (fsize data) (off + 1 + 1)); [eauto|]. rewrite memcpy_ok by lia. cbn [bind].
  set (b := le_dec _). clearbody b. destruct (N.eqb b 0); [eauto|]. destruct (N.eqb b 1); eauto.
Qed.
Lemma skip_value_ok data off : exists o, skip_value data off = Ok o.
Proof.
  unfold skip_value.
  destruct (N.leb_spec (fsize data) off); [eauto|].
  rewrite memcpy_ok by lia. cbn [bind].
  set (t := le_dec _). clearbody t.
  destruct (N.eqb t 0 || N.eqb t 1). { destruct (N.ltb _ _); eauto. }
  destruct (N.eqb t 2); [apply skip_string_ok|].
  destruct (N.eqb t 3); [|eauto]. destruct (N.ltb _ _); eauto.
Qed.

Lemma metadata_loop_safe data n : forall off acc,
  (exists m o, metadata_loop data n off acc = Ok (m, o)) \/ metadata_loop data n off acc = InvalidBool.
Proof.
  induction n as [|n IH]; intros off acc; cbn [metadata_loop]; [eauto|].
  destruct (deserialize_string_ok data off) as (s & o & ->). cbn [bind].
  destruct (N.ltb (fsize data) o); [eauto|].
  destruct (deserialize_value_ok data o) as [(v & o' & ->)| ->]; cbn [bind]; [|auto].
  destruct (N.ltb (fsize data) o'); [eauto|]. apply IH.
Qed.

Lemma deserialize_safe data : in_bounds (deserialize data).
Proof.
  unfold in_bounds, deserialize, deserialize_with_offset.
  destruct (N.eqb (fsize data) 0); [discriminate|].
  destruct (deserialize_string_ok data 0) as (s & o & ->). cbn [bind].
  destruct (deserialize_string_ok data o) as (d & o' & ->). cbn [bind].
  unfold deserialize_metadata. destruct (N.ltb_spec (fsize data) (o' + 4)).
  - cbn [bind]. destruct (N.ltb _ _); discriminate.
  - rewrite memcpy_ok by lia. cbn [bind].
    match goal with |- context [metadata_loop ?d ?n ?o ?a] => destruct (metadata_loop_safe d n o a) as [(m & o2 & ->)| ->] end;
      cbn [bind]; [|discriminate].
    destruct (N.ltb _ _); discriminate.
Qed.

Lemma selected_loop_safe data req n : forall off acc,
  in_bounds (selected_loop data req n off acc) /\ selected_loop data req n off acc <> Throws.
Proof.
  unfold in_bounds.
  induction n as [|n IH]; intros off acc; cbn [selected_loop]; [split; discriminate|].
  destruct (negb _); [split; discriminate|].
  destruct (deserialize_string_ok data off) as (s & o & ->). cbn [bind].
  destruct (match s with [] => _ | _ => _ end); [split; discriminate|].
  destruct (contains s req).
  - destruct (deserialize_value_ok data o) as [(v & o' & ->)| ->]; cbn [bind]; [|split; discriminate].
    destruct (N.ltb _ _); [split; discriminate|]. cbv zeta. destruct (Nat.eqb _ _); [split; discriminate|apply IH].
  - destruct (skip_value_ok data o) as (o' & ->). cbn [bind].
    destruct (N.ltb _ _); [split; discriminate|apply IH].
Qed.
Lemma selected_safe data req : in_bounds (deserialize_selected_metadata data req)
  /\ deserialize_selected_metadata data req <> Throws.
Proof.
  unfold in_bounds, deserialize_selected_metadata. destruct req as [|f req]; [split; discriminate|].
  destruct (N.eqb (fsize data) 0); [split; discriminate|].
  destruct (skip_string_ok data 0) as (o & ->). cbn [bind].
  destruct (skip_string_ok data o) as (o' & ->). cbn [bind].
  destruct (N.ltb_spec (fsize data) (o' + 4)); [split; discriminate|].
  rewrite memcpy_ok by lia. cbn [bind]. apply selected_loop_safe.
Qed.

Lemma single_loop_safe data f n : forall off,
  in_bounds (single_loop data f n off) /\ single_loop data f n off <> Throws.
Proof.
  unfold in_bounds.
  induction n as [|n IH]; intros off; cbn [single_loop]; [split; discriminate|].
  destruct (negb _); [split; discriminate|].
  destruct (deserialize_string_ok data off) as (s & o & ->). cbn [bind].
  destruct (match s with [] => _ | _ => _ end); [split; discriminate|].
  destruct (bytes_eqb s f).
  - destruct (deserialize_value_ok data o) as [(v & o' & ->)| ->]; cbn [bind]; [|split; discriminate].
    destruct (N.ltb _ _); split; discriminate.
  - destruct (skip_value_ok data o) as (o' & ->). cbn [bind].
    destruct (N.ltb _ _); [split; discriminate|apply IH].
Qed.
Lemma single_safe data f : in_bounds (deserialize_single_metadata_value data f)
  /\ deserialize_single_metadata_value data f <> Throws.
Proof.
  unfold in_bounds, deserialize_single_metadata_value. destruct f as [|x f]; [split; discriminate|].
  destruct (N.eqb (fsize data) 0); [split; discriminate|].
  destruct (skip_string_ok data 0) as (o & ->). cbn [bind].
  destruct (skip_string_ok data o) as (o' & ->). cbn [bind].
  destruct (N.ltb_spec (fsize data) (o' + 4)); [split; discriminate|].
  rewrite memcpy_ok by lia. cbn [bind]. apply single_loop_safe.
Qed.

(** ** Round trip *)

Lemma memcpy_at pre x post :
  memcpy (pre ++ x ++ post) (nlen pre) (nlen x) = Ok x.
Proof.
  rewrite memcpy_ok.
  - f_equal. unfold nlen. rewrite !Nat2N.id.
    rewrite skipn_app, skipn_all, Nat.sub_diag. cbn [skipn app].
    rewrite firstn_app, firstn_all, Nat.sub_diag. cbn. apply app_nil_r.
  - unfold fsize. fold (nlen (pre ++ x ++ post)). rewrite !nlen_app. lia.
Qed.
Lemma memcpy_at' data pre x post off n :
  data = pre ++ x ++ post -> off = nlen pre -> n = nlen x -> memcpy data off n = Ok x.
Proof. intros -> -> ->. apply memcpy_at. Qed.

Lemma fsize_nlen data : fsize data = nlen data.
Proof. reflexivity. Qed.

Lemma nlen_le_enc n v : nlen (le_enc n v) = N.of_nat n.
Proof. unfold nlen. now rewrite le_enc_length. Qed.

Lemma int64_bits_bound z : (int64_bits z < 2 ^ 64)%N.
Proof.
  unfold int64_bits. pose proof (Z.mod_pos_bound z (2 ^ 64) ltac:(lia)).
  change (2 ^ 64)%N with (Z.to_N (2 ^ 64)). apply Z2N.inj_lt; lia.
Qed.
Lemma int64_round z : int64_range z -> int64_of_bits (int64_bits z) = z.
Proof.
  unfold int64_range, int64_of_bits, int64_bits. intros H.
  change (2 ^ 63)%N with 9223372036854775808%N.
  change (2 ^ 64)%Z with 18446744073709551616%Z in *. change (2 ^ 63)%Z with 9223372036854775808%Z in *.
  destruct (Z.leb_spec 0 z).
  - rewrite Z.mod_small by lia. destruct (N.ltb_spec (Z.to_N z) 9223372036854775808); lia.
  - replace (z mod 18446744073709551616)%Z with (z + 18446744073709551616)%Z by lia.
    destruct (N.ltb_spec (Z.to_N (z + 18446744073709551616)) 9223372036854775808); lia.
Qed.

Lemma nlen_serialize_string s : nlen (serialize_string s) = (4 + nlen s)%N.
Proof. unfold serialize_string. rewrite nlen_app, nlen_le_enc. reflexivity. Qed.

Lemma string_at data pre s post :
  data = pre ++ serialize_string s ++ post -> fits_u32 s ->
  deserialize_string data (nlen pre) = Ok (s, nlen pre + nlen (serialize_string s))%N
  /\ skip_string data (nlen pre) = Ok (nlen pre + nlen (serialize_string s))%N.
Proof.
  intros -> Hs. unfold fits_u32 in Hs.
  set (data := pre ++ serialize_string s ++ post).
  assert (L : fsize data = (nlen pre + (4 + nlen s) + nlen post)%N).
  { rewrite fsize_nlen. unfold data. rewrite !nlen_app, nlen_serialize_string. lia. }
  assert (M1 : memcpy data (nlen pre) 4 = Ok (le_enc 4 (N.of_nat (length s)))).
  { apply (memcpy_at' _ pre _ (s ++ post)); [|reflexivity|now rewrite nlen_le_enc].
    unfold data, serialize_string. now rewrite <- !app_assoc. }
  assert (M2 : memcpy data (nlen pre + 4) (nlen s) = Ok s).
  { apply (memcpy_at' _ (pre ++ le_enc 4 (N.of_nat (length s))) _ post); [| |reflexivity].
    - unfold data, serialize_string. now rewrite <- !app_assoc.
    - now rewrite nlen_app, nlen_le_enc. }
  assert (D : le_dec (le_enc 4 (N.of_nat (length s))) = nlen s).
  { apply le_dec_enc. exact Hs. }
  unfold deserialize_string, skip_string. rewrite nlen_serialize_string.
  destruct (N.ltb_spec (fsize data) (nlen pre + 4)); [lia|].
  rewrite M1. cbn [bind]. rewrite D. cbv zeta.
  destruct (N.ltb_spec (fsize data) (nlen pre + 4 + nlen s)); [lia|].
  rewrite M2. cbn [bind]. rewrite !N.add_assoc. auto.
Qed.

Lemma value_at data pre v post :
  data = pre ++ serialize_value v ++ post -> value_ok v ->
  deserialize_value data (nlen pre) = Ok (v, nlen pre + nlen (serialize_value v))%N
  /\ skip_value data (nlen pre) = Ok (nlen pre + nlen (serialize_value v))%N.
Proof.
  intros Hd Hv.
  assert (G : forall tag rest, serialize_value v = tag :: rest ->
    N.leb (fsize data) (nlen pre) = false /\ memcpy data (nlen pre) 1 = Ok [tag]
    /\ fsize data = (nlen pre + 1 + nlen rest + nlen post)%N
    /\ data = (pre ++ [tag]) ++ rest ++ post /\ nlen (pre ++ [tag]) = (nlen pre + 1)%N
    /\ nlen (serialize_value v) = (1 + nlen rest)%N).
  { intros tag rest E. rewrite E in Hd.
    assert (L : fsize data = (nlen pre + 1 + nlen rest + nlen post)%N).
    { rewrite fsize_nlen, Hd, !nlen_app. unfold nlen. cbn [length]. lia. }
    repeat split.
    - destruct (N.leb_spec (fsize data) (nlen pre)); [lia|reflexivity].
    - apply (memcpy_at' _ pre _ (rest ++ post)); [|reflexivity|reflexivity]. now rewrite Hd.
    - exact L.
    - rewrite Hd, <- app_assoc. reflexivity.
    - now rewrite nlen_app.
    - rewrite E. unfold nlen. cbn [length]. lia. }
  destruct v as [z|b|s|b]; cbn [serialize_value app] in G |- *; cbn [value_ok] in Hv.
  - destruct (G _ _ eq_refl) as (A & B & C & D & F & LV). rewrite nlen_le_enc in C.
    unfold deserialize_value, skip_value. rewrite A, B. cbn [bind]. change (le_dec [0%N]) with 0%N.
    cbn [N.eqb orb]. rewrite LV, nlen_le_enc.
    destruct (N.ltb_spec (fsize data) (nlen pre + 1 + 8)); [lia|].
    rewrite (memcpy_at' _ (pre ++ [0%N]) (le_enc 8 (int64_bits z)) post)
      by (auto; now rewrite nlen_le_enc).
    cbn [bind]. rewrite le_dec_enc by apply int64_bits_bound. rewrite int64_round by assumption.
    rewrite N.add_assoc. auto.
  - destruct (G _ _ eq_refl) as (A & B & C & D & F & LV). rewrite nlen_le_enc in C.
    unfold deserialize_value, skip_value. rewrite A, B. cbn [bind]. change (le_dec [1%N]) with 1%N.
    cbn [N.eqb Pos.eqb orb]. rewrite LV, nlen_le_enc.
    destruct (N.ltb_spec (fsize data) (nlen pre + 1 + 8)); [lia|].
    rewrite (memcpy_at' _ (pre ++ [1%N]) (le_enc 8 b) post)
      by (auto; now rewrite nlen_le_enc).
    cbn [bind]. rewrite le_dec_enc by exact Hv.
    rewrite N.add_assoc. auto.
  - destruct (G _ _ eq_refl) as (A & B & C & D & F & LV).
    unfold deserialize_value, skip_value. rewrite A, B. cbn [bind]. change (le_dec [2%N]) with 2%N.
    cbn [N.eqb Pos.eqb orb]. rewrite LV.
    destruct (string_at data (pre ++ [2%N]) s post D Hv) as [E1 E2].
    rewrite F in E1, E2. rewrite E1, E2. cbn [bind]. rewrite N.add_assoc. auto.
  - destruct (G _ _ eq_refl) as (A & B & C & D & F & LV).
    unfold deserialize_value, skip_value. rewrite A, B. cbn [bind]. change (le_dec [3%N]) with 3%N.
    cbn [N.eqb Pos.eqb orb]. rewrite LV.
    change (nlen [if b then 1%N else 0%N]) with 1%N in *.
    destruct (N.ltb_spec (fsize data) (nlen pre + 1 + 1)); [lia|].
    rewrite (memcpy_at' _ (pre ++ [3%N]) [if b then 1%N else 0%N] post) by auto.
    cbn [bind]. rewrite N.add_assoc. destruct b; auto.
Qed.

Definition entry_ok (kv : bytes * value) : Prop := fits_u32 (fst kv) /\ value_ok (snd kv).

Lemma meta_find_None k m : ~ In k (map fst m) -> meta_find k m = None.
Proof.
  induction m as [|[k' v] m IH]; cbn; intros H; [reflexivity|].
  destruct (bytes_eqb_spec k' k) as [->|_]; [exfalso; auto|]. apply IH. auto.
Qed.
Lemma meta_set_new k v m : ~ In k (map fst m) -> meta_set k v m = m ++ [(k, v)].
Proof.
  induction m as [|[k' v'] m IH]; cbn; intros H; [reflexivity|].
  destruct (bytes_eqb_spec k' k) as [->|_]; [exfalso; auto|]. rewrite IH; auto.
Qed.

Lemma nlen_entry kv : nlen (serialize_entry kv) = (nlen (serialize_string (fst kv)) + nlen (serialize_value (snd kv)))%N.
Proof. unfold serialize_entry. apply nlen_app. Qed.

Lemma flat_map_cons' {A B} (f : A -> list B) x l : flat_map f (x :: l) = f x ++ flat_map f l.
Proof. reflexivity. Qed.

Lemma metadata_loop_at data : forall m pre post acc,
  data = pre ++ flat_map serialize_entry m ++ post -> Forall entry_ok m ->
  NoDup (map fst (acc ++ m)) ->
  metadata_loop data (length m) (nlen pre) acc =
    Ok (acc ++ m, nlen pre + nlen (flat_map serialize_entry m))%N.
Proof.
  induction m as [|[k v] m IH]; intros pre post acc Hd F ND.
  - cbn [length metadata_loop flat_map]. rewrite app_nil_r. change (nlen (@nil N)) with 0%N. now rewrite N.add_0_r.
  - apply Forall_cons_iff in F as [[Hk Hv] F]. cbn [fst snd] in Hk, Hv.
    cbn [length metadata_loop].
    assert (L : fsize data = (nlen pre + (nlen (serialize_string k) + nlen (serialize_value v))
                 + nlen (flat_map serialize_entry m) + nlen post)%N).
    { rewrite fsize_nlen, Hd, flat_map_cons', !nlen_app, nlen_entry. cbn [fst snd]. lia. }
    destruct (string_at data pre k (serialize_value v ++ flat_map serialize_entry m ++ post)) as [-> _];
      [|exact Hk|].
    { rewrite Hd, flat_map_cons'. unfold serialize_entry. cbn [fst snd]. now rewrite <- !app_assoc. }
    cbn [bind]. destruct (N.ltb_spec (fsize data) (nlen pre + nlen (serialize_string k))); [lia|].
    rewrite <- nlen_app.
    destruct (value_at data (pre ++ serialize_string k) v (flat_map serialize_entry m ++ post)) as [-> _];
      [|exact Hv|].
    { rewrite Hd, flat_map_cons'. unfold serialize_entry. cbn [fst snd]. now rewrite <- !app_assoc. }
    cbn [bind]. rewrite nlen_app.
    destruct (N.ltb_spec (fsize data) (nlen pre + nlen (serialize_string k) + nlen (serialize_value v))); [lia|].
    rewrite meta_set_new.
    2:{ rewrite map_app in ND. cbn [map fst] in ND. apply NoDup_remove_2 in ND.
        intros Hi. apply ND. apply in_or_app. now left. }
    rewrite <- !nlen_app, <- app_assoc.
    rewrite (IH (pre ++ serialize_string k ++ serialize_value v) post).
    + f_equal. f_equal.
      * now rewrite <- app_assoc.
      * rewrite flat_map_cons', !nlen_app, nlen_entry. cbn [fst snd]. lia.
    + rewrite Hd, flat_map_cons'. unfold serialize_entry. cbn [fst snd]. now rewrite <- !app_assoc.
    + exact F.
    + rewrite <- app_assoc. exact ND.
Qed.

Lemma storable_entries r : storable r -> Forall entry_ok (meta r).
Proof.
  intros [_ _ _ _ H]. apply Forall_forall. intros [k v] Hi. exact (H k v Hi).
Qed.

(** Where the metadata starts. *)
Definition head_of (r : scalar_data) : bytes := serialize_string (item_id r) ++ serialize_string (document r).

Lemma serialize_split r extra :
  serialize r ++ extra =
  (head_of r ++ le_enc 4 (nlen (meta r))) ++ flat_map serialize_entry (meta r) ++ extra.
Proof.
  unfold serialize, head_of, serialize_metadata. now rewrite <- !app_assoc.
Qed.

Lemma nonempty_serialize r extra : N.eqb (fsize (serialize r ++ extra)) 0 = false.
Proof.
  rewrite fsize_nlen. unfold serialize. rewrite !nlen_app, nlen_serialize_string.
  apply N.eqb_neq. lia.
Qed.

Lemma round_trip_offset_lemma r extra : storable r ->
  deserialize_with_offset (serialize r ++ extra) = Ok (r, nlen (serialize r)).
Proof.
  intros S. unfold deserialize_with_offset. rewrite nonempty_serialize.
  set (data := serialize r ++ extra).
  destruct (string_at data [] (item_id r) (serialize_string (document r) ++ serialize_metadata (meta r) ++ extra))
    as [E1 _]; [unfold data, serialize; now rewrite <- !app_assoc|apply S|].
  change (nlen []) with 0%N in E1. rewrite E1. cbn [bind]. rewrite N.add_0_l.
  destruct (string_at data (serialize_string (item_id r)) (document r) (serialize_metadata (meta r) ++ extra))
    as [E2 _]; [unfold data, serialize; now rewrite <- !app_assoc|apply S|].
  rewrite E2. cbn [bind].
  unfold deserialize_metadata. rewrite <- nlen_app. fold (head_of r).
  assert (L : fsize data = (nlen (head_of r) + 4 + nlen (flat_map serialize_entry (meta r)) + nlen extra)%N).
  { rewrite fsize_nlen. unfold data. rewrite serialize_split, !nlen_app, nlen_le_enc. lia. }
  destruct (N.ltb_spec (fsize data) (nlen (head_of r) + 4)); [lia|].
  rewrite (memcpy_at' data (head_of r) (le_enc 4 (nlen (meta r))) (flat_map serialize_entry (meta r) ++ extra));
    [|unfold data; rewrite serialize_split; now rewrite <- !app_assoc|reflexivity|now rewrite nlen_le_enc].
  cbn [bind]. rewrite le_dec_enc by apply S. unfold nlen at 1. rewrite Nat2N.id.
  replace (nlen (head_of r) + 4)%N with (nlen (head_of r ++ le_enc 4 (nlen (meta r))))
    by (rewrite nlen_app, nlen_le_enc; reflexivity).
  rewrite (metadata_loop_at data (meta r) _ extra []);
    [|unfold data; apply serialize_split|now apply storable_entries|apply S].
  cbn [bind app].
  assert (L2 : (nlen (head_of r ++ le_enc 4 (nlen (meta r))) + nlen (flat_map serialize_entry (meta r)))%N
               = nlen (serialize r)).
  { pose proof (serialize_split r []) as E. rewrite !app_nil_r in E. rewrite E, !nlen_app. lia. }
  rewrite L2. destruct (N.ltb_spec (fsize data) (nlen (serialize r))).
  - exfalso. unfold data in H0. rewrite fsize_nlen, nlen_app in H0. lia.
  - now destruct r.
Qed.

Lemma serialized_size_lemma r : length (serialize r) = serialized_size r.
Proof.
  unfold serialize, serialized_size, serialize_metadata, serialize_string.
  rewrite !app_length, !le_enc_length.
  assert (G : forall m a,
    fold_left (fun n kv => n + (4 + length (fst kv)) + 1 +
      match snd kv with VStr s => 4 + length s | VInt _ | VDouble _ => 8 | VBool _ => 1 end) m a
    = a + length (flat_map serialize_entry m)).
  { induction m as [|[k v] m IH]; intros a; cbn [fold_left flat_map]; [cbn; lia|].
    rewrite IH, app_length. unfold serialize_entry, serialize_string. cbn [fst snd].
    rewrite !app_length, le_enc_length.
    destruct v as [z|b|s|b]; cbn [serialize_value]; unfold serialize_string;
      rewrite ?app_length, ?le_enc_length; cbn [length]; lia. }
  rewrite G. lia.
Qed.

(** ** Partial decoding *)

(** Lookups by position in the list of entries. *)
Lemma meta_find_In k v m : NoDup (map fst m) -> In (k, v) m -> meta_find k m = Some v.
Proof.
  induction m as [|[k' v'] m IH]; cbn; intros ND H; [easy|].
  apply NoDup_cons_iff in ND as [Hn ND].
  destruct H as [E|H].
  - inversion E; subst. now rewrite bytes_eqb_refl.
  - destruct (bytes_eqb_spec k' k) as [->|_]; [|auto].
    exfalso. apply Hn. apply in_map_iff. now exists (k, v).
Qed.
Lemma meta_find_Some k v m : meta_find k m = Some v -> In (k, v) m.
Proof.
  induction m as [|[k' v'] m IH]; cbn; [discriminate|].
  destruct (bytes_eqb_spec k' k) as [->|_]; intros H; [inversion H; now left|right; auto].
Qed.
Lemma meta_find_app k a b : meta_find k (a ++ b) = match meta_find k a with Some v => Some v | None => meta_find k b end.
Proof. induction a as [|[k' v'] a IH]; cbn; [reflexivity|]. destruct (bytes_eqb k' k); auto. Qed.

Lemma single_loop_at data f : forall m pre post,
  data = pre ++ flat_map serialize_entry m ++ post -> Forall entry_ok m ->
  single_loop data f (length m) (nlen pre) = Ok (meta_find f m).
Proof.
  induction m as [|[k v] m IH]; intros pre post Hd F; [reflexivity|].
  apply Forall_cons_iff in F as [[Hk Hv] F]. cbn [fst snd] in Hk, Hv.
  cbn [length single_loop].
  assert (L : fsize data = (nlen pre + (nlen (serialize_string k) + nlen (serialize_value v))
               + nlen (flat_map serialize_entry m) + nlen post)%N).
  { rewrite fsize_nlen, Hd, flat_map_cons', !nlen_app, nlen_entry. cbn [fst snd]. lia. }
  pose proof (nlen_serialize_string k) as Lk.
  destruct (N.ltb_spec (nlen pre) (fsize data)); [|lia]. cbn [negb].
  destruct (string_at data pre k (serialize_value v ++ flat_map serialize_entry m ++ post)) as [-> _];
    [|exact Hk|].
  { rewrite Hd, flat_map_cons'. unfold serialize_entry. cbn [fst snd]. now rewrite <- !app_assoc. }
  cbn [bind].
  destruct (N.ltb_spec (fsize data) (nlen pre + nlen (serialize_string k))); [lia|].
  replace (match k with [] => false | _ :: _ => false end) with false by (now destruct k).
  rewrite <- nlen_app.
  destruct (value_at data (pre ++ serialize_string k) v (flat_map serialize_entry m ++ post)) as [-> ->];
    [|exact Hv|].
  { rewrite Hd, flat_map_cons'. unfold serialize_entry. cbn [fst snd]. now rewrite <- !app_assoc. }
  cbn [bind meta_find]. rewrite nlen_app.
  destruct (N.ltb_spec (fsize data) (nlen pre + nlen (serialize_string k) + nlen (serialize_value v))); [lia|].
  destruct (bytes_eqb k f); [reflexivity|].
  rewrite <- !nlen_app, <- app_assoc.
  apply (IH _ post); [|exact F].
  rewrite Hd, flat_map_cons'. unfold serialize_entry. cbn [fst snd]. now rewrite <- !app_assoc.
Qed.

Lemma partial_head r extra : storable r ->
  let data := serialize r ++ extra in
  skip_string data 0 = Ok (nlen (serialize_string (item_id r)))
  /\ skip_string data (nlen (serialize_string (item_id r))) = Ok (nlen (head_of r))
  /\ N.ltb (fsize data) (nlen (head_of r) + 4) = false
  /\ memcpy data (nlen (head_of r)) 4 = Ok (le_enc 4 (nlen (meta r)))
  /\ N.to_nat (le_dec (le_enc 4 (nlen (meta r)))) = length (meta r)
  /\ (nlen (head_of r) + 4)%N = nlen (head_of r ++ le_enc 4 (nlen (meta r))).
Proof.
  intros S data. repeat split.
  - destruct (string_at data [] (item_id r) (serialize_string (document r) ++ serialize_metadata (meta r) ++ extra))
      as [_ E1]; [unfold data, serialize; now rewrite <- !app_assoc|apply S|].
    exact E1.
  - destruct (string_at data (serialize_string (item_id r)) (document r) (serialize_metadata (meta r) ++ extra))
      as [_ E2]; [unfold data, serialize; now rewrite <- !app_assoc|apply S|].
    rewrite E2. unfold head_of. now rewrite nlen_app.
  - assert (L : fsize data = (nlen (head_of r) + 4 + nlen (flat_map serialize_entry (meta r)) + nlen extra)%N).
    { rewrite fsize_nlen. unfold data. rewrite serialize_split, !nlen_app, nlen_le_enc. lia. }
    destruct (N.ltb_spec (fsize data) (nlen (head_of r) + 4)); [lia|reflexivity].
  - apply (memcpy_at' data (head_of r) _ (flat_map serialize_entry (meta r) ++ extra));
      [unfold data; rewrite serialize_split; now rewrite <- !app_assoc|reflexivity|now rewrite nlen_le_enc].
  - rewrite le_dec_enc by apply S. unfold nlen. apply Nat2N.id.
  - now rewrite nlen_app, nlen_le_enc.
Qed.

Lemma single_lemma r f : storable r -> f <> [] ->
  deserialize_single_metadata_value (serialize r) f = Ok (meta_find f (meta r)).
Proof.
  intros S Hf. rewrite <- (app_nil_r (serialize r)).
  destruct (partial_head r [] S) as (A & B & C & D & E & G).
  unfold deserialize_single_metadata_value. destruct f as [|x f]; [congruence|].
  rewrite nonempty_serialize, A. cbn [bind]. rewrite B. cbn [bind]. rewrite C, D. cbn [bind].
  rewrite E, G. apply (single_loop_at _ _ _ _ []); [apply serialize_split|now apply storable_entries].
Qed.

(** The selected loop keeps exactly the requested entries. *)
Definition selected (req : list bytes) (m : metadata) : metadata :=
  filter (fun kv => contains (fst kv) req) m.

Lemma contains_In k req : contains k req = true <-> In k req.
Proof.
  unfold contains. rewrite existsb_exists. split.
  - intros (x & Hx & E). apply bytes_eqb_eq in E. now subst.
  - intros H. exists k. split; [exact H|apply bytes_eqb_refl].
Qed.

Lemma filter_ext_nil {A} (f : A -> bool) l : (forall x, In x l -> f x = false) -> filter f l = [].
Proof.
  induction l as [|x l IH]; cbn; intros H; [reflexivity|].
  rewrite (H x) by now left. apply IH. intros y Hy. apply H. now right.
Qed.

(** If all requested keys have been found, no later entry is requested. *)
Lemma selected_full req acc m :
  NoDup req -> NoDup (map fst (acc ++ m)) -> (forall k, In k (map fst acc) -> In k req) ->
  length acc = length req -> selected req m = [].
Proof.
  intros NR ND Hsub Hlen. apply filter_ext_nil. intros [k v] Hin. cbn [fst].
  destruct (contains k req) eqn:E; [|reflexivity]. apply contains_In in E.
  exfalso. rewrite map_app in ND.
  assert (Hk : In k (map fst m)) by (apply in_map_iff; exists (k, v); auto).
  assert (Hna : ~ In k (map fst acc)).
  { intros Ha. destruct (in_split _ _ Ha) as (a1 & a2 & Es). rewrite Es, <- app_assoc in ND.
    cbn [app] in ND. apply NoDup_remove_2 in ND. apply ND.
    apply in_or_app. right. apply in_or_app. now right. }
  assert (NDa : NoDup (map fst acc)).
  { clear -ND. induction (map fst acc) as [|x l IH]; [constructor|].
    cbn [app] in ND. apply NoDup_cons_iff in ND as [H ND]. constructor; [|auto].
    intros Hi; apply H; apply in_or_app; now left. }
  assert (Hincl : incl (k :: map fst acc) req).
  { intros y [->|Hy]; auto. }
  apply NoDup_incl_length in Hincl; [|constructor; assumption].
  cbn [length] in Hincl. rewrite map_length in Hincl. lia.
Qed.

Lemma selected_loop_at data req : NoDup req -> forall m pre post acc,
  data = pre ++ flat_map serialize_entry m ++ post -> Forall entry_ok m ->
  NoDup (map fst (acc ++ m)) -> (forall k, In k (map fst acc) -> In k req) ->
  selected_loop data req (length m) (nlen pre) acc = Ok (acc ++ selected req m).
Proof.
  intros NR.
  induction m as [|[k v] m IH]; intros pre post acc Hd F ND Hsub; [cbn; now rewrite app_nil_r|].
  apply Forall_cons_iff in F as [[Hk Hv] F]. cbn [fst snd] in Hk, Hv.
  cbn [length selected_loop].
  assert (L : fsize data = (nlen pre + (nlen (serialize_string k) + nlen (serialize_value v))
               + nlen (flat_map serialize_entry m) + nlen post)%N).
  { rewrite fsize_nlen, Hd, flat_map_cons', !nlen_app, nlen_entry. cbn [fst snd]. lia. }
  pose proof (nlen_serialize_string k) as Lk.
  destruct (N.ltb_spec (nlen pre) (fsize data)); [|lia]. cbn [negb].
  destruct (string_at data pre k (serialize_value v ++ flat_map serialize_entry m ++ post)) as [-> _];
    [|exact Hk|].
  { rewrite Hd, flat_map_cons'. unfold serialize_entry. cbn [fst snd]. now rewrite <- !app_assoc. }
  cbn [bind].
  destruct (N.ltb_spec (fsize data) (nlen pre + nlen (serialize_string k))); [lia|].
  replace (match k with [] => false | _ :: _ => false end) with false by (now destruct k).
  rewrite <- nlen_app.
  destruct (value_at data (pre ++ serialize_string k) v (flat_map serialize_entry m ++ post)) as [-> ->];
    [|exact Hv|].
  { rewrite Hd, flat_map_cons'. unfold serialize_entry. cbn [fst snd]. now rewrite <- !app_assoc. }
  cbn [bind]. rewrite nlen_app.
  destruct (N.ltb_spec (fsize data) (nlen pre + nlen (serialize_string k) + nlen (serialize_value v))); [lia|].
  assert (Hnew : ~ In k (map fst acc)).
  { rewrite map_app in ND. cbn [map fst] in ND. apply NoDup_remove_2 in ND.
    intros Hi. apply ND. apply in_or_app. now left. }
  assert (ND2 : NoDup (map fst ((acc ++ [(k, v)]) ++ m))) by (now rewrite <- app_assoc).
  assert (Hd2 : data = (pre ++ serialize_string k ++ serialize_value v) ++ flat_map serialize_entry m ++ post).
  { rewrite Hd, flat_map_cons'. unfold serialize_entry. cbn [fst snd]. now rewrite <- !app_assoc. }
  rewrite <- !nlen_app, <- app_assoc.
  unfold selected. cbn [filter fst]. fold (selected req m).
  destruct (contains k req) eqn:Ec.
  - unfold meta_emplace. rewrite meta_find_None by assumption. cbv zeta.
    assert (Hsub2 : forall k0, In k0 (map fst (acc ++ [(k, v)])) -> In k0 req).
    { intros k0 Hk0. rewrite map_app in Hk0. apply in_app_or in Hk0 as [Hk0|Hk0]; [auto|].
      cbn in Hk0. destruct Hk0 as [<-|[]]. now apply contains_In. }
    destruct (Nat.eqb_spec (length (acc ++ [(k, v)])) (length req)) as [El|_].
    + rewrite (selected_full req (acc ++ [(k, v)]) m) by assumption. reflexivity.
    + rewrite (IH _ post) by assumption. now rewrite <- app_assoc.
  - rewrite (IH _ post); [reflexivity|exact Hd2|exact F| |exact Hsub].
    rewrite map_app in *. cbn [map fst] in ND. now apply NoDup_remove_1 in ND.
Qed.

Lemma selected_lemma r req : storable r -> NoDup req ->
  deserialize_selected_metadata (serialize r) req = Ok (selected req (meta r)).
Proof.
  intros S NR. rewrite <- (app_nil_r (serialize r)).
  destruct (partial_head r [] S) as (A & B & C & D & E & G).
  unfold deserialize_selected_metadata. destruct req as [|x req].
  { f_equal. symmetry. apply filter_ext_nil. reflexivity. }
  rewrite nonempty_serialize, A. cbn [bind]. rewrite B. cbn [bind]. rewrite C, D. cbn [bind].
  rewrite E, G. rewrite (selected_loop_at _ _ NR _ _ []);
    [reflexivity|apply serialize_split|now apply storable_entries|apply S|intros k []].
Qed.

Lemma selected_find req m k : 
  meta_find k (selected req m) = if contains k req then meta_find k m else None.
Proof.
  induction m as [|[k' v] m IH]; cbn; [now destruct (contains k req)|].
  destruct (contains k' req) eqn:E; cbn [meta_find].
  - destruct (bytes_eqb_spec k' k) as [->|_]; [now rewrite E|exact IH].
  - destruct (bytes_eqb_spec k' k) as [->|_]; [rewrite E in *; exact IH|exact IH].
Qed.
Lemma selected_nodup req m : NoDup (map fst m) -> NoDup (map fst (selected req m)).
Proof.
  induction m as [|[k v] m IH]; cbn; intros H; [constructor|].
  apply NoDup_cons_iff in H as [Hn H]. destruct (contains k req); cbn; auto.
  constructor; auto. intros Hi. apply Hn. apply in_map_iff in Hi as ([k1 v1] & E & Hi). cbn in E. subst k1.
  apply filter_In in Hi as [Hi _]. apply in_map_iff. now exists (k, v1).
Qed.

(** A decidable version of [storable], for examples. *)
Definition fits_u32b {A} (l : list A) : bool := N.ltb (N.of_nat (length l)) (2 ^ 32).
Definition value_okb (v : value) : bool :=
  match v with
  | VInt z => Z.leb (- 2 ^ 63) z && Z.ltb z (2 ^ 63)
  | VDouble b => N.ltb b (2 ^ 64)
  | VStr s => fits_u32b s
  | VBool _ => true
  end.
Fixpoint keys_distinctb (m : metadata) : bool :=
  match m with [] => true | (k, _) :: m' => negb (existsb (fun e => bytes_eqb k (fst e)) m') && keys_distinctb m' end.
Definition storableb (r : scalar_data) : bool :=
  fits_u32b (item_id r) && fits_u32b (document r) && fits_u32b (meta r) && keys_distinctb (meta r)
  && forallb (fun e => fits_u32b (fst e) && value_okb (snd e)) (meta r).
Lemma storableb_ok r : storableb r = true -> storable r.
Proof.
  unfold storableb. rewrite !andb_true_iff. intros [[[[A B] C] D] E].
  assert (F : forall X (l : list X), fits_u32b l = true -> fits_u32 l) by (intros X l H; now apply N.ltb_lt in H).
  split; auto.
  - clear -D. induction (meta r) as [|[k v] m IH]; cbn in *; [constructor|]. apply andb_true_iff in D as [D1 D2].
    constructor; [|now apply IH]. intros H. apply negb_true_iff in D1. apply in_map_iff in H as (e & <- & He).
    assert (existsb (fun e' => bytes_eqb (fst e) (fst e')) m = true); [|congruence].
    apply existsb_exists. exists e. split; [exact He|apply bytes_eqb_refl].
  - intros k v H. rewrite forallb_forall in E. apply E in H. cbn [fst snd] in H. apply andb_true_iff in H as [H1 H2].
    split; [now apply F|]. destruct v; cbn [value_okb value_ok] in *; auto.
    + apply andb_true_iff in H2 as [X Y]. apply Z.leb_le in X. apply Z.ltb_lt in Y. unfold int64_range. lia.
    + now apply N.ltb_lt in H2.
Qed.
