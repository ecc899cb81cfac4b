From Verif Require Import BinaryIoModel BinaryIoSpec ScalarDataSpec ScalarDataProofs.

Definition enc_item (i : item) : bytes :=
  match i with
  | U8 v => le_enc 1 v | U32 v => le_enc 4 v | U64 v => le_enc 8 v
  | Str s => le_enc 8 (N.of_nat (length s)) ++ s | Fixed s => s
  end.

Lemma write_bytes_app b x : write_bytes b x = b ++ x.
Proof. destruct x; cbn; [now rewrite app_nil_r|reflexivity]. Qed.
Lemma write_string_app b x : write_string b x = b ++ le_enc 8 (N.of_nat (length x)) ++ x.
Proof. unfold write_string, write_u64. rewrite write_bytes_app. now rewrite <- app_assoc. Qed.
Lemma write_item_enc b i : write_item b i = b ++ enc_item i.
Proof. destruct i; cbn; try reflexivity; [apply write_string_app|apply write_bytes_app]. Qed.
Lemma write_items_from l : forall b, fold_left write_item l b = b ++ flat_map enc_item l.
Proof.
  induction l as [|i l IH]; intros b; cbn [fold_left flat_map]; [now rewrite app_nil_r|].
  rewrite IH, write_item_enc. now rewrite <- app_assoc.
Qed.
Lemma write_items_flat l : write_items l = flat_map enc_item l.
Proof. apply (write_items_from l []). Qed.

Definition reader_ok (r : reader) : Prop :=
  (rd_offset r <= nlen (rd_data r))%N /\ (nlen (rd_data r) < 2 ^ 64)%N.

Lemma remaining_ok r : reader_ok r -> remaining r = (nlen (rd_data r) - rd_offset r)%N.
Proof.
  intros [H1 H2]. unfold remaining. fold (nlen (rd_data r)).
  set (n := nlen (rd_data r)) in *. set (o := rd_offset r) in *.
  replace (2 ^ 64 + n - o)%N with ((n - o) + 1 * 2 ^ 64)%N by lia.
  rewrite N.mod_add by lia. apply N.mod_small. lia.
Qed.

Lemma copy_out_ok r n : reader_ok r -> (n <= remaining r)%N ->
  exists x, copy_out r n = Ok (x, {| rd_data := rd_data r; rd_offset := (rd_offset r + n)%N |})
    /\ reader_ok {| rd_data := rd_data r; rd_offset := (rd_offset r + n)%N |}
    /\ x = firstn (N.to_nat n) (skipn (N.to_nat (rd_offset r)) (rd_data r)).
Proof.
  intros H Hn. rewrite remaining_ok in Hn by assumption. destruct H as [H1 H2].
  unfold copy_out. rewrite memcpy_ok by (rewrite fsize_nlen; lia). cbn [bind].
  eexists. split; [reflexivity|]. split; [|reflexivity]. split; cbn [rd_data rd_offset]; lia.
Qed.

(** Safe step: same data, offset does not go back, still inside. *)
Definition step_to (r r' : reader) : Prop :=
  rd_data r' = rd_data r /\ (rd_offset r <= rd_offset r')%N /\ reader_ok r'.

Lemma read_pod_safe n r : reader_ok r ->
  exists v r', read_pod n r = Ok (v, r') /\ step_to r r'.
Proof.
  intros H. unfold read_pod. destruct (N.ltb_spec (remaining r) n).
  - exists None, r. split; [reflexivity|]. repeat split; try lia; apply H.
  - destruct (copy_out_ok r n H) as (x & -> & Hr & _); [lia|]. cbn [bind].
    eexists _, _. split; [reflexivity|]. repeat split; cbn; try lia; apply Hr.
Qed.
Lemma read_fixed_safe n r : reader_ok r ->
  exists v r', read_fixed_blob n r = Ok (v, r') /\ step_to r r'.
Proof.
  intros H. unfold read_fixed_blob. destruct (N.ltb_spec (remaining r) n).
  - exists None, r. split; [reflexivity|]. repeat split; try lia; apply H.
  - destruct (copy_out_ok r n H) as (x & -> & Hr & _); [lia|]. cbn [bind].
    eexists _, _. split; [reflexivity|]. repeat split; cbn; try lia; apply Hr.
Qed.
Lemma read_string_safe r : reader_ok r ->
  exists v r', read_string r = Ok (v, r') /\ step_to r r'.
Proof.
  intros H. unfold read_string, read_u64.
  destruct (read_pod_safe 8 r H) as (sz & r1 & -> & S1 & S2 & S3). cbn [bind].
  destruct sz as [n|]; [|eexists _, _; split; [reflexivity|repeat split; auto; apply S3]].
  destruct (N.ltb_spec (remaining r1) n).
  - eexists _, _. split; [reflexivity|]. repeat split; auto; apply S3.
  - destruct (copy_out_ok r1 n S3) as (x & -> & Hr & _); [lia|]. cbn [bind].
    eexists _, _. split; [reflexivity|]. repeat split; cbn; try lia; auto; apply Hr.
Qed.

Lemma read_item_safe k r : reader_ok r ->
  exists v r', read_item k r = Ok (v, r') /\ step_to r r'.
Proof.
  intros H. destruct k; cbn [read_item]; unfold read_u8, read_u32, read_u64;
    match goal with
    | |- context [read_pod ?n r] => destruct (read_pod_safe n r H) as (v & r' & -> & S)
    | |- context [read_string r] => destruct (read_string_safe r H) as (v & r' & -> & S)
    | |- context [read_fixed_blob ?n r] => destruct (read_fixed_safe n r H) as (v & r' & -> & S)
    end; cbn [bind]; eauto.
Qed.

Lemma read_items_safe ks : forall r, reader_ok r ->
  exists l ok r', read_items ks r = Ok (l, ok, r') /\ step_to r r'.
Proof.
  induction ks as [|k ks IH]; intros r H; cbn [read_items].
  - eexists _, _, _. split; [reflexivity|]. repeat split; try lia; apply H.
  - destruct (read_item_safe k r H) as (v & r1 & -> & S1 & S2 & S3). cbn [bind].
    destruct v as [x|].
    + destruct (IH r1 S3) as (l & ok & r2 & -> & T1 & T2 & T3). cbn [bind].
      eexists _, _, _. split; [reflexivity|]. split; [congruence|]. split; [lia|exact T3].
    + eexists _, _, _. split; [reflexivity|]. repeat split; auto; apply S3.
Qed.

(** Reading what was written. *)
Lemma copy_out_at pre x post n :
  n = nlen x ->
  copy_out {| rd_data := pre ++ x ++ post; rd_offset := nlen pre |} n =
  Ok (x, {| rd_data := pre ++ x ++ post; rd_offset := nlen (pre ++ x) |}).
Proof.
  intros ->. unfold copy_out. cbn [rd_data rd_offset]. rewrite memcpy_at. cbn [bind].
  now rewrite nlen_app.
Qed.

Lemma ltb_room pre x post n : total_size (pre ++ x ++ post) -> n = nlen x ->
  N.ltb (remaining {| rd_data := pre ++ x ++ post; rd_offset := nlen pre |}) n = false.
Proof.
  intros T ->. unfold total_size in T. fold (nlen (pre ++ x ++ post)) in T.
  rewrite remaining_ok.
  - cbn [rd_data rd_offset]. rewrite !nlen_app. apply N.ltb_ge. lia.
  - split; cbn [rd_data rd_offset]; [rewrite !nlen_app; lia|exact T].
Qed.

Lemma read_pod_at k v pre post :
  total_size (pre ++ le_enc k v ++ post) -> (v < 2 ^ (8 * N.of_nat k))%N ->
  read_pod (N.of_nat k) {| rd_data := pre ++ le_enc k v ++ post; rd_offset := nlen pre |} =
  Ok (Some v, {| rd_data := pre ++ le_enc k v ++ post; rd_offset := nlen (pre ++ le_enc k v) |}).
Proof.
  intros T Hv. unfold read_pod. rewrite ltb_room by (auto; now rewrite nlen_le_enc).
  rewrite copy_out_at by (now rewrite nlen_le_enc). cbn [bind]. now rewrite le_dec_enc.
Qed.

Lemma read_string_at s pre post :
  total_size (pre ++ (le_enc 8 (nlen s) ++ s) ++ post) ->
  read_string {| rd_data := pre ++ (le_enc 8 (nlen s) ++ s) ++ post; rd_offset := nlen pre |} =
  Ok (Some s, {| rd_data := pre ++ (le_enc 8 (nlen s) ++ s) ++ post;
                 rd_offset := nlen (pre ++ le_enc 8 (nlen s) ++ s) |}).
Proof.
  intros T.
  assert (Hn : (nlen s < 2 ^ 64)%N).
  { unfold total_size in T. fold (nlen (pre ++ (le_enc 8 (nlen s) ++ s) ++ post)) in T.
    rewrite !nlen_app in T. lia. }
  unfold read_string, read_u64.
  rewrite <- app_assoc in *.
  pose proof (read_pod_at 8 (nlen s) pre (s ++ post) T Hn) as E. change (N.of_nat 8) with 8%N in E.
  rewrite E. cbn [bind].
  rewrite (app_assoc pre) in *.
  rewrite ltb_room by auto. rewrite copy_out_at by reflexivity. cbn [bind].
  now rewrite <- !app_assoc.
Qed.

Lemma read_item_at i pre post :
  total_size (pre ++ enc_item i ++ post) -> item_ok i ->
  read_item (kind_of i) {| rd_data := pre ++ enc_item i ++ post; rd_offset := nlen pre |} =
  Ok (Some i, {| rd_data := pre ++ enc_item i ++ post; rd_offset := nlen (pre ++ enc_item i) |}).
Proof.
  intros T Hi. destruct i as [v|v|v|s|s]; cbn [kind_of read_item enc_item item_ok] in *.
  - unfold read_u8. rewrite (read_pod_at 1 v) by auto. reflexivity.
  - unfold read_u32. rewrite (read_pod_at 4 v) by auto. reflexivity.
  - unfold read_u64. rewrite (read_pod_at 8 v) by auto. reflexivity.
  - rewrite (read_string_at s) by auto. reflexivity.
  - unfold read_fixed_blob. rewrite ltb_room by auto. rewrite copy_out_at by reflexivity. reflexivity.
Qed.

Lemma read_items_at l : forall pre post,
  total_size (pre ++ flat_map enc_item l ++ post) -> Forall item_ok l ->
  read_items (map kind_of l) {| rd_data := pre ++ flat_map enc_item l ++ post; rd_offset := nlen pre |} =
  Ok (l, true, {| rd_data := pre ++ flat_map enc_item l ++ post;
                  rd_offset := nlen (pre ++ flat_map enc_item l) |}).
Proof.
  induction l as [|i l IH]; intros pre post T F.
  - cbn. now rewrite app_nil_r.
  - apply Forall_cons_iff in F as [Hi F]. cbn [map read_items flat_map] in *.
    rewrite <- app_assoc in *.
    rewrite read_item_at by auto. cbn [bind].
    rewrite (app_assoc pre) in *. rewrite IH by auto. cbn [bind].
    now rewrite <- !app_assoc.
Qed.

Lemma items_round_trip l extra :
  Forall item_ok l -> total_size (write_items l ++ extra) ->
  read_items (map kind_of l) (new_reader (write_items l ++ extra)) =
  Ok (l, true, {| rd_data := write_items l ++ extra; rd_offset := N.of_nat (length (write_items l)) |}).
Proof.
  intros F T. rewrite write_items_flat in *. exact (read_items_at l [] extra T F).
Qed.

(** Truncated input: some item is reported missing. *)
Lemma read_items_consumes ks : forall r l r', reader_ok r ->
  read_items ks r = Ok (l, true, r') ->
  length l = length ks /\ map kind_of l = ks
  /\ (nlen (flat_map enc_item l) = rd_offset r' - rd_offset r)%N /\ (rd_offset r <= rd_offset r')%N.
Proof.
  assert (POD : forall n r v r', reader_ok r -> read_pod n r = Ok (Some v, r') ->
            rd_offset r' = (rd_offset r + n)%N /\ reader_ok r').
  { intros n r v r' H E. unfold read_pod in E. destruct (N.ltb_spec (remaining r) n); [discriminate|].
    destruct (copy_out_ok r n H) as (x & Ex & Hr & _); [lia|]. rewrite Ex in E. cbn [bind] in E.
    inversion E; subst. cbn. auto. }
  induction ks as [|k ks IH]; intros r l r' H E; cbn [read_items] in E.
  - inversion E; subst. cbn. repeat split; unfold nlen; cbn; lia.
  - destruct (read_item k r) as [[v r1]| | |] eqn:Ei; cbn [bind] in E; try discriminate.
    destruct v as [x|]; [|discriminate].
    destruct (read_items ks r1) as [[[l2 ok] r2]| | |] eqn:E2; cbn [bind] in E; try discriminate.
    inversion E; subst; clear E.
    assert (K : kind_of x = k /\ nlen (enc_item x) = (rd_offset r1 - rd_offset r)%N
                /\ (rd_offset r <= rd_offset r1)%N /\ reader_ok r1).
    { destruct k as [| | | |n]; cbn [read_item] in Ei.
      - unfold read_u8 in Ei. destruct (read_pod 1 r) as [[v r3]| | |] eqn:Ep; cbn [bind] in Ei; try discriminate.
        destruct v as [v|]; inversion Ei; subst. destruct (POD _ _ _ _ H Ep) as [O R].
        cbn [kind_of enc_item]. rewrite nlen_le_enc. repeat split; try lia; apply R.
      - unfold read_u32 in Ei. destruct (read_pod 4 r) as [[v r3]| | |] eqn:Ep; cbn [bind] in Ei; try discriminate.
        destruct v as [v|]; inversion Ei; subst. destruct (POD _ _ _ _ H Ep) as [O R].
        cbn [kind_of enc_item]. rewrite nlen_le_enc. repeat split; try lia; apply R.
      - unfold read_u64 in Ei. destruct (read_pod 8 r) as [[v r3]| | |] eqn:Ep; cbn [bind] in Ei; try discriminate.
        destruct v as [v|]; inversion Ei; subst. destruct (POD _ _ _ _ H Ep) as [O R].
        cbn [kind_of enc_item]. rewrite nlen_le_enc. repeat split; try lia; apply R.
      - unfold read_string, read_u64 in Ei.
        destruct (read_pod 8 r) as [[v r3]| | |] eqn:Ep; cbn [bind] in Ei; try discriminate.
        destruct v as [n|]; [|discriminate]. destruct (POD _ _ _ _ H Ep) as [O R].
        destruct (N.ltb_spec (remaining r3) n); [discriminate|].
        destruct (copy_out_ok r3 n R) as (y & Ey & Hr & Eq); [lia|]. rewrite Ey in Ei. cbn [bind option_map] in Ei.
        inversion Ei; subst. cbn [kind_of enc_item rd_offset]. rewrite nlen_app, nlen_le_enc.
        assert (L : nlen (firstn (N.to_nat n) (skipn (N.to_nat (rd_offset r3)) (rd_data r3))) = n).
        { unfold nlen. rewrite firstn_length, skipn_length.
          rewrite remaining_ok in H0 by assumption. destruct R as [R1 R2]. unfold nlen in *. lia. }
        rewrite L. repeat split; try lia; apply Hr.
      - unfold read_fixed_blob in Ei. destruct (N.ltb_spec (remaining r) (N.of_nat n)); [discriminate|].
        destruct (copy_out_ok r (N.of_nat n) H) as (y & Ey & Hr & Eq); [lia|]. rewrite Ey in Ei.
        cbn [bind option_map] in Ei. inversion Ei; subst. cbn [kind_of enc_item rd_offset].
        assert (L : length (firstn (N.to_nat (N.of_nat n)) (skipn (N.to_nat (rd_offset r)) (rd_data r))) = n).
        { rewrite firstn_length, skipn_length.
          rewrite remaining_ok in H0 by assumption. destruct H as [R1 R2]. unfold nlen in *. lia. }
        rewrite L. split; [reflexivity|]. unfold nlen at 1. rewrite L. repeat split; try lia; apply Hr. }
    destruct K as (K1 & K2 & K3 & K4). destruct (IH _ _ _ K4 E2) as (A & B & C & D).
    cbn [length map flat_map]. rewrite nlen_app. repeat split; [lia|congruence|lia|lia].
Qed.

(** Deterministic prefix: on a prefix of the written bytes the items read are a
    prefix of the items written. *)
Lemma read_items_prefix l : forall pre data,
  Forall item_ok l -> (nlen (pre ++ flat_map enc_item l) < 2 ^ 64)%N ->
  (nlen pre <= nlen data)%N ->
  data = firstn (length data) (pre ++ flat_map enc_item l) ->
  exists l1 l2 r', l = l1 ++ l2
    /\ read_items (map kind_of l) {| rd_data := data; rd_offset := nlen pre |} =
       Ok (l1, match l2 with [] => true | _ => false end, r').
Proof.
  induction l as [|i l IH]; intros pre data F B Hp Hd.
  - exists [], []. eexists. split; reflexivity.
  - apply Forall_cons_iff in F as [Hi F]. cbn [map read_items flat_map] in *.
    destruct (N.le_gt_cases (nlen (pre ++ enc_item i)) (nlen data)) as [Hle|Hgt].
    + (* the item is complete *)
      assert (Ed : data = pre ++ enc_item i ++ skipn (length (pre ++ enc_item i)) data).
      { rewrite app_assoc. rewrite <- (firstn_skipn (length (pre ++ enc_item i)) data) at 1. f_equal.
        rewrite Hd at 1. rewrite firstn_firstn, app_assoc.
        rewrite firstn_app, firstn_all2 by (unfold nlen in Hle; lia).
        replace (Nat.min (length (pre ++ enc_item i)) (length data) - length (pre ++ enc_item i)) with 0 by lia.
        cbn. apply app_nil_r. }
      set (post := skipn (length (pre ++ enc_item i)) data) in *. clearbody post.
      assert (T : total_size (pre ++ enc_item i ++ post)).
      { unfold total_size. rewrite <- Ed. fold (nlen data). rewrite Hd. unfold nlen in *.
        rewrite firstn_length. lia. }
      pose proof (read_item_at i pre post T Hi) as RI. rewrite <- Ed in RI. rewrite RI. cbn [bind].
      destruct (IH (pre ++ enc_item i) data F) as (l1 & l2 & r' & E1 & E2).
      * now rewrite <- app_assoc.
      * exact Hle.
      * now rewrite <- app_assoc.
      * rewrite E2. cbn [bind]. exists (i :: l1), l2, r'. split; [now rewrite E1|reflexivity].
    + (* truncated inside the item *)
      exists [], (i :: l). cbn [app].
      assert (RO : reader_ok {| rd_data := data; rd_offset := nlen pre |}).
      { split; cbn; [exact Hp|]. rewrite Hd. unfold nlen in *. rewrite firstn_length. lia. }
      assert (Rem : remaining {| rd_data := data; rd_offset := nlen pre |} = (nlen data - nlen pre)%N)
        by (now rewrite remaining_ok).
      rewrite nlen_app in Hgt.
      destruct i as [v|v|v|s|s]; cbn [kind_of read_item enc_item item_ok] in *.
      * rewrite nlen_le_enc in Hgt. unfold read_u8, read_pod. rewrite Rem.
        destruct (N.ltb_spec (nlen data - nlen pre) 1); [|lia]. cbn [bind]. eexists. split; reflexivity.
      * rewrite nlen_le_enc in Hgt. unfold read_u32, read_pod. rewrite Rem.
        destruct (N.ltb_spec (nlen data - nlen pre) 4); [|lia]. cbn [bind]. eexists. split; reflexivity.
      * rewrite nlen_le_enc in Hgt. unfold read_u64, read_pod. rewrite Rem.
        destruct (N.ltb_spec (nlen data - nlen pre) 8); [|lia]. cbn [bind]. eexists. split; reflexivity.
      * unfold read_string. destruct (N.le_gt_cases 8 (nlen data - nlen pre)) as [H8|H8].
        -- assert (Ed : data = pre ++ le_enc 8 (nlen s) ++ skipn (length (pre ++ le_enc 8 (nlen s))) data).
           { rewrite app_assoc. rewrite <- (firstn_skipn (length (pre ++ le_enc 8 (nlen s))) data) at 1. f_equal.
             rewrite Hd at 1. rewrite firstn_firstn, !app_assoc. fold (nlen s). rewrite <- !app_assoc, app_assoc.
             rewrite firstn_app, firstn_all2 by (rewrite app_length, le_enc_length; unfold nlen in H8; lia).
             replace (Nat.min (length (pre ++ le_enc 8 (nlen s))) (length data) - length (pre ++ le_enc 8 (nlen s))) with 0 by lia.
             cbn. apply app_nil_r. }
           set (post := skipn (length (pre ++ le_enc 8 (nlen s))) data) in *. clearbody post.
           assert (Hs : (nlen s < 2 ^ (8 * N.of_nat 8))%N).
           { rewrite !nlen_app in B. change (8 * N.of_nat 8)%N with 64%N. lia. }
           assert (T : total_size (pre ++ le_enc 8 (nlen s) ++ post)).
           { unfold total_size. rewrite <- Ed. apply RO. }
           pose proof (read_pod_at 8 (nlen s) pre post T Hs) as E. change (N.of_nat 8) with 8%N in E.
           rewrite <- Ed in E. unfold read_u64. rewrite E. cbn [bind].
           rewrite remaining_ok.
           2:{ split; cbn [rd_data rd_offset]; [|apply RO]. rewrite nlen_app, nlen_le_enc. lia. }
           cbn [rd_data rd_offset]. fold (nlen s) in Hgt. rewrite !nlen_app, nlen_le_enc in *.
           destruct (N.ltb_spec (nlen data - (nlen pre + N.of_nat 8)) (nlen s)); [|lia].
           cbn [bind]. eexists. split; reflexivity.
        -- unfold read_u64, read_pod. rewrite Rem.
           destruct (N.ltb_spec (nlen data - nlen pre) 8); [|lia]. cbn [bind]. eexists. split; reflexivity.
      * unfold read_fixed_blob. rewrite Rem. fold (nlen s).
        destruct (N.ltb_spec (nlen data - nlen pre) (nlen s)); [|lia]. cbn [bind]. eexists. split; reflexivity.
Qed.

Lemma items_truncated_lemma l n :
  Forall item_ok l -> total_size (write_items l) -> n < length (write_items l) ->
  exists l1 l2 r', l = l1 ++ l2 /\ l2 <> []
    /\ read_items (map kind_of l) (new_reader (firstn n (write_items l))) = Ok (l1, false, r').
Proof.
  intros F T Hn.
  assert (L : length (firstn n (write_items l)) = n) by (rewrite firstn_length; lia).
  destruct (read_items_prefix l [] (firstn n (write_items l))) as (l1 & l2 & r' & E & R); auto.
  - rewrite <- write_items_flat. exact T.
  - unfold nlen. cbn. lia.
  - rewrite L. now rewrite write_items_flat.
  - exists l1, l2, r'. split; [exact E|]. destruct l2 as [|x l2].
    + exfalso. change (nlen []) with 0%N in R.
      assert (RO : reader_ok (new_reader (firstn n (write_items l)))).
      { split; cbn [new_reader rd_data rd_offset]; [lia|]. unfold nlen. rewrite L. unfold total_size in T. lia. }
      destruct (read_items_consumes _ _ _ _ RO R) as (_ & _ & C & _).
      destruct (read_items_safe (map kind_of l) _ RO) as (a & b & r2 & R2 & S1 & S2 & S3).
      unfold new_reader in R2. rewrite R in R2. inversion R2; subst.
      rewrite app_nil_r in *. rewrite <- write_items_flat in C. cbn [new_reader rd_offset] in *.
      destruct S3 as [S3 _]. rewrite S1 in S3. cbn [new_reader rd_data] in S3.
      unfold nlen in *. rewrite L in S3. lia.
    + split; [discriminate|]. exact R.
Qed.

(** ** Log payloads *)
Lemma insert_payload_lemma vec ef sd :
  (ef < 2 ^ 32)%N -> storable sd ->
  (N.of_nat (length vec) + N.of_nat (serialized_size sd) < 2 ^ 63)%N ->
  decode_insert_like (N.of_nat (length vec)) (encode_insert_like_payload vec ef sd)
  = Ok (ReplayInsertLike vec ef sd).
Proof.
  intros He Hs Hl.
  assert (E : encode_insert_like_payload vec ef sd = write_items [U32 ef; Str vec; Str (serialize sd)]) by reflexivity.
  pose proof (items_round_trip [U32 ef; Str vec; Str (serialize sd)] []) as R.
  rewrite app_nil_r in R. specialize (R ltac:(repeat constructor; exact He)).
  assert (T : total_size (write_items [U32 ef; Str vec; Str (serialize sd)])).
  { unfold total_size. rewrite write_items_flat. cbn [flat_map enc_item].
    rewrite !app_length, !le_enc_length. cbn [length]. rewrite serialized_size_lemma. lia. }
  specialize (R T). rewrite E. unfold decode_insert_like. cbn [map kind_of read_items read_item] in R.
  destruct (read_u32 _) as [[v1 r1]| | |]; cbn [bind] in R |- *; try discriminate.
  destruct v1 as [v1|]; cbn [option_map] in R; [|discriminate].
  destruct (read_string r1) as [[v2 r2]| | |]; cbn [bind] in R |- *; try discriminate.
  destruct v2 as [v2|]; cbn [option_map] in R; [|discriminate].
  destruct (read_string r2) as [[v3 r3]| | |]; cbn [bind] in R |- *; try discriminate.
  destruct v3 as [v3|]; cbn [option_map] in R; [|discriminate].
  inversion R; subst. rewrite N.eqb_refl. cbn [negb].
  unfold deserialize. rewrite <- (app_nil_r (serialize sd)).
  rewrite round_trip_offset_lemma by assumption. reflexivity.
Qed.

Lemma remove_item_payload_lemma id : (N.of_nat (length id) < 2 ^ 63)%N ->
  decode_remove_item (encode_remove_item_payload id) = Ok (ReplayRemoveItem id).
Proof.
  intros H. unfold decode_remove_item, encode_remove_item_payload, new_reader.
  rewrite write_string_app. cbn [app].
  pose proof (read_string_at id [] []) as R. cbn [app] in R. change (nlen []) with 0%N in R.
  rewrite app_nil_r in R. unfold nlen at 1 2 3 in R.
  rewrite R; [reflexivity|]. unfold total_size, nlen. rewrite app_length, le_enc_length. lia.
Qed.
Lemma remove_internal_payload_lemma id : (id < 2 ^ 64)%N ->
  decode_remove_internal (encode_remove_internal_payload id) = Ok (ReplayRemoveInternal id).
Proof.
  intros H. unfold decode_remove_internal, encode_remove_internal_payload, new_reader, write_u64. cbn [app].
  pose proof (read_pod_at 8 id [] []) as R. cbn [app] in R. change (nlen []) with 0%N in R.
  rewrite app_nil_r in R. unfold read_u64. change 8%N with (N.of_nat 8).
  rewrite R; [reflexivity| |exact H]. unfold total_size. rewrite le_enc_length. reflexivity.
Qed.
