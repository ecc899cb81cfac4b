(** C44, C45, C46: the manifests and the segment ids of disk collections. *)
From Coq Require Import String.
From Verif Require Import SegManifestProofs.
Local Open Scope N_scope.

(** ** C44 *)
(** A saved segment manifest loads back as it was. *)
Theorem segment_round_trip m t : good_segment m -> sm_save m = Ok t -> N.of_nat (length t) <= 2 ^ 20 -> sm_load t = Ok m.
Proof. exact (sm_round_trip m t). Qed.
(** Whatever the file holds: a manifest that loads names plain files, a
    well-formed id, a known metric and positive counts, and its extensions
    are x_ keys. *)
Theorem segment_loaded_good content m : sm_load content = Ok m -> good_segment m.
Proof. exact (sm_load_good content m). Qed.
(** Saving a loaded manifest and loading it again changes nothing. *)
Theorem segment_reload content m : sm_load content = Ok m -> exists t, sm_save m = Ok t /\ (N.of_nat (length t) <= 2 ^ 20 -> sm_load t = Ok m).
Proof.
  intros H. apply sm_load_good in H. pose proof (gs_metric _ H) as M. destruct (metric_to_string_ok _ M) as (mt & EM).
  destruct (sm_save m) as [t| | |] eqn:E; [|unfold sm_save in E; rewrite EM in E; discriminate..]. exists t. split; [reflexivity|]. intros L. eapply sm_round_trip; eauto.
Qed.
(** Saving does not check the texts: a line break in one of them adds a field. *)
Definition ex_injected : seg_manifest :=
  {| sm_version := 1; sm_id := str "seg_00000007"; sm_type := Flat; sm_metric := L2; sm_dim := 4; sm_count := 2; sm_ids := str "ids.bin"; sm_vectors := [];
     sm_extras := [(str "x_a", str "1" ++ [10] ++ str "x_b=2")] |}.
Theorem segment_round_trip_refuted : exists m t m', sm_save m = Ok t /\ sm_load t = Ok m' /\ sm_extras m = [(str "x_a", str "1" ++ [10] ++ str "x_b=2")]
  /\ sm_extras m' = [(str "x_a", str "1"); (str "x_b", str "2")].
Proof. exists ex_injected. eexists _, _. split; [vm_compute; reflexivity|]. split; [vm_compute; reflexivity|]. split; reflexivity. Qed.

Definition ex_segment : seg_manifest :=
  {| sm_version := 1; sm_id := str "seg_00000042"; sm_type := Vamana; sm_metric := COS; sm_dim := 768; sm_count := 1000000; sm_ids := str "ids.u64.bin"; sm_vectors := [];
     sm_extras := [(str "x_R", str "64"); (str "x_note", str "a = b # c")] |}.
Example ex_segment_good : good_segment ex_segment /\ exists t, sm_save ex_segment = Ok t /\ N.of_nat (length t) <= 2 ^ 20.
Proof.
  assert (C : exists t, sm_save ex_segment = Ok t /\ sm_load t = Ok ex_segment /\ N.leb (N.of_nat (length t)) (2 ^ 20) = true) by (eexists; split; [vm_compute; reflexivity|]; split; vm_compute; reflexivity).
  destruct C as (t & E & L & B). split; [exact (sm_load_good t _ L)|]. exists t. split; [exact E|now apply N.leb_le].
Qed.
(** A complete manifest with a path, or a repeated or unknown key, is rejected. *)
Definition ex_text (extra : list string) (ids : string) : bytes :=
  concat (map (fun l => str l ++ [10]) (["version=1"; "segment_id=seg_00000042"; "index_type=disk_flat"; "metric=L2"; "dim=4"; "count=2"; "vectors_file=v"]%string ++ extra)) ++ str "ids_file=" ++ str ids.
Example ex_segment_rejected :
  (exists m, sm_load (ex_text [] "ids") = Ok m) /\ sm_load (ex_text [] "../ids") = Throws /\ sm_load (ex_text [] "..") = Throws
  /\ sm_load (ex_text ["dim=5"%string] "ids") = Throws /\ sm_load (ex_text ["y=5"%string] "ids") = Throws.
Proof. split; [eexists; vm_compute; reflexivity|]. repeat split; vm_compute; reflexivity. Qed.

(** ** C45 *)
(** A saved collection manifest loads back as it was, with the segments in
    their order. *)
Theorem collection_round_trip m t : good_collection m -> cm_save m = Ok t -> N.of_nat (length t) <= 2 ^ 20 -> cm_load t = Ok m.
Proof. exact (cm_round_trip m t). Qed.
(** Whatever the file holds: a manifest that loads lists well-formed ids only. *)
Theorem collection_loaded_good content m : cm_load content = Ok m -> good_collection m.
Proof. exact (cm_load_good content m). Qed.
Theorem collection_reload content m : cm_load content = Ok m -> exists t, cm_save m = Ok t /\ (N.of_nat (length t) <= 2 ^ 20 -> cm_load t = Ok m).
Proof.
  intros H. apply cm_load_good in H. pose proof (gc_metric _ H) as M. destruct (metric_to_string_ok _ M) as (mt & EM).
  destruct (cm_save m) as [t| | |] eqn:E; [|unfold cm_save in E; rewrite EM in E; discriminate..]. exists t. split; [reflexivity|]. intros L. eapply cm_round_trip; eauto.
Qed.
(** The comma form of the list gives the same segments as the lines. *)
Definition ex_nl (ls : list string) : bytes := concat (map (fun l => str l ++ [10]) ls).
Example ex_csv : exists m, cm_load (ex_nl ["version=1"; " dim = 3"; "metric=IP"; "# note"; "index_type=disk_flat"; "next_segment_id=9"; "segments=seg_00000002,seg_00000001"]%string) = Ok m
  /\ cm_segments m = [str "seg_00000002"; str "seg_00000001"]
  /\ cm_load (ex_nl ["version=1"; "dim=3"; "metric=IP"; "index_type=disk_flat"; "next_segment_id=9"; "segment=seg_00000002"; "segment=seg_00000001"]%string) = Ok m.
Proof. eexists. split; [vm_compute; reflexivity|]. split; vm_compute; reflexivity. Qed.
(** The ids need not be distinct. *)
Theorem collection_distinct_refuted : exists content m, cm_load content = Ok m /\ ~ NoDup (cm_segments m).
Proof.
  exists (ex_nl ["version=1"; "dim=3"; "metric=IP"; "index_type=disk_flat"; "next_segment_id=9"; "segment=seg_00000002"; "segment=seg_00000002"]%string).
  eexists. split; [vm_compute; reflexivity|]. cbn [cm_segments]. intros H. inversion H as [|? ? NI _]. apply NI. now left.
Qed.

(** ** C46 *)
Lemma dec_acc_length k : forall fuel n, n < 10 ^ N.of_nat k -> (0 < k)%nat -> (length (dec_acc fuel n []) <= k)%nat.
Proof.
  induction k as [|k IH]; intros fuel n H Hk; [lia|]. destruct fuel as [|fuel]; [cbn; lia|]. cbn [dec_acc]. destruct (N.ltb_spec n 10) as [L|G]; [cbn; lia|].
  rewrite dec_acc_app, app_length. cbn [length]. destruct k as [|k].
  - change (10 ^ N.of_nat 1) with 10 in H. lia.
  - specialize (IH fuel (n / 10)). replace (N.of_nat (S (S k))) with (N.succ (N.of_nat (S k))) in H by lia. rewrite N.pow_succ_r' in H.
    assert (n / 10 < 10 ^ N.of_nat (S k)) by (apply N.div_lt_upper_bound; lia). specialize (IH H0). lia.
Qed.
Lemma digits_val_lt l : forall acc n, digits_val acc l = Some n -> n < (acc + 1) * 10 ^ N.of_nat (length l).
Proof.
  induction l as [|c l IH]; intros acc n; cbn [digits_val length]; [intros [= ->]; cbn; lia|]. unfold is_digit, chr_0. destruct (N.leb 48 c && N.leb c 57) eqn:D; [|discriminate].
  intros H. apply IH in H. replace (N.of_nat (S (length l))) with (N.succ (N.of_nat (length l))) by lia. rewrite N.pow_succ_r'. set (P := 10 ^ N.of_nat (length l)) in *. clearbody P.
  assert (10 * acc + (c - 48) + 1 <= (acc + 1) * 10) by lia. nia.
Qed.
Lemma dec_length_big n : 10 ^ 8 <= n -> (9 <= length (dec n))%nat.
Proof.
  intros H. pose proof (digits_val_lt _ _ _ (parse_digits_dec n)) as L. rewrite N.add_0_l, N.mul_1_l in L.
  destruct (Nat.le_gt_cases 9 (length (dec n))) as [|G]; [assumption|]. exfalso.
  assert (10 ^ N.of_nat (length (dec n)) <= 10 ^ 8) by (apply N.pow_le_mono_r; lia). lia.
Qed.
Lemma digits_val_zeros k l : digits_val 0 (repeat 48 k ++ l) = digits_val 0 l.
Proof. induction k as [|k IH]; [reflexivity|]. cbn [repeat app digits_val]. exact IH. Qed.
Lemma format_short n : n < 10 ^ 8 -> format_segment_id n = str "seg_" ++ repeat 48 (8 - length (dec n)) ++ dec n /\ length (repeat 48 (8 - length (dec n)) ++ dec n) = 8%nat.
Proof.
  intros H. assert (L : (length (dec n) <= 8)%nat) by (apply dec_acc_length; [exact H|lia]).
  assert (E : length (repeat 48 (8 - length (dec n)) ++ dec n) = 8%nat) by (rewrite app_length, repeat_length; lia). split; [|exact E].
  unfold format_segment_id. apply firstn_all2. rewrite app_length, E. cbn. lia.
Qed.
(** Below 10^8 the id is well formed and gives the number back, so different
    numbers have different ids. *)
Theorem segment_id_partial n : n < 10 ^ 8 -> segment_name (format_segment_id n) /\ segment_number (format_segment_id n) = Some n.
Proof.
  intros H. destruct (format_short n H) as [E L]. rewrite E. split.
  - exists (repeat 48 (8 - length (dec n)) ++ dec n). split; [reflexivity|]. split; [exact L|]. apply Forall_app. split.
    + apply Forall_forall. intros c Hc. apply repeat_spec in Hc. subst. unfold digit. lia.
    + eapply Forall_impl; [|apply dec_digits]. intros c Hc. unfold is_digit in Hc. unfold digit. lia.
  - unfold segment_number. change (skipn 4 (str "seg_" ++ repeat 48 (8 - length (dec n)) ++ dec n)) with (repeat 48 (8 - length (dec n)) ++ dec n). rewrite digits_val_zeros. apply parse_digits_dec.
Qed.
Theorem segment_id_distinct_partial a b : a < 10 ^ 8 -> b < 10 ^ 8 -> format_segment_id a = format_segment_id b -> a = b.
Proof. intros A B E. destruct (segment_id_partial a A) as [_ Ha]. destruct (segment_id_partial b B) as [_ Hb]. congruence. Qed.
(** From 10^8 on no id is well formed ... *)
Theorem segment_id_refuted n : 10 ^ 8 <= n -> ~ segment_name (format_segment_id n).
Proof.
  intros H (ds & E & L & _). pose proof (dec_length_big n H) as D. apply (f_equal (@length N)) in E. unfold format_segment_id in E. rewrite firstn_length, !app_length, repeat_length in E.
  change (length (str "seg_")) with 4%nat in E. lia.
Qed.
(** ... and from 10^11 on different numbers share one. *)
Theorem segment_id_distinct_refuted : exists a b, a < b < 2 ^ 64 /\ format_segment_id a = format_segment_id b.
Proof. exists (10 ^ 10), (10 ^ 11). split; [split; reflexivity|vm_compute; reflexivity]. Qed.
Example ex_format : format_segment_id 1 = str "seg_00000001" /\ format_segment_id 99999999 = str "seg_99999999" /\ format_segment_id 100000000 = str "seg_100000000".
Proof. repeat split. Qed.
(** A collection that lists such a segment is saved but not loadable. *)
Theorem collection_long_id_refuted : exists m t, cm_segments m = [format_segment_id (10 ^ 8)] /\ cm_save m = Ok t /\ cm_load t = Throws.
Proof.
  exists {| cm_version := 1; cm_dim := 3; cm_metric := L2; cm_type := Flat; cm_next := 10 ^ 8 + 1; cm_segments := [format_segment_id (10 ^ 8)]; cm_extras := [] |}.
  eexists. split; [reflexivity|]. split; [reflexivity|]. vm_compute. reflexivity.
Qed.
(** So is every collection with 49933 segments or more: the text is longer
    than what is read. *)
Lemma segments_length ids : Forall segment_name ids -> N.of_nat (length (concat (map (line (str "segment")) ids))) = 21 * N.of_nat (length ids).
Proof.
  induction 1 as [|s ids (ds & -> & L & _) _ IH]; [reflexivity|]. cbn [map concat]. rewrite app_length. unfold line at 1. rewrite !app_length, L.
  change (length (str "segment")) with 7%nat. change (length (str "seg_")) with 4%nat. cbn [length]. lia.
Qed.
Theorem collection_size_refuted m : good_collection m -> 49933 <= N.of_nat (length (cm_segments m)) -> exists t, cm_save m = Ok t /\ cm_load t = Throws.
Proof.
  intros G H. destruct (metric_to_string_ok _ (gc_metric _ G)) as (mt & EM). unfold cm_save. rewrite EM. cbn [bind]. eexists. split; [reflexivity|].
  unfold cm_load, read_manifest_file, k_max_manifest_bytes.
  match goal with |- context [N.ltb _ (N.of_nat ?L)] => assert (X : 21 * N.of_nat (length (cm_segments m)) <= N.of_nat L) end.
  { rewrite <- (segments_length _ (gc_segments _ G)). rewrite !app_length. lia. }
  match goal with |- context [N.ltb ?a ?b] => destruct (N.ltb_spec a b) as [_|Y]; [reflexivity|lia] end.
Qed.
Example ex_many : exists m, good_collection m /\ 49933 <= N.of_nat (length (cm_segments m)) /\ NoDup (cm_segments m).
Proof.
  exists {| cm_version := 1; cm_dim := 3; cm_metric := L2; cm_type := Flat; cm_next := 50001; cm_segments := map (fun i => format_segment_id (N.of_nat i)) (seq 1 (N.to_nat 50000)); cm_extras := [] |}.
  cbn [cm_segments]. split; [|split].
  - constructor; cbn [cm_version cm_dim cm_metric cm_type cm_next cm_segments cm_extras]; [reflexivity|split; reflexivity|discriminate|reflexivity| |split; constructor].
    apply Forall_forall. intros s Hs. apply in_map_iff in Hs as (i & <- & Hi). apply in_seq in Hi. apply segment_id_partial. change (10 ^ 8) with 100000000. lia.
  - rewrite map_length, seq_length, N2Nat.id. discriminate.
  - assert (G : forall l, NoDup l -> (forall i, In i l -> N.of_nat i < 10 ^ 8) -> NoDup (map (fun i => format_segment_id (N.of_nat i)) l)).
    { induction l as [|x l IH]; intros ND B; cbn [map]; [constructor|]. inversion ND as [|? ? NI ND']; subst. constructor; [|apply IH; auto; intros i Hi; apply B; now right].
      intros X. apply in_map_iff in X as (y & E & Hy). apply segment_id_distinct_partial in E; [|apply B; now right|apply B; now left]. apply Nat2N.inj in E. subst. contradiction. }
    apply G; [apply seq_NoDup|]. intros i Hi. apply in_seq in Hi. change (10 ^ 8) with 100000000. lia.
Qed.

Print Assumptions segment_round_trip.
Print Assumptions segment_loaded_good.
Print Assumptions segment_reload.
Print Assumptions segment_round_trip_refuted.
Print Assumptions collection_round_trip.
Print Assumptions collection_loaded_good.
Print Assumptions collection_reload.
Print Assumptions collection_distinct_refuted.
Print Assumptions segment_id_partial.
Print Assumptions segment_id_distinct_partial.
Print Assumptions segment_id_refuted.
Print Assumptions segment_id_distinct_refuted.
Print Assumptions collection_long_id_refuted.
Print Assumptions collection_size_refuted.
