From Verif Require Import SnapshotManifestModel SnapshotManifestSpec.
From Coq Require Import String.

Lemma strip_cr_id s : no_final_cr s -> strip_cr s = s.
Proof.
  intros H. unfold strip_cr. destruct (rev s) as [|c r] eqn:E; [reflexivity|].
  destruct (N.eqb_spec c chr_cr) as [->|_]; [|reflexivity].
  exfalso. apply (H (rev r)). rewrite <- (rev_involutive s), E. reflexivity.
Qed.

Lemma no_final_cr_app a s : no_final_cr s -> s <> [] -> no_final_cr (a ++ s).
Proof.
  intros H Hn s' E. destruct (exists_last Hn) as (s0 & x & ->).
  rewrite app_assoc in E. apply app_inj_tail in E as [_ ->]. exact (H s0 eq_refl).
Qed.

Lemma no_final_cr_last k c s : c <> 13%N -> no_final_cr s -> no_final_cr ((k ++ [c]) ++ s).
Proof.
  intros Hc Hs. destruct s as [|x s].
  - intros s' E. rewrite app_nil_r in E. apply app_inj_tail in E as [_ ->]. now apply Hc.
  - apply no_final_cr_app; [assumption|discriminate].
Qed.

(** One line [key=value]. *)
Lemma parse_kv_line m key value :
  ~ In 61%N key -> no_final_cr value ->
  parse_line (Some m) ((key ++ [61%N]) ++ value) = set_field m key value.
Proof.
  intros Hk Hv. unfold parse_line.
  rewrite strip_cr_id by (apply no_final_cr_last; [discriminate|assumption]).
  rewrite <- app_assoc. cbn [app]. now rewrite split_at_app.
Qed.

Lemma strip_cr_snoc l x : strip_cr (l ++ [x]) = if N.eqb x chr_cr then l else l ++ [x].
Proof.
  unfold strip_cr. rewrite rev_app_distr. cbn [rev app].
  destruct (N.eqb x chr_cr); [apply rev_involutive|reflexivity].
Qed.

(** The value of a line whose final '\r' was stripped. *)
Lemma strip_cr_line key value :
  strip_cr ((key ++ [61%N]) ++ value) = (key ++ [61%N]) ++ strip_cr value.
Proof.
  destruct value as [|x v _] using rev_ind.
  - rewrite app_nil_r, strip_cr_snoc. cbn. now rewrite app_nil_r.
  - rewrite app_assoc, !strip_cr_snoc. destruct (N.eqb x chr_cr); [reflexivity|]. now rewrite app_assoc.
Qed.

Lemma parse_kv_line_gen m key value :
  ~ In 61%N key ->
  parse_line (Some m) ((key ++ [61%N]) ++ value) = set_field m key (strip_cr value).
Proof.
  intros Hk. unfold parse_line. rewrite strip_cr_line.
  rewrite <- app_assoc. cbn [app]. now rewrite split_at_app.
Qed.

Lemma parse64_dec n : (n < 2 ^ 64)%N -> parse_uint64_decimal (dec n) = Some n.
Proof.
  intros H. unfold parse_uint64_decimal. destruct (dec n) as [|c r] eqn:E; [now apply dec_nonempty in E|].
  rewrite <- E, parse_digits_dec. destruct (N.ltb_spec n (2 ^ 64)); [reflexivity|lia].
Qed.
Lemma parse32_dec n : (n < 2 ^ 32)%N -> parse_uint32_decimal (dec n) = Some n.
Proof.
  intros H. unfold parse_uint32_decimal. rewrite parse64_dec by lia.
  destruct (N.ltb_spec (2 ^ 32 - 1) n); [lia|reflexivity].
Qed.

Lemma dec_no_final_cr n : no_final_cr (dec n).
Proof.
  intros s' E. apply (dec_no 13%N n eq_refl). rewrite E. apply in_or_app. right. now left.
Qed.

Lemma getlines_kv key value rest :
  ~ In 10%N (str key) -> ~ In 10%N value ->
  getlines (kv_line key value ++ rest) = (str key ++ value) :: getlines rest.
Proof.
  intros Hk Hv. unfold kv_line. rewrite <- !app_assoc. cbn [app].
  rewrite app_assoc. apply getlines_line. intros H. apply in_app_or in H as [H|H]; auto.
Qed.

Lemma serialize_lines m :
  Forall single_line (text_fields m) ->
  getlines (serialize m) =
    [ str "format_version=" ++ dec (m_format_version m);
      str "snapshot_id=" ++ m_snapshot_id m;
      str "reason=" ++ m_reason m;
      str "applied_through_op_id=" ++ dec (m_applied m);
      str "created_unix_ms=" ++ dec (m_created m);
      str "graph_file=" ++ m_graph_file m;
      str "data_file=" ++ m_data_file m;
      str "quant_file=" ++ m_quant_file m;
      str "rocksdb_dir=" ++ m_rocksdb_dir m ].
Proof.
  intros F. unfold text_fields in F.
  repeat (apply Forall_cons_iff in F; let H := fresh "H" in destruct F as [H F]).
  unfold single_line in *.
  assert (D : forall n, ~ In 10%N (dec n)) by (intros n; now apply dec_no).
  assert (K : forall k, forallb (fun c => negb (N.eqb c 10)) (str k) = true -> ~ In 10%N (str k)).
  { intros k Hk Hin. rewrite forallb_forall in Hk. specialize (Hk _ Hin). discriminate. }
  unfold serialize.
  rewrite !getlines_kv by (auto; apply K; reflexivity).
  rewrite <- (app_nil_r (kv_line "rocksdb_dir=" _)).
  rewrite getlines_kv by (auto; apply K; reflexivity). reflexivity.
Qed.

Lemma str_key (k : string) (key : bytes) :
  str k = key ++ [61%N] -> forall v, str k ++ v = (key ++ [61%N]) ++ v.
Proof. intros -> v. reflexivity. Qed.

Ltac no_eq := let H := fresh in intros H; vm_compute in H; intuition discriminate.

Lemma set_fv fv sid rs ap cr gf df qf rd v :
  set_field (Build_manifest fv sid rs ap cr gf df qf rd) (str "format_version") v =
  option_map (fun n => Build_manifest n sid rs ap cr gf df qf rd) (parse_uint32_decimal v).
Proof. reflexivity. Qed.
Lemma set_sid fv sid rs ap cr gf df qf rd v :
  set_field (Build_manifest fv sid rs ap cr gf df qf rd) (str "snapshot_id") v = Some (Build_manifest fv v rs ap cr gf df qf rd).
Proof. reflexivity. Qed.
Lemma set_rs fv sid rs ap cr gf df qf rd v :
  set_field (Build_manifest fv sid rs ap cr gf df qf rd) (str "reason") v = Some (Build_manifest fv sid v ap cr gf df qf rd).
Proof. reflexivity. Qed.
Lemma set_ap fv sid rs ap cr gf df qf rd v :
  set_field (Build_manifest fv sid rs ap cr gf df qf rd) (str "applied_through_op_id") v =
  option_map (fun n => Build_manifest fv sid rs n cr gf df qf rd) (parse_uint64_decimal v).
Proof. reflexivity. Qed.
Lemma set_cr fv sid rs ap cr gf df qf rd v :
  set_field (Build_manifest fv sid rs ap cr gf df qf rd) (str "created_unix_ms") v =
  option_map (fun n => Build_manifest fv sid rs ap n gf df qf rd) (parse_uint64_decimal v).
Proof. reflexivity. Qed.
Lemma set_gf fv sid rs ap cr gf df qf rd v :
  set_field (Build_manifest fv sid rs ap cr gf df qf rd) (str "graph_file") v = Some (Build_manifest fv sid rs ap cr v df qf rd).
Proof. reflexivity. Qed.
Lemma set_df fv sid rs ap cr gf df qf rd v :
  set_field (Build_manifest fv sid rs ap cr gf df qf rd) (str "data_file") v = Some (Build_manifest fv sid rs ap cr gf v qf rd).
Proof. reflexivity. Qed.
Lemma set_qf fv sid rs ap cr gf df qf rd v :
  set_field (Build_manifest fv sid rs ap cr gf df qf rd) (str "quant_file") v = Some (Build_manifest fv sid rs ap cr gf df v rd).
Proof. reflexivity. Qed.
Lemma set_rd fv sid rs ap cr gf df qf rd v :
  set_field (Build_manifest fv sid rs ap cr gf df qf rd) (str "rocksdb_dir") v = Some (Build_manifest fv sid rs ap cr gf df qf v).
Proof. reflexivity. Qed.

(** Effect of the nine lines, with every stripped text value. *)
Lemma parse_nine m :
  numbers_fit m -> Forall single_line (text_fields m) ->
  fold_left parse_line (getlines (serialize m)) (Some default_manifest) =
  Some {| m_format_version := m_format_version m; m_snapshot_id := strip_cr (m_snapshot_id m);
          m_reason := strip_cr (m_reason m); m_applied := m_applied m; m_created := m_created m;
          m_graph_file := strip_cr (m_graph_file m); m_data_file := strip_cr (m_data_file m);
          m_quant_file := strip_cr (m_quant_file m); m_rocksdb_dir := strip_cr (m_rocksdb_dir m) |}.
Proof.
  intros (Hv & Ha & Hc) F. rewrite serialize_lines by assumption.
  cbn [fold_left].
  rewrite (str_key "format_version=" (str "format_version") eq_refl).
  rewrite (str_key "snapshot_id=" (str "snapshot_id") eq_refl).
  rewrite (str_key "reason=" (str "reason") eq_refl).
  rewrite (str_key "applied_through_op_id=" (str "applied_through_op_id") eq_refl).
  rewrite (str_key "created_unix_ms=" (str "created_unix_ms") eq_refl).
  rewrite (str_key "graph_file=" (str "graph_file") eq_refl).
  rewrite (str_key "data_file=" (str "data_file") eq_refl).
  rewrite (str_key "quant_file=" (str "quant_file") eq_refl).
  rewrite (str_key "rocksdb_dir=" (str "rocksdb_dir") eq_refl).
  unfold default_manifest.
  rewrite parse_kv_line_gen, (strip_cr_id (dec _)) by (try apply dec_no_final_cr; no_eq).
  rewrite set_fv, parse32_dec by assumption. cbn [option_map].
  rewrite parse_kv_line_gen, set_sid by no_eq.
  rewrite parse_kv_line_gen, set_rs by no_eq.
  rewrite parse_kv_line_gen, (strip_cr_id (dec _)) by (try apply dec_no_final_cr; no_eq).
  rewrite set_ap, parse64_dec by assumption. cbn [option_map].
  rewrite parse_kv_line_gen, (strip_cr_id (dec _)) by (try apply dec_no_final_cr; no_eq).
  rewrite set_cr, parse64_dec by assumption. cbn [option_map].
  rewrite parse_kv_line_gen, set_gf by no_eq.
  rewrite parse_kv_line_gen, set_df by no_eq.
  rewrite parse_kv_line_gen, set_qf by no_eq.
  rewrite parse_kv_line_gen, set_rd by no_eq.
  reflexivity.
Qed.

Lemma round_trip_lemma m :
  numbers_fit m -> Forall single_line (text_fields m) -> Forall no_final_cr (text_fields m) ->
  m_snapshot_id m <> [] ->
  deserialize (serialize m) = Some m.
Proof.
  intros Hn Hs Hc Hid. unfold deserialize. rewrite parse_nine by assumption.
  unfold text_fields in Hc.
  repeat (apply Forall_cons_iff in Hc; let H := fresh "H" in destruct Hc as [H Hc]).
  rewrite !strip_cr_id by assumption.
  cbn [m_snapshot_id]. destruct m as [fv [|x sid] rs ap cr gf df qf rd]; cbn in *; [congruence|reflexivity].
Qed.

Lemma no_injection_lemma m :
  numbers_fit m -> Forall single_line (text_fields m) ->
  no_final_cr (m_snapshot_id m) -> m_snapshot_id m <> [] ->
  exists m', deserialize (serialize m) = Some m' /\ m_snapshot_id m' = m_snapshot_id m
             /\ m_applied m' = m_applied m.
Proof.
  intros Hn Hs Hc Hid. unfold deserialize. rewrite parse_nine by assumption.
  rewrite (strip_cr_id (m_snapshot_id m)) by assumption. cbn [m_snapshot_id].
  destruct (m_snapshot_id m) as [|x sid] eqn:E; [congruence|].
  eexists. split; [reflexivity|]. cbn [m_snapshot_id m_applied]. split; reflexivity.
Qed.

Lemma getlines_text_of_lines ls :
  Forall single_line ls -> getlines (text_of_lines ls) = ls.
Proof.
  induction ls as [|l ls IH]; intros F; [reflexivity|].
  apply Forall_cons_iff in F as [H F]. 
  change (text_of_lines (l :: ls)) with ((l ++ [chr_nl]) ++ text_of_lines ls).
  rewrite <- app_assoc. cbn [app]. rewrite getlines_line by assumption.
  f_equal. now apply IH.
Qed.

Definition known_keys : list bytes :=
  [str "format_version"; str "snapshot_id"; str "reason"; str "applied_through_op_id";
   str "created_unix_ms"; str "graph_file"; str "data_file"; str "quant_file"; str "rocksdb_dir"].

Lemma set_field_unknown m key value : ~ In key known_keys -> set_field m key value = Some m.
Proof.
  intros H. unfold set_field. destruct m.
  repeat match goal with
  | |- context [bytes_eqb key ?k] =>
      destruct (bytes_eqb_spec key k) as [->|_]; [exfalso; apply H; unfold known_keys; cbn; tauto|]
  end. reflexivity.
Qed.

Lemma unknown_line_lemma a b key value :
  Forall single_line (a ++ b) -> single_line (key ++ [61%N] ++ value) ->
  ~ In 61%N key -> ~ In key known_keys ->
  deserialize (text_of_lines (a ++ (key ++ [61%N] ++ value) :: b)) = deserialize (text_of_lines (a ++ b)).
Proof.
  intros F Fl Hk Hu. apply Forall_app in F as [Fa Fb].
  unfold deserialize. rewrite !getlines_text_of_lines
    by (apply Forall_app; split; auto).
  rewrite !fold_left_app. cbn [fold_left].
  destruct (fold_left parse_line a (Some default_manifest)) as [m|]; [|reflexivity].
  rewrite app_assoc, parse_kv_line_gen by assumption. now rewrite set_field_unknown.
Qed.

(** ** CURRENT *)
Lemma drop_trailing_id r : (forall c r', r = c :: r' -> c <> 10%N /\ c <> 13%N /\ c <> 32%N) ->
  drop_trailing r = r.
Proof.
  destruct r as [|c r]; intros H; [reflexivity|]. destruct (H c r eq_refl) as (A & B & C).
  cbn [drop_trailing]. unfold chr_nl, chr_cr, chr_sp.
  destruct (N.eqb_spec c 10); [congruence|]. destruct (N.eqb_spec c 13); [congruence|].
  destruct (N.eqb_spec c 32); [congruence|]. reflexivity.
Qed.
Lemma trim_current_lemma id :
  (forall s, id <> s ++ [10%N] /\ id <> s ++ [13%N] /\ id <> s ++ [32%N] /\ id <> 32%N :: s) ->
  trim (current_text id) = id.
Proof.
  intros H. unfold trim, current_text. rewrite rev_app_distr. cbn [rev app drop_trailing].
  change (N.eqb chr_nl chr_nl) with true. cbn [orb].
  rewrite drop_trailing_id.
  - rewrite rev_involutive. destruct id as [|c id]; [reflexivity|]. cbn [drop_spaces].
    destruct (N.eqb_spec c chr_sp) as [->|_]; [|reflexivity]. exfalso. now apply (H id).
  - intros c r' E. assert (E' : id = rev r' ++ [c]) by (rewrite <- (rev_involutive id), E; reflexivity).
    destruct (H (rev r')) as (A & B & C & _). repeat split; intros ->; auto.
Qed.

Lemma split_at_app c s a b : split_at c s = Some (a, b) -> s = a ++ c :: b.
Proof.
  revert a b. induction s as [|x s IH]; intros a b; cbn; [discriminate|].
  destruct (N.eqb_spec x c) as [->|Hn]; [intros E; injection E as <- <-; reflexivity|].
  destruct (split_at c s) as [[a' b']|]; [|discriminate]. intros E. injection E as <- <-.
  now rewrite (IH a' b' eq_refl).
Qed.
Lemma strip_cr_prefix l : exists t, l = strip_cr l ++ t.
Proof.
  unfold strip_cr. destruct (rev l) as [|c r] eqn:E; [exists []; now rewrite app_nil_r|].
  destruct (N.eqb c chr_cr); [|exists []; now rewrite app_nil_r].
  exists [c]. apply (f_equal (@rev N)) in E. rewrite rev_involutive in E. exact E.
Qed.
Lemma set_field_sid m key value m' : key <> str "snapshot_id" -> set_field m key value = Some m' ->
  m_snapshot_id m' = m_snapshot_id m.
Proof.
  intros Hk. unfold set_field. destruct m. unfold option_map.
  repeat match goal with
  | |- context [bytes_eqb key ?k] => destruct (bytes_eqb_spec key k) as [E0|_]
  end; try congruence;
  repeat match goal with |- context [match ?x with Some _ => _ | None => _ end] => destruct x end;
  intros E; try discriminate; injection E as <-; reflexivity.
Qed.
Lemma parse_none ls : fold_left parse_line ls None = None.
Proof. induction ls; cbn; auto. Qed.
Lemma missing_id_lemma ls : Forall single_line ls ->
  (forall l v, In l ls -> l <> str "snapshot_id=" ++ v) -> deserialize (text_of_lines ls) = None.
Proof.
  intros F H. unfold deserialize. rewrite getlines_text_of_lines by assumption. clear F.
  assert (G : forall ls m, (forall l v, In l ls -> l <> str "snapshot_id=" ++ v) -> m_snapshot_id m = [] ->
     match fold_left parse_line ls (Some m) with Some m' => m_snapshot_id m' = [] | None => True end).
  { clear. induction ls as [|l ls IH]; intros m H Hm; cbn [fold_left]; [exact Hm|].
    unfold parse_line at 2. destruct (split_at 61 (strip_cr l)) as [[key value]|] eqn:E.
    - apply split_at_app in E. destruct (strip_cr_prefix l) as [t Et]. rewrite E in Et.
      destruct (set_field m key value) as [m'|] eqn:Es; [|now rewrite parse_none].
      apply IH; [intros; apply H; now right|]. rewrite <- Hm. eapply set_field_sid; [|exact Es].
      intros ->. apply (H l (value ++ t)); [now left|]. rewrite Et, <- app_assoc. reflexivity.
    - apply IH; [intros; apply H; now right|assumption]. }
  specialize (G ls default_manifest H eq_refl).
  destruct (fold_left parse_line ls (Some default_manifest)) as [m|]; [|reflexivity]. now rewrite G.
Qed.
