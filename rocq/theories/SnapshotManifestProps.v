(** Properties C07, C08 of the snapshot manifest. *)
From Coq Require Import String.
From Verif Require Import SnapshotManifestModel SnapshotManifestSpec SnapshotManifestProofs.

(** C07 *)
Theorem manifest_round_trip : forall m,
  numbers_fit m ->
  Forall single_line (text_fields m) -> Forall no_final_cr (text_fields m) ->
  m_snapshot_id m <> [] ->
  deserialize (serialize m) = Some m.
Proof. exact round_trip_lemma. Qed.
Print Assumptions manifest_round_trip.

Definition ex_manifest : manifest :=
  {| m_format_version := 1; m_snapshot_id := str "snapshot-1700000000123"; m_reason := str "a=b # c";
     m_applied := 18446744073709551615; m_created := 1700000000123; m_graph_file := str "graph.bin";
     m_data_file := str "d"; m_quant_file := []; m_rocksdb_dir := str "rocks db" |}.
Example manifest_round_trip_example :
  numbers_fit ex_manifest /\ Forall single_line (text_fields ex_manifest)
  /\ Forall no_final_cr (text_fields ex_manifest) /\ m_snapshot_id ex_manifest <> [].
Proof.
  split; [repeat split; reflexivity|]. split; [|split; [|discriminate]].
  - repeat constructor; intros H; vm_compute in H; intuition discriminate.
  - repeat constructor; intros s E; apply (f_equal (@rev N)) in E; rewrite rev_app_distr in E;
      vm_compute in E; discriminate.
Qed.

(** C07, pointer file: the id written to CURRENT is read back unless it has
    blanks at an end. *)
Theorem current_round_trip : forall id,
  (forall s, id <> s ++ [10%N] /\ id <> s ++ [13%N] /\ id <> s ++ [32%N] /\ id <> 32%N :: s) ->
  trim (current_text id) = id.
Proof. exact trim_current_lemma. Qed.
Print Assumptions current_round_trip.

Example current_round_trip_example : forall s,
  let id := str "snap 1" in
  id <> s ++ [10%N] /\ id <> s ++ [13%N] /\ id <> s ++ [32%N] /\ id <> 32%N :: s.
Proof.
  intros s id. repeat split; intros E;
    try (apply (f_equal (@rev N)) in E; rewrite rev_app_distr in E); vm_compute in E; discriminate.
Qed.

(** Lines with an unknown key are ignored wherever they occur. *)
Theorem manifest_unknown_keys_ignored : forall a b key value,
  Forall single_line (a ++ b) -> single_line (key ++ [61%N] ++ value) ->
  ~ In 61%N key ->
  ~ In key (map str ["format_version"; "snapshot_id"; "reason"; "applied_through_op_id";
                     "created_unix_ms"; "graph_file"; "data_file"; "quant_file"; "rocksdb_dir"]%string) ->
  deserialize (text_of_lines (a ++ (key ++ [61%N] ++ value) :: b)) = deserialize (text_of_lines (a ++ b)).
Proof. exact unknown_line_lemma. Qed.
Print Assumptions manifest_unknown_keys_ignored.

Example manifest_unknown_keys_example :
  deserialize (text_of_lines [str "snapshot_id=q"; str "x_new=7"; str "reason=z"])
  = deserialize (text_of_lines [str "snapshot_id=q"; str "reason=z"])
  /\ deserialize (text_of_lines [str "snapshot_id=q"; str "reason=z"]) <> None.
Proof. split; [reflexivity|discriminate]. Qed.

(** A text with no line giving a snapshot id is rejected, so an empty or
    truncated manifest is never taken for a snapshot. *)
Theorem manifest_without_id_rejected : forall lines,
  Forall single_line lines -> (forall l v, In l lines -> l <> str "snapshot_id=" ++ v) ->
  deserialize (text_of_lines lines) = None.
Proof. exact missing_id_lemma. Qed.
Print Assumptions manifest_without_id_rejected.

Example manifest_without_id_example : forall l v,
  In l [str "format_version=1"; str "reason=snapshot_id=q"] -> l <> str "snapshot_id=" ++ v.
Proof. intros l v [<-|[<-|[]]]; discriminate. Qed.

(** C08 is false: a line break in a text field injects other fields.  The
    first witness changes the snapshot id, the second the applied-through id. *)
Theorem manifest_injection_refuted :
  (exists m m', numbers_fit m /\ deserialize (serialize m) = Some m' /\ m_snapshot_id m' <> m_snapshot_id m)
  /\ (exists m m', numbers_fit m /\ deserialize (serialize m) = Some m' /\ m_applied m' <> m_applied m).
Proof.
  split.
  - exists {| m_format_version := 1; m_snapshot_id := str "a";
              m_reason := str "r" ++ [10%N] ++ str "snapshot_id=b";
              m_applied := 5; m_created := 0; m_graph_file := []; m_data_file := [];
              m_quant_file := []; m_rocksdb_dir := [] |}. eexists.
    split; [repeat split; reflexivity|]. split; [vm_compute; reflexivity|]. discriminate.
  - exists {| m_format_version := 1; m_snapshot_id := str "a"; m_reason := [];
              m_applied := 5; m_created := 0;
              m_graph_file := str "g" ++ [10%N] ++ str "applied_through_op_id=9"; m_data_file := [];
              m_quant_file := []; m_rocksdb_dir := [] |}. eexists.
    split; [repeat split; reflexivity|]. split; [vm_compute; reflexivity|]. discriminate.
Qed.
Print Assumptions manifest_injection_refuted.

(** C08 when no text field contains a line break (values may end in a
    carriage return, except the snapshot id). *)
Theorem manifest_no_injection_partial : forall m,
  numbers_fit m -> Forall single_line (text_fields m) ->
  no_final_cr (m_snapshot_id m) -> m_snapshot_id m <> [] ->
  exists m', deserialize (serialize m) = Some m' /\ m_snapshot_id m' = m_snapshot_id m
             /\ m_applied m' = m_applied m.
Proof. exact no_injection_lemma. Qed.
Print Assumptions manifest_no_injection_partial.

Example manifest_no_injection_example :
  let m := {| m_format_version := 1; m_snapshot_id := str "a"; m_reason := str "snapshot_id=b" ++ [13%N];
              m_applied := 5; m_created := 0; m_graph_file := str "applied_through_op_id=9";
              m_data_file := []; m_quant_file := []; m_rocksdb_dir := [] |} in
  numbers_fit m /\ Forall single_line (text_fields m)
  /\ exists m', deserialize (serialize m) = Some m' /\ m_snapshot_id m' = str "a" /\ m_applied m' = 5%N.
Proof.
  intros m. split; [repeat split; reflexivity|]. split.
  - repeat constructor; intros H; vm_compute in H; intuition discriminate.
  - eexists. split; [vm_compute; reflexivity|]. split; reflexivity.
Qed.
