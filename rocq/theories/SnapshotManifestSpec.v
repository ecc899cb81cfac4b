(** When a manifest can be written as key=value lines. *)
From Verif Require Import SnapshotManifestModel.

(** No line break inside, no carriage return at the end. *)
Definition single_line (s : bytes) : Prop := ~ In 10%N s.
Definition no_final_cr (s : bytes) : Prop := forall s', s <> s' ++ [13%N].

(** All text fields of a manifest. *)
Definition text_fields (m : manifest) : list bytes :=
  [m_snapshot_id m; m_reason m; m_graph_file m; m_data_file m; m_quant_file m; m_rocksdb_dir m].

(** The C++ types of the numeric fields. *)
Definition numbers_fit (m : manifest) : Prop :=
  (m_format_version m < 2 ^ 32)%N /\ (m_applied m < 2 ^ 64)%N /\ (m_created m < 2 ^ 64)%N.

(** Lines of text, each ended by a line break. *)
Definition text_of_lines (ls : list bytes) : bytes := concat (map (fun l => l ++ [10%N]) ls).
