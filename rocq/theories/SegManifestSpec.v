(** What the manifests of a disk collection may contain. *)
From Coq Require Import String.
From Verif Require Export SegManifestModel.
Local Open Scope N_scope.

(** Space, tab, carriage return, line feed. *)
Definition blank (c : N) : Prop := In c [32; 9; 13; 10].
(** A text that fits on one line and has no blanks at its ends. *)
Definition line_text (s : bytes) : Prop :=
  ~ In 10 s /\ (forall c r, s = c :: r -> ~ blank c) /\ (forall r c, s = r ++ [c] -> ~ blank c).
(** A name in a directory: no '/', no NUL, neither "." nor "..". *)
Definition plain_name (s : bytes) : Prop := s <> [] /\ ~ In 47 s /\ ~ In 0 s /\ s <> str "." /\ s <> str "..".
Definition digit (c : N) : Prop := 48 <= c <= 57.
(** seg_ and eight digits. *)
Definition segment_name (s : bytes) : Prop := exists ds, s = str "seg_" ++ ds /\ length ds = 8%nat /\ Forall digit ds.
(** An entry of the map of extensions. *)
Definition extension (e : bytes * bytes) : Prop :=
  (exists r, fst e = str "x_" ++ r) /\ line_text (fst e) /\ ~ In 61 (fst e) /\ line_text (snd e).

Record good_segment (m : seg_manifest) : Prop := {
  gs_version : sm_version m = 1;
  gs_id : segment_name (sm_id m);
  gs_metric : sm_metric m <> NONE;
  gs_dim : 0 < sm_dim m < 2 ^ 64;
  gs_count : 0 < sm_count m < 2 ^ 64;
  gs_ids : plain_name (sm_ids m) /\ line_text (sm_ids m);
  gs_vectors : sm_vectors m = [] \/ plain_name (sm_vectors m) /\ line_text (sm_vectors m);
  gs_extras : kv_sorted (sm_extras m) /\ Forall extension (sm_extras m);
}.
Record good_collection (m : coll_manifest) : Prop := {
  gc_version : cm_version m = 1;
  gc_dim : 0 < cm_dim m < 2 ^ 64;
  gc_metric : cm_metric m <> NONE;
  gc_next : cm_next m < 2 ^ 64;
  gc_segments : Forall segment_name (cm_segments m);
  gc_extras : kv_sorted (cm_extras m) /\ Forall extension (cm_extras m);
}.
