(** What importing, opening and searching a LASER segment should do. *)
From Coq Require Import String.
From Verif Require Export LaserSegModel SegManifestSpec LaserSearchSpec.
Local Open Scope list_scope.
Local Open Scope N_scope.

(** A regular file that is not empty. *)
Definition full_file (d : dir) (name : bytes) : Prop := exists c, look d name = Some (File c) /\ c <> [].

(** The segment holds exactly these labels, for an index of as many points:
    the manifest counts them, the label file holds them one after the other in
    eight bytes each, and the header of the index file says the same number. *)
Definition holds_labels (d : dir) (o : opened) (labels : list N) : Prop :=
  sm_count (op_manifest o) = N.of_nat (length labels)
  /\ look d (sm_ids (op_manifest o)) = Some (File (op_ids o))
  /\ op_ids o = concat (map (le_enc 8) labels)
  /\ exists index c, look d index = Some (File c) /\ kv_get (sm_extras (op_manifest o)) (str "x_laser_index_file") = Some index
       /\ (8 <= length c)%nat /\ le_dec (firstn 8 c) = N.of_nat (length labels).

(** A directory that a searcher may work with. *)
Definition sound_segment (d : dir) (o : opened) : Prop :=
  let m := op_manifest o in
  sm_type m = Laser /\ sm_metric m = L2 /\ 0 < sm_dim m < 2 ^ 32 /\ 0 < sm_count m < 2 ^ 32 /\ 0 < op_r o < 2 ^ 32 /\ 0 < op_main_dim o < 2 ^ 32
  /\ (exists text, look d (str "manifest.txt") = Some (File text) /\ sm_load text = Ok m)
  /\ look d (sm_ids m) = Some (File (op_ids o)) /\ N.of_nat (length (op_ids o)) = 8 * sm_count m
  /\ (exists prefix index c, kv_get (sm_extras m) (str "x_laser_filename_prefix") = Some prefix
        /\ kv_get (sm_extras m) (str "x_laser_index_file") = Some index
        /\ index = prefix ++ str "_R" ++ dec (op_r o) ++ str "_MD" ++ dec (op_main_dim o) ++ str ".index"
        /\ look d index = Some (File c) /\ (8 <= length c)%nat /\ le_dec (firstn 8 c) = sm_count m)
  /\ (forall k, In k ["x_laser_index_file"; "x_laser_rotator_file"; "x_laser_cache_ids_file"; "x_laser_cache_nodes_file"]%string ->
        exists name, kv_get (sm_extras m) (str k) = Some name /\ plain_name name /\ full_file d name)
  /\ (forall k name, In k ["x_laser_medoids_file"; "x_laser_medoids_indices_file"; "x_laser_pca_file"]%string ->
        kv_get (sm_extras m) (str k) = Some name -> plain_name name /\ full_file d name).

(** The native files that come with the index when there are any. *)
Definition optional_names (seg : bytes) : list bytes :=
  map (fun s => str "dsqg_" ++ seg ++ str s) ["_medoids"; "_medoids_indices"; "_pca.bin"]%string.

(** The values the types of the parameters allow: 32 bits each, and a short
    text for the float. *)
Definition typed_params (dim : N) (p : import_params) : Prop :=
  dim < 2 ^ 32 /\ ip_r p < 2 ^ 32 /\ ip_ef p < 2 ^ 32 /\ ip_beam p < 2 ^ 32 /\ line_text (ip_budget p) /\ (length (ip_budget p) <= 64)%nat.
Definition typed_labels (labels : list N) : Prop := N.of_nat (length labels) < 2 ^ 61 /\ Forall (fun l => l < 2 ^ 64) labels.

(** What a search is asked for: this engine with the parameters of this query,
    and the labels of the points it answers with. *)
Definition answers_query (ids : bytes) (count : N) (engine : N -> N -> N -> out (list N)) (q : query) (a : out (list N)) : Prop :=
  exists pids labels,
    engine (N.max (q_ef q) (N.min (q_top_k q) count)) (q_beam q) (N.min (q_top_k q) count) = Ends (Ok pids)
    /\ a = Ends (Ok labels) /\ Forall2 (fun p l => le_dec (firstn 8 (skipn (8 * N.to_nat p) ids)) = l) pids labels.

(** How often the parameters of a sequence of searches change, the first ones
    included. *)
Fixpoint param_changes (last : option (N * N)) (l : list (N * N)) : nat :=
  match l with
  | [] => 0
  | (e, b) :: r =>
      (match last with Some (e', b') => if N.eqb e e' && N.eqb b b' then 0 else 1 | None => 1 end + param_changes (Some (e, b)) r)%nat
  end.

(** A loss of power after the rename keeps the names, which fsync_dir made
    durable, and the content of the synced files; of the others any content may be left. *)
Definition after_power_loss (d d' : dir) : Prop :=
  map fst d' = map fst d /\ forall name, if synced_file name then look d' name = look d name else (exists c, look d' name = Some (File c)) \/ look d' name = look d name.
