(** LASER segments of disk collections: importing the native files
    (include/index/disk/laser_segment_importer.hpp), opening the segment and
    searching it (include/index/disk/laser_segment_searcher.hpp).

    A directory is a list of names with regular files or something else; there
    are no symbolic links.  Left out: the loading of the native index
    (QuantizedGraph and load_disk_index, here an answer [loads]), the printing
    and parsing of the one float (its text and whether std::stof accepts it are
    given), the logging, and the texts of the exceptions. *)
From Coq Require Import String.
From Verif Require Export SegManifestModel LaserSearchModel.
Local Open Scope list_scope.
Local Open Scope N_scope.

(** What a name in a directory stands for: a regular file with its content, or
    anything else (a directory, a device). *)
Inductive node := File (content : bytes) | Special.
Definition dir := list (bytes * node).
Fixpoint look {A} (d : list (bytes * A)) (name : bytes) : option A :=
  match d with [] => None | (k, v) :: r => if bytes_eqb k name then Some v else look r name end.

(** LaserSegmentImportParams, laser_segment_importer.hpp 35-42, with the text
    of the float; whether files are copied or linked makes no difference here *)
Record import_params := { ip_r : N; ip_main_dim : N; ip_ef : N; ip_beam : N; ip_budget : bytes }.

(** is_power_of_two, 67 *)
Definition is_power_of_two (v : N) : bool := negb (N.eqb v 0) && N.eqb (N.land v (v - 1)) 0.
(** The checks of the constructor, 205-225 *)
Definition importer_ok (dim : N) (p : import_params) : bool :=
  negb (N.eqb dim 0) && is_power_of_two dim && negb (N.ltb dim 128) && (N.eqb (ip_main_dim p) 0 || N.eqb (ip_main_dim p) dim).

(** 260 *)
Definition main_dim_resolved (dim : N) (p : import_params) : N := if N.eqb (ip_main_dim p) 0 then dim else ip_main_dim p.
(** 261 *)
Definition file_prefix (seg : bytes) : bytes := str "dsqg_" ++ seg.
(** 262-263, and the same name computed by the searcher, laser_segment_searcher.hpp 228-229 *)
Definition index_name (prefix : bytes) (r main_dim : N) : bytes :=
  prefix ++ str "_R" ++ dec r ++ str "_MD" ++ dec main_dim ++ str ".index".
(** required, laser_segment_importer.hpp 266-273: the keys of the manifest and the names *)
Definition required_artifacts (seg : bytes) (r main_dim : N) : list (bytes * bytes) :=
  let index := index_name (file_prefix seg) r main_dim in
  [(str "x_laser_index_file", index); (str "x_laser_rotator_file", index ++ str "_rotator");
   (str "x_laser_cache_ids_file", index ++ str "_cache_ids"); (str "x_laser_cache_nodes_file", index ++ str "_cache_nodes")].
(** optional, 274-278 *)
Definition optional_artifacts (seg : bytes) : list (bytes * bytes) :=
  [(str "x_laser_medoids_file", file_prefix seg ++ str "_medoids");
   (str "x_laser_medoids_indices_file", file_prefix seg ++ str "_medoids_indices");
   (str "x_laser_pca_file", file_prefix seg ++ str "_pca.bin")].

(** require_regular_nonempty, 114-135; the check of the searcher is the same,
    laser_segment_searcher.hpp 153-168 *)
Definition regular_nonempty (d : dir) (name : bytes) : bool :=
  match look d name with Some (File (_ :: _)) => true | _ => false end.
(** optional_exists, laser_segment_importer.hpp 137-145 *)
Definition exists_in (d : dir) (name : bytes) : bool := match look d name with Some _ => true | None => false end.
(** read_index_count, 147-160, laser_read_index_metadata_count,
    laser_segment_searcher.hpp 116-129, and read_file_prefix,
    utils/platform_fs.hpp 314-365 *)
Definition read_count (d : dir) (name : bytes) : res N :=
  match look d name with
  | Some (File c) => if Nat.ltb (length c) 8 then Throws else Ok (le_dec (firstn 8 c))
  | _ => Throws
  end.
(** copy_or_link_artifact, laser_segment_importer.hpp 162-175, the source side:
    only regular files can be copied *)
Fixpoint copies (src : dir) (names : list bytes) : res dir :=
  match names with
  | [] => Ok []
  | n :: r => match look src n with
              | Some (File c) => let* d := copies src r in Ok ((n, File c) :: d)
              | _ => Throws
              end
  end.
(** 311-313 *)
Definition labels_bytes (labels : list N) : bytes := flat_map (le_enc 8) labels.
(** The entries put into x_extras, 324-341, in this order *)
Definition extra_pairs (dim : N) (p : import_params) (seg : bytes) (present : list (bytes * bytes)) : list (bytes * bytes) :=
  (str "x_laser_filename_prefix", file_prefix seg)
  :: required_artifacts seg (ip_r p) (main_dim_resolved dim p) ++ present
  ++ [(str "x_R", dec (ip_r p)); (str "x_main_dim", dec (main_dim_resolved dim p)); (str "x_default_ef", dec (ip_ef p));
      (str "x_default_beam_width", dec (ip_beam p)); (str "x_laser_native_format_version", str "1");
      (str "x_platform_requires", str "linux+libaio"); (str "x_laser_search_dram_budget_gb", ip_budget p);
      (str "x_laser_distance_field_supported", str "false")].
Definition put_all (l : list (bytes * bytes)) (x : kv) : kv := fold_left (fun x e => kv_put (fst e) (snd e) x) l x.
(** The manifest, 315-341 *)
Definition laser_manifest (dim : N) (p : import_params) (seg : bytes) (n : N) (present : list (bytes * bytes)) : seg_manifest :=
  {| sm_version := k_manifest_version; sm_id := seg; sm_type := Laser; sm_metric := L2; sm_dim := dim; sm_count := n;
     sm_ids := str "ids.u64.bin"; sm_vectors := []; sm_extras := put_all (extra_pairs dim p seg present) [] |}.

(** import_from up to the creation of the temporary directory, 242-292, and the
    files it is going to write, 297-342.  That the files are read before the
    temporary directory is made is a simplification: a copy that fails is a
    step that fails below as well. *)
Definition import_files (dim : N) (m : metric) (p : import_params) (src : dir) (labels : list N) (seg : bytes) : res (seg_manifest * dir) :=
  let n := N.of_nat (length labels) in
  if negb (importer_ok dim p) then Throws else
  if negb (is_valid_segment_id seg) then Throws else
  if match m with L2 => false | _ => true end then Throws else
  if N.eqb n 0 then Throws else
  let required := required_artifacts seg (ip_r p) (main_dim_resolved dim p) in
  if negb (forallb (fun a => regular_nonempty src (snd a)) required) then Throws else
  let present := filter (fun a => exists_in src (snd a)) (optional_artifacts seg) in
  let* count := read_count src (index_name (file_prefix seg) (ip_r p) (main_dim_resolved dim p)) in
  if negb (N.eqb count n) then Throws else
  let* artifacts := copies src (map snd (required ++ present)) in
  let manifest := laser_manifest dim p seg n present in
  let* text := sm_save manifest in
  Ok (manifest, artifacts ++ [(str "ids.u64.bin", File (labels_bytes labels)); (str "manifest.txt", File text)]).

(** The directory of the collection: names with directories. *)
Definition world := list (bytes * dir).
Definition wdel (name : bytes) (w : world) : world := filter (fun e => negb (bytes_eqb (fst e) name)) w.
Definition wset (name : bytes) (d : dir) (w : world) : world := (name, d) :: wdel name w.

(** The steps that touch the collection: make_tmp_dir 177-201, the files
    297-342, fsync_dir 344, rename_no_replace 345 *)
Inductive istep := SMkdir | SPut (name : bytes) (content : node) | SSync | SRename.
Definition import_steps (files : dir) : list istep := SMkdir :: map (fun f => SPut (fst f) (snd f)) files ++ [SSync; SRename].
(** [None]: the step throws *)
Definition do_step (tmp seg : bytes) (w : world) (s : istep) : option world :=
  match s with
  | SMkdir => match look w tmp with Some _ => None | None => Some (wset tmp [] w) end
  | SPut name content =>
      match look w tmp with
      | Some d => match look d name with Some _ => None | None => Some (wset tmp (d ++ [(name, content)]) w) end
      | None => None
      end
  | SSync => Some w
  | SRename => match look w seg, look w tmp with
               | None, Some d => Some (wset seg d (wdel tmp w))
               | _, _ => None
               end
  end.
(** How an import may be cut short: the system call that fails or the crash
    comes before step [st_after] (or never, when it is too large); the
    TmpDirGuard (disk_flat_builder.hpp 84-106) may be able to remove the
    temporary directory, or not and then anything may be left in it. *)
Record stop := { st_after : nat; st_cleaned : bool; st_left : dir }.
(** The steps of import_from, laser_segment_importer.hpp 294-346; the guard is
    [armed] once the temporary directory exists *)
Fixpoint run_steps (tmp seg : bytes) (steps : list istep) (n : nat) (st : stop) (armed : bool) (w : world) : world * bool :=
  let give_up := (if armed then if st_cleaned st then wdel tmp w else wset tmp (st_left st) w else w, false) in
  match steps with
  | [] => (w, true)
  | s :: r =>
      if Nat.eqb n (st_after st) then give_up
      else match do_step tmp seg w s with
           | None => give_up
           | Some w' => run_steps tmp seg r (S n) st true w'
           end
  end.
(** import_from, 227-354: the check of 240, then other processes may add
    directories ([others]), then the steps *)
Definition laser_import (dim : N) (m : metric) (p : import_params) (src : dir) (labels : list N) (seg tmp : bytes)
    (others : world) (st : stop) (w : world) : world * res seg_manifest :=
  match look w seg with
  | Some _ => (others ++ w, Throws)
  | None =>
      match import_files dim m p src labels seg with
      | Ok (manifest, files) =>
          let (w', done) := run_steps tmp seg (import_steps files) 0 st false (others ++ w) in
          (w', if done then Ok manifest else Throws)
      | _ => (others ++ w, Throws)
      end
  end.

(** 311 and 342: the files synced before the directory is renamed; the copied
    native files are not (linked ones may have been synced before) *)
Definition synced_file (name : bytes) : bool := bytes_eqb name (str "ids.u64.bin") || bytes_eqb name (str "manifest.txt").

(** ** Opening *)
(** laser_required_extra, laser_segment_searcher.hpp 60-69 *)
Definition required_extra (m : seg_manifest) (k : string) : res bytes :=
  match kv_get (sm_extras m) (str k) with None | Some [] => Throws | Some v => Ok v end.
(** laser_parse_u32_extra, 71-82 *)
Definition parse_u32_extra (m : seg_manifest) (k : string) : res N :=
  let* v := required_extra m k in
  let* n := parse_uint64 v in
  if N.eqb n 0 || N.ltb (2 ^ 32 - 1) n then Throws else Ok n.
(** laser_validate_manifest_artifact, 131-169 *)
Definition artifact_ok (m : seg_manifest) (d : dir) (required : bool) (k : string) : bool :=
  match kv_get (sm_extras m) (str k) with
  | None => negb required
  | Some v => is_valid_basename v && regular_nonempty d v
  end.
(** laser_parse_float_extra_default, 84-104 *)
Definition budget_ok (float_ok : bytes -> bool) (m : seg_manifest) : bool :=
  match kv_get (sm_extras m) (str "x_laser_search_dram_budget_gb") with None | Some [] => true | Some v => float_ok v end.
(** The members set by the constructor: the manifest and the mapped ids *)
Record opened := { op_manifest : seg_manifest; op_r : N; op_main_dim : N; op_ids : bytes }.
(** LaserSegmentSearcher, 178-293.  [loads count r main_dim dim prefix]:
    whether the native index can be loaded, 256-280 *)
Definition laser_open (float_ok : bytes -> bool) (loads : N -> N -> N -> N -> bytes -> bool) (d : dir) : res opened :=
  match look d (str "manifest.txt") with
  | Some (File text) =>
      let* m := sm_load text in
      if match sm_type m with Laser => false | _ => true end then Throws else
      if N.eqb (sm_dim m) 0 || N.eqb (sm_count m) 0 then Throws else
      if N.ltb (2 ^ 32 - 1) (sm_dim m) then Throws else
      if N.ltb (2 ^ 32 - 1) (sm_count m) then Throws else
      if match sm_metric m with L2 => false | _ => true end then Throws else
      let* prefix := required_extra m "x_laser_filename_prefix" in
      if negb (is_valid_basename prefix) then Throws else
      let* r := parse_u32_extra m "x_R" in
      let* main_dim := parse_u32_extra m "x_main_dim" in
      let* index := required_extra m "x_laser_index_file" in
      if negb (is_valid_basename index) then Throws else
      if negb (bytes_eqb (index_name prefix r main_dim) index) then Throws else
      let* count := read_count d index in
      if negb (N.eqb count (sm_count m)) then Throws else
      if negb (forallb (artifact_ok m d true) ["x_laser_index_file"; "x_laser_rotator_file"; "x_laser_cache_ids_file"; "x_laser_cache_nodes_file"]%string) then Throws else
      if negb (forallb (artifact_ok m d false) ["x_laser_medoids_file"; "x_laser_medoids_indices_file"; "x_laser_pca_file"]%string) then Throws else
      if negb (budget_ok float_ok m) then Throws else
      if negb (loads (sm_count m) r main_dim (sm_dim m) prefix) then Throws else
      match look d (sm_ids m) with
      | Some (File ids) =>
          if negb (N.eqb (N.of_nat (length ids)) (8 * sm_count m)) then Throws
          else Ok {| op_manifest := m; op_r := r; op_main_dim := main_dim; op_ids := ids |}
      | _ => Throws
      end
  | _ => Throws
  end.
(** ids_view_[pid], 341 *)
Definition label_at (ids : bytes) (pid : N) : res N :=
  if Nat.ltb (length ids) (8 * N.to_nat pid + 8) then OutOfBounds else Ok (le_dec (firstn 8 (skipn (8 * N.to_nat pid) ids))).

(** ** Searching *)
(** DiskSearchOptions, as far as used *)
Record query := { q_top_k : N; q_ef : N; q_beam : N }.
(** The state of a searcher: last_set_params_ 375 (ef, threads, beam), the
    parameters of the one workspace of the engine ([None]: its queue is empty),
    set_params_call_count_ 376, and whether search_mutex_ can still be locked *)
Record session := { se_last : N * N * N; se_engine : option (N * N); se_calls : N; se_free : bool }.
(** 292 *)
Definition new_session : session := {| se_last := (0, 0, 0); se_engine := None; se_calls := 0; se_free := true |}.
(** requested, 317-323 *)
Definition requested (count : N) (q : query) : N * N * N := (N.max (q_ef q) (N.min (q_top_k q) count), 1, q_beam q).
Definition triple_eqb (a b : N * N * N) : bool :=
  N.eqb (fst (fst a)) (fst (fst b)) && N.eqb (snd (fst a)) (snd (fst b)) && N.eqb (snd a) (snd b).
(** 335-342 *)
Fixpoint hits (ids : bytes) (count : N) (pids : list N) : res (list N) :=
  match pids with
  | [] => Ok []
  | p :: r => if N.leb count p then Throws else let* l := label_at ids p in let* h := hits ids count r in Ok (l :: h)
  end.
(** apply_set_params, 365-368, and QuantizedGraph::set_params, qg.hpp 313-343:
    the old workspace is destroyed first, then the index file is opened, which
    throws unless [opens], then the new workspace is made.  324-327 *)
Definition with_params (count : N) (opens : bool) (q : query) (s : session) : session * bool :=
  let req := requested count q in
  if triple_eqb req (se_last s) then (s, true)
  else if opens then ({| se_last := req; se_engine := Some (fst (fst req), snd req); se_calls := se_calls s + 1; se_free := true |}, true)
  else ({| se_last := se_last s; se_engine := None; se_calls := se_calls s; se_free := true |}, false).
(** search, 301-344.  [engine ef beam k]: what the engine does with these
    parameters (C92).  It waits for a workspace when there is none, with the
    mutex locked; a search that throws does not give its workspace back. *)
Definition seg_search (o : opened) (opens : bool) (engine : N -> N -> N -> out (list N)) (q : query) (s : session) : session * out (list N) :=
  let count := sm_count (op_manifest o) in
  if N.eqb (q_top_k q) 0 || N.ltb (2 ^ 31 - 1) (q_beam q) then (s, Ends Throws) else
  if negb (se_free s) then (s, Waits) else
  let (s1, ok) := with_params count opens q s in
  if negb ok then (s1, Ends Throws) else
  let stuck := {| se_last := se_last s1; se_engine := None; se_calls := se_calls s1; se_free := false |} in
  match se_engine s1 with
  | None => (stuck, Waits)
  | Some (ef, beam) =>
      match engine ef beam (N.min (q_top_k q) count) with
      | Ends r =>
          (match r with
           | Ok _ => s1
           | _ => {| se_last := se_last s1; se_engine := None; se_calls := se_calls s1; se_free := true |}
           end, Ends (let* pids := r in hits (op_ids o) count pids))
      | Waits => (stuck, Waits)
      | Fuel_out => (stuck, Fuel_out)
      end
  end.
(** A sequence of searches: each with its query, whether the index file can be
    opened, and what the engine does. *)
Fixpoint searches (o : opened) (l : list (query * bool * (N -> N -> N -> out (list N)))) (s : session) : session * list (out (list N)) :=
  match l with
  | [] => (s, [])
  | (q, opens, engine) :: r =>
      let (s1, a) := seg_search o opens engine q s in
      let (s2, b) := searches o r s1 in (s2, a :: b)
  end.
