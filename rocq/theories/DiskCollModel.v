(** Disk collections: include/index/disk/disk_collection.hpp (create, open,
    add_batch, flush, the orphan scan), include/index/disk/segment_factory.hpp,
    include/index/disk/disk_flat_builder.hpp, vamana_segment_builder.hpp, and the
    constructors of disk_flat_searcher.hpp and vamana_segment_searcher.hpp.

    The file system is a map of names to contents in the directory of the
    collection and one in each directory below segments/.  Every access to it
    takes one [event] from the environment: it works, it fails (the code throws,
    except where it ignores the error) or the process dies there.  What is
    written survives: losing unsynced writes in a power failure is left out.

    Left out: disk_laser (needs ALAYA_ENABLE_LASER; without it the code throws,
    and so does the model), the lock file, symbolic links, the log, the alpha
    parameter and the medoid in the manifests of disk_vamana.  A searcher maps the
    files of its segment, which nothing changes once published; here it copies the
    rows. *)
From Coq Require Import String.
From Verif Require Export SegManifestModel.
Local Open Scope N_scope.

(** ** The environment *)

(** One access to the file system works, fails after [cut] bytes or directory
    entries, or is where the process dies after [cut] bytes. *)
Inductive event := Good | Fails (cut : nat) | Crashes (cut : nat).
(** The directory of the collection: its files, and the directories in segments/ *)
Record disk := { d_root : kv; d_segs : list (bytes * kv) }.
Fixpoint dir_get (l : list (bytes * kv)) (name : bytes) : option kv :=
  match l with [] => None | (n, f) :: r => if bytes_eqb n name then Some f else dir_get r name end.
Definition dir_del (l : list (bytes * kv)) (name : bytes) : list (bytes * kv) := filter (fun e => negb (bytes_eqb (fst e) name)) l.
Definition dir_put (l : list (bytes * kv)) (name : bytes) (f : kv) : list (bytes * kv) := (name, f) :: dir_del l name.

(** A row: its label and the bit patterns of its components *)
Notation row := (N * list N)%type.
(** SegmentSearcher, types.hpp 43-52, with its rows *)
Record searcher := { sr_type : index_type; sr_rows : list row }.
(** VamanaSegmentBuildParams, vamana_segment_builder.hpp 37-43 *)
Record vparams := { v_R : N; v_L : N; v_threads : N; v_seed : N }.
(** DiskCollection: its members.  The labels and the vectors of the pending rows
    are two vectors in the code. *)
Record coll := {
  c_manifest : coll_manifest; c_segments : list searcher; c_dirs : list bytes; c_pending : list row;
  c_max_pending : N; c_vamana : vparams;
}.
(** How a call ends *)
Inductive out (A : Type) := Ret (a : A) | Thrown | Crashed.
Arguments Ret {A}. Arguments Thrown {A}. Arguments Crashed {A}.
(** Code that uses the file system and may throw or die *)
Definition io (A : Type) : Type := list event -> disk -> out A * list event * disk.
Definition ret {A} (a : A) : io A := fun env d => (Ret a, env, d).
Definition throw {A} : io A := fun env d => (Thrown, env, d).
Definition bindio {A B} (m : io A) (k : A -> io B) : io B := fun env d =>
  match m env d with
  | (Ret a, env', d') => k a env' d'
  | (Thrown, env', d') => (Thrown, env', d')
  | (Crashed, env', d') => (Crashed, env', d')
  end.
Notation "'do' x <- m ; k" := (bindio m (fun x => k)) (at level 200, x binder, m at level 100, k at level 200, right associativity).
Definition lift {A} (r : res A) : io A := match r with Ok a => ret a | _ => throw end.
(** One access: [works] when it works; [fails] and [dies] are the disks left otherwise *)
Definition access {A} (works : disk -> out A * disk) (broken : nat -> disk -> disk) : io A := fun env d =>
  match env with
  | [] => let (o, d') := works d in (o, [], d')
  | Good :: r => let (o, d') := works d in (o, r, d')
  | Fails cut :: r => (Thrown, r, broken cut d)
  | Crashes cut :: r => (Crashed, r, broken cut d)
  end.
Definition unchanged (cut : nat) (d : disk) : disk := d.
(** Reading a whole file of a segment directory *)
Definition read_in (dir name : bytes) : io bytes :=
  access (fun d => (match dir_get (d_segs d) dir with
                    | None => Thrown
                    | Some f => match kv_get f name with None => Thrown | Some c => Ret c end
                    end, d)) unchanged.
Definition read_root (name : bytes) : io bytes :=
  access (fun d => (match kv_get (d_root d) name with None => Thrown | Some c => Ret c end, d)) unchanged.
Definition set_segs (d : disk) l : disk := {| d_root := d_root d; d_segs := l |}.
Definition set_root (d : disk) l : disk := {| d_root := l; d_segs := d_segs d |}.
(** std::filesystem::exists *)
Definition dir_exists (dir : bytes) : io bool := fun env d => (Ret (match dir_get (d_segs d) dir with Some _ => true | None => false end), env, d).
(** create_directories: nothing to do when it exists *)
Definition mk_dir (dir : bytes) : io unit :=
  access (fun d => (Ret tt, match dir_get (d_segs d) dir with Some _ => d | None => set_segs d (dir_put (d_segs d) dir []) end)) unchanged.
Definition put_in (dir name content : bytes) (d : disk) : disk :=
  match dir_get (d_segs d) dir with None => d | Some f => set_segs d (dir_put (d_segs d) dir (kv_put name content f)) end.
(** write_all_fsync, platform_fs.hpp 438-518: after a fault a part is there *)
Definition write_in (dir name content : bytes) : io unit :=
  access (fun d => (match dir_get (d_segs d) dir with None => Thrown | Some _ => Ret tt end, put_in dir name content d))
         (fun cut d => put_in dir name (firstn cut content) d).
Definition write_root (name content : bytes) : io unit :=
  access (fun d => (Ret tt, set_root d (kv_put name content (d_root d))))
         (fun cut d => set_root d (kv_put name (firstn cut content) (d_root d))).
(** atomic_replace_no_overwrite, platform_fs.hpp 250-293 *)
Definition rename_dir (from to : bytes) : io unit :=
  access (fun d => match dir_get (d_segs d) from, dir_get (d_segs d) to with
                   | Some f, None => (Ret tt, set_segs d (dir_put (dir_del (d_segs d) from) to f))
                   | _, _ => (Thrown, d)
                   end) unchanged.
(** atomic_replace, platform_fs.hpp 223-238 *)
Definition rename_root (from to : bytes) : io unit :=
  access (fun d => match kv_get (d_root d) from with
                   | Some c => (Ret tt, set_root d (kv_put to c (kv_del from (d_root d))))
                   | None => (Thrown, d)
                   end) unchanged.
(** fsync_dir in try/catch: a failure is only logged, disk_flat_builder.hpp
    270-274, disk_collection.hpp 960-965 *)
Definition sync_quietly : io unit := fun env d =>
  match env with
  | Crashes _ :: r => (Crashed, r, d)
  | _ :: r => (Ret tt, r, d)
  | [] => (Ret tt, [], d)
  end.
(** fsync_dir, disk_flat_builder.hpp 69-73 *)
Definition sync_dir : io unit := access (fun d => (Ret tt, d)) unchanged.
(** ~TmpDirGuard, disk_flat_builder.hpp 83-88: remove_all, its error ignored *)
Definition remove_dir (dir : bytes) : io unit := fun env d =>
  match env with
  | [] => (Ret tt, [], set_segs d (dir_del (d_segs d) dir))
  | Good :: r => (Ret tt, r, set_segs d (dir_del (d_segs d) dir))
  | Fails _ :: r => (Ret tt, r, d)
  | Crashes _ :: r => (Crashed, r, d)
  end.
(** TmpDirGuard, 80-102, disarmed when the body ends normally *)
Definition guarded {A} (dir : bytes) (body : io A) : io A := fun env d =>
  match body env d with
  | (Thrown, env', d') => (do _ <- remove_dir dir; throw) env' d'
  | r => r
  end.

(** ** Building a segment *)

(** What the floating point arithmetic and the graph construction give:
    the normalized vector under COS (disk_flat_builder.hpp 200-226, throws for a
    vector without direction), the bytes of graph.index
    (vamana_segment_builder.hpp 155-170) and whether VamanaReader accepts them *)
Record extern := {
  x_normalize : list N -> res (list N);
  x_graph : vparams -> list row -> res bytes;
  x_graph_loads : bytes -> bool;
}.
(** is_finite_f32, disk_flat_builder.hpp 51 *)
Definition is_finite_f32 (b : N) : bool := negb (N.eqb (N.land b 2139095040) 2139095040).
(** The loop of add_batch, disk_flat_builder.hpp 136-155, vamana_segment_builder.hpp 84-101 *)
Definition all_finite (rows : list row) : bool := forallb (fun r => forallb is_finite_f32 (snd r)) rows.
(** labels_ and vectors_ as written, disk_flat_builder.hpp 195-197, 233-236 *)
Definition ids_bytes (rows : list row) : bytes := concat (map (fun r => le_enc 8 (fst r)) rows).
Definition vectors_bytes (rows : list row) : bytes := concat (map (fun r => concat (map (le_enc 4) (snd r))) rows).
(** The loop over the rows, disk_flat_builder.hpp 202-226 *)
Fixpoint normalize_all (x : extern) (rows : list row) : res (list row) :=
  match rows with
  | [] => Ok []
  | (l, v) :: r => let* v' := x_normalize x v in let* r' := normalize_all x r in Ok ((l, v') :: r')
  end.
(** The rows written to vectors.f32.bin *)
Definition stored_rows (x : extern) (m : metric) (rows : list row) : res (list row) :=
  match m with COS => normalize_all x rows | _ => Ok rows end.
Definition ids_name : bytes := str "ids.u64.bin".
Definition vectors_name : bytes := str "vectors.f32.bin".
Definition graph_name : bytes := str "graph.index".
Definition manifest_name : bytes := str "manifest.txt".
(** tmp_name, disk_flat_builder.hpp 183-186; [stamp]: process id and time *)
Definition tmp_segment (name stamp : bytes) : bytes := str ".tmp_" ++ name ++ str "_" ++ stamp.
(** The manifest of a segment, disk_flat_builder.hpp 239-247, vamana_segment_builder.hpp 173-187 *)
Definition segment_extras (t : index_type) (v : vparams) : kv :=
  match t with
  | Vamana => kv_put (str "x_seed") (dec (v_seed v)) (kv_put (str "x_L") (dec (v_L v))
                (kv_put (str "x_R") (dec (v_R v)) (kv_put (str "x_graph_file") graph_name [])))
  | _ => []
  end.
Definition segment_manifest (t : index_type) (m : metric) (dim : N) (v : vparams) (name : bytes) (rows : list row) : seg_manifest :=
  {| sm_version := k_manifest_version; sm_id := name; sm_type := t; sm_metric := m; sm_dim := dim; sm_count := N.of_nat (length rows);
     sm_ids := ids_name; sm_vectors := vectors_name; sm_extras := segment_extras t v |}.
(** DiskFlatBuilder::finish, disk_flat_builder.hpp 160-276 *)
Definition flat_finish (x : extern) (m : metric) (dim : N) (v : vparams) (rows : list row) (name stamp : bytes) : io unit :=
  if match rows with [] => true | _ => false end then throw else
  if negb (is_valid_segment_id name) then throw else
  do e <- dir_exists name;
  if e : bool then throw else
  let tmp := tmp_segment name stamp in
  do _ <- mk_dir tmp;
  do _ <- guarded tmp (
    do _ <- write_in tmp ids_name (ids_bytes rows);
    do stored <- lift (stored_rows x m rows);
    do _ <- write_in tmp vectors_name (vectors_bytes stored);
    do text <- lift (sm_save (segment_manifest Flat m dim v name rows));
    do _ <- write_in tmp manifest_name text;
    rename_dir tmp name);
  sync_quietly.
(** VamanaSegmentBuilder::finish, vamana_segment_builder.hpp 106-205 *)
Definition vamana_finish (x : extern) (m : metric) (dim : N) (v : vparams) (rows : list row) (name stamp : bytes) : io unit :=
  if match m with L2 => false | _ => true end then throw else
  if match rows with [] => true | _ => false end then throw else
  if negb (is_valid_segment_id name) then throw else
  do e <- dir_exists name;
  if e : bool then throw else
  let tmp := tmp_segment name stamp in
  do t <- dir_exists tmp;
  if t : bool then throw else
  do _ <- mk_dir tmp;
  do _ <- guarded tmp (
    do _ <- write_in tmp ids_name (ids_bytes rows);
    do _ <- write_in tmp vectors_name (vectors_bytes rows);
    do graph <- lift (x_graph x v rows);
    do _ <- write_in tmp graph_name graph;
    do text <- lift (sm_save (segment_manifest Vamana m dim v name rows));
    do _ <- write_in tmp manifest_name text;
    do _ <- sync_dir;
    rename_dir tmp name);
  sync_quietly.

(** ** Opening a segment *)

(** [k] pieces of [n] bytes: the arrays behind the mapped files *)
Fixpoint pieces (n k : nat) (l : bytes) : list bytes :=
  match k with O => [] | S k' => firstn n l :: pieces n k' (skipn n l) end.
Definition rows_of (count dim : nat) (ids vectors : bytes) : list row :=
  combine (map le_dec (pieces 8 count ids)) (map (fun v => map le_dec (pieces 4 dim v)) (pieces (4 * dim) count vectors)).
(** DiskFlatSegmentSearcher, disk_flat_searcher.hpp 76-108, and
    VamanaSegmentSearcher, vamana_segment_searcher.hpp 65-160 (which reads the
    vectors first) *)
Definition open_searcher (x : extern) (t : index_type) (dir : bytes) : io searcher :=
  do text <- read_in dir manifest_name;
  do m <- lift (sm_load text);
  if negb (match sm_type m, t with Flat, Flat | Vamana, Vamana => true | _, _ => false end) then throw else
  if N.leb (2 ^ 64) (sm_count m * sm_dim m * 4) then throw else
  if N.leb (2 ^ 64) (sm_count m * 8) then throw else
  if N.leb (2 ^ 32) (sm_dim m) then throw else
  if match t with Vamana => N.leb (2 ^ 32) (sm_count m) || match sm_metric m with L2 => false | _ => true end | _ => false end then throw else
  do ids <- read_in dir (sm_ids m);
  do vectors <- read_in dir (sm_vectors m);
  if negb (N.eqb (N.of_nat (length ids)) (sm_count m * 8)) then throw else
  if negb (N.eqb (N.of_nat (length vectors)) (sm_count m * sm_dim m * 4)) then throw else
  let s := {| sr_type := t; sr_rows := rows_of (N.to_nat (sm_count m)) (N.to_nat (sm_dim m)) ids vectors |} in
  match t with
  | Vamana =>
      match kv_get (sm_extras m) (str "x_graph_file") with
      | None => throw
      | Some g => if negb (is_valid_basename g) then throw
                  else do graph <- read_in dir g; if x_graph_loads x graph then ret s else throw
      end
  | _ => ret s
  end.
(** load_segment_from_manifest, segment_factory.hpp 232-262 *)
Definition load_segment (x : extern) (dir : bytes) : io searcher :=
  do text <- read_in dir manifest_name;
  do m <- lift (sm_load text);
  match sm_type m with Laser => throw | t => open_searcher x t dir end.
(** create_segment_from_pending, segment_factory.hpp 168-222, with the builders'
    add_batch, disk_flat_builder.hpp 119-158, vamana_segment_builder.hpp 64-104 *)
Definition create_segment (x : extern) (cm : coll_manifest) (v : vparams) (rows : list row) (name stamp : bytes) : io searcher :=
  match cm_type cm with
  | Laser => throw
  | t =>
      if match t with Vamana => Nat.ltb (length rows) 2 | _ => false end then throw else
      if N.leb (2 ^ 64) (N.of_nat (length rows) * cm_dim cm) then throw else
      if negb (all_finite rows) then throw else
      do _ <- match t with Vamana => vamana_finish | _ => flat_finish end x (cm_metric cm) (cm_dim cm) v rows name stamp;
      open_searcher x t name
  end.
(** load_segment_ids_view, disk_collection.hpp 503-530, as a list *)
Definition segment_ids (dir : bytes) : io (list N) :=
  do text <- read_in dir manifest_name;
  do m <- lift (sm_load text);
  do ids <- read_in dir (sm_ids m);
  if negb (N.eqb (N.of_nat (length ids)) ((sm_count m * 8) mod 2 ^ 64)) then throw
  else ret (map le_dec (pieces 8 (N.to_nat (sm_count m)) ids)).

(** ** The collection *)

Definition manifest_file : bytes := str "collection_manifest.txt".
(** publish_collection_manifest_atomic_only, disk_collection.hpp 82-91 *)
Definition publish (m : coll_manifest) (stamp : bytes) : io unit :=
  do text <- lift (cm_save m);
  let tmp := str ".tmp_collection_manifest_" ++ stamp in
  do _ <- write_root tmp text;
  rename_root tmp manifest_file.
(** std::stoull of the text of an extension: blanks, a sign, digits; the whole
    text must be read and the value fit into 64 bits *)
Definition is_space (c : N) : bool := N.eqb c 32 || (N.leb 9 c && N.leb c 13).
Fixpoint skip_space (l : bytes) : bytes := match l with c :: r => if is_space c then skip_space r else l | [] => [] end.
Definition stoull (l : bytes) : res N :=
  let digits neg ds := match ds with
                       | [] => Throws
                       | _ => match digits_val 0 ds with
                              | None => Throws
                              | Some n => if N.ltb n (2 ^ 64) then Ok (if neg : bool then (2 ^ 64 - n) mod 2 ^ 64 else n) else Throws
                              end
                       end in
  match skip_space l with
  | [] => Throws
  | c :: r => if N.eqb c 45 then digits true r else if N.eqb c 43 then digits false r else digits false (c :: r)
  end.
(** parse_u32_extra, parse_u64_extra, disk_collection.hpp 532-571 *)
Definition extra_u64 (m : coll_manifest) (key : string) (fallback : N) : res N :=
  match kv_get (cm_extras m) (str key) with None => Ok fallback | Some v => stoull v end.
Definition extra_u32 (m : coll_manifest) (key : string) (fallback : N) : res N :=
  match kv_get (cm_extras m) (str key) with
  | None => Ok fallback
  | Some v => let* n := stoull v in if N.ltb n (2 ^ 32) then Ok n else Throws
  end.
(** kDefaultMaxPendingBytes, 682, and the defaults of VamanaSegmentBuildParams *)
Definition default_max_pending : N := 512 * 1024 * 1024.
Definition default_vparams : vparams := {| v_R := 64; v_L := 200; v_threads := 0; v_seed := 1234 |}.
(** load_vamana_params_from_manifest, 601-610 *)
Definition load_vparams (m : coll_manifest) : res vparams :=
  let* r := extra_u32 m "x_vamana_R" 64 in
  let* l := extra_u32 m "x_vamana_L" 200 in
  let* s := extra_u32 m "x_vamana_seed" 1234 in
  let* t := extra_u32 m "x_vamana_num_threads" 0 in
  Ok {| v_R := r; v_L := l; v_threads := t; v_seed := s |}.
(** validate_vamana_params, 612-626 *)
Definition vparams_ok (v : vparams) : bool := negb (N.eqb (v_R v) 0) && negb (N.eqb (v_L v) 0) && negb (N.ltb (v_L v) (v_R v)).
(** store_vamana_params_in_manifest, store_max_pending_bytes_in_manifest, 637-649 *)
Definition collection_extras (t : index_type) (max_pending : N) (v : vparams) : kv :=
  let x := kv_put (str "x_max_pending_bytes") (dec max_pending) [] in
  match t with
  | Vamana => kv_put (str "x_vamana_num_threads") (dec (v_threads v)) (kv_put (str "x_vamana_seed") (dec (v_seed v))
                (kv_put (str "x_vamana_L") (dec (v_L v)) (kv_put (str "x_vamana_R") (dec (v_R v)) x)))
  | _ => x
  end.
(** The arguments of the constructor *)
Record config := { g_dim : N; g_metric : metric; g_type : index_type; g_max_pending : N; g_vamana : vparams }.
(** The constructor, 685-776, on a path that does not exist: the new object *)
Definition create (g : config) (stamp : bytes) : io coll :=
  if N.eqb (g_dim g) 0 then throw else
  if match g_metric g with NONE => true | _ => false end then throw else
  if match g_type g with Laser => true | _ => false end then throw else
  if match g_type g with Vamana => negb (vparams_ok (g_vamana g)) | _ => false end then throw else
  let m := {| cm_version := k_manifest_version; cm_dim := g_dim g; cm_metric := g_metric g; cm_type := g_type g; cm_next := 1;
              cm_segments := []; cm_extras := collection_extras (g_type g) (g_max_pending g) (g_vamana g) |} in
  do _ <- publish m stamp;
  do _ <- sync_quietly;
  ret {| c_manifest := m; c_segments := []; c_dirs := []; c_pending := []; c_max_pending := g_max_pending g; c_vamana := g_vamana g |}.
(** open_listed_segments, 1254-1269 *)
Fixpoint open_listed (x : extern) (ids : list bytes) : io (list searcher) :=
  match ids with
  | [] => ret []
  | id :: r => do s <- load_segment x id; do ss <- open_listed x r; ret (s :: ss)
  end.
(** The loop of scan_orphans, 1279-1302: max_on_disk *)
Fixpoint max_on_disk (names : list bytes) (m : N) : N :=
  match names with
  | [] => m
  | name :: r =>
      if starts_with (str ".tmp_") name then max_on_disk r m
      else if negb (is_valid_segment_id name) then max_on_disk r m
      else max_on_disk r (N.max m (match segment_number name with Some n => n | None => 0 end))
  end.
(** The names the directory iterator gives; when it fails the loop ends early *)
Definition list_names : io (list bytes) := fun env d =>
  let names := map fst (d_segs d) in
  match env with
  | [] => (Ret names, [], d)
  | Good :: r => (Ret names, r, d)
  | Fails cut :: r => (Ret (firstn cut names), r, d)
  | Crashes _ :: r => (Crashed, r, d)
  end.
Definition set_next (m : coll_manifest) (n : N) : coll_manifest :=
  {| cm_version := cm_version m; cm_dim := cm_dim m; cm_metric := cm_metric m; cm_type := cm_type m; cm_next := n;
     cm_segments := cm_segments m; cm_extras := cm_extras m |}.
(** scan_orphans, 1271-1306 *)
Definition scan_orphans (m : coll_manifest) : io coll_manifest :=
  do names <- list_names;
  let on_disk := max_on_disk names 0 in
  ret (if N.ltb (cm_next m) (on_disk + 1) then set_next m (on_disk + 1) else m).
(** open, 778-818 *)
Definition open_collection (x : extern) : io coll :=
  do text <- read_root manifest_file;
  do m <- lift (cm_load text);
  match cm_type m with
  | Laser => throw
  | t =>
      do cap <- lift (extra_u64 m "x_max_pending_bytes" default_max_pending);
      do v <- lift (match t with
                    | Vamana => let* v := load_vparams m in
                                if match cm_metric m with L2 => negb (vparams_ok v) | _ => true end then Throws else Ok v
                    | _ => Ok default_vparams
                    end);
      do segments <- open_listed x (cm_segments m);
      do m' <- scan_orphans m;
      ret {| c_manifest := m'; c_segments := segments; c_dirs := cm_segments m; c_pending := []; c_max_pending := cap; c_vamana := v |}
  end.

Definition set_pending (c : coll) (rows : list row) : coll :=
  {| c_manifest := c_manifest c; c_segments := c_segments c; c_dirs := c_dirs c; c_pending := rows; c_max_pending := c_max_pending c; c_vamana := c_vamana c |}.
(** add_batch, 824-882.  The sums are below 2^64 where they are used: 2 * (current
    + n) * per_row is checked. *)
Definition add_batch (c : coll) (rows : list row) : res coll :=
  match cm_type (c_manifest c) with
  | Laser => Throws
  | _ =>
      match rows with
      | [] => Ok c
      | _ =>
          let per_row := cm_dim (c_manifest c) * 4 + 8 in
          let n := N.of_nat (length rows) in
          if N.leb (2 ^ 64) (2 * n * per_row) then Throws else
          if N.ltb (c_max_pending c) (2 * n * per_row) then Throws else
          let total := 2 * (N.of_nat (length (c_pending c)) + n) * per_row in
          if N.leb (2 ^ 64) total then Throws else
          if N.ltb (c_max_pending c) total then Throws else
          Ok (set_pending c (c_pending c ++ rows))
      end
  end.
(** The set of flush, 888-897: inserting a label twice throws *)
Fixpoint no_repeats (l : list N) : bool :=
  match l with [] => true | a :: r => negb (existsb (N.eqb a) r) && no_repeats r end.
(** The loop over the segments, 902-912 *)
Fixpoint no_clash (dirs : list bytes) (pending : list N) : io unit :=
  match dirs with
  | [] => ret tt
  | dir :: r =>
      do ids <- segment_ids dir;
      if existsb (fun id => existsb (N.eqb id) pending) ids then throw else no_clash r pending
  end.
(** A call on the object: throwing keeps what the object has become by then *)
Definition call : Type := list event -> disk -> out unit * list event * disk * coll.
(** flush, 884-966 *)
Definition flush (x : extern) (stamp1 stamp2 : bytes) (c : coll) : call := fun env d =>
  match c_pending c with
  | [] => (Ret tt, env, d, c)
  | rows =>
      let m := c_manifest c in
      let seg_id := cm_next m in
      let name := format_segment_id seg_id in
      let build : io searcher :=
        if negb (no_repeats (map fst rows)) then throw else
        do _ <- no_clash (c_dirs c) (map fst rows);
        if match cm_type m with Vamana => Nat.ltb (length rows) 2 | _ => false end then throw else
        create_segment x m (c_vamana c) rows name stamp1 in
      match build env d with
      | (Thrown, env', d') => (Thrown, env', d', c)
      | (Crashed, env', d') => (Crashed, env', d', c)
      | (Ret s, env', d') =>
          (* the next id is taken before the manifest is published, 937 *)
          let m1 := set_next m (seg_id + 1) in
          let c1 := {| c_manifest := m1; c_segments := c_segments c; c_dirs := c_dirs c; c_pending := rows;
                       c_max_pending := c_max_pending c; c_vamana := c_vamana c |} in
          let new_manifest := {| cm_version := cm_version m1; cm_dim := cm_dim m1; cm_metric := cm_metric m1; cm_type := cm_type m1;
                                 cm_next := seg_id + 1; cm_segments := cm_segments m1 ++ [name]; cm_extras := cm_extras m1 |} in
          match publish new_manifest stamp2 env' d' with
          | (Thrown, env2, d2) => (Thrown, env2, d2, c1)
          | (Crashed, env2, d2) => (Crashed, env2, d2, c1)
          | (Ret _, env2, d2) =>
              let c2 := {| c_manifest := new_manifest; c_segments := c_segments c ++ [s]; c_dirs := c_dirs c ++ [name]; c_pending := [];
                           c_max_pending := c_max_pending c; c_vamana := c_vamana c |} in
              let '(o, env3, d3) := sync_quietly env2 d2 in (o, env3, d3, c2)
          end
      end
  end.

(** ** Histories *)

(** What a user does: add rows, flush, or close (in whatever state) and open *)
Inductive op := Add (rows : list row) | Flush (stamp1 stamp2 : bytes) | Reopen.
Inductive result := Returned | Threw | Died | NotOpen.
Definition result_of {A} (o : out A) : result := match o with Ret _ => Returned | Thrown => Threw | Crashed => Died end.
(** The disk, and the object if there is one *)
Notation session := (disk * option coll)%type.
Definition step (x : extern) (s : session) (o : op) (env : list event) : result * session :=
  match o, s with
  | Reopen, (d, _) =>
      match open_collection x env d with
      | (Ret c, _, d') => (Returned, (d', Some c))
      | (o, _, d') => (result_of o, (d', None))
      end
  | _, (d, None) => (NotOpen, s)
  | Add rows, (d, Some c) =>
      match add_batch c rows with Ok c' => (Returned, (d, Some c')) | _ => (Threw, s) end
  | Flush stamp1 stamp2, (d, Some c) =>
      match flush x stamp1 stamp2 c env d with
      | (Crashed, _, d', _) => (Died, (d', None))
      | (o, _, d', c') => (result_of o, (d', Some c'))
      end
  end.
Fixpoint run (x : extern) (s : session) (h : list (op * list event)) : list (op * result) * session :=
  match h with
  | [] => ([], s)
  | (o, env) :: r => let (res, s') := step x s o env in let (rs, s'') := run x s' r in ((o, res) :: rs, s'')
  end.
(** The rows a search goes through *)
Definition searched (c : coll) : list row := concat (map sr_rows (c_segments c)).
(** size(), 1233-1239 *)
Definition coll_size (c : coll) : N := fold_right N.add 0 (map (fun s => N.of_nat (length (sr_rows s))) (c_segments c)).
