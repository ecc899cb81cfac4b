(** How the updatable disk index keeps its cache of node records in step with
    the disk: include/index/graph/diskann/diskann_index.hpp.

    A node's record on a page is its coordinates and neighbours.  The update
    page cache is represented by what a read of it returns, the latest write
    (C42), in [pages], which the cache of coordinates agrees with; [disk] is
    what the device holds.  Labels, slots, PQ codes
    and the other files are left out; an update is one step, as the updates are
    serialized and a record is published at once (see NodeCacheModel). *)
From Verif Require Export NodeCacheModel.
Local Open Scope N_scope.

Definition node : Type := (list N * list N)%type.
Record mirror := { mi_disk : N -> option node; mi_pages : N -> option node; mi_cache : node_cache; mi_files : bytes * bytes }.
Definition put_node (f : N -> option node) (id : N) (e : node) (x : N) : option node := if N.eqb x id then Some e else f x.

(** The read of a node by a search, beam_search.hpp:232-254 (and 308-330,
    392-414, 566-590, 637-660): the cached record, else the page if the page
    cache has it ([peek]), else the disk *)
Definition search_read (dim : N) (st : mirror) (peek : bool) (x : N) : res (option node) :=
  let* r := lookup_record (mi_cache st) x in
  match r with
  | Some rec => let* e := view_record rec dim in Ok (Some e)
  | None => Ok (if peek then mi_pages st x else mi_disk st x)
  end.

(** write_inserted_node, 1690-1695 *)
Definition write_inserted_node (st : mirror) (slot : N) (query nbrs : list N) : res mirror :=
  let* c := upsert_node (mi_cache st) slot query nbrs in
  Ok {| mi_disk := mi_disk st; mi_pages := put_node (mi_pages st) slot (query, nbrs); mi_cache := c; mi_files := mi_files st |}.
(** mirror_neighbors_to_cache, 1923-1938; read_coords_cached reads the page *)
Definition mirror_neighbors (dim : N) (c : node_cache) (page : node) (id : N) (nbrs : list N) : res node_cache :=
  let* r := lookup_record c id in
  match r with
  | Some rec =>
      let* cb := read_at rec 0 (dim * 4) in
      let* (coords, _) := read_u32s (N.to_nat dim) cb in
      upsert_node c id coords nbrs
  | None => upsert_node c id (fst page) nbrs
  end.
(** The write of prune_and_write, 1908-1913.  Only nodes that exist are
    relinked; for others nothing happens here. *)
Definition relink (dim : N) (st : mirror) (id : N) (nbrs : list N) : res mirror :=
  match mi_pages st id with
  | None => Ok st
  | Some page =>
      let pages := put_node (mi_pages st) id (fst page, nbrs) in
      let* c := mirror_neighbors dim (mi_cache st) page id nbrs in
      Ok {| mi_disk := mi_disk st; mi_pages := pages; mi_cache := c; mi_files := mi_files st |}
  end.
(** The page cache writes a dirty page to the device when it needs the room;
    [ids] are the nodes on it *)
Definition write_back (st : mirror) (ids : list N) : mirror :=
  {| mi_disk := fun x => if existsb (N.eqb x) ids then mi_pages st x else mi_disk st x; mi_pages := mi_pages st; mi_cache := mi_cache st; mi_files := mi_files st |}.
(** flush_pages, 1012-1020 *)
Definition flush_pages (st : mirror) : mirror :=
  {| mi_disk := mi_pages st; mi_pages := mi_pages st; mi_cache := drop_disk_backed (mi_cache st); mi_files := mi_files st |}.
(** flush, 1023-1054: of the files, those of the cache *)
Definition flush (st : mirror) : res mirror :=
  let st1 := flush_pages st in
  let* files := nc_save (mi_cache st1) in
  Ok {| mi_disk := mi_disk st1; mi_pages := mi_pages st1; mi_cache := mi_cache st1; mi_files := files |}.
(** load, 336-337: what a new process finds, after the old one was closed or
    died; dirty pages are gone *)
Definition reopen (dim degree : N) (st : mirror) : res mirror :=
  let* c1 := nc_load nc_new (fst (mi_files st)) (snd (mi_files st)) in
  let* c := configure_geometry c1 dim degree in
  Ok {| mi_disk := mi_disk st; mi_pages := mi_disk st; mi_cache := c; mi_files := mi_files st |}.
