(** The cache of node records, include/index/graph/diskann/node_cache.hpp.

    A float is its 32 bits and files are byte strings, as in LayoutModel; null
    pointers, failing to open or write a file and running out of memory are
    left out.  The overrides are sharded by node id modulo 64, each shard with
    its lock (389-413); an id has one shard, so they are one map here, and
    every operation is one step.  Overrides are never changed once published
    (shared_ptr to const), so a reader keeps a complete record. *)
From Verif Require Export LayoutModel PoolModel.
Local Open Scope N_scope.

(** std::unordered_map: find and operator[]; the order of the entries is never
    looked at but in save, where the ids are sorted *)
Fixpoint nget {A} (m : list (N * A)) (k : N) : option A :=
  match m with [] => None | (k', v) :: rest => if N.eqb k k' then Some v else nget rest k end.
Fixpoint nput {A} (m : list (N * A)) (k : N) (v : A) : list (N * A) :=
  match m with [] => [(k, v)] | (k', v') :: rest => if N.eqb k k' then (k, v) :: rest else (k', v') :: nput rest k v end.

(** The members, 421-427 *)
Record node_cache := { nc_dim : N; nc_degree : N; nc_len : N; nc_ids : list N; nc_data : bytes; nc_map : list (N * N); nc_over : list (N * bytes) }.
Definition nc_new : node_cache := {| nc_dim := 0; nc_degree := 0; nc_len := 0; nc_ids := []; nc_data := []; nc_map := []; nc_over := [] |}.
Definition with_over (c : node_cache) (o : list (N * bytes)) : node_cache :=
  {| nc_dim := nc_dim c; nc_degree := nc_degree c; nc_len := nc_len c; nc_ids := nc_ids c; nc_data := nc_data c; nc_map := nc_map c; nc_over := o |}.

(** ** generate, 74-142 *)
(** The neighbours of a node put into the queue, 122-127 *)
Fixpoint push_neighbors (n : N) (visited : list bool) (queue row : list N) : res (list bool * list N) :=
  match row with
  | [] => Ok (visited, queue)
  | v :: rest =>
      if N.ltb v n then
        let* seen := aget visited v in
        if (seen : bool) then push_neighbors n visited queue rest
        else let* visited1 := aput visited v true in push_neighbors n visited1 (queue ++ [v]) rest
      else push_neighbors n visited queue rest
  end.
(** The breadth-first search, 112-128; [left] is target - ids_.size() *)
Fixpoint bfs (left : nat) (graph : list (list N)) (n : N) (visited : list bool) (queue : list N) : res (list N) :=
  match left, queue with
  | O, _ => Ok []
  | _, [] => Ok []
  | S k, u :: rest =>
      let* row := aget graph u in
      let* (visited1, queue1) := push_neighbors n visited rest row in
      let* ids := bfs k graph n visited1 queue1 in
      Ok (u :: ids)
  end.
(** The records, 133-141; [i] is the index of the first of [ids] *)
Fixpoint pack_all (g : geometry) (vectors : list N) (graph : list (list N)) (ids : list N) (i : N) (data : bytes) (m : list (N * N))
    : res (bytes * list (N * N)) :=
  match ids with
  | [] => Ok (data, m)
  | id :: rest =>
      let* row := aget graph id in
      let nbrs := firstn (Nat.min (N.to_nat (g_degree g)) (length row)) row in
      let* coords := floats_at vectors (id * g_dim g) (g_dim g) in
      let* data1 := pack_node_record data (i * g_len g) coords nbrs (N.of_nat (length nbrs)) (g_dim g) in
      pack_all g vectors graph rest (i + 1) data1 (nput m id (i * g_len g))
  end.
(** [want] is ceil(cache_ratio * num_points), 0 for a ratio that is not above 0 *)
Definition generate (graph : list (list N)) (vectors : list N) (medoid n dim max_degree want : N) : res node_cache :=
  if negb (N.eqb (N.of_nat (length graph)) n) then Throws
  else if N.eqb n 0 || N.eqb dim 0 then Throws
  else if N.leb n medoid then Throws
  else
    let* g := compute dim max_degree in
    let target := N.min want n in
    if N.eqb target 0 then
      Ok {| nc_dim := dim; nc_degree := max_degree; nc_len := g_len g; nc_ids := []; nc_data := []; nc_map := []; nc_over := [] |}
    else
      let* visited := aput (repeat false (N.to_nat n)) medoid true in
      let* ids := bfs (N.to_nat target) graph n visited [medoid] in
      let* (data, m) := pack_all g vectors graph ids 0 (repeat 0 (length ids * N.to_nat (g_len g))) [] in
      Ok {| nc_dim := dim; nc_degree := max_degree; nc_len := g_len g; nc_ids := ids; nc_data := data; nc_map := m; nc_over := [] |}.

(** ** Lookup *)
(** find_base_record, 381-387; the record is the node_len_ bytes at the pointer *)
Definition base_record (c : node_cache) (id : N) : res (option bytes) :=
  match nget (nc_map c) id with
  | None => Ok None
  | Some off => let* r := read_at (nc_data c) off (nc_len c) in Ok (Some r)
  end.
(** lookup_record, 271-281 *)
Definition lookup_record (c : node_cache) (id : N) : res (option bytes) :=
  match nget (nc_over c) id with Some r => Ok (Some r) | None => base_record c id end.

(** ** Persistence *)
(** std::sort, 158 *)
Fixpoint place_id (a : N) (l : list N) : list N :=
  match l with [] => [a] | b :: rest => if N.leb a b then a :: l else b :: place_id a rest end.
Definition sort_ids (l : list N) : list N := fold_right place_id [] l.
(** The overrides of nodes that have no base record, 149-158 *)
Definition extra_ids (c : node_cache) : list N :=
  List.filter (fun id => match nget (nc_map c) id with None => true | Some _ => false end) (map fst (nc_over c)).
(** 183-191 *)
Fixpoint save_records (c : node_cache) (ids : list N) : res bytes :=
  match ids with
  | [] => Ok []
  | id :: rest =>
      let* r := lookup_record c id in
      match r with
      | None => Throws
      | Some rec => let* b := read_at rec 0 (nc_len c) in let* out := save_records c rest in Ok (b ++ out)
      end
  end.
(** save, 147-196: cache_ids.bin and cache_nodes.bin *)
Definition nc_save (c : node_cache) : res (bytes * bytes) :=
  let ids := nc_ids c ++ sort_ids (extra_ids c) in
  let count := N.of_nat (length ids) in
  let* records := save_records c ids in
  Ok (le_enc 8 count ++ u32s ids, le_enc 8 count ++ le_enc 8 (nc_len c) ++ records).
(** 247-249 *)
Fixpoint index_ids (len : N) (ids : list N) (i : N) (m : list (N * N)) : list (N * N) :=
  match ids with [] => m | id :: rest => index_ids len rest (i + 1) (nput m id (w64 (i * len))) end.
(** load, 199-251.  A load that throws leaves the cache half changed; the
    callers drop it. *)
Definition nc_load (c : node_cache) (ids_file nodes_file : bytes) : res node_cache :=
  let* (count, r) := read_u64 ids_file in
  if N.ltb (N.of_nat (length r)) (count * 4) then Throws
  else
    let* (ids, _) := read_u32s (N.to_nat count) r in
    let* (count2, r) := read_u64 nodes_file in
    let* (len, r) := read_u64 r in
    if negb (N.eqb count2 count) then Throws
    else
      let size := w64 (count2 * len) in
      if N.ltb (N.of_nat (length r)) size then Throws
      else Ok {| nc_dim := nc_dim c; nc_degree := nc_degree c; nc_len := len; nc_ids := ids; nc_data := firstn (N.to_nat size) r;
                 nc_map := index_ids len ids 0 []; nc_over := [] |}.
(** configure_geometry, 253-262 *)
Definition configure_geometry (c : node_cache) (dim max_degree : N) : res node_cache :=
  let* g := compute dim max_degree in
  if negb (N.eqb (nc_len c) 0) && negb (N.eqb (nc_len c) (g_len g)) then Throws
  else Ok {| nc_dim := dim; nc_degree := max_degree; nc_len := g_len g; nc_ids := nc_ids c; nc_data := nc_data c; nc_map := nc_map c; nc_over := nc_over c |}.

(** ** Updates *)
(** validate_neighbors_input, 350-360 *)
Definition bad_neighbors (c : node_cache) (nbrs : list N) : bool :=
  N.eqb (nc_dim c) 0 || N.eqb (nc_len c) 0 || N.ltb (nc_degree c) (N.of_nat (length nbrs)).
(** upsert_node, 288-297, and make_record, 372-378 *)
Definition upsert_node (c : node_cache) (id : N) (coords nbrs : list N) : res node_cache :=
  if bad_neighbors c nbrs then Throws
  else
    let* fl := floats_at coords 0 (nc_dim c) in
    let* rec := pack_node_record (repeat 0 (N.to_nat (nc_len c))) 0 fl nbrs (N.of_nat (length nbrs)) (nc_dim c) in
    Ok (with_over c (nput (nc_over c) id rec)).
(** update_neighbors, 299-312 *)
Definition update_neighbors (c : node_cache) (id : N) (nbrs : list N) : res node_cache :=
  if bad_neighbors c nbrs then Throws
  else
    let* r := lookup_record c id in
    match r with
    | None => Ok c
    | Some rec =>
        let* cb := read_at rec 0 (nc_dim c * 4) in
        let* (coords, _) := read_u32s (N.to_nat (nc_dim c)) cb in
        upsert_node c id coords nbrs
    end.
(** drop_disk_backed_overrides, 319-330 *)
Definition drop_disk_backed (c : node_cache) : node_cache :=
  with_over c (List.filter (fun e => match nget (nc_map c) (fst e) with None => false | Some _ => true end) (nc_over c)).
(** size, 334-345 *)
Definition nc_size (c : node_cache) : N := N.of_nat (length (nc_ids c)) + N.of_nat (length (extra_ids c)).
