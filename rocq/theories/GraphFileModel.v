(** Graph files: save_graph (include/index/graph/vamana/vamana_writer.hpp:33-72),
    VamanaReader (include/index/graph/vamana/vamana_reader.hpp:59-217), read_idmap
    and merge_shards (include/index/graph/vamana/shard_merger.hpp:31-52, 179-378).
    Files are byte strings; opening, creating directories and I/O errors other
    than short reads are left out. *)
From Verif Require Export ScalarDataModel.

(** An array of uint32_t in memory. *)
Definition u32s (l : list N) : bytes := flat_map (le_enc 4) l.
(** ** save_graph *)
(** One record, vamana_writer.hpp:54-59: k is the size cast to uint32_t *)
Definition degree (adj : list N) : N := (N.of_nat (length adj) mod 2 ^ 32)%N.
Definition save_record (adj : list N) : bytes := le_enc 4 (degree adj) ++ u32s (firstn (N.to_nat (degree adj)) adj).
(** index_size, 44, 60 *)
Definition index_size (graph : list (list N)) : N := fold_left (fun n adj => n + 4 * (degree adj + 1))%N graph 24%N.
(** The file; the size at its start is patched in the end, 63-65 *)
Definition save_graph (graph : list (list N)) (max_degree start frozen_pts : N) : bytes :=
  le_enc 8 (index_size graph) ++ le_enc 4 max_degree ++ le_enc 4 start ++ le_enc 8 frozen_pts ++ flat_map save_record graph.

(** ** VamanaReader *)
Definition read_u32 (inp : bytes) : res (N * bytes) :=
  match take_bytes 4 inp with Some (b, r) => Ok (le_dec b, r) | None => Throws end.
Definition read_u64 (inp : bytes) : res (N * bytes) :=
  match take_bytes 8 inp with Some (b, r) => Ok (le_dec b, r) | None => Throws end.
Fixpoint read_u32s (n : nat) (inp : bytes) : res (list N * bytes) :=
  match n with
  | O => Ok ([], inp)
  | S n' => let* (x, r) := read_u32 inp in let* (xs, r') := read_u32s n' r in Ok (x :: xs, r')
  end.
(** The per-node loop, vamana_reader.hpp:130-177.  The file size was checked
    against expected_file_size_, so the byte budget is what is left of the
    input; [fuel] is the number of bytes. *)
Fixpoint read_records (fuel : nat) (max_degree : N) (inp : bytes) : res (list (list N)) :=
  match fuel with
  | O => Ok []
  | S fuel' =>
      match inp with
      | [] => Ok []
      | _ =>
          if Nat.ltb (length inp) 4 then Throws
          else let* (k, r) := read_u32 inp in
               if N.eqb k 0 then Throws
               else if N.ltb max_degree k then Throws
               else if N.ltb (N.of_nat (length r)) (4 * k) then Throws
               else let* (adj, r') := read_u32s (N.to_nat k) r in
                    let* rest := read_records fuel' max_degree r' in Ok (adj :: rest)
      end
  end.
(** Range and self-loop checks, 199-213 *)
Definition row_fine (n : nat) (i : nat) (adj : list N) : bool :=
  forallb (fun v => N.ltb v (N.of_nat n) && negb (N.eqb v (N.of_nat i mod 2 ^ 32))) adj.
Fixpoint rows_fine (n : nat) (i : nat) (rows : list (list N)) : bool :=
  match rows with [] => true | adj :: rows' => row_fine n i adj && rows_fine n (S i) rows' end.
Record graph_data := { gd_rows : list (list N); gd_max_degree : N; gd_start : N }.
(** The constructor, 59-220 *)
Definition load_graph (file : bytes) : res graph_data :=
  if Nat.ltb (length file) 24 then Throws
  else let* (expected, r1) := read_u64 file in
       let* (max_degree, r2) := read_u32 r1 in
       let* (start, r3) := read_u32 r2 in
       let* (frozen, r4) := read_u64 r3 in
       if negb (N.eqb (N.of_nat (length file)) expected) then Throws
       else if N.eqb max_degree 0 then Throws
       else if negb (N.eqb frozen 0) then Throws
       else let* rows := read_records (length r4) max_degree r4 in
            match rows with
            | [] => Throws
            | _ => if negb (rows_fine (length rows) 0 rows) then Throws
                   else if N.leb (N.of_nat (length rows)) start then Throws
                   else Ok {| gd_rows := rows; gd_max_degree := max_degree; gd_start := start |}
            end.

(** ** read_idmap, shard_merger.hpp:31-52; trailing bytes are ignored *)
Definition read_idmap (file : bytes) : res (list N) :=
  let* (count, r1) := read_u32 file in
  let* (stride, r2) := read_u32 r1 in
  if negb (N.eqb stride 1) then Throws
  else if N.ltb (N.of_nat (length r2)) (4 * count) then Throws
  else let* (ids, _) := read_u32s (N.to_nat count) r2 in Ok ids.

(** ** merge_shards *)
(** idmaps[s], shard_cursor[s] and readers[s]; [None]: the stream has failed *)
Record shard := { sh_map : list N; sh_cur : nat; sh_in : option bytes }.
(** std::is_sorted, 211 *)
Fixpoint is_sorted (l : list N) : bool :=
  match l with x :: ((y :: _) as l') => negb (N.ltb y x) && is_sorted l' | _ => true end.
(** readers[s].read of k neighbours, 295-298: the result is not checked; what
    could not be read stays 0, and the stream fails *)
Definition read_neighbors (k : N) (inp : bytes) : list N * option bytes :=
  let want := N.to_nat (4 * k) in
  if Nat.leb want (length inp) then
    match read_u32s (N.to_nat k) inp with Ok (l, r) => (l, Some r) | _ => ([], None) end
  else match read_u32s (N.to_nat k) (inp ++ repeat 0%N (want - length inp)) with Ok (l, _) => (l, None) | _ => ([], None) end.
(** The loop over local_nbrs, 299-312; [seen] always holds what [nhood] holds *)
Fixpoint add_neighbors (map_ : list N) (gid : N) (local : list N) (nhood : list N) : res (list N) :=
  match local with
  | [] => Ok nhood
  | l :: rest =>
      match nth_error map_ (N.to_nat l) with
      | None => Throws
      | Some g =>
          if N.eqb g gid then add_neighbors map_ gid rest nhood
          else if existsb (N.eqb g) nhood then add_neighbors map_ gid rest nhood
          else add_neighbors map_ gid rest (nhood ++ [g])
      end
  end.
(** One shard in the loop of 278-316 *)
Definition merge_shard (gid : N) (sh : shard) (nhood : list N) : res (shard * list N) :=
  match nth_error (sh_map sh) (sh_cur sh) with
  | None => Ok (sh, nhood)
  | Some g =>
      if negb (N.eqb g gid) then Ok (sh, nhood)
      else match sh_in sh with
           | None => Throws
           | Some inp =>
               let* (k, r) := read_u32 inp in
               let '(local, rest) := if N.eqb k 0 then ([], Some r) else read_neighbors k r in
               let* nhood' := add_neighbors (sh_map sh) gid local nhood in
               Ok ({| sh_map := sh_map sh; sh_cur := S (sh_cur sh); sh_in := rest |}, nhood')
           end
  end.
Fixpoint merge_node (gid : N) (shards : list shard) (nhood : list N) : res (list shard * list N) :=
  match shards with
  | [] => Ok ([], nhood)
  | sh :: rest =>
      let* (sh', n1) := merge_shard gid sh nhood in
      let* (rest', n2) := merge_node gid rest n1 in
      Ok (sh' :: rest', n2)
  end.
(** The loop over gid, 267-331: the rows written.  [shuffle gid] is what
    std::shuffle does to the list of that iteration.  (gid is a uint32_t; N is
    at most 2^32, where the loop would not end: not modelled.) *)
Fixpoint merge_rows (shuffle : N -> list N -> list N) (R : N) (gid : N) (n : nat) (shards : list shard) : res (list (list N)) :=
  match n with
  | O => Ok []
  | S n' =>
      let* (shards', nhood) := merge_node gid shards [] in
      let* rest := merge_rows shuffle R (gid + 1) n' shards' in
      Ok (firstn (N.to_nat (N.min (N.of_nat (length nhood)) R)) (shuffle gid nhood) :: rest)
  end.
(** Opening one shard, 228-251: its medoid (bytes 12 to 15) as a global id *)
Definition open_shard (graph_file : bytes) (map_ : list N) : res (N * shard) :=
  let* (m, _) := read_u32 (skipn 12 graph_file) in
  match nth_error map_ (N.to_nat m) with
  | None => Throws
  | Some g => Ok (g, {| sh_map := map_; sh_cur := 0; sh_in := Some (skipn 24 graph_file) |})
  end.
Fixpoint read_idmaps (files : list bytes) : res (list (list N)) :=
  match files with
  | [] => Ok []
  | f :: fs => let* m := read_idmap f in
               if negb (is_sorted m) then Throws else let* ms := read_idmaps fs in Ok (m :: ms)
  end.
Fixpoint open_shards (files : list bytes) (maps : list (list N)) : res (list N * list shard) :=
  match files, maps with
  | f :: fs, m :: ms => let* (g, sh) := open_shard f m in let* (gs, shs) := open_shards fs ms in Ok (g :: gs, sh :: shs)
  | _, _ => Ok ([], [])
  end.
(** N, 199-216 *)
Definition node_count (maps : list (list N)) : N := (fold_left N.max (concat maps) 0 + 1)%N.
(** merge_shards, 179-378: the merged file and the medoids file (339-357) *)
Definition merge_shards (shuffle : N -> list N -> list N) (graph_files idmap_files : list bytes) (R medoid frozen_pts : N) : res (bytes * bytes) :=
  if Nat.eqb (length graph_files) 0 || negb (Nat.eqb (length idmap_files) (length graph_files)) then Throws
  else let* maps := read_idmaps idmap_files in
       let* (medoids, shards) := open_shards graph_files maps in
       let* rows := merge_rows shuffle R 0 (N.to_nat (node_count maps)) shards in
       Ok (save_graph rows R medoid frozen_pts,
           le_enc 4 (N.of_nat (length graph_files) mod 2 ^ 32) ++ le_enc 4 1 ++ u32s medoids).
