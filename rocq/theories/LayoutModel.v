(** The disk layout, include/index/graph/diskann/disk_layout.hpp:46-352.  A
    float is its 32 bits.  Files are byte strings; failing to open or write one
    is left out. *)
From Verif Require Export GraphFileModel StoreModel.
Local Open Scope N_scope.

Definition w64 (x : N) : N := x mod 2 ^ 64.
(** 47 *)
Definition kSectorLen : N := 4096.
(** DiskLayoutGeometry, 93-98 *)
Record geometry := { g_dim : N; g_degree : N; g_len : N; g_per : N; g_page : N }.
(** compute, 101-113.  A record length that wraps to 0 is divided by:
    undefined behaviour. *)
Definition compute (dim max_degree : N) : res geometry :=
  if N.eqb dim 0 then Throws
  else
    let len := w64 (w64 (dim * 4) + 4 + max_degree * 4) in
    if N.eqb len 0 then OutOfBounds
    else let per := N.max 1 (kSectorLen / len) in
         Ok {| g_dim := dim; g_degree := max_degree; g_len := len; g_per := per;
               g_page := w64 (w64 (per * len) + kSectorLen - 1) / kSectorLen * kSectorLen |}.
(** get_page_offset, 116-118 *)
Definition page_offset (g : geometry) (node : N) : N := w64 (kSectorLen + w64 (g_page g * (node / g_per g))).
(** offset_to_node, 121-123 *)
Definition offset_to_node (g : geometry) (node : N) : N := w64 (node mod g_per g * g_len g).
(** file_offset, 126-128 *)
Definition file_offset (g : geometry) (node : N) : N := w64 (page_offset g node + offset_to_node g node).
(** num_pages, 131-136 *)
Definition num_pages (g : geometry) (n : N) : N := if N.eqb n 0 then 0 else w64 (n + g_per g - 1) / g_per g.
(** total_file_size, 139-141 *)
Definition total_file_size (g : geometry) (n : N) : N := w64 (kSectorLen + w64 (num_pages g n * g_page g)).

(** pack_node_record, 152-165: [off] is the position of the record *)
Definition pack_node_record (page : bytes) (off : N) (coords nbrs : list N) (n_nbrs dim : N) : res bytes :=
  let* p1 := write_at page off (u32s coords) in
  let* p2 := write_at p1 (off + dim * 4) (le_enc 4 n_nbrs) in
  if N.ltb 0 n_nbrs then write_at p2 (off + dim * 4 + 4) (u32s nbrs) else Ok p2.
(** NodeRecordView, 173-191: the coordinates and the neighbours of a record *)
Definition view_record (rec : bytes) (dim : N) : res (list N * list N) :=
  let* cb := read_at rec 0 (dim * 4) in
  let* (coords, _) := read_u32s (N.to_nat dim) cb in
  let* nb := read_at rec (dim * 4) 4 in
  let n := le_dec nb in
  let* b := read_at rec (dim * 4 + 4) (n * 4) in
  let* (nbrs, _) := read_u32s (N.to_nat n) b in
  Ok (coords, nbrs).

(** ** write_disk_layout, 216-289 *)
(** header_offset, 50-58, and the header sector, 248-260 *)
Definition header_sector (n dim medoid max_degree : N) (g : geometry) : bytes :=
  le_enc 8 n ++ le_enc 8 dim ++ le_enc 4 medoid ++ le_enc 4 max_degree ++ le_enc 8 (g_len g) ++ le_enc 8 (g_per g)
  ++ le_enc 8 (total_file_size g n) ++ repeat 0 (N.to_nat kSectorLen - 48).
(** [dim] floats at position [p] of the vectors *)
Definition floats_at (vectors : list N) (p dim : N) : res (list N) :=
  if N.leb (p + dim) (N.of_nat (length vectors)) then Ok (firstn (N.to_nat dim) (skipn (N.to_nat p) vectors)) else OutOfBounds.
(** The loop over the nodes, 264-283: what is written from node [node] on *)
Fixpoint write_nodes (g : geometry) (n : N) (vectors : list N) (rows : list (list N)) (node : N) (page : bytes) : res bytes :=
  match rows with
  | [] => Ok []
  | nbrs :: rest =>
      let slot := node mod g_per g in
      let page1 := if N.eqb slot 0 then repeat 0 (length page) else page in
      if N.ltb (g_degree g) (N.of_nat (length nbrs)) then Throws
      else let* coords := floats_at vectors (node * g_dim g) (g_dim g) in
           let* page2 := pack_node_record page1 (slot * g_len g) coords nbrs (N.of_nat (length nbrs)) (g_dim g) in
           let* out := write_nodes g n vectors rest (node + 1) page2 in
           if N.eqb slot (g_per g - 1) || N.eqb node (n - 1) then Ok (page2 ++ out) else Ok out
  end.
Definition write_disk_layout (vectors : list N) (graph : list (list N)) (n dim max_degree medoid : N) : res bytes :=
  if N.eqb dim 0 then Throws
  else if N.eqb n 0 then Throws
  else if negb (N.eqb (N.of_nat (length graph)) n) then Throws
  else if N.leb n medoid then Throws
  else let* g := compute dim max_degree in
       let* body := write_nodes g n vectors graph 0 (repeat 0 (N.to_nat (g_page g))) in
       Ok (header_sector n dim medoid max_degree g ++ body).

(** ** read_disk_layout_header, 300-352 *)
Record layout_header := { h_points : N; h_dim : N; h_medoid : N; h_degree : N; h_len : N; h_per : N; h_size : N }.
Definition read_layout_header (file : bytes) : res layout_header :=
  if N.ltb (N.of_nat (length file)) kSectorLen then Throws
  else
    let* (n, r) := read_u64 file in
    let* (dim, r) := read_u64 r in
    let* (medoid, r) := read_u32 r in
    let* (deg, r) := read_u32 r in
    let* (len, r) := read_u64 r in
    let* (per, r) := read_u64 r in
    let* (size, r) := read_u64 r in
    if N.eqb n 0 || N.eqb dim 0 then Throws
    else let* g := compute dim deg in
         if negb (N.eqb len (g_len g)) then Throws
         else if negb (N.eqb per (g_per g)) then Throws
         else if N.leb n medoid then Throws
         else if negb (N.eqb size (total_file_size g n)) then Throws
         else if negb (N.eqb (N.of_nat (length file)) size) then Throws
         else Ok {| h_points := n; h_dim := dim; h_medoid := medoid; h_degree := deg; h_len := len; h_per := per; h_size := size |}.
