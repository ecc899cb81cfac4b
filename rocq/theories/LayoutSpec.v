(** What the disk layout should do. *)
From Verif Require Export LayoutModel.
Local Open Scope N_scope.

(** File sizes and offsets stay within 64 bits, for [n] nodes of [dim]
    coordinates and at most [degree] neighbours. *)
Definition layout_fits (dim degree n : N) : Prop :=
  0 < dim /\ degree < 2 ^ 32 /\ kSectorLen + n * (4 * dim + 4 + 4 * degree + kSectorLen) < 2 ^ 64.

(** The bytes of node [node]: from its file offset, as many as a record has. *)
Definition node_first (g : geometry) (node : N) : N := file_offset g node.
Definition node_last (g : geometry) (node : N) : N := file_offset g node + g_len g - 1.
Definition node_owns (g : geometry) (node byte : N) : Prop := node_first g node <= byte <= node_last g node.

(** A node record: the coordinates, the number of neighbours, the neighbours,
    and zeros up to the room for [degree] neighbours. *)
Definition record_bytes (degree : N) (coords nbrs : list N) : bytes :=
  flat_map (le_enc 4) coords ++ le_enc 4 (N.of_nat (length nbrs)) ++ flat_map (le_enc 4) nbrs
  ++ repeat 0 (4 * (N.to_nat degree - length nbrs)).

(** A graph with its vectors: [n] rows of [dim] 32-bit coordinates, and
    neighbour lists of 32-bit ids within the degree bound. *)
Record layout_input (vectors : list (list N)) (graph : list (list N)) (dim degree : N) : Prop := {
  li_vectors : length vectors = length graph;
  li_row : forall v, In v vectors -> N.of_nat (length v) = dim /\ Forall (fun x => x < 2 ^ 32) v;
  li_nbrs : forall adj, In adj graph -> N.of_nat (length adj) <= degree /\ Forall (fun x => x < 2 ^ 32) adj;
}.
