(** Fusing two graphs, /repo/include/index/graph/fusion_graph.hpp.  Graphs are
    edge tables as in NsgModel.v.  Simplified: the two graphs are given (they
    are built by the two builders, lines 53-54); the tables have one row per
    vector, not per unit of capacity. *)
From Verif Require Export NsgModel.
Import ListNotations.

(** fusion_graph.hpp 63-69: the primary graph's neighbours up to the first
    empty slot. *)
Fixpoint add_primary (g : graph) (i : N) (js : list nat) (row : list N) : res (list N) :=
  match js with
  | [] => Ok row
  | j :: js' =>
      let* x := at_ g i j in
      if N.eqb x kEmptyId then Ok row else add_primary g i js' (row ++ [x])
  end.
(** fusion_graph.hpp 70-88: the secondary graph's neighbours up to the first
    empty slot, except those in the row already. *)
Fixpoint add_secondary (g : graph) (i : N) (js : list nat) (row : list N) : res (list N) :=
  match js with
  | [] => Ok row
  | j :: js' =>
      let* x := at_ g i j in
      if N.eqb x kEmptyId then Ok row
      else if existsb (N.eqb x) row then add_secondary g i js' row
      else add_secondary g i js' (row ++ [x])
  end.
(** fusion_graph.hpp 61-91: one row of the fused graph; it has 2 * max_nbrs_
    slots (line 58), writing beyond them is undefined behaviour. *)
Definition fuse_row (R : nat) (g1 g2 : graph) (i : N) : res (list N) :=
  let* row1 := add_primary g1 i (seq 0 R) [] in
  let* row2 := add_secondary g2 i (seq 0 R) row1 in
  if Nat.leb (length row2) (2 * R) then Ok row2 else OutOfBounds.
Fixpoint fuse_rows (R : nat) (g1 g2 : graph) (is : list N) : res (list (list N)) :=
  match is with
  | [] => Ok []
  | i :: is' =>
      let* row := fuse_row R g1 g2 i in
      let* rows := fuse_rows R g1 g2 is' in Ok (row :: rows)
  end.
(** fusion_graph.hpp 60, 90: max_edge. *)
Definition max_edge (rows : list (list N)) : nat := fold_left Nat.max (map (@length N) rows) 0.
(** fusion_graph.hpp 44-99: build_graph: every row of the final graph has
    max_edge slots. *)
Definition fuse (R : nat) (n : N) (g1 g2 : graph) : res (nat * graph) :=
  let* rows := fuse_rows R g1 g2 (map N.of_nat (seq 0 (N.to_nat n))) in
  Ok (max_edge rows, map (pad (max_edge rows)) rows).
(** fusion_graph.hpp 101-113: the entry points of the fused graph: the
    overlay of the first graph that has one, else all entry points of both. *)
Definition fuse_entry {O : Type} (overlay1 overlay2 : option O) (eps1 eps2 : list N) : option O * list N :=
  match overlay1, overlay2 with
  | Some o, _ => (Some o, [])
  | None, Some o => (Some o, [])
  | None, None => (None, eps1 ++ eps2)
  end.
