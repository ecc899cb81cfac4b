(** What inserting into and removing from a graph index should do. *)
From Verif Require Export UpdateModel SearchSpec.

(** The number of vectors, live or not. *)
Definition size (s : state) : nat := length (u_vecs s).
(** [id] is a vector that was not removed. *)
Definition live (s : state) (id : N) : Prop := N.to_nat id < size s /\ flag (u_live s) id = true.

(** An index as built or loaded: one row of [k_max] ids per vector, ids are
    those of vectors, nothing recorded about changes, entry points among the
    vectors, overlay tables for the capacity. *)
Record built (c : conf) (s : state) : Prop := {
  bu_max : 0 < k_max c;
  bu_cap : size s <= k_cap c;
  bu_width : (N.of_nat (k_cap c) <= 2 ^ 31)%N;
  bu_rows : rows_ok (N.of_nat (size s)) (graph_of c s) (fun _ => None);
  bu_linked : length (u_linked s) = size s;
  bu_live : length (u_live s) = size s;
  bu_items : u_items s = N.of_nat (size s);
  bu_context : u_removed s = [] /\ u_second s = [] /\ u_inserted s = [];
  bu_starts : match k_overlay c with
              | None => forall x, In x (k_eps c) -> (x < N.of_nat (size s))%N
              | Some o => overlay_ok (N.of_nat (size s)) o /\ k_cap c <= length (ov_levels o) /\ k_cap c <= length (ov_lists o)
              end;
}.
(** A hash container is iterated in some order. *)
Definition order_ok (h : hash_order) : Prop :=
  (forall l, Permutation (o_keys h l) l) /\ (forall l, Permutation (o_cands h l) l).
(** Only ids of vectors are removed. *)
Definition allowed (s : state) (o : op) : Prop :=
  match o with InsertVec _ _ _ h => order_ok h | RemoveVec id => N.to_nat id < size s end.
(** The states after operations, with their outcomes. *)
Inductive reached (fuel : nat) (c : conf) (s0 : state) : list (op * outcome) -> state -> Prop :=
| reached_start : reached fuel c s0 [] s0
| reached_step h s o out s' : reached fuel c s0 h s -> allowed s o -> step fuel c s o = Done (Ok (out, s')) ->
    reached fuel c s0 (h ++ [(o, out)]) s'.
(** The search with enough fuel for the capacity. *)
Definition enough (c : conf) (fuel : nat) : Prop := k_cap c < fuel.

(** The vectors of [s] are the first of those of [s'] and as live. *)
Definition keeps_vectors (s s' : state) : Prop :=
  (forall id v, nth_error (u_vecs s) id = Some v -> nth_error (u_vecs s') id = Some v)
  /\ forall id, N.to_nat id < size s -> flag (u_live s') id = flag (u_live s) id.
(** The vector was stored, live, under the next id. *)
Definition stored (s : state) (v : vec) (s' : state) : Prop :=
  keeps_vectors s s' /\ size s' = size s + 1 /\ nth_error (u_vecs s') (size s) = Some v /\ live s' (N.of_nat (size s)).
(** A removed node whose neighbours were not recorded (it had none). *)
Definition sink (s : state) (x : N) : Prop := In x (u_removed s) /\ nfind (u_second s) x = None.

(** What an insertion may answer. *)
Definition insert_answer (c : conf) (s : state) (v : vec) (ef : nat) (sc : scalar_case) (out : outcome) (s' : state) : Prop :=
  match out with
  | Inserted id => size s < k_cap c /\ id = N.of_nat (size s) /\ stored s v s'
  | Full => size s = k_cap c /\ s' = s
  | Raised => (s' = s /\ (sc = Duplicate \/ ef < k_max c))
              \/ (stored s v s' /\ (sc = Fails \/ exists x, sink s x))
  | Removed => False
  end.

(** ** Rows *)
Definition row_of (s : state) (x : N) (row : list N) : Prop := nth_error (u_rows s) (N.to_nat x) = Some row.
(** [y] is a candidate for the row of [x]: a neighbour, a recorded neighbour of
    a removed neighbour, or the new node. *)
Definition candidate (c : conf) (s : state) (new x y : N) : Prop :=
  y = new \/ exists row z, row_of s x row /\ listed (N.of_nat (k_max c)) row z
    /\ (y = z \/ (In z (u_removed s) /\ exists l, nfind (u_second s) z = Some l /\ In y l)).
(** [row] holds the [max] closest members, then zeros. *)
Definition closest_row (member : N -> Prop) (dist : N -> Z) (max : nat) (row : list N) : Prop :=
  exists hits, row = map fst hits ++ repeat 0%N (max - length hits)
    /\ ranked member dist max hits /\ nearest member dist max hits.
(** The distances from [q]; removed vectors count as furthest. *)
Definition measured (c : conf) (s : state) (q : vec) (dist : N -> Z) : Prop :=
  (forall y v, live s y -> nth_error (u_vecs s) (N.to_nat y) = Some v -> dist y = k_vdist c q v)
  /\ forall y, ~ live s y -> dist y = float_max.
Definition dist_from (c : conf) (s : state) (x : N) (dist : N -> Z) : Prop :=
  exists v, nth_error (u_vecs s) (N.to_nat x) = Some v /\ measured c s v dist.
(** Where a search starts: the entry points, or the node [u] the overlay leads
    to. *)
Definition start_of (c : conf) (u : N) (x : N) : Prop := match k_overlay c with None => In x (k_eps c) | Some _ => x = u end.
(** The rows after the insertion of [v] when the search before it returned
    [hits]: the new node has the hits as its row; every hit that was not removed
    has the closest candidates; all other rows are unchanged. *)
Definition rows_after (c : conf) (s : state) (hits : list (N * Z)) (s' : state) : Prop :=
  let new := N.of_nat (size s) in
  (exists row, row_of s' new row /\ row = map fst hits ++ repeat kInvalidId (k_max c - length hits))
  /\ forall x, (x < new)%N ->
     if existsb (N.eqb x) (map fst hits) && flag (u_linked s) x
     then exists dist row, row_of s' x row /\ dist_from c s' x dist /\ closest_row (candidate c s new x) dist (k_max c) row
     else forall row, row_of s' x row <-> row_of s x row.
