(** What building an HNSW index promises. *)
From Coq Require Import Sorting.Permutation.
From Verif Require Export HnswModel SearchSpec.
Import ListNotations.

(** A priority queue gives back what was put in, a greatest element first. *)
Definition queue_ok (less : qel -> qel -> Prop) (top : list qel -> option (qel * list qel)) : Prop :=
  (forall q, top q = None <-> q = []) /\
  (forall q c q', top q = Some (c, q') -> Permutation q (c :: q') /\ forall d, In d q -> ~ less c d).
Definition queues_ok (lib : queues) : Prop :=
  queue_ok (fun a b => (fst a < fst b)%Z) (top_first lib) /\
  queue_ok (fun a b => (fst a < fst b)%Z \/ (fst a = fst b /\ (snd a < snd b)%N)) (top_pair lib).

(** A request to build: some vectors, fewer than 2^32 - 1; vectors 1, 2, ...
    are inserted in some order. *)
Definition request_ok (r : request) : Prop :=
  (0 < r_n r < kInvalidId)%N /\ queues_ok (r_lib r) /\ Permutation (0%N :: r_others r) (all_ids (r_n r)).

(** [R] slots: different ids, none of them [i], then empty slots. *)
Definition slots (n : N) (R : nat) (i : N) (row ids : list N) : Prop :=
  row = ids ++ repeat kInvalidId (R - length ids) /\ length ids <= R /\ NoDup ids /\ Forall (fun j => (j < n)%N /\ j <> i) ids.

Record hnsw_ok (r : request) (g : graph) (o : overlay) : Prop := {
  (** layer 0: one row per vector, with a neighbour as soon as there is
      another vector *)
  ok_width : g_max_nbrs g = N.of_nat (r_R r);
  ok_rows : length (g_rows g) = N.to_nat (r_n r);
  ok_row : forall i row, nth_error (g_rows g) (N.to_nat i) = Some row ->
    exists ids, slots (r_n r) (r_R r) i row ids /\ ((2 <= r_n r)%N -> ids <> []);
  (** the entry point is a vector of the highest level *)
  ok_overlay : g_overlay g = Some o;
  ok_upper_width : ov_max_nbrs o = N.of_nat (r_R r);
  ok_entry : (ov_ep o < r_n r)%N;
  ok_highest : forall i, (i < r_n r)%N -> r_draw r i <= r_draw r (ov_ep o);
  (** every vector has the level drawn for it, and on each layer up to it a
      row of vectors of that layer, at most half as many as on layer 0, and
      at least one as soon as there is another vector on the layer *)
  ok_levels : ov_levels o = map (fun i => N.of_nat (r_draw r i)) (all_ids (r_n r));
  ok_lists : length (ov_lists o) = N.to_nat (r_n r);
  ok_list : forall i row, nth_error (ov_lists o) (N.to_nat i) = Some row -> length row = r_draw r i * r_R r;
  ok_layer : forall i row j, nth_error (ov_lists o) (N.to_nat i) = Some row -> 1 <= j <= r_draw r i ->
    exists ids, slots (r_n r) (r_R r) i (firstn (r_R r) (skipn ((j - 1) * r_R r) row)) ids
      /\ length ids <= r_R r / 2 /\ Forall (fun k => j <= r_draw r k) ids
      /\ ((exists k, (k < r_n r)%N /\ k <> i /\ j <= r_draw r k) -> ids <> []);
}.

(** Every vector is a neighbour of every other vector. *)
Definition fully_linked (r : request) (g : graph) : Prop :=
  forall i j row, (i < r_n r)%N -> (j < r_n r)%N -> i <> j -> nth_error (g_rows g) (N.to_nat i) = Some row -> In j row.
(** A vector to which no path leads from the entry point, on any layer. *)
Definition unreachable (g : graph) (o : overlay) (v : N) : Prop :=
  ~ reachable (fun x y => leads_to g (fun _ => None) x y \/ any_overlay_edge o x y) (eq (ov_ep o)) v.
(** The squared Euclidean distance of two vectors. *)
Fixpoint l2 (u v : list Z) : Z :=
  match u, v with x :: u', y :: v' => ((x - y) * (x - y) + l2 u' v')%Z | _, _ => 0%Z end.
(** A request over given vectors, all of one dimension, different, compared by l2. *)
Definition request_over (points : list (list Z)) (dim : nat) (r : request) : Prop :=
  request_ok r /\ r_n r = N.of_nat (length points) /\ NoDup points /\ (forall u, In u points -> length u = dim)
  /\ forall a b, r_dist r a b = l2 (nth (N.to_nat a) points []) (nth (N.to_nat b) points []).
