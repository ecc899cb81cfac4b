(** What a filtered search should return. *)
From Verif Require Export HybridModel RankSpec.
From Verif Require EffortSpec.
From Verif Require Import FilterModel StorageSpec.

(** [n] nodes with full rows, and entry points (or an overlay) among them. *)
Definition searchable (n : N) (g : graph) : Prop :=
  rows_ok n g (fun _ => None) /\
  match g_overlay g with None => forall x, In x (g_eps g) -> (x < n)%N | Some o => overlay_ok n o end.
(** A space that can be searched: a graph over its vectors, finite exact distances, and
    the distances used in the search are the exact ones unless the results are reranked. *)
Definition space_ok (sp : space) : Prop :=
  searchable (N.of_nat (sp_n sp)) (sp_graph sp) /\ (N.of_nat (sp_n sp) <= 2 ^ 31)%N
  /\ (forall id, (id < N.of_nat (sp_n sp))%N -> (sp_exact sp id <= float_max)%Z)
  /\ (sp_rerank sp = false -> forall id, (id < N.of_nat (sp_n sp))%N -> sp_search sp id = sp_exact sp id).

(** The rows the filter is asked for. *)
Definition wanted (sp : space) (s : storage) (f : FilterModel.filter) (id : N) : Prop :=
  (id < N.of_nat (sp_n sp))%N /\ accepted s f id.
(** The array of [k] ids that holds the results [hits]. *)
Definition shows (k : nat) (hits : list (N * Z)) (ids : list N) : Prop :=
  length hits <= k /\ ids = map fst hits ++ repeat kInvalidId (k - length hits).
(** The nodes the graph search with list size [ef] expands, in order (SearchModel.v). *)
Definition expands (fuel : nat) (sp : space) (topk ef : nat) (order : list N) : Prop :=
  exists so, solo_pool fuel (sp_graph sp) (fun _ => None) (N.of_nat (sp_n sp)) (sp_search sp) topk ef = Done (Ok (so, order)).

(** The results are members with their exact distances, nearest first. *)
Definition right_results (member : N -> Prop) (sp : space) (k : nat) (ids : list N) : Prop :=
  exists hits, shows k hits ids /\ ranked member (sp_exact sp) k hits.
(** The [ef] results of the plain graph search for [ef] results (SearchModel.v). *)
Definition candidates (fuel : nat) (sp : space) (ef : nat) (found : list (N * Z)) : Prop :=
  exists order, search_solo fuel (sp_graph sp) (fun _ => None) (N.of_nat (sp_n sp)) (sp_search sp) ef ef
    = Done (Ok (found ++ repeat (kInvalidId, float_max) (ef - length found), order)).

(** What a plain search returns: the [k] nearest, by exact distance, of the candidates. *)
Definition plainly_found (member : N -> Prop) (sp : space) (fuel k ef : nat) (ids : list N) : Prop :=
  exists hits found, shows k hits ids /\ ranked member (sp_exact sp) k hits
    /\ candidates fuel sp ef found /\ nearest (fun id => In id (map fst found)) (sp_exact sp) k hits.

(** What a search restricted to the members may return: the [k] nearest of all members;
    or the [k] nearest of the members a graph search with a list size no smaller than
    asked for (or than the table) expands, and these are [k] or all members; or, if all
    rows are members, what a plain search returns. *)
Inductive members_found (member : N -> Prop) (sp : space) (fuel k ef : nat) (ids : list N) : Prop :=
| found_exactly hits : shows k hits ids -> ranked member (sp_exact sp) k hits -> nearest member (sp_exact sp) k hits ->
    members_found member sp fuel k ef ids
| found_in_graph hits ef' order : shows k hits ids -> ranked member (sp_exact sp) k hits ->
    Nat.min (sp_n sp) ef <= ef' -> expands fuel sp k ef' order ->
    nearest (fun id => member id /\ In id order) (sp_exact sp) k hits ->
    (length hits = k \/ forall id, member id -> In id (map fst hits)) ->
    members_found member sp fuel k ef ids
| found_plainly : (forall id, (id < N.of_nat (sp_n sp))%N -> member id) -> plainly_found member sp fuel k ef ids ->
    members_found member sp fuel k ef ids.

(** What the iterative search returns: the members in a first part of the order in which
    the graph search expands nodes; all of the order unless [k] are found. *)
Definition found_on_the_way (member : N -> Prop) (sp : space) (fuel k ef : nat) (ids : list N) : Prop :=
  exists hits seen unseen, shows k hits ids /\ ranked member (sp_exact sp) k hits
    /\ expands fuel sp k ef (seen ++ unseen)
    /\ (forall id, In id (map fst hits) <-> member id /\ In id seen)
    /\ (length hits = k \/ unseen = []).

(** A query that can be answered: a storage reached by operations, ids below the number
    of vectors, operands the index can be trusted with (MatcherSpec.v), a space that can
    be searched, 32-bit parameters with 0 < topk <= ef, and enough fuel. *)
Record query_ok (lib : heap_lib) (fields : list bytes) (ops : list StorageSpec.op) (s : storage) (sp : space) (f : FilterModel.filter)
    (i : EffortModel.info) (fuel : nat) : Prop := {
  qo_lib : heap_lib_ok lib;
  qo_reached : reached fields ops s;
  qo_ids : forall id, is_valid s id = true -> (id < N.of_nat (sp_n sp))%N;
  qo_safe : forall c, single_condition f c ->
    cond_values_ok c /\ (In (field c) fields -> fields_separated fields /\ index_safe s c);
  qo_space : space_ok sp;
  qo_info : EffortSpec.given i;
  qo_fuel : sp_n sp < fuel;
}.
