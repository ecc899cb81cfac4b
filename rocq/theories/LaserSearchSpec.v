(** What the search of the LASER index should answer. *)
From Verif Require Export LaserSearchModel PoolSpec.
Local Open Scope nat_scope.

(** The true distance of a node to the query, and its neighbours with their estimates. *)
Definition dist_of (g : lgraph) (x : N) : Z :=
  match nth_error (g_nodes g) (N.to_nat x) with Some nd => nd_dist nd | None => 0%Z end.
Definition nbs_of (g : lgraph) (x : N) : list (N * Z) :=
  match nth_error (g_nodes g) (N.to_nat x) with Some nd => nd_nbs nd | None => [] end.
(** The number of edges. *)
Definition edges (g : lgraph) : nat := length (flat_map nd_nbs (g_nodes g)).

(** A loaded index: all ids are nodes and leave room for the mark of the
    search buffer; a page holds at least one node. *)
Definition is_node (g : lgraph) (x : N) : Prop := (x < N.of_nat (length (g_nodes g)))%N.
Definition graph_ok (g : lgraph) : Prop :=
  is_node g (g_entry g) /\ (forall m, In m (g_medoids g) -> is_node g (fst m))
  /\ (forall nd y, In nd (g_nodes g) -> In y (nd_nbs nd) -> is_node g (fst y))
  /\ (0 < g_npp g)%N /\ (N.of_nat (length (g_nodes g)) <= 2 ^ 31)%N.

(** Where a search starts, and what can be reached from there. *)
Definition starts (g : lgraph) : list N :=
  match g_medoids g with [] => [g_entry g] | _ :: _ => [best_medoid (g_medoids g); g_entry g] end.
Inductive reachable (g : lgraph) : N -> Prop :=
| reach_start x : In x (starts g) -> reachable g x
| reach_edge x y : reachable g x -> In y (map fst (nbs_of g x)) -> reachable g y.

(** The candidates known once the nodes [seen] have been read, with their
    estimated distances. *)
Definition candidates (g : lgraph) (seen : list N) : list (N * Z) :=
  map (fun x => (x, float_max)) (starts g) ++ flat_map (nbs_of g) seen.

(** Every read succeeds. *)
Definition reads_ok (answers : list (list (nat * bool))) : Prop := Forall (Forall (fun c => snd c = true)) answers.
(** How often poll_events has something to report. *)
Definition reports (answers : list (list (nat * bool))) : nat :=
  length (filter (fun a => match a with [] => false | _ :: _ => true end) answers).

(** [ids] are the ids of the [knn] nodes of [read] closest to the query, in
    order of their true distances, then zeros if there are not so many. *)
Definition closest_ids (g : lgraph) (knn : nat) (read : list N) (ids : list N) : Prop :=
  exists best,
    keeps_closest knn (map (fun x => (x, dist_of g x)) read) best
    /\ StronglySorted (fun a b => (snd a <= snd b)%Z) best
    /\ ids = map fst best ++ repeat 0%N (knn - length best).

(** C92.  The search reads each of some nodes once, all reachable, and answers
    with the closest of them.  It follows the neighbours of those in [seen]:
    each candidate is read as well, unless [ef] other candidates, all read,
    had estimates at least as good.  The neighbours of those in [lost] are not
    followed; they are at most half the width of the beam. *)
Definition right_answer (g : lgraph) (width ef knn : nat) (ids : list N) : Prop :=
  exists seen lost,
    NoDup (seen ++ lost) /\ Forall (reachable g) (seen ++ lost) /\ 2 * length lost <= width
    /\ closest_ids g knn (seen ++ lost) ids
    /\ forall y e, In (y, e) (candidates g seen) -> In y (seen ++ lost)
         \/ exists better others,
              Permutation (candidates g seen) (better ++ others) /\ In (y, e) others /\ length better = ef
              /\ forall b, In b better -> In (fst b) (seen ++ lost) /\ (snd b <= e)%Z.

(** With room for all candidates one would expect the closest of all nodes
    that can be reached. *)
Definition exhaustive (g : lgraph) (knn : nat) (ids : list N) : Prop :=
  exists all, NoDup all /\ (forall x, In x all <-> reachable g x) /\ closest_ids g knn all ids.
