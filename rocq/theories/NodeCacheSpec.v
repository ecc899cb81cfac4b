(** What the cache of node records should hold. *)
From Verif Require Export NodeCacheModel LayoutSpec.
Local Open Scope N_scope.

(** ** The nodes chosen: those the fewest hops from the medoid *)
(** A path of [k] edges from the medoid; entries that are not nodes lead nowhere. *)
Inductive hops (graph : list (list N)) (medoid : N) : nat -> N -> Prop :=
| hops_start : hops graph medoid 0 medoid
| hops_edge k x row y : hops graph medoid k x -> nth_error graph (N.to_nat x) = Some row -> In y row ->
    y < N.of_nat (length graph) -> hops graph medoid (S k) y.
(** The number of hops to a node: of the shortest path. *)
Definition distance_is (graph : list (list N)) (medoid : N) (x : N) (k : nat) : Prop :=
  hops graph medoid k x /\ forall j, hops graph medoid j x -> (k <= j)%nat.
(** [ids] are the [count] nodes fewest hops away, in that order; all that can
    be reached when they are fewer. *)
Record closest_nodes (graph : list (list N)) (medoid : N) (count : nat) (ids : list N) : Prop := {
  cn_distinct : NoDup ids;
  cn_count : (length ids <= count)%nat;
  cn_first : forall x rest, ids = x :: rest -> x = medoid;
  cn_reached : forall x, In x ids -> exists k, hops graph medoid k x;
  cn_order : forall i j x y a b, (i <= j)%nat -> nth_error ids i = Some x -> nth_error ids j = Some y ->
    distance_is graph medoid x a -> distance_is graph medoid y b -> (a <= b)%nat;
  cn_closest : forall x y a b, In x ids -> ~ In y ids -> distance_is graph medoid x a -> distance_is graph medoid y b -> (a <= b)%nat;
  cn_all : (length ids < count)%nat -> forall k y, hops graph medoid k y -> In y ids;
}.

(** ** The contents *)
(** Of each node nothing, or its coordinates and neighbours; and which nodes
    are pinned (chosen by generate or found in the files). *)
Record contents := { ct_node : N -> option (list N * list N); ct_pinned : N -> bool }.
Inductive cache_op :=
| Upsert (id : N) (coords nbrs : list N)
| SetNeighbors (id : N) (nbrs : list N)
| DropDiskBacked
| Reload.
Definition set_node (f : N -> option (list N * list N)) (id : N) (e : list N * list N) (x : N) : option (list N * list N) :=
  if N.eqb x id then Some e else f x.
Definition spec_op (s : contents) (o : cache_op) : contents :=
  match o with
  | Upsert id coords nbrs => {| ct_node := set_node (ct_node s) id (coords, nbrs); ct_pinned := ct_pinned s |}
  | SetNeighbors id nbrs =>
      match ct_node s id with
      | None => s
      | Some (coords, _) => {| ct_node := set_node (ct_node s) id (coords, nbrs); ct_pinned := ct_pinned s |}
      end
  | DropDiskBacked => {| ct_node := fun x => if ct_pinned s x then ct_node s x else None; ct_pinned := ct_pinned s |}
  | Reload => {| ct_node := ct_node s; ct_pinned := fun x => match ct_node s x with Some _ => true | None => false end |}
  end.
(** The cache: an operation on it; Reload saves it and loads the files into a
    new one, as an index that is closed and opened. *)
Definition cache_step (dim degree : N) (c : node_cache) (o : cache_op) : res node_cache :=
  match o with
  | Upsert id coords nbrs => upsert_node c id coords nbrs
  | SetNeighbors id nbrs => update_neighbors c id nbrs
  | DropDiskBacked => Ok (drop_disk_backed c)
  | Reload => let* (ids_file, nodes_file) := nc_save c in let* c1 := nc_load nc_new ids_file nodes_file in configure_geometry c1 dim degree
  end.
Fixpoint cache_run (dim degree : N) (c : node_cache) (ops : list cache_op) : res node_cache :=
  match ops with [] => Ok c | o :: rest => let* c1 := cache_step dim degree c o in cache_run dim degree c1 rest end.
(** Operations on nodes below [limit], with 32-bit coordinates and ids and no
    more neighbours than the degree bound. *)
Definition op_ok (dim degree limit : N) (o : cache_op) : Prop :=
  match o with
  | Upsert id coords nbrs => id < limit /\ N.of_nat (length coords) = dim /\ Forall (fun x => x < 2 ^ 32) coords
      /\ N.of_nat (length nbrs) <= degree /\ Forall (fun x => x < 2 ^ 32) nbrs
  | SetNeighbors id nbrs => id < limit /\ N.of_nat (length nbrs) <= degree /\ Forall (fun x => x < 2 ^ 32) nbrs
  | _ => True
  end.
(** What generate puts into it: of the chosen nodes the vectors and rows, the
    rows cut to the degree bound. *)
Definition cut (degree : N) (graph : list (list N)) : list (list N) := map (firstn (N.to_nat degree)) graph.
Definition generated (degree : N) (vs graph : list (list N)) (ids : list N) : contents :=
  {| ct_node := fun x => if existsb (N.eqb x) ids then Some (nth (N.to_nat x) vs [], nth (N.to_nat x) (cut degree graph) []) else None;
     ct_pinned := fun x => existsb (N.eqb x) ids |}.
(** The cache shows exactly these contents: complete records, no others. *)
Definition shows (degree : N) (c : node_cache) (s : contents) : Prop :=
  (forall x, lookup_record c x = Ok (option_map (fun e => record_bytes degree (fst e) (snd e)) (ct_node s x)))
  /\ exists l, NoDup l /\ (forall x, In x l <-> ct_node s x <> None) /\ nc_size c = N.of_nat (length l).
