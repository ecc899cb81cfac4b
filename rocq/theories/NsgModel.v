(** The NSG graph builder, /repo/include/index/graph/nsg/nsg_builder.hpp.

    A graph is its edge table: one row per vector, each row [max_nbrs_] slots
    holding a neighbour id or [kEmptyId] (graph.hpp 33-55, filled with
    [kEmptyId] on construction).  Distances are integer keys: the code only
    compares them.  Ids are 32-bit (IDType = uint32_t).

    Simplified: the nearest-neighbour graph produced by NNDescent
    (nndescent.hpp) is an arbitrary edge table given to the builder; the
    vector nearest to the data's centre is given by an arbitrary distance to
    the centre; the two random generators are arbitrary streams of raw draws;
    std::sort is an arbitrary function, constrained in the specification;
    building with one thread is modelled (thread_num = 1, the default); the
    table has one row per vector, not per unit of capacity. *)
From Verif Require Export Arr.
Import ListNotations.

(** [OutOfFuel]: the function has not returned after the given number of loop
    iterations. *)
Inductive timed (A : Type) := OutOfFuel | Done (r : res A).
Arguments OutOfFuel {A}.
Arguments Done {A} r.
Definition tbind {A B} (m : timed A) (k : A -> timed B) : timed B :=
  match m with
  | OutOfFuel => OutOfFuel
  | Done (Ok a) => k a
  | Done OutOfBounds => Done OutOfBounds
  | Done InvalidBool => Done InvalidBool
  | Done Throws => Done Throws
  end.
Notation "'let!' x := m 'in' k" := (tbind m (fun x => k)) (at level 200, x pattern, k at level 200).

(** graph.hpp 36: constexpr static NodeIDType kEmptyId = -1. *)
Definition kEmptyId : N := 4294967295%N.
(** graph.hpp 41-44: data_storage_, one row of edges per node. *)
Definition graph := list (list N).
(** graph.hpp 87, 96: Graph::at. *)
Definition at_ (g : graph) (i : N) (j : nat) : res N :=
  let* row := aget g i in aget row (N.of_nat j).
Definition set_at (g : graph) (i : N) (j : nat) (x : N) : res graph :=
  let* row := aget g i in let* row' := aput row (N.of_nat j) x in aput g i row'.

(** neighbor.hpp 19-34: Neighbor (id_, distance_, flag_). *)
Record nbr := Nbr { nb_id : N; nb_dist : Z; nb_flag : bool }.
(** neighbor.hpp 36-45: Node (id_, distance_). *)
Notation node := (N * Z)%type.

(** What the builder is given (nsg_builder.hpp 36-77): the number of vectors,
    max_nbrs_ (R), ef_construction_ (L), get_distance on stored vectors, the
    distance of a vector to the centre of the data, the key of the float made
    from an id (used by add_reverse_links), the draws of the generator made
    by every search and of the builder's own generator, and std::sort on the
    two record types. *)
Record input := Input {
  in_n : N;
  in_R : nat;
  in_L : nat;
  in_dist : N -> N -> Z;
  in_center : N -> Z;
  in_idkey : N -> Z;
  in_gen : nat -> N;
  in_rng : nat -> N;
  in_sort_nbr : list nbr -> list nbr;
  in_sort_node : list node -> list node }.

Section Builder.
Context (inp : input).
Let n := in_n inp.
Let R := in_R inp.
Let L := in_L inp.
Let dist := in_dist inp.

(** nsg_builder.hpp 212-222: the first candidates are the neighbours of the
    entry point.  A slot of [init_ids] whose neighbour is out of range is
    left as it was. *)
Fixpoint seed (g : graph) (ep : N) (js : list nat) (ids : list N) (vis : list bool) (cnt : nat)
  : res (list N * list bool * nat) :=
  match js with
  | [] => Ok (ids, vis, cnt)
  | j :: js' =>
      let* id := at_ g ep j in
      if N.leb n id then seed g ep js' ids vis cnt
      else let* ids' := aput ids (N.of_nat j) id in
           let* vis' := aput vis id true in
           seed g ep js' ids' vis' (S cnt)
  end.

(** nsg_builder.hpp 223-231: the rest are drawn at random until [pool_size]
    of them have been found.  random.hpp 54: rand_int(max) is mt_() % max. *)
Fixpoint fill (fuel : nat) (p : nat) (ids : list N) (vis : list bool) (cnt : nat)
  : timed (list N * list bool) :=
  if Nat.ltb cnt L then
    match fuel with
    | O => OutOfFuel
    | S fuel' =>
        let id := N.modulo (in_gen inp p) n in
        let! seen := Done (aget vis id) in
        if seen : bool then fill fuel' (S p) ids vis cnt
        else let! ids' := Done (aput ids (N.of_nat cnt) id) in
             let! vis' := Done (aput vis id true) in
             fill fuel' (S p) ids' vis' (S cnt)
    end
  else Done (Ok (ids, vis)).

(** nsg_builder.hpp 629-633: make room by moving the farther entries up. *)
Fixpoint shift (pool : list nbr) (pos : nat) (d : Z) : list nbr * nat :=
  match pos with
  | O => (pool, O)
  | S p =>
      match nth_error pool p with
      | Some x => if Z.ltb d (nb_dist x) then shift (upd pool pos x) p d else (pool, pos)
      | None => (pool, pos)
      end
  end.
(** nsg_builder.hpp 619-636: insert_into_pool. *)
Definition insert_into_pool (pool : list nbr) (nn : nbr) : list nbr * nat :=
  if existsb (fun x => N.eqb (nb_id x) (nb_id nn)) (firstn L pool) then (pool, L)
  else match nth_error pool (L - 1) with
       | Some last =>
           if Z.leb (nb_dist last) (nb_dist nn) then (pool, L)
           else let '(pool', pos) := shift pool (L - 1) (nb_dist nn) in (upd pool' pos nn, pos)
       | None => (pool, L)
       end.

(** nsg_builder.hpp 248-265: the neighbours of one expanded entry. *)
Fixpoint expand (q : N -> Z) (g : graph) (u : N) (ms : list nat)
    (pool : list nbr) (full : list node) (vis : list bool) (upos : nat)
  : res (list nbr * list node * list bool * nat) :=
  match ms with
  | [] => Ok (pool, full, vis, upos)
  | m :: ms' =>
      let* id := at_ g u m in
      if N.leb n id then expand q g u ms' pool full vis upos
      else let* seen := aget vis id in
           if seen : bool then expand q g u ms' pool full vis upos
           else let* vis' := aput vis id true in
                let full' := full ++ [(id, q id)] in
                let* last := aget pool (N.of_nat (L - 1)) in
                if Z.leb (nb_dist last) (q id) then expand q g u ms' pool full' vis' upos
                else let '(pool', r) := insert_into_pool pool (Nbr id (q id) true) in
                     expand q g u ms' pool' full' vis' (Nat.min upos r)
  end.

(** nsg_builder.hpp 242-268: the search loop over the pool. *)
Fixpoint search_loop (fuel : nat) (q : N -> Z) (g : graph) (K : nat)
    (pool : list nbr) (full : list node) (vis : list bool) (k : nat)
  : timed (list nbr * list node * list bool) :=
  if Nat.ltb k L then
    match fuel with
    | O => OutOfFuel
    | S fuel' =>
        let! x := Done (aget pool (N.of_nat k)) in
        if nb_flag x then
          let pool1 := upd pool k (Nbr (nb_id x) (nb_dist x) false) in
          let! (pool2, full2, vis2, upos) :=
            Done (expand q g (nb_id x) (seq 0 K) pool1 full vis L) in
          search_loop fuel' q g K pool2 full2 vis2 (if Nat.leb upos k then upos else S k)
        else search_loop fuel' q g K pool full vis (S k)
    end
  else Done (Ok (pool, full, vis)).

(** nsg_builder.hpp 202-269: search_on_graph; [K] is the graph's max_nbrs_.
    Both instances of [collect_full_set] are covered: the caller that does
    not collect ignores the full set. *)
Definition search_on_graph (fuel : nat) (q : N -> Z) (g : graph) (K : nat) (vis : list bool) (ep : N)
  : timed (list nbr * list node * list bool) :=
  let! (ids, vis1, cnt) := Done (seed g ep (seq 0 (Nat.min L K)) (repeat 0%N L) vis O) in
  let! (ids2, vis2) := fill fuel O ids vis1 cnt in
  let full := map (fun id => (id, q id)) ids2 in
  let pool := in_sort_nbr inp (map (fun id => Nbr id (q id) true) ids2) in
  search_loop fuel q g K pool full vis2 O.

(** nsg_builder.hpp 161-185: init: the entry point is the best result of a
    search for the centre from a random vector. *)
Definition init_ep (fuel : nat) (knng : graph) (K : nat) : timed N :=
  let! (pool, _, _) :=
    search_on_graph fuel (in_center inp) knng K (repeat false (N.to_nat n)) (N.modulo (in_rng inp O) n) in
  let! best := Done (aget pool 0) in Done (Ok (nb_id best)).

(** nsg_builder.hpp 367-379, 444-456: is candidate [p] occluded by a selected
    neighbour? *)
Definition occluded (result : list node) (p : node) : bool :=
  existsb (fun t => orb (N.eqb (fst p) (fst t)) (Z.ltb (dist (fst t) (fst p)) (snd p))) result.
(** nsg_builder.hpp 363-383, 440-460: the selection loop over the remaining
    candidates. *)
Fixpoint select (cands : list node) (result : list node) : list node :=
  match cands with
  | [] => result
  | p :: cands' =>
      if Nat.ltb (length result) R then
        select cands' (if occluded result p then result else result ++ [p])
      else result
  end.

(** nsg_builder.hpp 345-353: the candidates from the nearest-neighbour graph. *)
Fixpoint knng_cands (knng : graph) (q : N) (vis : list bool) (js : list nat) (pool : list node)
  : res (list node) :=
  match js with
  | [] => Ok pool
  | j :: js' =>
      let* id := at_ knng q j in
      if N.leb n id then knng_cands knng q vis js' pool
      else let* seen := aget vis id in
           if seen : bool then knng_cands knng q vis js' pool
           else knng_cands knng q vis js' (pool ++ [(id, dist q id)])
  end.
(** nsg_builder.hpp 385-391: a row holding the given ids, the rest of its [r] slots empty. *)
Definition pad (r : nat) (ids : list N) : list N := firstn r (ids ++ repeat kEmptyId r).

(** nsg_builder.hpp 340-392: sync_prune; cut_len_ is R + 100 (line 74). *)
Definition sync_prune (q : N) (pool : list node) (vis : list bool) (knng : graph) (K : nat) (g : graph)
  : res graph :=
  let* pool1 := knng_cands knng q vis (seq 0 K) pool in
  let pool2 := in_sort_node inp pool1 in
  let* first := aget pool2 0 in
  let start := if N.eqb (fst first) q then 1 else 0 in
  let* p0 := aget pool2 (N.of_nat start) in
  let cands := firstn (R + 100 - S start) (skipn (S start) pool2) in
  aput g q (pad R (map fst (select cands [p0]))).

(** nsg_builder.hpp 414-433: the neighbours of [des], up to the first empty
    slot; [None] when [q] is already among them. *)
Fixpoint gather (q : N) (row : list N) (acc : list node) : option (list node) :=
  match row with
  | [] => Some acc
  | x :: row' =>
      if N.eqb x kEmptyId then Some acc
      else if N.eqb q x then None
      else gather q row' (acc ++ [(x, in_idkey inp 0%N)])
  end.
(** nsg_builder.hpp 469-477: [q] goes into the first empty slot, if any. *)
Fixpoint put_first_empty (q : N) (row : list N) : list N :=
  match row with
  | [] => []
  | x :: row' => if N.eqb x kEmptyId then q :: row' else x :: put_first_empty q row'
  end.
(** nsg_builder.hpp 462-467: the first slots are overwritten, the others stay. *)
Definition overwrite (row ids : list N) : list N := ids ++ skipn (length ids) row.

(** nsg_builder.hpp 411-477: one neighbour [des] of [q].  The new entry's
    distance is the id of [des] (line 411), the distance of the others 0. *)
Definition reverse_link (q des : N) (g : graph) : res graph :=
  let* row := aget g des in
  match gather q row [] with
  | None => Ok g
  | Some old =>
      let tmp := old ++ [(q, in_idkey inp des)] in
      if Nat.ltb R (length tmp) then
        match in_sort_node inp tmp with
        | [] => OutOfBounds
        | p0 :: cands => aput g des (overwrite row (map fst (select cands [p0])))
        end
      else aput g des (put_first_empty q row)
  end.
(** nsg_builder.hpp 405-479: add_reverse_links. *)
Fixpoint reverse_links (q : N) (is : list nat) (g : graph) : res graph :=
  match is with
  | [] => Ok g
  | i :: is' =>
      let* des := at_ g q i in
      if N.eqb des kEmptyId then Ok g
      else let* g' := reverse_link q des g in reverse_links q is' g'
  end.

(** nsg_builder.hpp 279-324: link. *)
Fixpoint link_prune (fuel : nat) (knng : graph) (K : nat) (ep : N) (qs : list N) (g : graph) : timed graph :=
  match qs with
  | [] => Done (Ok g)
  | q :: qs' =>
      let! (_, full, vis) := search_on_graph fuel (dist q) knng K (repeat false (N.to_nat n)) ep in
      let! g' := Done (sync_prune q full vis knng K g) in
      link_prune fuel knng K ep qs' g'
  end.
Fixpoint link_reverse (qs : list N) (g : graph) : res graph :=
  match qs with
  | [] => Ok g
  | q :: qs' => let* g' := reverse_links q (seq 0 R) g in link_reverse qs' g'
  end.
(** The ids the loops of lines 118, 288 and 317 go through. *)
Definition ids : list N := map N.of_nat (seq 0 (N.to_nat n)).
(** graph.hpp 52-55: a new graph: every slot empty. *)
Definition empty_graph : graph := repeat (repeat kEmptyId R) (N.to_nat n).
Definition link (fuel : nat) (knng : graph) (K : nat) (ep : N) : timed graph :=
  let! g := link_prune fuel knng K ep ids empty_graph in
  Done (link_reverse ids g).

(** nsg_builder.hpp 118-128: the final graph holds the non-empty slots of each
    row, moved to the front, and their number. *)
Definition occupied (row : list N) : list N := filter (fun x => negb (N.eqb x kEmptyId)) row.
Definition compact (g : graph) : graph := map (fun row => pad R (occupied row)) g.
Definition degrees_of (g : graph) : list nat := map (fun row => length (occupied row)) g.

(** nsg_builder.hpp 528-535: the first neighbour not visited yet. *)
Fixpoint next_unvisited (g : graph) (u : N) (js : list nat) (vis : list bool) : res (option N) :=
  match js with
  | [] => Ok None
  | j :: js' =>
      let* id := at_ g u j in
      if N.eqb id kEmptyId then next_unvisited g u js' vis
      else let* seen := aget vis id in
           if seen : bool then next_unvisited g u js' vis else Ok (Some id)
  end.
(** nsg_builder.hpp 527-548: the loop of dfs; [stack]'s head is the top, and
    it is the node being expanded. *)
Fixpoint dfs_loop (fuel : nat) (g : graph) (stack : list N) (vis : list bool) (cnt : nat)
  : timed (list bool * nat) :=
  match stack with
  | [] => Done (Ok (vis, cnt))
  | u :: stack' =>
      match fuel with
      | O => OutOfFuel
      | S fuel' =>
          let! nxt := Done (next_unvisited g u (seq 0 R) vis) in
          match nxt with
          | None => dfs_loop fuel' g stack' vis cnt
          | Some v =>
              let! vis' := Done (aput vis v true) in
              dfs_loop fuel' g (v :: stack) vis' (S cnt)
          end
      end
  end.
(** nsg_builder.hpp 519-550: dfs.  Line 523 counts the root when it HAD been
    visited. *)
Definition dfs (fuel : nat) (g : graph) (vis : list bool) (root : N) (cnt : nat) : timed (list bool * nat) :=
  let! seen := Done (aget vis root) in
  let! vis' := Done (aput vis root true) in
  dfs_loop fuel g [root] vis' (if seen : bool then S cnt else cnt).

(** nsg_builder.hpp 567-573: the first vector that HAS been visited. *)
Fixpoint first_visited (vis : list bool) (i : N) : option N :=
  match vis with
  | [] => None
  | b :: vis' => if b : bool then Some i else first_visited vis' (i + 1)%N
  end.
(** nsg_builder.hpp 589-595: the first result with a free slot. *)
Fixpoint with_room (degs : list nat) (id : N) (pool : list node) : res (option N) :=
  match pool with
  | [] => Ok None
  | p :: pool' =>
      let* d := aget degs (fst p) in
      if andb (Nat.ltb d R) (negb (N.eqb (fst p) id)) then Ok (Some (fst p)) else with_room degs id pool'
  end.
(** nsg_builder.hpp 596-603: otherwise vectors are drawn until one is found;
    the result carries the position in the generator's stream. *)
Fixpoint draw_node (fuel : nat) (pos : nat) (vis : list bool) (degs : list nat) (id : N) : timed (N * nat) :=
  match fuel with
  | O => OutOfFuel
  | S fuel' =>
      let v := N.modulo (in_rng inp pos) n in
      let! seen := Done (aget vis v) in
      let! d := Done (aget degs v) in
      if andb (negb seen) (andb (Nat.ltb d R) (negb (N.eqb v id))) then Done (Ok (v, S pos))
      else draw_node fuel' (S pos) vis degs id
  end.
(** nsg_builder.hpp 564-609: attach_unlinked.  [None]: nothing visited. *)
Definition attach_unlinked (fuel : nat) (pos : nat) (ep : N) (g : graph) (vis : list bool) (degs : list nat)
  : timed (N * graph * list nat * nat) :=
  match first_visited vis 0%N with
  | None => Done (Ok (kEmptyId, g, degs, pos))
  | Some id =>
      let! (_, full, _) := search_on_graph fuel (dist id) g R (repeat false (N.to_nat n)) ep in
      let! room := Done (with_room degs id (in_sort_node inp full)) in
      let! (v, pos') := match room with
                        | Some v => Done (Ok (v, pos))
                        | None => draw_node fuel pos vis degs id
                        end in
      let! d := Done (aget degs v) in
      let! g' := Done (set_at g v d id) in
      let! degs' := Done (aput degs v (S d)) in
      Done (Ok (v, g', degs', pos'))
  end.

(** nsg_builder.hpp 491-506: tree_grow. *)
Fixpoint grow_loop (fuel : nat) (pos : nat) (ep root : N) (g : graph) (vis : list bool) (degs : list nat) (cnt : nat)
  : timed graph :=
  match fuel with
  | O => OutOfFuel
  | S fuel' =>
      let! (vis', cnt') := dfs fuel g vis root cnt in
      if N.leb n (N.of_nat cnt') then Done (Ok g)
      else let! (root', g', degs', pos') := attach_unlinked fuel pos ep g vis' degs in
           grow_loop fuel' pos' ep root' g' vis' degs' cnt'
  end.
Definition tree_grow (fuel : nat) (ep : N) (g : graph) (degs : list nat) : timed graph :=
  grow_loop fuel 1 ep ep g (repeat false (N.to_nat n)) degs O.

(** nsg_builder.hpp 87-135: build_graph, from the nearest-neighbour graph
    [knng] with [K] slots per row: the entry point and the final graph. *)
Definition build_graph (fuel : nat) (knng : graph) (K : nat) : timed (N * graph) :=
  let! ep := init_ep fuel knng K in
  let! g := link fuel knng K ep in
  let! g' := tree_grow fuel ep (compact g) (degrees_of g) in
  Done (Ok (ep, g')).
End Builder.
