(** The HNSW builder: HNSWImpl (/repo/include/index/graph/hnsw/hnswlib.hpp)
    and HNSWBuilder::build_graph (/repo/include/index/graph/hnsw/hnsw_builder.hpp).
    The result is the graph searched in SearchModel.v.

    Distances are integer keys: the code only compares and negates them.
    Ids are 32-bit.  Simplified: points are inserted one after the other, in
    any order after point 0 (with several threads insertions overlap); the
    level drawn for a point (163-167) is arbitrary, the conversion of the draw
    being undefined when it is infinite; a link list is the list of its first
    [count] ids, writing more ids than it has room for, or using a list of a
    level the node does not have, is [OutOfBounds]; the order in which equal
    elements leave a std::priority_queue is left to [lib]; a list of visited
    marks is fresh for every search (visited_list_pool.hpp is modelled in
    VisitedModel.v). *)
From Verif Require Export SearchModel.
Import ListNotations.

(** Sequencing of functions that may not have returned within the fuel. *)
Definition hbind {A B : Type} (m : fuelled A) (k : A -> fuelled B) : fuelled B :=
  match m with
  | OutOfFuel => OutOfFuel
  | Done (Ok a) => k a
  | Done OutOfBounds => Done OutOfBounds
  | Done InvalidBool => Done InvalidBool
  | Done Throws => Done Throws
  end.
Declare Scope hnsw_scope.
Notation "'do!' x <- m ; k" := (hbind m (fun x => k)) (at level 200, x name, m at level 100, k at level 200) : hnsw_scope.
Open Scope hnsw_scope.

(** An element of the queues: std::pair<DistanceType, InternalID>. *)
Notation qel := (Z * N)%type.
(** std::priority_queue with CompareByFirst (126-131) and with std::less on
    pairs (288): the top and the rest. *)
Record queues := {
  top_first : list qel -> option (qel * list qel);
  top_pair : list qel -> option (qel * list qel) }.
(** What the builder works with: the number of vectors, M = max_edge_num_,
    ef_construction, the distance between two vectors (by external label). *)
Record params := { p_n : N; p_M : nat; p_ef : nat; p_dist : N -> N -> Z; p_lib : queues }.

(** HNSWImpl, 36-73: labels by internal id (tableint_lookup_), levels
    (element_levels_), the link list of each layer of each node, and entry
    point with maxlevel_ ([None]: both are -1). *)
Record hnsw := {
  h_labels : list N;
  h_levels : list nat;
  h_links : list (list (list N));
  h_top : option (N * nat) }.
(** The constructor, 75-110 *)
Definition hnsw_new : hnsw := {| h_labels := []; h_levels := []; h_links := []; h_top := None |}.

(** max_edge_num_ above layer 0, max_edge_num_l0_ = 2 * max_edge_num_ on it,
    88-89, 494 *)
Definition cap (p : params) (layer : nat) : nat := match layer with O => 2 * p_M p | S _ => p_M p end.
(** 90: std::max(ef_construction, max_edge_num_) *)
Definition ef_of (p : params) : nat := Nat.max (p_ef p) (p_M p).
(** get_linklist0 and get_linklist, 174-177, 228-231, with get_list_count *)
Definition links (h : hnsw) (node : N) (layer : nat) : res (list N) :=
  let* ls := aget (h_links h) node in aget ls (N.of_nat layer).
(** set_list_count and the writes after it, e.g. 525-531 *)
Definition set_links (p : params) (h : hnsw) (node : N) (layer : nat) (ids : list N) : res hnsw :=
  if Nat.leb (length ids) (cap p layer) then
    let* ls := aget (h_links h) node in
    let* ls' := aput ls (N.of_nat layer) ids in
    let* links' := aput (h_links h) node ls' in
    Ok {| h_labels := h_labels h; h_levels := h_levels h; h_links := links'; h_top := h_top h |}
  else OutOfBounds.
(** space_->get_distance(label, get_external_label(id)), 138-141 *)
Definition dist_to (p : params) (h : hnsw) (label : N) (id : N) : res Z :=
  let* l := aget (h_labels h) id in Ok (p_dist p label l).
(** the same between two internal ids *)
Definition dist_ids (p : params) (h : hnsw) (a b : N) : res Z :=
  let* la := aget (h_labels h) a in dist_to p h la b.

(** ** get_neighbors_by_heuristic2, 277-334 *)

(** The loop over return_list, 307-323 (curdist < dist_to_query). *)
Fixpoint is_good (p : params) (h : hnsw) (chosen : list qel) (c : qel) : res bool :=
  match chosen with
  | [] => Ok true
  | s :: rest => let* d := dist_ids p h (snd s) (snd c) in
                 if Z.ltb d (- fst c) then Ok false else is_good p h rest c
  end.
(** The loop over queue_closest, 299-327; at most [k] elements are in it. *)
Fixpoint choose (p : params) (h : hnsw) (m : nat) (k : nat) (q : list qel) (chosen : list qel) : res (list qel) :=
  match k with
  | O => Ok chosen
  | S k' =>
      if Nat.leb m (length chosen) then Ok chosen
      else match top_pair (p_lib p) q with
           | None => Ok chosen
           | Some (c, q') =>
               let* good := is_good p h chosen c in
               choose p h m k' q' (if (good : bool) then chosen ++ [c] else chosen)
           end
  end.
Definition negate (c : qel) : qel := ((- fst c)%Z, snd c).
Definition heuristic (p : params) (h : hnsw) (cands : list qel) (m : nat) : res (list qel) :=
  if Nat.ltb (length cands) m then Ok cands
  else let* chosen := choose p h m (length cands) (map negate cands) [] in Ok (map negate chosen).

(** ** search_base_layer, 352-457 *)

Record scan := { s_top : list qel; s_cand : list qel; s_lower : Z; s_vis : list bool }.
(** The loop over one link list, 409-448. *)
Fixpoint scan_list (p : params) (h : hnsw) (label : N) (ids : list N) (s : scan) : res scan :=
  match ids with
  | [] => Ok s
  | id :: rest =>
      let* seen := aget (s_vis s) id in
      if (seen : bool) then scan_list p h label rest s
      else
        let* vis := aput (s_vis s) id true in
        let* d := dist_to p h label id in
        if (Nat.ltb (length (s_top s)) (ef_of p) || Z.ltb d (s_lower s))%bool then
          let top1 := (d, id) :: s_top s in
          let top2 := if Nat.ltb (ef_of p) (length top1)
                      then match top_first (p_lib p) top1 with Some (_, r) => r | None => top1 end
                      else top1 in
          let lower := match top_first (p_lib p) top2 with Some (c, _) => fst c | None => s_lower s end in
          scan_list p h label rest {| s_top := top2; s_cand := ((- d)%Z, id) :: s_cand s; s_lower := lower; s_vis := vis |}
        else scan_list p h label rest {| s_top := s_top s; s_cand := s_cand s; s_lower := s_lower s; s_vis := vis |}
  end.
(** The main loop, 382-449. *)
Fixpoint scan_loop (fuel : nat) (p : params) (h : hnsw) (label : N) (layer : nat) (s : scan) : fuelled (list qel) :=
  match fuel with
  | O => OutOfFuel
  | S k =>
      match top_first (p_lib p) (s_cand s) with
      | None => Done (Ok (s_top s))
      | Some (c, cands) =>
          if (Z.ltb (s_lower s) (- fst c) && Nat.eqb (length (s_top s)) (ef_of p))%bool then Done (Ok (s_top s))
          else
            do! ids <- Done (links h (snd c) layer);
            do! s' <- Done (scan_list p h label ids {| s_top := s_top s; s_cand := cands; s_lower := s_lower s; s_vis := s_vis s |});
            scan_loop k p h label layer s'
      end
  end.
Definition search_base_layer (fuel : nat) (p : params) (h : hnsw) (ep : N) (label : N) (layer : nat) : fuelled (list qel) :=
  do! d <- Done (dist_to p h label ep);
  do! vis <- Done (aput (repeat false (N.to_nat (p_n p))) ep true);
  scan_loop fuel p h label layer {| s_top := [(d, ep)]; s_cand := [((- d)%Z, ep)]; s_lower := d; s_vis := vis |}.

(** ** mutually_connect_new_element, 480-618, with isUpdate = false *)

(** Emptying a queue from the top, 503-508, 604-610. *)
Fixpoint drain (lib : queues) (k : nat) (q : list qel) : list N :=
  match k with
  | O => []
  | S k' => match top_first lib q with None => [] | Some (c, q') => snd c :: drain lib k' q' end
  end.
(** The distances of a full list's members to its owner, 595-599. *)
Fixpoint rated (p : params) (h : hnsw) (owner : N) (ids : list N) : res (list qel) :=
  match ids with
  | [] => Ok []
  | j :: rest => let* d := dist_ids p h j owner in let* l := rated p h owner rest in Ok ((d, j) :: l)
  end.
(** The loop over the selected neighbours, 551-615. *)
Fixpoint link_back (p : params) (h : hnsw) (cur : N) (layer : nat) (sel : list N) : res hnsw :=
  match sel with
  | [] => Ok h
  | s :: rest =>
      let* ids := links h s layer in
      if Nat.ltb (length ids) (cap p layer) then
        let* h' := set_links p h s layer (ids ++ [cur]) in link_back p h' cur layer rest
      else
        let* d := dist_ids p h cur s in
        let* others := rated p h s ids in
        let* kept := heuristic p h ((d, cur) :: others) (cap p layer) in
        let* h' := set_links p h s layer (drain (p_lib p) (length kept) kept) in
        link_back p h' cur layer rest
  end.
Definition connect (p : params) (h : hnsw) (cur : N) (top : list qel) (layer : nat) : res (hnsw * N) :=
  let* kept := heuristic p h top (p_M p) in
  let sel := drain (p_lib p) (length kept) kept in
  let* next := match sel with [] => OutOfBounds | _ => aget sel (N.of_nat (length sel - 1)) end in
  let* h1 := set_links p h cur layer sel in
  let* h2 := link_back p h1 cur layer sel in
  Ok (h2, next).

(** ** add_point, 637-741 *)

(** The loop over a link list, 701-709. *)
Fixpoint walk (p : params) (h : hnsw) (label : N) (ids : list N) (cur : N) (curdist : Z) (changed : bool) : res (N * Z * bool) :=
  match ids with
  | [] => Ok (cur, curdist, changed)
  | id :: rest => let* d := dist_to p h label id in
                  if Z.ltb d curdist then walk p h label rest id d true else walk p h label rest cur curdist changed
  end.
(** while (changed), 690-711 *)
Fixpoint walk_layer (fuel : nat) (p : params) (h : hnsw) (label : N) (layer : nat) (cur : N) (curdist : Z) : fuelled (N * Z) :=
  match fuel with
  | O => OutOfFuel
  | S k =>
      do! ids <- Done (links h cur layer);
      do! r <- Done (walk p h label ids cur curdist false);
      match r with (cur', curdist', changed) =>
        if (changed : bool) then walk_layer k p h label layer cur' curdist' else Done (Ok (cur', curdist'))
      end
  end.
(** for (level = maxlevel_copy; level > cur_level; level--), 688-712: [steps]
    more layers, down to the one above [low]. *)
Fixpoint walk_down (fuel : nat) (p : params) (h : hnsw) (label : N) (low : nat) (steps : nat) (cur : N) (curdist : Z) : fuelled (N * Z) :=
  match steps with
  | O => Done (Ok (cur, curdist))
  | S k => do! r <- walk_layer fuel p h label (low + steps) cur curdist;
           walk_down fuel p h label low k (fst r) (snd r)
  end.
(** for (level = min(cur_level, maxlevel_copy); level >= 0; level--), 715-731 *)
Fixpoint connect_layers (fuel : nat) (p : params) (h : hnsw) (label : N) (cur : N) (layer : nat) (ep : N) : fuelled hnsw :=
  do! top <- search_base_layer fuel p h ep label layer;
  do! r <- Done (connect p h cur top layer);
  match layer with
  | O => Done (Ok (fst r))
  | S l => connect_layers fuel p (fst r) label cur l (snd r)
  end.
(** get_random_level, 163-167: with max_edge_num_ = 1, mult_ is 1 / log(1),
    infinite, and the conversion of the infinite product is undefined. *)
Definition random_level (p : params) (draw : nat) : res nat :=
  if Nat.eqb (p_M p) 1 then OutOfBounds else Ok draw.
Definition add_point (fuel : nat) (p : params) (h : hnsw) (label : N) (draw : nat) : fuelled hnsw :=
  if existsb (N.eqb label) (h_labels h) then Done (Ok h)
  else
    let id := N.of_nat (length (h_labels h)) in
    if N.leb (p_n p) id then Done OutOfBounds
    else
      do! level <- Done (random_level p draw);
      let h1 := {| h_labels := h_labels h ++ [label]; h_levels := h_levels h ++ [level];
                   h_links := h_links h ++ [repeat [] (S level)]; h_top := h_top h |} in
      match h_top h with
      | None => Done (Ok {| h_labels := h_labels h1; h_levels := h_levels h1; h_links := h_links h1; h_top := Some (id, level) |})
      | Some (ep, mx) =>
          do! start <- (if Nat.ltb level mx then
                          do! d <- Done (dist_to p h1 label ep);
                          do! r <- walk_down fuel p h1 label level (mx - level) ep d;
                          Done (Ok (fst r))
                        else Done (Ok ep));
          do! h2 <- connect_layers fuel p h1 label id (Nat.min level mx) start;
          Done (Ok (if Nat.ltb mx level
                    then {| h_labels := h_labels h2; h_levels := h_levels h2; h_links := h_links h2; h_top := Some (id, level) |}
                    else h2))
      end.
(** hnsw_builder.hpp 102-116: the points in the order of insertion, each with
    the level drawn for it. *)
Fixpoint add_points (fuel : nat) (p : params) (h : hnsw) (order : list (N * nat)) : fuelled hnsw :=
  match order with
  | [] => Done (Ok h)
  | (label, draw) :: rest => do! h' <- add_point fuel p h label draw; add_points fuel p h' rest
  end.

(** ** Copying into the unified graph, hnsw_builder.hpp 134-185 *)

(** label_lookup_[i]: a missing label gives 0 *)
Fixpoint lookup_from (labels : list N) (label : N) (i : N) : N :=
  match labels with [] => 0%N | l :: rest => if N.eqb l label then i else lookup_from rest label (i + 1)%N end.
Definition lookup (h : hnsw) (label : N) : N := lookup_from (h_labels h) label 0%N.
(** 140-144, 174-177: the external labels of a link list, written from a
    position of a row on *)
Fixpoint copy_ids (h : hnsw) (row : list N) (base : N) (ids : list N) : res (list N) :=
  match ids with
  | [] => Ok row
  | id :: rest => let* label := aget (h_labels h) id in
                  let* row' := aput row base label in copy_ids h row' (base + 1)%N rest
  end.
(** 137-146 *)
Definition copy_row (h : hnsw) (R : nat) (i : N) : res (list N) :=
  let* ids := links h (lookup h i) 0 in copy_ids h (repeat kInvalidId R) 0%N ids.
(** 172-178: layers 1 to [level] of one node *)
Fixpoint copy_layers (h : hnsw) (R : nat) (node : N) (j : nat) (left : nat) (row : list N) : res (list N) :=
  match left with
  | O => Ok row
  | S k => let* ids := links h node j in
           let* row' := copy_ids h row (N.of_nat ((j - 1) * R)) ids in
           copy_layers h R node (S j) k row'
  end.
(** 158-180 *)
Definition copy_overlay (h : hnsw) (R : nat) (i : N) : res (nat * list N) :=
  let node := lookup h i in
  let* level := aget (h_levels h) node in
  let* row := copy_layers h R node 1 level (repeat kInvalidId (level * R)) in
  Ok (level, row).
Fixpoint collect {A : Type} (f : N -> res A) (is : list N) : res (list A) :=
  match is with [] => Ok [] | i :: rest => let* a := f i in let* l := collect f rest in Ok (a :: l) end.
Definition all_ids (n : N) : list N := map N.of_nat (seq 0 (N.to_nat n)).
(** 134-185: the tables have one row per vector (and room for the capacity) *)
Definition copy_out (p : params) (R : nat) (h : hnsw) : res graph :=
  let* rows := collect (copy_row h R) (all_ids (p_n p)) in
  let* ep := match h_top h with Some (ep, _) => aget (h_labels h) ep | None => OutOfBounds end in
  let* upper := collect (copy_overlay h R) (all_ids (p_n p)) in
  Ok {| g_max_nbrs := N.of_nat R; g_rows := rows; g_eps := [];
        g_overlay := Some {| ov_max_nbrs := N.of_nat R; ov_ep := ep;
                             ov_levels := map (fun u => N.of_nat (fst u)) upper; ov_lists := map snd upper |} |}.

(** HNSWBuilder, hnsw_builder.hpp 60-66, 93-188 (ef_construction_ is a
    uint16_t, 42): [R] neighbours per vector,
    half of it above layer 0; [draw i] is the level drawn for vector [i], and
    [others] the order in which vectors 1, 2, ... are inserted. *)
Record request := { r_n : N; r_R : nat; r_L : N; r_dist : N -> N -> Z; r_lib : queues; r_draw : N -> nat; r_others : list N }.
Definition params_of (r : request) : params :=
  {| p_n := r_n r; p_M := r_R r / 2; p_ef := N.to_nat (r_L r mod 65536); p_dist := r_dist r; p_lib := r_lib r |}.
Definition build_hnsw (fuel : nat) (r : request) : fuelled graph :=
  do! h <- add_points fuel (params_of r) hnsw_new (map (fun i => (i, r_draw r i)) (0%N :: r_others r));
  Done (copy_out (params_of r) (r_R r) h).
