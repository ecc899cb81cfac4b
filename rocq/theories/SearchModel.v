(** Greedy graph search: VamanaGreedySearch::search
    (include/index/graph/vamana/vamana_greedy_search.hpp:79-150),
    GraphSearchJob::search_solo and search_solo_updated
    (include/executor/jobs/graph_search_job.hpp:636-690, 698-805) with
    Graph::initialize_search (include/index/graph/graph.hpp:136-147) and
    OverlayGraph::initialize (include/index/graph/overlay_graph.hpp:100-124).

    The distance of the query to node [i] is [dist i], an integer ordered like
    the float (PoolModel; NaN excluded).  Loops with no static bound take fuel;
    [OutOfFuel] is told apart from every outcome of the code.  Beside its
    result a search returns the nodes it expanded, in order (the nodes whose
    neighbour list it read); the code does not keep this list.  Prefetching is
    left out.  The coroutine versions (502-627) run the same statements with
    suspension points between them. *)
From Verif Require Export NpqModel BitsetModel.

(** The outcome of a search with fuel *)
Inductive fuelled (A : Type) := OutOfFuel | Done (r : res A).
Arguments OutOfFuel {A}. Arguments Done {A}.

(** ** VamanaGreedySearch *)

(** SearchScratch, 92-96: visited holds bytes *)
Record vamana_scratch := { vs_visited : list N; vs_touched : list N; vs_pool : npq }.
(** thread_local SearchScratch scratch, 98: empty vectors and a default queue
    (robust_prune.hpp:46, 118-121) *)
Definition vamana_scratch_new : vamana_scratch :=
  {| vs_visited := []; vs_touched := [];
     vs_pool := {| q_size := 0; q_cap := 0; q_cur := 0; q_data := [] |} |}.
(** for (id : visited_touched) visited[id] = 0, 103-105 *)
Fixpoint untouch (visited touched : list N) : res (list N) :=
  match touched with [] => Ok visited | id :: t => let* v := aput visited id 0%N in untouch v t end.
(** 102-113 *)
Definition vamana_reset (num_nodes : nat) (s : vamana_scratch) (search_list_size : nat) : res vamana_scratch :=
  let* visited := if Nat.eqb (length (vs_visited s)) num_nodes then untouch (vs_visited s) (vs_touched s)
                  else Ok (repeat 0%N num_nodes) in
  Ok {| vs_visited := visited; vs_touched := [];
        vs_pool := npq_reserve (npq_clear (vs_pool s)) search_list_size |}.
(** visited[m] = 1; touched.push_back(m); pool.insert(Neighbor(m, dist)),
    119-123 and 130-133 *)
Definition vamana_visit (dist : N -> Z) (s : vamana_scratch) (m : N) : res vamana_scratch :=
  let* visited := aput (vs_visited s) m 1%N in
  let* (_, pool) := npq_insert (vs_pool s) {| n_id := m; n_dist := dist m; n_exp := false |} in
  Ok {| vs_visited := visited; vs_touched := vs_touched s ++ [m]; vs_pool := pool |}.
(** The inner loop, 128-135 *)
Fixpoint vamana_scan (dist : N -> Z) (s : vamana_scratch) (nbrs : list N) : res vamana_scratch :=
  match nbrs with
  | [] => Ok s
  | m :: rest =>
      let* v := aget (vs_visited s) m in
      if N.eqb v 0 then let* s' := vamana_visit dist s m in vamana_scan dist s' rest
      else vamana_scan dist s rest
  end.
(** The outer loop, 125-136 *)
Fixpoint vamana_loop (fuel : nat) (graph : list (list N)) (dist : N -> Z) (s : vamana_scratch) (expanded : list N)
  : fuelled (vamana_scratch * list N) :=
  if has_unexpanded_node (vs_pool s) then
    match fuel with
    | O => OutOfFuel
    | S k =>
        match (let* (n, pool) := closest_unexpanded (vs_pool s) in
               let* nbrs := aget graph (n_id n) in
               let* s' := vamana_scan dist {| vs_visited := vs_visited s; vs_touched := vs_touched s; vs_pool := pool |} nbrs in
               Ok (s', expanded ++ [n_id n])) with
        | Ok (s', e') => vamana_loop k graph dist s' e'
        | OutOfBounds => Done OutOfBounds
        | InvalidBool => Done InvalidBool
        | Throws => Done Throws
        end
    end
  else Done (Ok (s, expanded)).
(** pool[0 .. take), 141-147 *)
Definition npq_prefix (q : npq) (take : nat) : list (N * Z) :=
  map (fun e => (n_id e, n_dist e)) (firstn take (q_data q)).
(** search, 79-153: the hits, the scratch left behind, the expanded nodes *)
Definition vamana_search (fuel : nat) (graph : list (list N)) (start : N) (dist : N -> Z) (s : vamana_scratch)
    (top_k search_list_size : nat) : fuelled (list (N * Z) * vamana_scratch * list N) :=
  if Nat.eqb top_k 0 || Nat.eqb search_list_size 0 || Nat.ltb search_list_size top_k then Done Throws
  else
    match (let* s0 := vamana_reset (length graph) s search_list_size in vamana_visit dist s0 start) with
    | Ok s1 =>
        match vamana_loop fuel graph dist s1 [] with
        | OutOfFuel => OutOfFuel
        | Done r => Done (let* (s2, e) := r in
            Ok (npq_prefix (vs_pool s2) (Nat.min top_k (q_size (vs_pool s2))), s2, e))
        end
    | OutOfBounds => Done OutOfBounds
    | InvalidBool => Done InvalidBool
    | Throws => Done Throws
    end.

(** ** GraphSearchJob *)

(** static_cast<IDType>(-1), also kInvalidId, 129: IDType is uint32_t *)
Definition kInvalidId : N := 4294967295.

(** OverlayGraph, overlay_graph.hpp:29-37 *)
Record overlay := { ov_max_nbrs : N; ov_ep : N; ov_levels : list N; ov_lists : list (list N) }.
(** Graph, graph.hpp:36-44: one row of max_nbrs_ ids per node, the entry
    points and the overlay *)
Record graph := { g_max_nbrs : N; g_rows : list (list N); g_eps : list N; g_overlay : option overlay }.

(** The inner loop of OverlayGraph::initialize, 108-116; [i] is the index of
    the next of the [left] entries.  Returns u, cur_dist and changed. *)
Fixpoint overlay_row (dist : N -> Z) (row : list N) (base : N) (left : nat) (i : N) (u : N) (cur : Z) (changed : bool)
  : res (N * Z * bool) :=
  match left with
  | O => Ok (u, cur, changed)
  | S k => let* v := aget row (base + i)%N in
           if N.eqb v kInvalidId then Ok (u, cur, changed)
           else if Z.ltb (dist v) cur then overlay_row dist row base k (i + 1)%N v (dist v) true
           else overlay_row dist row base k (i + 1)%N u cur changed
  end.
(** The loop while (changed), 105-117: edges(level, u) is
    lists_[u].data() + (level - 1) * max_nbrs_, 77-79 *)
Fixpoint overlay_descend (fuel : nat) (o : overlay) (dist : N -> Z) (level : N) (u : N) (cur : Z) : fuelled (N * Z) :=
  match fuel with
  | O => OutOfFuel
  | S k =>
      match (let* row := aget (ov_lists o) u in
             overlay_row dist row ((level - 1) * ov_max_nbrs o)%N (N.to_nat (ov_max_nbrs o)) 0%N u cur false) with
      | Ok (u', cur', changed) => if (changed : bool) then overlay_descend k o dist level u' cur' else Done (Ok (u', cur'))
      | OutOfBounds => Done OutOfBounds
      | InvalidBool => Done InvalidBool
      | Throws => Done Throws
      end
  end.
(** The loop over the levels, 103-118 *)
Fixpoint overlay_levels (fuel : nat) (o : overlay) (dist : N -> Z) (level : nat) (u : N) (cur : Z) : fuelled (N * Z) :=
  match level with
  | O => Done (Ok (u, cur))
  | S l =>
      match overlay_descend fuel o dist (N.of_nat level) u cur with
      | Done (Ok (u', cur')) => overlay_levels fuel o dist l u' cur'
      | other => other
      end
  end.
(** The pool of a search: LinearPool and its visited set
    (query_utils.hpp:280-283, 354-357) *)
Record solo := { so_pool : pool; so_vis : dynamic_bitset }.
Definition solo_new (data_num : N) (ef : nat) : solo := {| so_pool := pool_new ef; so_vis := db_new data_num |}.
(** if (!vis_.get(ep)) { insert(ep, dist); vis_.set(ep) }, graph.hpp:141-144,
    overlay_graph.hpp:119-122 *)
Definition solo_start (s : solo) (ep : N) (d : Z) : res solo :=
  let* seen := db_get (so_vis s) ep in
  if (seen : bool) then Ok s
  else let* (_, p) := lp_insert (so_pool s) ep d in
       let* vis := db_set (so_vis s) ep in Ok {| so_pool := p; so_vis := vis |}.
Fixpoint solo_starts (dist : N -> Z) (s : solo) (eps : list N) : res solo :=
  match eps with [] => Ok s | ep :: rest => let* s' := solo_start s ep (dist ep) in solo_starts dist s' rest end.
(** OverlayGraph::initialize, 100-123 *)
Definition overlay_initialize (fuel : nat) (o : overlay) (dist : N -> Z) (s : solo) : fuelled solo :=
  match aget (ov_levels o) (ov_ep o) with
  | Ok level =>
      match overlay_levels fuel o dist (N.to_nat level) (ov_ep o) (dist (ov_ep o)) with
      | OutOfFuel => OutOfFuel
      | Done r => Done (let* (u, cur) := r in solo_start s u cur)
      end
  | _ => Done OutOfBounds
  end.
(** Graph::initialize_search, graph.hpp:136-147 *)
Definition initialize_search (fuel : nat) (g : graph) (dist : N -> Z) (s : solo) : fuelled solo :=
  match g_overlay g with
  | Some o => overlay_initialize fuel o dist s
  | None => Done (solo_starts dist s (g_eps g))
  end.
(** vis_.get(v): continue; vis_.set(v); insert, 653-671, and for the
    neighbours of a removed node 768-774 *)
Definition solo_visit (dist : N -> Z) (s : solo) (v : N) : res solo :=
  let* seen := db_get (so_vis s) v in
  if (seen : bool) then Ok s
  else let* vis := db_set (so_vis s) v in
       let* (_, p) := lp_insert (so_pool s) v (dist v) in Ok {| so_pool := p; so_vis := vis |}.
(** The loop over the row, 650-671: [left] entries from index [i], stopped by
    -1; at(u, i), graph.hpp:87 *)
Fixpoint solo_row (dist : N -> Z) (s : solo) (row : list N) (left : nat) (i : N) : res solo :=
  match left with
  | O => Ok s
  | S k => let* v := aget row i in
           if N.eqb v kInvalidId then Ok s
           else let* s' := solo_visit dist s v in solo_row dist s' row k (i + 1)%N
  end.
Fixpoint solo_list (dist : N -> Z) (s : solo) (l : list N) : res solo :=
  match l with [] => Ok s | v :: rest => let* s' := solo_visit dist s v in solo_list dist s' rest end.
(** The main loop, 648-672, and of search_solo_updated, 764-797:
    removed_node_nbrs_ is [removed] ([None] everywhere for search_solo) *)
Fixpoint solo_loop (fuel : nat) (g : graph) (removed : N -> option (list N)) (dist : N -> Z) (s : solo) (expanded : list N)
  : fuelled (solo * list N) :=
  if has_next (so_pool s) then
    match fuel with
    | O => OutOfFuel
    | S k =>
        match (let* (e, p) := lp_pop (so_pool s) in
               let s1 := {| so_pool := p; so_vis := so_vis s |} in
               let* s2 := match removed (fst e) with
                          | Some l => solo_list dist s1 l
                          | None => let* row := aget (g_rows g) (fst e) in solo_row dist s1 row (N.to_nat (g_max_nbrs g)) 0%N
                          end in
               Ok (s2, expanded ++ [fst e])) with
        | Ok (s', e') => solo_loop k g removed dist s' e'
        | OutOfBounds => Done OutOfBounds
        | InvalidBool => Done InvalidBool
        | Throws => Done Throws
        end
    end
  else Done (Ok (s, expanded)).
(** pool.id(i), pool.dist(i) for i < count, 739-742 *)
Fixpoint pool_results (p : pool) (i count : nat) : res (list (N * Z)) :=
  match count with
  | O => Ok []
  | S c => let* id := lp_id p i in let* d := lp_dist p i in let* rest := pool_results p (i + 1) c in Ok ((id, d) :: rest)
  end.
(** The search up to the results, 699-735: the pool and the expanded nodes *)
Definition solo_pool (fuel : nat) (g : graph) (removed : N -> option (list N)) (data_num : N) (dist : N -> Z) (topk ef : nat)
  : fuelled (solo * list N) :=
  if Nat.ltb ef topk then Done Throws
  else match initialize_search fuel g dist (solo_new data_num ef) with
       | OutOfFuel => OutOfFuel
       | Done (Ok s) => solo_loop fuel g removed dist s []
       | Done OutOfBounds => Done OutOfBounds
       | Done InvalidBool => Done InvalidBool
       | Done Throws => Done Throws
       end.
(** search_solo without reranking, 698-751 (and 636-690, ids only), and
    search_solo_updated, 753-805: the two output arrays hold the results
    followed by kInvalidId and kInvalidDistance (numeric_limits<float>::max(),
    129-138) up to topk *)
Definition search_solo (fuel : nat) (g : graph) (removed : N -> option (list N)) (data_num : N) (dist : N -> Z) (topk ef : nat)
  : fuelled (list (N * Z) * list N) :=
  match solo_pool fuel g removed data_num dist topk ef with
  | OutOfFuel => OutOfFuel
  | Done r => Done (let* (s, e) := r in
                    let count := Nat.min (p_size (so_pool s)) topk in
                    let* out := pool_results (so_pool s) 0 count in
                    Ok (out ++ repeat (kInvalidId, float_max) (topk - count), e))
  end.
