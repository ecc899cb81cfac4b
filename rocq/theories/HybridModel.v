(** Filtered graph search: GraphVectorIterator (include/executor/vector_iterator.hpp:36-160),
    the masked search of GraphSearchJob
    (include/executor/jobs/graph_search_job.hpp:806-860) and GraphHybridSearchJob
    (include/executor/jobs/graph_hybrid_search_job.hpp:82-156, 288-454), for 32-bit ids
    (64-bit ids: ResultIdsModel.v).

    Distances are integers ordered like the floats, NaN excluded (PoolModel.v).
    Prefetching, logging and the look-up of the item ids of the results are left
    out, and so is the iterator for RaBitQ spaces (vector_iterator.hpp:162-300). *)
From Verif Require Export RankModel.
From Verif Require EffortModel.

(** Sequencing of computations with fuel *)
Definition fbind {A B} (m : fuelled A) (k : A -> fuelled B) : fuelled B :=
  match m with
  | OutOfFuel => OutOfFuel
  | Done (Ok a) => k a
  | Done OutOfBounds => Done OutOfBounds
  | Done InvalidBool => Done InvalidBool
  | Done Throws => Done Throws
  end.
Notation "'let!' x := m 'in' k" := (fbind m (fun x => k)) (at level 200, x pattern, k at level 200).

(** What a search works on: space_, build_space_ and graph_.  [sp_search] and [sp_exact]
    are the distances of the query computers of the two spaces; [sp_rerank] is
    kNeedsRerank (graph_search_job.hpp:60-70): the two spaces differ *)
Record space := { sp_graph : graph; sp_n : nat; sp_search : N -> Z; sp_exact : N -> Z; sp_rerank : bool }.

(** ** GraphVectorIterator *)
(** search_pool_ with its visited set, and pending_candidate_, 152-159 *)
Record iter := { it_solo : solo; it_pending : option candidate }.
(** make_vector_iterator, graph_search_job.hpp:807-833, with the constructor, 68-83 *)
Definition make_iterator (fuel : nat) (sp : space) (topk ef : nat) : fuelled iter :=
  if Nat.ltb ef topk then Done Throws
  else let! s := initialize_search fuel (sp_graph sp) (sp_search sp) (solo_new (N.of_nat (sp_n sp)) ef) in
       Done (Ok {| it_solo := s; it_pending := None |}).
(** blocked_mask_ != nullptr && blocked_mask_->get(node), 141 *)
Definition is_blocked (mask : option (list bool)) (node : N) : res bool :=
  match mask with None => Ok false | Some bs => bit_get bs node end.
(** pop and the loop over the neighbours, 119-139: the node and the pool after it *)
Definition expand (sp : space) (s : solo) : res (N * solo) :=
  let* (e, p) := lp_pop (so_pool s) in
  let* row := aget (g_rows (sp_graph sp)) (fst e) in
  let* s' := solo_row (sp_search sp) {| so_pool := p; so_vis := so_vis s |} row (N.to_nat (g_max_nbrs (sp_graph sp))) 0%N in
  Ok (fst e, s').
(** The loop of prepare_next, 118-149 *)
Fixpoint prepare_loop (fuel : nat) (sp : space) (mask : option (list bool)) (s : solo) : fuelled (option candidate * solo) :=
  if has_next (so_pool s) then
    match fuel with
    | O => OutOfFuel
    | S k => let! (node, s') := Done (expand sp s) in
             let! b := Done (is_blocked mask node) in
             if (b : bool) then prepare_loop k sp mask s' else Done (Ok (Some (node, sp_exact sp node), s'))
    end
  else Done (Ok (None, s)).
(** prepare_next, 110-150, and has_next, 85 *)
Definition prepare_next (fuel : nat) (sp : space) (mask : option (list bool)) (it : iter) : fuelled (bool * iter) :=
  match it_pending it with
  | Some _ => Done (Ok (true, it))
  | None => let! (c, s) := prepare_loop fuel sp mask (it_solo it) in
            Done (Ok (match c with Some _ => true | None => false end, {| it_solo := s; it_pending := c |}))
  end.
(** next, 87-94 *)
Definition next (fuel : nat) (sp : space) (mask : option (list bool)) (it : iter) : fuelled (option candidate * iter) :=
  let! (b, it') := prepare_next fuel sp mask it in
  if (b : bool) then Done (Ok (it_pending it', {| it_solo := it_solo it'; it_pending := None |})) else Done (Ok (None, it')).
(** next_batch, 36-54: [left] more candidates at most *)
Fixpoint next_batch (fuel : nat) (sp : space) (mask : option (list bool)) (it : iter) (left : nat) : fuelled (list candidate * iter) :=
  match left with
  | O => Done (Ok ([], it))
  | S l => let! (c, it') := next fuel sp mask it in
           match c with
           | None => Done (Ok ([], it'))
           | Some c => let! (cs, it'') := next_batch fuel sp mask it' l in Done (Ok (c :: cs, it''))
           end
  end.

(** ** The masked search *)
(** The loop of search_solo with a mask, graph_search_job.hpp:850-856.  [rounds] is the
    fuel of this loop, [fuel] that of the iterator. *)
Fixpoint drain (rounds fuel : nat) (sp : space) (mask : option (list bool)) (it : iter) (p : pool) : fuelled pool :=
  match rounds with
  | O => OutOfFuel
  | S k =>
      let! (b, it1) := prepare_next fuel sp mask it in
      if (b : bool) then
        let! (c, it2) := next fuel sp mask it1 in
        match c with
        | None => Done (Ok p)
        | Some (id, d) => let! (_, p') := Done (sb_insert p id d) in drain k fuel sp mask it2 p'
        end
      else Done (Ok p)
  end.
(** search_solo with a mask, 835-860: the ids written *)
Definition masked_search (fuel : nat) (sp : space) (bs : list bool) (topk ef : nat) : fuelled (list N) :=
  let! it := make_iterator fuel sp topk ef in
  let! p := drain fuel fuel sp (Some bs) it (pool_new topk) in
  Done (Ok (pad_ids topk (pool_ids p topk))).
(** search_solo without a mask, 636-690 (with rerank, 260-297): the ids written *)
Definition plain_search (fuel : nat) (lib : heap_lib) (sp : space) (topk ef : nat) : fuelled (list N) :=
  let! (s, _) := solo_pool fuel (sp_graph sp) (fun _ => None) (N.of_nat (sp_n sp)) (sp_search sp) topk ef in
  let! found := Done (pool_results (so_pool s) 0 (p_size (so_pool s))) in
  if sp_rerank sp
  then let! (ids, _) := Done (rerank lib (map fst found) (sp_exact sp) topk) in Done (Ok ids)
  else Done (Ok (pad_ids topk (firstn topk (map fst found)))).

(** ** GraphHybridSearchJob *)
(** ids[0 .. count) = found, materialize_result_ids, 142-148 *)
Definition overwrite (ids found : list N) : list N := found ++ skipn (length found) ids.
(** count_materialized_results, 150-156 *)
Fixpoint count_results (ids : list N) : nat :=
  match ids with [] => 0 | id :: rest => if N.eqb id kInvalidId then 0 else S (count_results rest) end.
(** The result_pool.insert loop of execute_iterative_filter, 313-321 *)
Fixpoint insert_until (p : pool) (cs : list candidate) (matches : list bool) (topk : nat) : res pool :=
  match cs, matches with
  | (id, d) :: cs', m :: ms =>
      if (m : bool) then
        let* (_, p') := sb_insert p id d in
        if Nat.eqb (p_size p') topk then Ok p' else insert_until p' cs' ms topk
      else insert_until p cs' ms topk
  | _, _ => Ok p
  end.
(** The loop of execute_iterative_filter, 305-322 *)
Fixpoint iterate (rounds fuel : nat) (sp : space) (x : executor) (it : iter) (p : pool) (topk : nat) : fuelled pool :=
  match rounds with
  | O => OutOfFuel
  | S k =>
      if Nat.ltb (p_size p) topk then
        let! (b, it1) := prepare_next fuel sp None it in
        if (b : bool) then
          let! (cs, it2) := next_batch fuel sp None it1 (topk - p_size p) in
          match cs with
          | [] => Done (Ok p)
          | _ => let! matches := Done (eval_offsets x (map fst cs)) in
                 let! p' := Done (insert_until p cs matches topk) in
                 iterate k fuel sp x it2 p' topk
          end
        else Done (Ok p)
      else Done (Ok p)
  end.
(** execute_iterative_filter, 288-330: the array of ids after it *)
Definition iterative_filter (fuel : nat) (sp : space) (x : executor) (topk ef : nat) (ids : list N) : fuelled (list N) :=
  let! it := make_iterator fuel sp topk ef in
  let! p := iterate fuel fuel sp x it (pool_new topk) topk in
  Done (Ok (overwrite ids (pool_ids p topk))).
(** execute_bitset_prefilter, 332-410: the array of ids after it *)
Definition bitset_prefilter (fuel : nat) (lib : heap_lib) (sp : space) (x : executor) (i : EffortModel.info) (ids : list N) : fuelled (list N) :=
  let topk := N.to_nat (EffortModel.topk i) in
  let! (bs, matched) := Done (build_blocked x) in
  let! plan := Done (EffortModel.prefilter_plan (N.of_nat (sp_n sp)) i (N.of_nat matched)) in
  match plan with
  | EffortModel.Nothing => Done (Ok ids)
  | EffortModel.Plain i' => plain_search fuel lib sp topk (N.to_nat (EffortModel.ef i'))
  | EffortModel.Brute => let! found := Done (execute_brute_force_filter x (sp_exact sp) topk) in Done (Ok (overwrite ids found))
  | EffortModel.Graph i' =>
      let! ids1 := masked_search fuel sp bs topk (N.to_nat (EffortModel.ef i')) in
      if Nat.ltb (count_results ids1) (Nat.min topk matched)
      then let! found := Done (execute_brute_force_filter x (sp_exact sp) topk) in Done (Ok (overwrite ids1 found))
      else Done (Ok ids1)
  end.

(** FilterExecHint, include/utils/query_utils.hpp *)
Inductive hint := Auto | IterativeFilter | DisableIterative.
(** Mode and build_search_mode, 120-140 *)
Inductive mode := PlainSearch | BitsetPrefilter | IterativeMode | IndexedExact.
Definition search_mode (sp : space) (x : executor) (h : hint) (i : EffortModel.info) : res mode :=
  if is_empty (exec_filter x) then Ok PlainSearch
  else match h with
       | Auto =>
           match indexed_ids x with
           | None => Ok BitsetPrefilter
           | Some l => let* b := EffortModel.brute_force (N.of_nat (sp_n sp)) i (N.of_nat (length l)) in
                       Ok (if (b : bool) then IndexedExact else BitsetPrefilter)
           end
       | IterativeFilter => Ok IterativeMode
       | DisableIterative => Ok BitsetPrefilter
       end.
(** hybrid_search_solo, 412-454: the array of ids *)
Definition hybrid_search (fuel : nat) (lib : heap_lib) (sp : space) (s : storage) (f : FilterModel.filter) (h : hint) (i : EffortModel.info)
  : fuelled (list N) :=
  let topk := N.to_nat (EffortModel.topk i) in
  let! _ := Done (EffortModel.validate i) in
  let ids := repeat kInvalidId topk in
  let! x := Done (make_executor f s (sp_n sp)) in
  let! m := Done (search_mode sp x h i) in
  match m with
  | PlainSearch => plain_search fuel lib sp topk (N.to_nat (EffortModel.ef i))
  | IndexedExact => let! found := Done (execute_brute_force_filter x (sp_exact sp) topk) in Done (Ok (overwrite ids found))
  | BitsetPrefilter => bitset_prefilter fuel lib sp x i ids
  | IterativeMode => iterative_filter fuel sp x topk (N.to_nat (EffortModel.ef i)) ids
  end.
