(** Exact ranking: the rerank of GraphSearchJob
    (include/executor/jobs/graph_search_job.hpp:130-347), the brute-force
    filtered search (include/executor/jobs/graph_hybrid_search_job.hpp:142-286, 465-483)
    and the brute-force search through the materialized view
    (python/include/materialized_view.hpp:199-292, 317-460, 486-550, 619-691, 873-923,
    python/include/index.hpp:85-104).

    Distances are integers ordered like the floats (NaN excluded: the
    comparison of the heap would not be an order). *)
From Verif Require Export MatcherModel PoolModel SearchModel.
From Verif Require Import FilterModel.

(** ** Heaps *)

(** A candidate, RerankCandidate and VectorCandidate: id and distance. *)
Notation candidate := (N * Z)%type.
(** rerank_candidate_less, graph_search_job.hpp:247-254, and candidate_less,
    materialized_view.hpp:486-492 *)
Definition cand_less (a b : candidate) : bool :=
  if negb (Z.eqb (snd a) (snd b)) then Z.ltb (snd a) (snd b) else N.ltb (fst a) (fst b).
(** The algorithms of the C++ library on a vector, with this order.  Which ones
    they are is not fixed here; RankSpec.v states what the standard demands. *)
Record heap_lib := {
  push_heap : list candidate -> list candidate;
  pop_heap : list candidate -> list candidate;
  sort_all : list candidate -> list candidate;
}.
(** insert_candidate, materialized_view.hpp:494-516, and the same code in
    rerank, graph_search_job.hpp:277-289.  results.front() of an empty vector
    and results.back() = x need a non-empty vector. *)
Definition insert_candidate (lib : heap_lib) (results : list candidate) (c : candidate) (limit : nat) : res (list candidate) :=
  if Nat.eqb limit 0 then Ok results
  else if Nat.ltb (length results) limit then Ok (push_heap lib (results ++ [c]))
  else match results with
       | [] => OutOfBounds
       | front :: _ =>
           if negb (cand_less c front) then Ok results
           else match pop_heap lib results with
                | [] => OutOfBounds
                | popped => Ok (push_heap lib (removelast popped ++ [c]))
                end
       end.
Fixpoint insert_candidates (lib : heap_lib) (results : list candidate) (cs : list candidate) (limit : nat) : res (list candidate) :=
  match cs with
  | [] => Ok results
  | c :: cs' => let* r := insert_candidate lib results c limit in insert_candidates lib r cs' limit
  end.

(** ** Reranking *)

(** fill_invalid_ids, fill_invalid_distances, graph_search_job.hpp:130-139: the
    arrays after the first results *)
Definition pad_ids (topk : nat) (l : list N) : list N := l ++ repeat kInvalidId (topk - length l).
Definition pad_distances (topk : nat) (l : list Z) : list Z := l ++ repeat float_max (topk - length l).
(** rerank, graph_search_job.hpp:260-297 and 306-347: the ids of the source
    pool in order, the exact distances; the ids and distances written.  The
    heap comes from the scratch pool, which clears it (146-155, 178-191). *)
Definition rerank (lib : heap_lib) (src : list N) (dist : N -> Z) (topk : nat) : res (list N * list Z) :=
  if Nat.eqb topk 0 then Ok ([], [])
  else
    let* heap := insert_candidates lib [] (map (fun id => (id, dist id)) src) topk in
    let sorted := firstn (Nat.min (length heap) topk) (sort_all lib heap) in
    Ok (pad_ids topk (map fst sorted), pad_distances topk (map snd sorted)).

(** ** Brute-force filtered search *)

(** SearchBuffer::copy_results_to, utils/rabitq_utils/search_utils/buffer.hpp:124-128,
    with the count of materialize_result_ids, graph_hybrid_search_job.hpp:142-148 *)
Definition pool_ids (p : pool) (topk : nat) : list N := map c_id (firstn (Nat.min (p_size p) topk) (p_data p)).
(** run_indexed_candidates, graph_hybrid_search_job.hpp:220-224 *)
Fixpoint insert_ids (p : pool) (dist : N -> Z) (ids : list N) : res pool :=
  match ids with [] => Ok p | id :: rest => let* (_, p') := sb_insert p id (dist id) in insert_ids p' dist rest end.
(** The ids of a batch whose match is not 0, 233-237 *)
Fixpoint matching (ids : list N) (matches : list bool) : list N :=
  match ids, matches with
  | id :: ids', m :: ms => if m then id :: matching ids' ms else matching ids' ms
  | _, _ => []
  end.
(** run_full_scan, 225-239: batches of 1024 *)
Fixpoint full_scan (fuel : nat) (x : executor) (dist : N -> Z) (p : pool) (from : nat) : res pool :=
  match fuel with
  | O => Ok p
  | S k =>
      if Nat.leb (data_num x) from then Ok p
      else
        let ids := id_range from (Nat.min (data_num x) (from + 1024)) in
        let* matches := eval_offsets x ids in
        let* p' := insert_ids p dist (matching ids matches) in
        full_scan k x dist p' (from + 1024)
  end.
(** execute_brute_force_filter, 209-286 (the three branches differ only in how
    they compute exact distances) *)
Definition execute_brute_force_filter (x : executor) (dist : N -> Z) (topk : nat) : res (list N) :=
  let* p := match indexed_ids x with
            | Some ids => insert_ids (pool_new topk) dist ids
            | None => full_scan (S (data_num x)) x dist (pool_new topk) 0
            end in
  Ok (pool_ids p topk).
(** hybrid_search_brute_force_solo, 465-483: the ids written.  The item ids
    looked up for them are left out. *)
Definition brute_force_search (s : storage) (n : nat) (f : FilterModel.filter) (dist : N -> Z) (topk : nat) : res (list N) :=
  if Nat.eqb topk 0 then Throws
  else let* x := make_executor f s n in
       let* ids := execute_brute_force_filter x dist topk in
       Ok (pad_ids topk ids).

(** ** The materialized view *)

(** append_unique_metadata_value, materialized_view.hpp:205-210 *)
Definition append_unique (l : list value) (v : value) : list value :=
  if existsb (fun w => value_eqb w v) l then l else l ++ [v].
(** intersect_metadata_values, 212-222 *)
Definition intersect_values (lhs rhs : list value) : list value :=
  fold_left (fun acc v => if existsb (fun w => value_eqb w v) rhs then append_unique acc v else acc) lhs [].
(** collect_conjunctive_filter_conditions, 224-243: [None]: returns false.
    Sub-filters are never null. *)
Fixpoint conjunctive (f : FilterModel.filter) : option (list condition) :=
  match f with
  | Filter logic cs subs =>
      if is_empty f then Some []
      else match logic with
           | AND => fold_left (fun acc g => match acc, conjunctive g with Some l, Some l' => Some (l ++ l') | _, _ => None end) subs (Some cs)
           | _ => None
           end
  end.
(** The loop of analyze_materialized_view_filter, 259-286: the allowed values
    (nullopt: None) and filter_covered, or None for [return {}] *)
Fixpoint analyze_conditions (target : bytes) (cs : list condition) (allowed : option (list value)) (covered : bool)
  : option (option (list value) * bool) :=
  match cs with
  | [] => Some (allowed, covered)
  | c :: rest =>
      if negb (bytes_eqb (field c) target) then analyze_conditions target rest allowed false
      else
        let next values := analyze_conditions target rest
          (Some (match allowed with None => values | Some l => intersect_values l values end)) covered in
        match op c with
        | EQ => next (append_unique [] (operand c))
        | IN_SET => next (fold_left append_unique (operands c) [])
        | _ => None
        end
  end.
(** analyze_materialized_view_filter, 245-292: eligible_, then values_ and
    filter_covered_ *)
Definition analyze_filter (f : FilterModel.filter) (target : bytes) : option (list value * bool) :=
  if is_empty f || match target with [] => true | _ => false end then None
  else match conjunctive f with
       | None => None
       | Some cs => match analyze_conditions target cs None true with
                    | Some (Some values, covered) => Some (values, covered)
                    | _ => None
                    end
       end.
(** A Partition, 305-314: encoded_value_ and local_to_global_ids_.  Its
    vectors are copies of the vectors of these ids. *)
Record mv_partition := { pt_key : bytes; pt_ids : list N }.
(** partition_lookup: unordered_map from the encoded value *)
Fixpoint add_to_partition (ps : list mv_partition) (key : bytes) (id : N) : list mv_partition :=
  match ps with
  | [] => [{| pt_key := key; pt_ids := [id] |}]
  | p :: ps' => if bytes_eqb (pt_key p) key then {| pt_key := pt_key p; pt_ids := pt_ids p ++ [id] |} :: ps'
                else p :: add_to_partition ps' key id
  end.
Definition find_partition (ps : list mv_partition) (key : bytes) : option mv_partition :=
  List.find (fun p => bytes_eqb (pt_key p) key) ps.
Definition kMaxPartitions : nat := 128.
(** collect_partition_seeds, 618-650: [None] for too many partitions *)
Fixpoint collect_partitions (s : storage) (target : bytes) (ids : list N) (ps : list mv_partition) : res (option (list mv_partition)) :=
  match ids with
  | [] => Ok (Some ps)
  | id :: rest =>
      match get_data_value (db s) id with
      | None => collect_partitions s target rest ps
      | Some (raw, _) =>
          let* v := deserialize_single_metadata_value raw target in
          match v with
          | None => collect_partitions s target rest ps
          | Some v =>
              let ps' := add_to_partition ps (encode_value v) id in
              if Nat.ltb kMaxPartitions (length ps') then Ok None else collect_partitions s target rest ps'
          end
      end
  end.
(** rebuild, 316-370: the partitions of the first indexed field; no view with
    at most one partition.  (is_supported and building the graphs left out.) *)
Definition rebuild_view (s : storage) (n : nat) (target : bytes) : res (option (list mv_partition)) :=
  let* ps := collect_partitions s target (id_range 0 n) [] in
  match ps with
  | Some l => if Nat.leb (length l) 1 then Ok None else Ok (Some l)
  | None => Ok None
  end.
(** The candidates of emit_brute_force_results, 652-668: every local id whose
    residual bit is not set *)
Definition unblocked (ids : list N) (blocked : option (list bool)) : list N :=
  match blocked with None => ids | Some bs => matching ids (map negb bs) end.
(** execute_partition_search, 875-923, when brute force is requested: topk is
    cut to the size of the partition by adjust_search_info, 543-550 *)
Definition partition_search (lib : heap_lib) (x : option executor) (p : mv_partition) (dist : N -> Z) (topk : nat) : res (list candidate) :=
  match pt_ids p with
  | [] => Ok []
  | ids =>
      let* blocked := match x with
                      | None => Ok (Some (None, length ids))
                      | Some x => let* (bs, matched) := build_blocked_for x ids in
                                  Ok (if Nat.eqb matched 0 then None else Some (Some bs, matched))
                      end in
      match blocked with
      | None => Ok []
      | Some (bs, _) =>
          insert_candidates lib [] (map (fun id => (id, dist id)) (unblocked ids bs)) (Nat.min topk (length ids))
      end
  end.
(** The loop over the selected values, 420-436 *)
Fixpoint search_values (lib : heap_lib) (view : list mv_partition) (x : option executor) (values : list value) (dist : N -> Z) (topk : nat)
    (merged : list candidate) : res (list candidate) :=
  match values with
  | [] => Ok merged
  | v :: rest =>
      match find_partition view (encode_value v) with
      | None => search_values lib view x rest dist topk merged
      | Some p =>
          let* found := partition_search lib x p dist topk in
          let* merged' := insert_candidates lib merged found topk in
          search_values lib view x rest dist topk merged'
      end
  end.
(** try_hybrid_search, 385-459, when brute force is requested: [None]: returns
    false; otherwise the ids written *)
Definition view_search (lib : heap_lib) (view : option (list mv_partition)) (target : bytes) (s : storage) (n : nat) (f : FilterModel.filter)
    (dist : N -> Z) (topk : nat) : res (option (list N)) :=
  match view with
  | None => Ok None
  | Some ps =>
      match analyze_filter f target with
      | None => Ok None
      | Some (values, covered) =>
          let* x := if covered then Ok None else let* x := make_executor f s n in Ok (Some x) in
          let* merged := search_values lib ps x values dist topk [] in
          Ok (Some (pad_ids topk (map fst (sort_all lib merged))))
      end
  end.
(** execute_hybrid_search_dispatch, python/include/index.hpp:85-104, with
    brute_force_requested *)
Definition brute_force_dispatch (lib : heap_lib) (view : option (list mv_partition)) (target : bytes) (s : storage) (n : nat) (f : FilterModel.filter)
    (dist : N -> Z) (topk : nat) : res (list N) :=
  let* r := view_search lib view target s n f dist topk in
  match r with Some ids => Ok ids | None => brute_force_search s n f dist topk end.
