(** GraphUpdateJob, include/executor/jobs/graph_update_job.hpp:32-256, with its
    JobContext (include/executor/jobs/job_context.hpp:11-18): inserting vectors
    into and removing them from an in-memory graph index, and searching it.

    Modelled for a space that is its own build space (RawSpace; the SQ spaces
    keep a second, raw space in step with the first, 233-254) and 32-bit ids.
    The slots of the two SequentialStorages (StoreModel.v) are lists, their
    validity bits lists of booleans.  The scalar storage (StorageModel.v) is
    reduced to whether it accepts a row.  Asserts are not evaluated. *)
From Verif Require Export SearchModel.

Definition vec := list Z.
(** unordered_map<IDType, vector<IDType>>, job_context.hpp:14-16: [push] is
    m[k].push_back(x) *)
Definition nmap := list (N * list N).
Fixpoint nfind (m : nmap) (k : N) : option (list N) :=
  match m with [] => None | (k', l) :: r => if N.eqb k k' then Some l else nfind r k end.
Fixpoint push (m : nmap) (k x : N) : nmap :=
  match m with [] => [(k, [x])] | (k', l) :: r => if N.eqb k k' then (k', l ++ [x]) :: r else (k', l) :: push r k x end.
(** unordered_set<IDType>::insert, as a list without repetitions *)
Definition add (l : list N) (x : N) : list N := if existsb (N.eqb x) l then l else l ++ [x].

(** What does not change: the capacity of the two storages (the graphs are
    built with space_->get_capacity(), hnsw_builder.hpp:92, 153),
    Graph::max_nbrs_, eps_ and overlay_graph_ (graph.hpp:36-44), and the
    distance function, as an integer that orders like the float
    (PoolModel.v). *)
Record conf := { k_cap : nat; k_max : nat; k_eps : list N; k_overlay : option overlay; k_vdist : vec -> vec -> Z }.
(** The iteration order of the two hash containers: inserted_edges_ in 112-114,
    candidate_nbrs in 183-186 *)
Record hash_order := { o_keys : list N -> list N; o_cands : list N -> list N }.
(** The rows of the graph with their validity, the vectors with theirs,
    RawSpace::item_cnt_ (raw_space.hpp:62), and the JobContext: removed_vertices_,
    removed_node_nbrs_, inserted_edges_ *)
Record state := {
  u_rows : list (list N); u_linked : list bool;
  u_vecs : list vec; u_live : list bool; u_items : N;
  u_removed : list N; u_second : nmap; u_inserted : nmap;
}.
Definition flag (l : list bool) (i : N) : bool := nth (N.to_nat i) l false.
Definition graph_of (c : conf) (s : state) : graph :=
  {| g_max_nbrs := N.of_nat (k_max c); g_rows := u_rows s; g_eps := k_eps c; g_overlay := k_overlay c |}.
(** RawSpace::QueryComputer::operator(), raw_space.hpp:449-456.  (The bits of
    slots never used are clear.) *)
Definition computer (c : conf) (s : state) (q : vec) (u : N) : Z :=
  match nth_error (u_vecs s) (N.to_nat u) with
  | Some v => if flag (u_live s) u then k_vdist c q v else float_max
  | None => float_max
  end.

Definition with_rows (s : state) (rows : list (list N)) : state :=
  {| u_rows := rows; u_linked := u_linked s; u_vecs := u_vecs s; u_live := u_live s; u_items := u_items s;
     u_removed := u_removed s; u_second := u_second s; u_inserted := u_inserted s |}.
Definition with_inserted (s : state) (m : nmap) : state :=
  {| u_rows := u_rows s; u_linked := u_linked s; u_vecs := u_vecs s; u_live := u_live s; u_items := u_items s;
     u_removed := u_removed s; u_second := u_second s; u_inserted := m |}.

(** ** update, 162-196 *)
(** The loop over the row, 165-176; map::at throws *)
Fixpoint cand_row (s : state) (row : list N) (left : nat) (i : N) (acc : list N) : res (list N) :=
  match left with
  | O => Ok acc
  | S k => let* v := aget row i in
           if N.eqb v kInvalidId then Ok acc
           else let* acc' := if existsb (N.eqb v) (u_removed s)
                             then match nfind (u_second s) v with Some l => Ok (fold_left add l acc) | None => Throws end
                             else Ok acc in
                cand_row s row k (i + 1)%N (add acc' v)
  end.
(** 163-181 *)
Definition candidate_nbrs (c : conf) (s : state) (row : list N) (node : N) : res (list N) :=
  let* acc := cand_row s row (k_max c) 0%N [] in
  Ok (match nfind (u_inserted s) node with Some l => fold_left add l acc | None => acc end).
(** 183-186 *)
Fixpoint pool_all (dist : N -> Z) (p : pool) (l : list N) : res pool :=
  match l with [] => Ok p | x :: r => let* (_, p') := lp_insert p x (dist x) in pool_all dist p' r end.
(** 188-191: pool.id(i) for the entries in the pool *)
Fixpoint pool_ids_at (p : pool) (i count : nat) : res (list N) :=
  match count with O => Ok [] | S k => let* id := lp_id p i in let* r := pool_ids_at p (i + 1) k in Ok (id :: r) end.
(** 162-196: updated_edges is a vector of max_nbrs_ zeros; Graph::update
    (graph.hpp:121-123, sequential_storage.hpp:91-97) leaves invalid nodes
    alone *)
Definition update (c : conf) (h : hash_order) (s : state) (node : N) : res state :=
  let* row := aget (u_rows s) node in
  let* cands := candidate_nbrs c s row node in
  let* v := aget (u_vecs s) node in
  let* p := pool_all (computer c s v) (pool_new (k_max c)) (o_cands h cands) in
  let count := Nat.min (k_max c) (p_size p) in
  let* ids := pool_ids_at p 0 count in
  if flag (u_linked s) node
  then let* rows := aput (u_rows s) node (ids ++ repeat 0%N (k_max c - count)) in Ok (with_rows s rows)
  else Ok s.
(** 112-114: [false] when an update threw *)
Fixpoint update_all (c : conf) (h : hash_order) (s : state) (keys : list N) : res (bool * state) :=
  match keys with
  | [] => Ok (true, s)
  | k :: r => match update c h s k with
              | Ok s' => update_all c h s' r
              | Throws => Ok (false, s)
              | OutOfBounds => OutOfBounds
              | InvalidBool => InvalidBool
              end
  end.

(** ** insert_and_update, 79-117 *)
Inductive outcome := Inserted (id : N) | Full | Removed | Raised.
(** validate_scalar_insertable finds the item id in use (202-218); the scalar
    storage takes the row, or fails to (raw_space.hpp:168-171) *)
Inductive scalar_case := Duplicate | Accepts | Fails.
(** 105-111: record the reverse edges *)
Fixpoint reverse_edges (m : nmap) (found : list N) (node : N) : nmap :=
  match found with
  | [] => m
  | x :: r => reverse_edges (if N.eqb x kInvalidId then m else push m x node) r node
  end.
(** Graph::insert, graph.hpp:104, and RawSpace::insert,
    raw_space.hpp:164-175, when the storages have room *)
Definition graph_insert (s : state) (row : list N) : state :=
  {| u_rows := u_rows s ++ [row]; u_linked := u_linked s ++ [true]; u_vecs := u_vecs s; u_live := u_live s; u_items := u_items s;
     u_removed := u_removed s; u_second := u_second s; u_inserted := u_inserted s |}.
Definition graph_remove (s : state) (id : N) : state :=
  {| u_rows := u_rows s; u_linked := upd (u_linked s) (N.to_nat id) false; u_vecs := u_vecs s; u_live := u_live s; u_items := u_items s;
     u_removed := u_removed s; u_second := u_second s; u_inserted := u_inserted s |}.
Definition space_remove (s : state) (id : N) : state :=
  {| u_rows := u_rows s; u_linked := u_linked s; u_vecs := u_vecs s; u_live := upd (u_live s) (N.to_nat id) false; u_items := u_items s;
     u_removed := u_removed s; u_second := u_second s; u_inserted := u_inserted s |}.
(** RawSpace::insert: the id, -1 when the storage is full; item_cnt_ counts
    either way *)
Definition space_insert (c : conf) (s : state) (v : vec) : N * state :=
  if Nat.leb (k_cap c) (length (u_vecs s))
  then (kInvalidId, {| u_rows := u_rows s; u_linked := u_linked s; u_vecs := u_vecs s; u_live := u_live s; u_items := (u_items s + 1)%N;
                       u_removed := u_removed s; u_second := u_second s; u_inserted := u_inserted s |})
  else (N.of_nat (length (u_vecs s)),
        {| u_rows := u_rows s; u_linked := u_linked s; u_vecs := u_vecs s ++ [v]; u_live := u_live s ++ [true]; u_items := (u_items s + 1)%N;
           u_removed := u_removed s; u_second := u_second s; u_inserted := u_inserted s |}).
Definition insert_and_update (fuel : nat) (c : conf) (h : hash_order) (s : state) (v : vec) (ef : nat) (sc : scalar_case)
  : fuelled (outcome * state) :=
  match sc with
  | Duplicate => Done (Ok (Raised, s))
  | _ =>
    match search_solo fuel (graph_of c s) (nfind (u_second s)) (u_items s) (computer c s v) (k_max c) ef with
    | OutOfFuel => OutOfFuel
    | Done Throws => Done (Ok (Raised, s))
    | Done OutOfBounds => Done OutOfBounds
    | Done InvalidBool => Done InvalidBool
    | Done (Ok (results, _)) =>
        if Nat.leb (k_cap c) (length (u_rows s)) then Done (Ok (Full, s))
        else
          let found := map fst results in
          let node := N.of_nat (length (u_rows s)) in
          let (id, s1) := space_insert c (graph_insert s found) v in
          match sc with
          | Fails => Done (Ok (Raised, graph_remove s1 node))
          | _ =>
            if negb (N.eqb id node)
            then Done (Ok (Raised, graph_remove (if N.eqb id kInvalidId then s1 else space_remove s1 id) node))
            else
              let s2 := with_inserted s1 (reverse_edges (u_inserted s1) found node) in
              Done (let* (fine, s3) := update_all c h s2 (o_keys h (map fst (u_inserted s2))) in
                    Ok (if (fine : bool) then (Inserted node, with_inserted s3 []) else (Raised, s3)))
          end
    end
  end.

(** ** remove, 119-134.  The overload for item ids, 141-160, does the same to
    the id the scalar storage finds, or throws first. *)
Fixpoint record_row (m : nmap) (node : N) (row : list N) (left : nat) (i : N) : res nmap :=
  match left with
  | O => Ok m
  | S k => let* v := aget row i in
           if N.eqb v kInvalidId then Ok m else record_row (push m node v) node row k (i + 1)%N
  end.
Definition remove_node (c : conf) (s : state) (id : N) : res (outcome * state) :=
  let* row := aget (u_rows s) id in
  let* m := record_row (u_second s) id row (k_max c) 0%N in
  Ok (Removed, {| u_rows := u_rows s; u_linked := upd (u_linked s) (N.to_nat id) false;
                  u_vecs := u_vecs s; u_live := upd (u_live s) (N.to_nat id) false; u_items := u_items s;
                  u_removed := add (u_removed s) id; u_second := m; u_inserted := u_inserted s |}).

(** GraphSearchJob::search_solo, graph_search_job.hpp:698-751 *)
Definition search (fuel : nat) (c : conf) (s : state) (q : vec) (topk ef : nat) : fuelled (list (N * Z) * list N) :=
  search_solo fuel (graph_of c s) (fun _ => None) (u_items s) (computer c s q) topk ef.

(** The operations of a user *)
Inductive op := InsertVec (v : vec) (ef : nat) (sc : scalar_case) (h : hash_order) | RemoveVec (id : N).
Definition step (fuel : nat) (c : conf) (s : state) (o : op) : fuelled (outcome * state) :=
  match o with
  | InsertVec v ef sc h => insert_and_update fuel c h s v ef sc
  | RemoveVec id => Done (remove_node c s id)
  end.
