(** Copying the ids of the result list into the caller's id array.

    Modelled: include/executor/jobs/graph_hybrid_search_job.hpp 82-87, 142-156;
    include/executor/jobs/graph_search_job.hpp 858-859, 886-887;
    include/utils/rabitq_utils/search_utils/buffer.hpp 124-128.

    The id array is memory the caller owns: a byte string of [w] bytes for each of its
    [k] entries, where [w = sizeof(IDType)].  The functions below write into it through a
    pointer to 32-bit numbers, as the code does.  (The C++ standard leaves such a write
    undefined when IDType is not a 32-bit number; the bytes are what compilers produce
    without assuming anything about aliasing.) *)
From Verif Require Export Bytes ScalarDataModel.

(** std::numeric_limits<IDType>::max(): graph_hybrid_search_job.hpp 85 *)
Definition id_max (w : nat) : N := (2 ^ (8 * N.of_nat w) - 1)%N.

(** ids[i] of an array with entries of [w] bytes *)
Definition load (w i : nat) (mem : bytes) : res N :=
  if Nat.leb (w * i + w) (length mem) then Ok (le_dec (firstn w (skipn (w * i) mem)))
  else OutOfBounds.

(** ids[i] = v for such an array *)
Definition store (w i : nat) (v : N) (mem : bytes) : res bytes :=
  if Nat.leb (w * i + w) (length mem)
  then Ok (firstn (w * i) mem ++ le_enc w v ++ skipn (w * i + w) mem)
  else OutOfBounds.

(** std::fill(ids, ids + topk, max): initialize_results, graph_hybrid_search_job.hpp
    82-87; graph_search_job.hpp 858, 886.  [i] counts the entries already filled. *)
Fixpoint fill_from (w i n : nat) (mem : bytes) : res bytes :=
  match n with
  | O => Ok mem
  | S n' => let* m := store w i (id_max w) mem in fill_from w (S i) n' m
  end.
Definition fill (w topk : nat) (mem : bytes) : res bytes := fill_from w 0 topk mem.

(** SearchBuffer::copy_results_to with a 32-bit destination: buffer.hpp 124-128.  The
    pool is the list of the ids it holds, nearest first. *)
Fixpoint copy_from (i : nat) (ids : list N) (mem : bytes) : res bytes :=
  match ids with
  | [] => Ok mem
  | v :: ids' => let* m := store 4 i v mem in copy_from (S i) ids' m
  end.
Definition copy_results_to (pool : list N) (knn_size : nat) (mem : bytes) : res bytes :=
  copy_from 0 (firstn (Nat.min (length pool) knn_size) pool) mem.

(** materialize_result_ids: graph_hybrid_search_job.hpp 142-149 *)
Definition materialize_result_ids (pool : list N) (topk : nat) (mem : bytes) : res (nat * bytes) :=
  let result_count := Nat.min (length pool) topk in
  let* m := copy_results_to pool result_count mem in Ok (result_count, m).

(** count_materialized_results: graph_hybrid_search_job.hpp 150-156.  [n] is
    topk - count. *)
Fixpoint count_from (w i n : nat) (mem : bytes) : res nat :=
  match n with
  | O => Ok i
  | S n' => let* v := load w i mem in
            if (v =? id_max w)%N then Ok i else count_from w (S i) n' mem
  end.
Definition count_materialized_results (w topk : nat) (mem : bytes) : res nat := count_from w 0 topk mem.

(** A filtered search with a result pool, graph_hybrid_search_job.hpp 418 and then 324 or
    275: the array is initialised and the pool copied *)
Definition deliver_counted (w : nat) (pool : list N) (topk : nat) (mem : bytes) : res (nat * bytes) :=
  let* m := fill w topk mem in materialize_result_ids pool topk m.

(** A masked graph search, graph_search_job.hpp 858-859 (886-887 for RaBitQ), followed by
    the count of its results, graph_hybrid_search_job.hpp 395 *)
Definition deliver_recounted (w : nat) (pool : list N) (topk : nat) (mem : bytes) : res (nat * bytes) :=
  let* m := fill w topk mem in
  let* m' := copy_results_to pool topk m in
  let* n := count_materialized_results w topk m' in Ok (n, m').
