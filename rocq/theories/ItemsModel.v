(** Inserting, upserting, deleting and looking up items of an in-memory
    collection, and rebuilding it: python/include/index.hpp:323-405 and
    python/src/alayalite/collection.py:244-458, on the graph updates of
    UpdateModel.v and the scalar storage of StorageModel.v.

    Not modelled: the write-ahead log around the operations (RecoveryModel.v),
    errors of RocksDB other than refused writes of a row, and the
    normalization of vectors for the cosine metric. *)
From Verif Require Export Arr SearchModel.
From Verif Require UpdateModel StorageModel.
Local Open Scope nat_scope.

Local Notation job := UpdateModel.state.
Local Notation store := StorageModel.storage.
Local Notation record := ScalarDataModel.scalar_data.
Local Notation vec := UpdateModel.vec.

(** graph_index_ and search_space_ without its scalar storage; scalar_storage_ *)
Record items := { i_job : job; i_store : store }.
Definition slots (s : job) : nat := length (UpdateModel.u_vecs s).

(** What the scalar storage says to a new row, and the storage with the row:
    validate_scalar_insertable, graph_update_job.hpp:202-218, and
    RawSpace::insert, raw_space.hpp:164-175, under the next id.  [broken]:
    db_->Write reports an error (rocksdb_storage.hpp:244-248). *)
Definition scalar_answer (st : items) (r : record) (broken : bool) : res (UpdateModel.scalar_case * store) :=
  if negb (StorageModel.item_id_available (StorageModel.db (i_store st)) (ScalarDataModel.item_id r) None)
  then Ok (UpdateModel.Duplicate, i_store st)
  else if broken then Ok (UpdateModel.Fails, i_store st)
  else let* (fine, s') := StorageModel.insert (i_store st) (N.of_nat (slots (i_job st))) r in
       Ok (if (fine : bool) then (UpdateModel.Accepts, s') else (UpdateModel.Fails, i_store st)).
(** insert_nondurable, index.hpp:323-330: GraphUpdateJob::insert_and_update
    writes the row when the vector has got a slot.  -1 is returned, not
    raised, when there is none. *)
Definition insert_one (fuel : nat) (c : UpdateModel.conf) (h : UpdateModel.hash_order) (st : items) (v : vec) (ef : nat) (r : record) (broken : bool)
  : fuelled (UpdateModel.outcome * items) :=
  match scalar_answer st r broken with
  | Ok (sc, s') =>
      match UpdateModel.insert_and_update fuel c h (i_job st) v ef sc with
      | OutOfFuel => OutOfFuel
      | Done x => Done (let* (out, j) := x in Ok (out, {| i_job := j; i_store := if slots (i_job st) <? slots j then s' else i_store st |}))
      end
  | Throws => Done Throws | OutOfBounds => Done OutOfBounds | InvalidBool => Done InvalidBool
  end.
(** remove_nondurable, index.hpp:357-363: GraphUpdateJob::remove,
    graph_update_job.hpp:141-160, RawSpace::remove, raw_space.hpp:182-201 *)
Definition remove_item (c : UpdateModel.conf) (st : items) (item : bytes) : res (UpdateModel.outcome * items) :=
  match StorageModel.find_by_item_id (StorageModel.db (i_store st)) item with
  | None => Ok (UpdateModel.Raised, st)
  | Some id =>
      let* (_, s') := StorageModel.remove (i_store st) id in
      let* (out, j) := UpdateModel.remove_node c (i_job st) id in
      Ok (out, {| i_job := j; i_store := s' |})
  end.
(** upsert_nondurable, index.hpp:379-405; the rollback has its own hash order
    and its own luck with RocksDB *)
Definition upsert (fuel : nat) (c : UpdateModel.conf) (h h2 : UpdateModel.hash_order) (st : items) (v : vec) (ef : nat) (r : record) (broken broken2 : bool)
  : fuelled (UpdateModel.outcome * items) :=
  match StorageModel.find_by_item_id (StorageModel.db (i_store st)) (ScalarDataModel.item_id r) with
  | None => insert_one fuel c h st v ef r broken
  | Some id =>
      match (let* old := StorageModel.read_row (i_store st) id in
             let* old_v := aget (UpdateModel.u_vecs (i_job st)) id in
             let* (_, st1) := remove_item c st (ScalarDataModel.item_id r) in
             Ok (old, old_v, st1)) with
      | Ok (old, old_v, st1) =>
          match insert_one fuel c h st1 v ef r broken with
          | Done (Ok (UpdateModel.Raised, st2)) =>
              match insert_one fuel c h2 st2 old_v ef old broken2 with
              | Done (Ok (_, st3)) => Done (Ok (UpdateModel.Raised, st3))
              | x => x
              end
          | x => x
          end
      | Throws => Done Throws | OutOfBounds => Done OutOfBounds | InvalidBool => Done InvalidBool
      end
  end.
(** Collection.get_by_id, collection.py:334-352, for one id: what is missing is
    left out *)
Definition get_by_id (st : items) (item : bytes) : res (option record) :=
  match StorageModel.find_by_item_id (StorageModel.db (i_store st)) item with
  | None => Ok None
  | Some id => let* r := StorageModel.read_row (i_store st) id in Ok (Some r)
  end.
(** Collection.reindex, collection.py:405-424: the rows of the ids below
    get_data_num(), without those that have no item id *)
Fixpoint collect (st : items) (id : N) (left : nat) : res (list (vec * record)) :=
  match left with
  | O => Ok []
  | S k =>
      let* r := StorageModel.read_row (i_store st) id in
      match ScalarDataModel.item_id r with
      | [] => collect st (id + 1) k
      | _ => let* v := aget (UpdateModel.u_vecs (i_job st)) id in let* rest := collect st (id + 1) k in Ok ((v, r) :: rest)
      end
  end.
(** 426-458, with RawSpace::fit, raw_space.hpp:131-157: [None] when there is
    nothing to build from; [build] is the graph builder *)
Definition reindex (fields : list bytes) (build : list vec -> job) (st : items) : res (option items) :=
  let* rows := collect st 0 (N.to_nat (UpdateModel.u_items (i_job st))) in
  match rows with
  | [] => Ok None
  | _ =>
      let* (fine, s') := StorageModel.batch_insert {| StorageModel.db := []; StorageModel.cached_count := 0; StorageModel.indexed_fields := fields |} 0 (map snd rows) in
      if (fine : bool) then Ok (Some {| i_job := build (map fst rows); i_store := s' |}) else Throws
  end.

(** The operations of a user *)
Inductive event :=
| EInsert (v : vec) (ef : nat) (r : record) (h : UpdateModel.hash_order) (broken : bool)
| EUpsert (v : vec) (ef : nat) (r : record) (h h2 : UpdateModel.hash_order) (broken broken2 : bool)
| EDelete (item : bytes).
Definition perform (fuel : nat) (c : UpdateModel.conf) (st : items) (e : event) : fuelled (UpdateModel.outcome * items) :=
  match e with
  | EInsert v ef r h broken => insert_one fuel c h st v ef r broken
  | EUpsert v ef r h h2 broken broken2 => upsert fuel c h h2 st v ef r broken broken2
  | EDelete item => Done (remove_item c st item)
  end.
