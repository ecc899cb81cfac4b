(** Deletion by filter: delete_by_filter of Collection
    (python/src/alayalite/collection.py 354-380), on the scalar storage.

    Simplified: the vectors and the graph are left out (GraphUpdateJob::remove
    touches them after the scalar row); the filter is the one that _build_filter made
    (DictModel.v); item ids pass through Python strings unchanged. *)
From Verif Require Export StorageModel FilterModel.

(** An unbounded loop: the fuel does not suffice, or the loop ends. *)
Inductive fuelled (A : Type) := OutOfFuel | Done (r : A).
Arguments OutOfFuel {A}.
Arguments Done {A}.

(** remove_by_item_id, python/include/index.hpp 1271-1273, remove, 762-775,
    remove_nondurable, 357-363, GraphUpdateJob::remove,
    include/executor/jobs/graph_update_job.hpp 139-157, and remove of the space,
    include/space/raw_space.hpp 192-202.  [updatable]: the index has an update job (the
    RaBitQ index has none). *)
Definition remove_by_item_id (updatable : bool) (s : storage) (item : bytes) : res storage :=
  if negb updatable then Throws
  else match find_by_item_id (db s) item with
       | None => Throws
       | Some id => let* (_, s') := StorageModel.remove s id in Ok s'
       end.
(** delete_by_id, collection.py 320-331: RuntimeError is ignored *)
Fixpoint delete_by_id (updatable : bool) (s : storage) (items : list bytes) : res storage :=
  match items with
  | [] => Ok s
  | item :: rest =>
      match remove_by_item_id updatable s item with
      | Ok s' => delete_by_id updatable s' rest
      | Throws => delete_by_id updatable s rest
      | OutOfBounds => OutOfBounds
      | InvalidBool => InvalidBool
      end
  end.
(** filter_query, collection.py 209-235, index.hpp 1061-1078, get_scalar_data,
    raw_space.hpp 276-286: the limit must be positive and fit uint32_t *)
Definition filter_query (s : storage) (f : filter) (limit : nat) : res (list (N * scalar_data)) :=
  if Nat.eqb limit 0 || N.leb (2 ^ 32) (N.of_nat limit) then Throws
  else scan_with_filter s (fun r => evaluate f (meta r)) limit.
(** The loop, 373-380: the storage and the number returned *)
Fixpoint delete_loop (fuel : nat) (updatable : bool) (s : storage) (f : filter) (batch total : nat) : fuelled (res (storage * nat)) :=
  match fuel with
  | O => OutOfFuel
  | S fuel' =>
      match (let* results := filter_query s f batch in
             let* s' := delete_by_id updatable s (map (fun e => item_id (snd e)) results) in Ok (s', length results)) with
      | Ok (s', n) =>
          if Nat.eqb n batch then delete_loop fuel' updatable s' f batch (total + n) else Done (Ok (s', total + n))
      | Throws => Done Throws
      | OutOfBounds => Done OutOfBounds
      | InvalidBool => Done InvalidBool
      end
  end.
Definition delete_by_filter (fuel : nat) (updatable : bool) (s : storage) (f : filter) (batch : nat) : fuelled (res (storage * nat)) :=
  delete_loop fuel updatable s f batch 0.
