(** What searches of an updatable disk index should see. *)
From Verif Require Export MirrorModel NodeCacheSpec.
Local Open Scope N_scope.

Inductive mirror_op :=
| Insert (slot : N) (coords nbrs : list N)
| Relink (id : N) (nbrs : list N)
| WriteBack (ids : list N)
| FlushPages
| Flush
| Reopen.
Definition mirror_step (dim degree : N) (st : mirror) (o : mirror_op) : res mirror :=
  match o with
  | Insert slot coords nbrs => write_inserted_node st slot coords nbrs
  | Relink id nbrs => relink dim st id nbrs
  | WriteBack ids => Ok (write_back st ids)
  | FlushPages => Ok (flush_pages st)
  | Flush => flush st
  | Reopen => reopen dim degree st
  end.
Fixpoint mirror_run (dim degree : N) (st : mirror) (ops : list mirror_op) : res mirror :=
  match ops with [] => Ok st | o :: rest => let* st1 := mirror_step dim degree st o in mirror_run dim degree st1 rest end.
(** The node an update leaves: opening, closing and flushing change none. *)
Definition latest_step (f : N -> option node) (o : mirror_op) (x : N) : option node :=
  match o with
  | Insert slot coords nbrs => if N.eqb x slot then Some (coords, nbrs) else f x
  | Relink id nbrs => if N.eqb x id then match f id with Some (coords, _) => Some (coords, nbrs) | None => None end else f x
  | _ => f x
  end.
Definition mop_ok (dim degree limit : N) (o : mirror_op) : Prop :=
  match o with
  | Insert slot coords nbrs => op_ok dim degree limit (Upsert slot coords nbrs)
  | Relink id nbrs => op_ok dim degree limit (SetNeighbors id nbrs)
  | _ => True
  end.
(** The process is only closed when all updates have been flushed: [clean] says
    that none came after the last flush. *)
Fixpoint closed_clean (clean : bool) (ops : list mirror_op) : Prop :=
  match ops with
  | [] => True
  | (Insert _ _ _ | Relink _ _) :: rest => closed_clean false rest
  | (WriteBack _ | FlushPages) :: rest => closed_clean clean rest
  | Flush :: rest => closed_clean true rest
  | Reopen :: rest => clean = true /\ closed_clean true rest
  end.
(** A built index on disk: the rows, and the files of the cache. *)
Definition built (vs graph : list (list N)) (x : N) : option node :=
  match nth_error vs (N.to_nat x), nth_error graph (N.to_nat x) with Some v, Some row => Some (v, row) | _, _ => None end.
Definition built_index (vs graph : list (list N)) (medoid dim degree want : N) : res mirror :=
  let* c := generate graph (concat vs) medoid (N.of_nat (length graph)) dim degree want in
  let* files := nc_save c in
  Ok {| mi_disk := built vs graph; mi_pages := built vs graph; mi_cache := c; mi_files := files |}.
