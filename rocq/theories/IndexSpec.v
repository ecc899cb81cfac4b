(** What the labels of the updatable disk index should be: a map from labels to
    slots and vectors. *)
From Verif Require Export IndexModel LayoutSpec.
Local Open Scope N_scope.

(** A live row: its label, its slot and its vector. *)
Definition entry : Type := N * N * vec.
Definition e_label (e : entry) : N := fst (fst e).
Definition e_slot (e : entry) : N := snd (fst e).
Definition e_vec (e : entry) : vec := snd e.

(** A built index: row number [i] of the input sits in slot [i]. *)
Definition built_entries (labels : list N) (vecs : N -> vec) : list entry :=
  map (fun i => (nth i labels 0, N.of_nat i, vecs (N.of_nat i))) (seq 0 (length labels)).
(** The rows of a batch that were put in place. *)
Fixpoint batch_entries (rows : list row) (ids : list N) (fates : list fate) : list entry :=
  match rows, ids, fates with
  | (v, l) :: rows', id :: ids', f :: fates' =>
      (match f with InPlace => [(l, id, v)] | _ => [] end) ++ batch_entries rows' ids' fates'
  | _, _, _ => []
  end.
(** The live rows after an operation with the given outcome. *)
Definition after (o : ix_op) (out : outcome) (db : list entry) : list entry :=
  match o, out with
  | OInsert v l _, (Inserted s | InsertedThenFailed s) => (l, s, v) :: db
  | OBatchInsert rows _, InsertedAll ids fates => batch_entries rows ids fates ++ db
  | ORemove id _, (Removed | RemovedThenFailed) => filter (fun e => negb (N.eqb (e_slot e) id)) db
  | ORemoveLabel l _, (Removed | RemovedThenFailed) => filter (fun e => negb (N.eqb (e_label e) l)) db
  | OBatchRemove ids _, (Removed | RemovedThenFailed) => filter (fun e => negb (existsb (N.eqb (e_slot e)) ids)) db
  | OBatchRemoveLabels ls _, (Removed | RemovedThenFailed) => filter (fun e => negb (existsb (N.eqb (e_label e)) ls)) db
  | _, _ => db
  end.
Fixpoint history (db : list entry) (ops : list ix_op) (outs : list outcome) : list entry :=
  match ops, outs with o :: ops', out :: outs' => history (after o out db) ops' outs' | _, _ => db end.

(** Slots that a failed insert has left allocated and never published. *)
Definition leaked (o : ix_op) (out : outcome) : N :=
  match o, out with
  | OInsert _ _ FailMiddle, Failed => 1
  | OBatchInsert _ _, InsertedAll _ fates => N.of_nat (length (filter (fun f => match f with Leaked => true | _ => false end) fates))
  | _, _ => 0
  end.
Fixpoint leaks (ops : list ix_op) (outs : list outcome) : N :=
  match ops, outs with o :: ops', out :: outs' => leaked o out + leaks ops' outs' | _, _ => 0 end.

(** How many rows the history offers for insertion. *)
Definition offered (o : ix_op) : N := match o with OInsert _ _ _ => 1 | OBatchInsert rows _ => N.of_nat (length rows) | _ => 0 end.
Definition total_offered (ops : list ix_op) : N := fold_right (fun o n => offered o + n) 0 ops.
(** Labels are 64-bit numbers. *)
Definition op_ok (o : ix_op) : Prop :=
  match o with OInsert _ l _ => l < 2 ^ 64 | OBatchInsert rows _ => Forall (fun r => snd r < 2 ^ 64) rows | _ => True end.
(** No I/O failure happens during the operation. *)
Definition faultless (o : ix_op) : Prop :=
  match o with
  | OInsert _ _ f | ORemove _ f | ORemoveLabel _ f | OBatchRemove _ f | OBatchRemoveLabels _ f => f = NoFault
  | OBatchInsert _ sched => Forall (fun e => snd e = true) sched
  | OReopen => True
  end.

(** When the checks must reject an operation, given the live rows. *)
Definition must_reject (db : list entry) (o : ix_op) : Prop :=
  match o with
  | OInsert _ l _ => l = kNoLabel \/ In l (map e_label db)
  | OBatchInsert rows _ => ~ NoDup (map snd rows) \/ exists l, In l (map snd rows) /\ (l = kNoLabel \/ In l (map e_label db))
  | ORemove id _ => ~ In id (map e_slot db)
  | ORemoveLabel l _ => ~ In l (map e_label db)
  | OBatchRemove ids _ => ~ NoDup ids \/ exists id, In id ids /\ ~ In id (map e_slot db)
  | OBatchRemoveLabels ls _ => ~ NoDup ls \/ exists l, In l ls /\ ~ In l (map e_label db)
  | OReopen => False
  end.

(** The index that is loaded from a freshly built directory. *)
Definition opens (c : conf) (labels : list N) (vecs : N -> vec) (ix : index) : Prop :=
  layout_fits (c_dim c) (c_degree c) 1 /\ c_medoid c < 2 ^ 32 /\ Forall (fun l => l < 2 ^ 64) labels
  /\ exists d old, build c labels vecs = Ok d /\ load old d = Ok (c, ix).

(** Operations that only remove. *)
Definition removal (o : ix_op) : Prop :=
  match o with ORemove _ _ | ORemoveLabel _ _ | OBatchRemove _ _ | OBatchRemoveLabels _ _ => True | _ => False end.
(** The same index but for the live count. *)
Definition same_rows (a b : index) : Prop :=
  ix_labels a = ix_labels b /\ ix_max a = ix_max b /\ (forall s, ix_data a s = ix_data b s) /\ (forall l, ix_map a l = ix_map b l)
  /\ (forall s, sl_is_deleted (ix_alloc a) s = sl_is_deleted (ix_alloc b) s)
  /\ sl_free (ix_alloc a) = sl_free (ix_alloc b) /\ sl_next (ix_alloc a) = sl_next (ix_alloc b).
(** The history [ops] with outcomes [outs] leads from a built index to [ix].
    Fewer than 2^32 rows have been offered, and every batch has run to its
    end. *)
Definition reached (c : conf) (labels : list N) (vecs : N -> vec) (ops : list ix_op) (ix : index) (outs : list outcome) : Prop :=
  exists ix0, opens c labels vecs ix0 /\ N.of_nat (length labels) + total_offered ops < 2 ^ 32
    /\ Forall op_ok ops /\ run c ix0 ops = Ok (ix, outs) /\ ~ In Unfinished outs.
