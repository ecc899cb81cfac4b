(** The labels of the updatable disk index,
    include/index/graph/diskann/diskann_index.hpp: build, load, insert, remove
    and their batch forms, flush, and the label lookup of search.

    Left out: the graph (neighbour lists, reconnecting and the safety net
    change no label, slot or vector), product quantization, the node cache
    files, the checks for null pointers, and the locks (update_serial_mutex_
    makes the update calls sequential; inside a batch every locked section is
    one step).  What page I/O returns for a slot is the vector last written to
    it (the page cache is modelled in CacheModel). *)
From Verif Require Export TombModel LayoutModel.
Local Open Scope N_scope.

(** 812 *)
Definition kNoLabel : N := 2 ^ 64 - 1.
(** A vector: the bits of its coordinates *)
Definition vec := list N.
(** The members labels_, label_to_slot_, slot_alloc_, max_slot_id_,
    live_count_, and the vectors behind page_io_. *)
Record index := { ix_labels : list N; ix_map : N -> option N; ix_alloc : slots; ix_max : N; ix_live : N; ix_data : N -> vec }.

(** Where an operation that does I/O fails: before it has changed anything
    (searching the neighbours, reading the lists), after the slot was allocated
    and before it is published (encoding, writing the node), or after the
    change is visible (reconnecting, writing pages back). *)
Inductive fault := NoFault | FailEarly | FailMiddle | FailLate.
(** What happened.  The caller sees an exception for [Rejected] (a check
    failed), [Failed], [InsertedThenFailed] and [RemovedThenFailed]; of
    [InsertedAll] the caller sees only the ids.  [Unfinished] marks a schedule
    that has not run all tasks to their end. *)
Inductive fate := InPlace | Leaked | Skipped.
Inductive outcome := Inserted (slot : N) | InsertedThenFailed (slot : N) | InsertedAll (ids : list N) (fates : list fate)
  | Removed | RemovedThenFailed | Failed | Rejected | Unfinished | Reopened.

(** set_label, 2165-2170 *)
Definition set_label (labels : list N) (slot label : N) : res (list N) :=
  let ls := if N.leb (N.of_nat (length labels)) slot
            then labels ++ repeat kNoLabel (N.to_nat (slot + 1) - length labels) else labels in
  aput ls slot label.
(** allocate_update_slot_unlocked, 1485-1493 *)
Definition allocate (ix : index) (label : N) : res (N * index) :=
  let* (slot, a) := sl_alloc (ix_alloc ix) in
  let* ls := set_label (ix_labels ix) slot label in
  Ok (slot, {| ix_labels := ls; ix_map := ix_map ix; ix_alloc := a; ix_max := N.max (ix_max ix) (sl_next a);
               ix_live := (ix_live ix + 1) mod 2 ^ 64; ix_data := ix_data ix |}).
(** write_inserted_node, 1686-1691, as far as the vector goes *)
Definition write_node (ix : index) (slot : N) (v : vec) : index :=
  {| ix_labels := ix_labels ix; ix_map := ix_map ix; ix_alloc := ix_alloc ix; ix_max := ix_max ix; ix_live := ix_live ix;
     ix_data := fun s => if N.eqb s slot then v else ix_data ix s |}.
(** publish_slots, 1818-1824, for one slot *)
Definition publish (ix : index) (slot : N) : res index :=
  let* a := sl_publish (ix_alloc ix) slot in
  let* label := aget (ix_labels ix) slot in
  Ok {| ix_labels := ix_labels ix; ix_map := fun l => if N.eqb l label then Some slot else ix_map ix l; ix_alloc := a;
        ix_max := ix_max ix; ix_live := ix_live ix; ix_data := ix_data ix |}.

(** validate_insert_label_unlocked, 1511-1518 *)
Definition insert_label_ok (ix : index) (label : N) : bool :=
  negb (N.eqb label kNoLabel) && match ix_map ix label with Some _ => false | None => true end.
(** insert, 819-845.  A write that fails is taken to leave the vector of the
    (dark) slot as it was. *)
Definition insert (ix : index) (v : vec) (label : N) (f : fault) : res (index * outcome) :=
  if negb (insert_label_ok ix label) then Ok (ix, Rejected)
  else match f with
       | FailEarly => Ok (ix, Failed)
       | _ =>
           let* (slot, ix1) := allocate ix label in
           match f with
           | FailMiddle => Ok (ix1, Failed)
           | _ => let* ix2 := publish (write_node ix1 slot v) slot in
                  Ok (ix2, match f with FailLate => InsertedThenFailed slot | _ => Inserted slot end)
           end
       end.

(** ** batch_insert, 849-900 and 1720-1815 *)
(** One insert_one task, 1752-1797: not started, waiting after each of its
    locked sections, done, or ended by an exception.  coro::when_all keeps the
    exception of a task in the result object, which is dropped (1808): nobody
    sees it. *)
Inductive task := Todo | Allocated (slot : N) | Written (slot : N) | Published (slot : N) | Dead (slot : option N).
Definition row : Type := vec * N.
(** One task runs up to its next step; [ok = false] lets the search or the
    write fail.  The chunks of batch_size (1799-1811) only restrict which
    schedules can happen: all are allowed here. *)
Definition task_step (ix : index) (r : row) (t : task) (ok : bool) : res (index * task) :=
  match t with
  | Todo => if ok then let* (slot, ix') := allocate ix (snd r) in Ok (ix', Allocated slot) else Ok (ix, Dead None)
  | Allocated slot => Ok (if ok then (write_node ix slot (fst r), Written slot) else (ix, Dead (Some slot)))
  | Written slot => let* ix' := publish ix slot in Ok (ix', Published slot)
  | Published _ | Dead _ => Ok (ix, t)
  end.
Fixpoint run_tasks (ix : index) (tasks : list (row * task)) (sched : list (nat * bool)) : res (index * list (row * task)) :=
  match sched with
  | [] => Ok (ix, tasks)
  | (i, ok) :: sched' =>
      match nth_error tasks i with
      | None => run_tasks ix tasks sched'
      | Some (r, t) => let* (ix', t') := task_step ix r t ok in run_tasks ix' (upd tasks i (r, t')) sched'
      end
  end.
Definition ended (t : task) : bool := match t with Published _ | Dead _ => true | _ => false end.
(** ids[i], which starts as 0, 1725 *)
Definition task_id (t : task) : N := match t with Allocated s | Written s | Published s | Dead (Some s) => s | _ => 0 end.
Definition task_fate (t : task) : fate := match t with Published _ => InPlace | Dead (Some _) => Leaked | _ => Skipped end.
(** validate_unique_external_labels, 1495-1509 *)
Fixpoint unique_labels (seen labels : list N) : bool :=
  match labels with
  | [] => true
  | l :: rest => negb (N.eqb l kNoLabel) && negb (existsb (N.eqb l) seen) && unique_labels (l :: seen) rest
  end.
(** validate_insert_labels_unlocked, 1520-1527 *)
Definition insert_labels_ok (ix : index) (labels : list N) : bool :=
  unique_labels [] labels && forallb (fun l => match ix_map ix l with Some _ => false | None => true end) labels.
Definition batch_insert (ix : index) (rows : list row) (sched : list (nat * bool)) : res (index * outcome) :=
  if negb (insert_labels_ok ix (map snd rows)) then Ok (ix, Rejected)
  else let* (ix', tasks) := run_tasks ix (map (fun r => (r, Todo)) rows) sched in
       if forallb (fun rt => ended (snd rt)) tasks
       then Ok (ix', InsertedAll (map (fun rt => task_id (snd rt)) tasks) (map (fun rt => task_fate (snd rt)) tasks))
       else Ok (ix', Unfinished).

(** ** Removing *)
(** validate_removable_slot, 1591-1598 *)
Definition removable (ix : index) (id : N) : res bool :=
  if N.leb (ix_max ix) id then Ok false else let* d := sl_is_deleted (ix_alloc ix) id in Ok (negb d).
(** remove_unlocked_with_neighbors, 1673-1684 *)
Definition remove_slot (ix : index) (id : N) : res index :=
  let* label := aget (ix_labels ix) id in
  let m := match ix_map ix label with
           | Some s => if N.eqb s id then (fun l => if N.eqb l label then None else ix_map ix l) else ix_map ix
           | None => ix_map ix
           end in
  let* a := sl_free_slot (ix_alloc ix) id in
  Ok {| ix_labels := ix_labels ix; ix_map := m; ix_alloc := a; ix_max := ix_max ix;
        ix_live := (2 ^ 64 + ix_live ix - 1) mod 2 ^ 64; ix_data := ix_data ix |}.
(** remove_internal_locked, 1617-1627, and remove, 904-910 *)
Definition remove_id (ix : index) (id : N) (f : fault) : res (index * outcome) :=
  let* ok := removable ix id in
  if negb ok then Ok (ix, Rejected)
  else match f with
       | FailEarly => Ok (ix, Failed)
       | _ => let* ix' := remove_slot ix id in Ok (ix', match f with FailLate => RemovedThenFailed | _ => Removed end)
       end.
(** remove_by_label, 913-924, with lookup_label_unlocked, 1529-1536 *)
Definition remove_by_label (ix : index) (label : N) (f : fault) : res (index * outcome) :=
  match ix_map ix label with None => Ok (ix, Rejected) | Some id => remove_id ix id f end.
(** validate_remove_batch, 1600-1609 *)
Fixpoint removable_batch (ix : index) (seen ids : list N) : res bool :=
  match ids with
  | [] => Ok true
  | id :: rest => let* ok := removable ix id in
                  if negb ok then Ok false else if existsb (N.eqb id) seen then Ok false else removable_batch ix (id :: seen) rest
  end.
Fixpoint remove_slots (ix : index) (ids : list N) : res index :=
  match ids with [] => Ok ix | id :: rest => let* ix' := remove_slot ix id in remove_slots ix' rest end.
(** batch_remove_internal_locked, 1629-1648, and batch_remove, 942-955 *)
Definition batch_remove (ix : index) (ids : list N) (f : fault) : res (index * outcome) :=
  let* ok := removable_batch ix [] ids in
  if negb ok then Ok (ix, Rejected)
  else match f with
       | FailEarly => Ok (ix, Failed)
       | _ => let* ix' := remove_slots ix ids in Ok (ix', match f with FailLate => RemovedThenFailed | _ => Removed end)
       end.
(** batch_remove_by_labels, 958-984: the slots of the labels, or none *)
Fixpoint lookup_all (ix : index) (seen labels : list N) : option (list N) :=
  match labels with
  | [] => Some []
  | l :: rest => if existsb (N.eqb l) seen then None
                 else match ix_map ix l with
                      | None => None
                      | Some s => match lookup_all ix (l :: seen) rest with Some ids => Some (s :: ids) | None => None end
                      end
  end.
Definition batch_remove_by_labels (ix : index) (labels : list N) (f : fault) : res (index * outcome) :=
  match lookup_all ix [] labels with None => Ok (ix, Rejected) | Some ids => batch_remove ix ids f end.

(** ** The files *)
(** What the index keeps besides the above: dim_, max_degree_, medoid_. *)
Record conf := { c_dim : N; c_degree : N; c_medoid : N }.
(** 167-169 *)
Definition kMetaMagic : N := 0x414C594144534B4E.
Definition kMetaVersion : N := 2.
(** MetaHeader as far as it varies; has_pq and pq_n_chunks are 0 *)
Record meta := { m_points : N; m_dim : N; m_degree : N; m_medoid : N; m_len : N; m_per : N; m_max : N; m_live : N }.
(** write_meta, 2232-2259 *)
Definition write_meta (m : meta) : bytes :=
  le_enc 8 kMetaMagic ++ le_enc 4 kMetaVersion ++ le_enc 8 (m_points m) ++ le_enc 8 (m_dim m) ++ le_enc 4 (m_degree m)
  ++ le_enc 4 (m_medoid m) ++ le_enc 1 0 ++ le_enc 4 0 ++ le_enc 8 (m_len m) ++ le_enc 8 (m_per m) ++ le_enc 8 (m_max m) ++ le_enc 8 (m_live m).
Definition read_n (n : nat) (inp : bytes) : res (N * bytes) :=
  match take_bytes n inp with None => Throws | Some (b, r) => Ok (le_dec b, r) end.
(** read_meta, 2261-2303.  An index with product quantization is not followed
    further: its has_pq byte makes [read_meta] throw here. *)
Definition read_meta (inp : bytes) : res meta :=
  let* (magic, r) := read_n 8 inp in
  let* (version, r) := read_n 4 r in
  let* (points, r) := read_n 8 r in
  let* (dim, r) := read_n 8 r in
  let* (degree, r) := read_n 4 r in
  let* (medoid, r) := read_n 4 r in
  let* (pq, r) := read_n 1 r in
  let* (chunks, r) := read_n 4 r in
  let* (len, r) := read_n 8 r in
  let* (per, r) := read_n 8 r in
  if negb (N.eqb magic kMetaMagic) then Throws
  else
    let* (mx, lv) := (if N.eqb version 1 then Ok (points, points)
                      else if N.eqb version 2 then
                        let* (mx, r) := read_n 8 r in let* (lv, r) := read_n 8 r in Ok (mx, lv)
                      else Throws) in
    if N.eqb points 0 || N.eqb dim 0 then Throws
    else if negb (N.eqb pq 0) then Throws
    else Ok {| m_points := points; m_dim := dim; m_degree := degree; m_medoid := medoid; m_len := len; m_per := per; m_max := mx; m_live := lv |}.
(** write_ids, 2305-2316 *)
Definition write_ids (labels : list N) : bytes := le_enc 8 (N.of_nat (length labels)) ++ flat_map (le_enc 8) labels.
(** read_ids, 2318-2334; [bytes_words] turns bytes into 64-bit numbers *)
Definition read_ids (inp : bytes) (expected : N) : res (list N) :=
  let* (count, r) := read_n 8 inp in
  if negb (N.eqb count expected) then Throws
  else if N.ltb (N.of_nat (length r)) (count * 8) then Throws
  else Ok (bytes_words (N.to_nat count) r).
(** rebuild_label_lookup_unlocked, 1538-1556 *)
Fixpoint rebuild (a : slots) (labels : list N) (slot : N) (m : N -> option N) : res (N -> option N) :=
  match labels with
  | [] => Ok m
  | l :: rest =>
      let* d := sl_is_deleted a slot in
      if d then rebuild a rest (slot + 1) m
      else if N.eqb l kNoLabel then Throws
      else match m l with
           | Some _ => Throws
           | None => rebuild a rest (slot + 1) (fun x => if N.eqb x l then Some slot else m x)
           end
  end.

(** The files meta.bin, ids.bin, slots.bin, and the vectors in diskann.index *)
Record dir := { d_meta : bytes; d_ids : bytes; d_slots : option bytes; d_data : N -> vec }.
(** The header that flush 1034-1045 and build 285-297 write *)
Definition header_of (c : conf) (g : geometry) (max live : N) : meta :=
  {| m_points := max; m_dim := c_dim c; m_degree := c_degree c; m_medoid := c_medoid c; m_len := g_len g; m_per := g_per g; m_max := max; m_live := live |}.
(** flush, 1023-1054: the four contents it writes *)
Definition flush (c : conf) (ix : index) : res dir :=
  let* g := compute (c_dim c) (c_degree c) in
  let* s := sl_save (ix_alloc ix) in
  Ok {| d_meta := write_meta (header_of c g (ix_max ix) (ix_live ix)); d_ids := write_ids (ix_labels ix); d_slots := Some s; d_data := ix_data ix |}.
(** The order of the writes: pages 1029, meta.bin 1050, ids.bin 1051,
    slots.bin 1053.  The directory after the first [k] of them. *)
Definition crash (old new : dir) (k : nat) : dir :=
  {| d_meta := if Nat.ltb 1 k then d_meta new else d_meta old;
     d_ids := if Nat.ltb 2 k then d_ids new else d_ids old;
     d_slots := if Nat.ltb 3 k then d_slots new else d_slots old;
     d_data := if Nat.ltb 0 k then d_data new else d_data old |}.
(** load, 306-415.  [old] is the allocator of the object before. *)
Definition load (old : slots) (d : dir) : res (conf * index) :=
  let* m := read_meta (d_meta d) in
  let* g := compute (m_dim m) (m_degree m) in
  if negb (N.eqb (g_len g) (m_len m)) || negb (N.eqb (g_per g) (m_per m)) then Throws
  else
    let* labels := read_ids (d_ids d) (m_max m) in
    let* (a, mx) := match d_slots d with
                    | Some s => let* a := sl_load old s in Ok (a, N.max (m_max m) (sl_next a))
                    | None => let* a := sl_new (m_max m mod 2 ^ 32) in Ok (a, m_max m)
                    end in
    let* map := rebuild a labels 0 (fun _ => None) in
    Ok ({| c_dim := m_dim m; c_degree := m_degree m; c_medoid := m_medoid m |},
        {| ix_labels := labels; ix_map := map; ix_alloc := a; ix_max := mx; ix_live := m_live m; ix_data := d_data d |}).
(** build, 188-303: the files, without slots.bin.  [vecs] are the rows of the
    vectors; the medoid comes from the graph builder. *)
Definition build (c : conf) (labels : list N) (vecs : N -> vec) : res dir :=
  if N.eqb (N.of_nat (length labels)) 0 then Throws
  else if negb (unique_labels [] labels) then Throws
  else let* g := compute (c_dim c) (c_degree c) in
       let n := N.of_nat (length labels) in
       Ok {| d_meta := write_meta (header_of c g n n); d_ids := write_ids labels; d_slots := None; d_data := vecs |}.

(** ** Histories *)
Inductive ix_op := OInsert (v : vec) (label : N) (f : fault) | OBatchInsert (rows : list row) (sched : list (nat * bool))
  | ORemove (id : N) (f : fault) | ORemoveLabel (label : N) (f : fault)
  | OBatchRemove (ids : list N) (f : fault) | OBatchRemoveLabels (labels : list N) (f : fault) | OReopen.
Definition run_op (c : conf) (ix : index) (o : ix_op) : res (index * outcome) :=
  match o with
  | OInsert v l f => insert ix v l f
  | OBatchInsert rows sched => batch_insert ix rows sched
  | ORemove id f => remove_id ix id f
  | ORemoveLabel l f => remove_by_label ix l f
  | OBatchRemove ids f => batch_remove ix ids f
  | OBatchRemoveLabels ls f => batch_remove_by_labels ix ls f
  | OReopen => let* d := flush c ix in let* (_, ix') := load (ix_alloc ix) d in Ok (ix', Reopened)
  end.
Fixpoint run (c : conf) (ix : index) (ops : list ix_op) : res (index * list outcome) :=
  match ops with
  | [] => Ok (ix, [])
  | o :: rest => let* (ix1, out) := run_op c ix o in let* (ix2, outs) := run c ix1 rest in Ok (ix2, out :: outs)
  end.

(** ** A search beside the updates *)
(** The slot is allocated and not published yet: a bookkeeping notion of the
    model, the code has no such function. *)
Definition in_flight (ix : index) (s : N) : bool :=
  match sl_is_deleted (ix_alloc ix) s with
  | Ok true => negb (existsb (N.eqb s) (sl_free (ix_alloc ix))) && N.ltb s (sl_next (ix_alloc ix))
  | _ => false
  end.
(** The parts of insert 819-845, of the tasks of batch_insert 1752-1797 and of
    the removals that a search can see one by one.  [None]: the step cannot
    happen here, since an update writes and publishes only its own slot, checks
    its label under the lock, and removes only live slots. *)
Inductive ix_step := StAlloc (label : N) | StWrite (slot : N) (v : vec) | StPublish (slot : N) | StRemove (slot : N).
Definition do_step (ix : index) (st : ix_step) : option index :=
  match st with
  | StAlloc l => if N.ltb l (2 ^ 64) && N.ltb (ix_max ix + 1) (2 ^ 32)
                 then match allocate ix l with Ok (_, ix') => Some ix' | _ => None end else None
  | StWrite s v => if in_flight ix s then Some (write_node ix s v) else None
  | StPublish s => if in_flight ix s
                   then match aget (ix_labels ix) s with
                        | Ok l => if insert_label_ok ix l then match publish ix s with Ok ix' => Some ix' | _ => None end else None
                        | _ => None
                        end
                   else None
  | StRemove s => match removable ix s with
                  | Ok true => match remove_slot ix s with Ok ix' => Some ix' | _ => None end
                  | _ => None
                  end
  end.
(** The states that are passed. *)
Fixpoint exec (ix : index) (sts : list ix_step) : option (list index) :=
  match sts with
  | [] => Some [ix]
  | st :: rest => match do_step ix st with
                  | Some ix' => match exec ix' rest with Some states => Some (ix :: states) | None => None end
                  | None => None
                  end
  end.
(** search, 423-504, for one slot of the results: whether it can be a result is
    decided on the snapshot (442, make_search_snapshot), its vector is read
    while the graph is searched (482), and its label is read afterwards
    (490-497). *)
Definition label_of (ix : index) (id : N) : N := match aget (ix_labels ix) id with Ok l => l | _ => kNoLabel end.
Definition search_pair (at_snapshot at_read at_lookup : index) (id : N) : option (N * vec) :=
  if N.ltb id (ix_max at_snapshot)
  then match sl_is_deleted (ix_alloc at_snapshot) id with
       | Ok false => Some (label_of at_lookup id, ix_data at_read id)
       | _ => None
       end
  else None.
