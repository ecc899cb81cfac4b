(** An abstract table of rows, the operations on it, and what the storage must
    answer about it. *)
From Verif Require Import StorageModel ScalarDataSpec.

(** A table: finitely many rows with distinct 32-bit ids. *)
Definition table := list (N * scalar_data).
Fixpoint row (t : table) (id : N) : option scalar_data :=
  match t with [] => None | (i, r) :: t' => if N.eqb i id then Some r else row t' id end.
Definition del_row (id : N) (t : table) : table := filter (fun e => negb (N.eqb (fst e) id)) t.
Definition set_row (id : N) (r : scalar_data) (t : table) : table := (id, r) :: del_row id t.

(** Some row other than [id] carries the (non-empty) item id. *)
Definition taken_by_other (t : table) (id : N) (item : bytes) : bool :=
  match item with
  | [] => false
  | _ => existsb (fun e => negb (N.eqb (fst e) id) && bytes_eqb (item_id (snd e)) item) t
  end.

(** Operations and their meaning: the answer and the new table. *)
Inductive op :=
| Insert (id : N) (r : scalar_data)
| BatchInsert (start : N) (rs : list scalar_data)
| Update (id : N) (r : scalar_data)
| Remove (id : N)
| Reopen
| InsertOldFormat (id : N) (r : scalar_data). (* a row stored by an earlier version *)

Definition set_rows (l : list (N * scalar_data)) (t : table) : table :=
  fold_left (fun t e => set_row (fst e) (snd e) t) l t.
Fixpoint rows_from (id : N) (rs : list scalar_data) : list (N * scalar_data) :=
  match rs with [] => [] | r :: rs' => (id, r) :: rows_from (id + 1) rs' end.
Definition nonempty_ids (rs : list scalar_data) : list bytes :=
  filter (fun i => match i with [] => false | _ => true end) (map item_id rs).
Fixpoint distinct (l : list bytes) : bool :=
  match l with [] => true | x :: l' => negb (existsb (bytes_eqb x) l') && distinct l' end.

Definition spec_step (t : table) (o : op) : bool * table :=
  match o with
  | Insert id r => if taken_by_other t id (item_id r) then (false, t) else (true, set_row id r t)
  | Update id r =>
      match row t id with
      | None => (false, t)
      | Some _ => if taken_by_other t id (item_id r) then (false, t) else (true, set_row id r t)
      end
  | Remove id => match row t id with None => (false, t) | Some _ => (true, del_row id t) end
  | BatchInsert start rs =>
      if distinct (nonempty_ids rs)
         && forallb (fun e => negb (taken_by_other t (fst e) (item_id (snd e)))) (rows_from start rs)
      then (true, set_rows (rows_from start rs) t) else (false, t)
  | Reopen => (true, t)
  | InsertOldFormat id r =>
      match row t id with
      | Some _ => (false, t)
      | None => if taken_by_other t id (item_id r) then (false, t) else (true, set_row id r t)
      end
  end.
Definition spec_run (t : table) (l : list op) : list bool * table :=
  fold_left (fun bt o => let '(b, t') := spec_step (snd bt) o in (fst bt ++ [b], t')) l ([], t).

(** A database may hold rows an earlier version wrote under unpadded keys
    (legacy_data_key); such a write differs from [insert] of a new id only in
    the key of the row. *)
Definition insert_old_format (s : storage) (id : N) (r : scalar_data) : res (bool * storage) :=
  match get_data_value (db s) id with
  | Some _ => Ok (false, s)
  | None =>
      if negb (item_id_available (db s) (item_id r) (Some id)) then Ok (false, s)
      else Ok (true, set_db_count s
                 (apply_batch ([BPut (legacy_data_key id) (serialize r)] ++ put_item_id_index (item_id r) id
                               ++ add_field_indexes (indexed_fields s) id r) (db s)) (cached_count s + 1)%N)
  end.

(** The storage's own steps. *)
Definition step (s : storage) (o : op) : res (bool * storage) :=
  match o with
  | Insert id r => insert s id r
  | BatchInsert start rs => batch_insert s start rs
  | Update id r => update s id r
  | Remove id => remove s id
  | Reopen => Ok (true, close_and_open s)
  | InsertOldFormat id r => insert_old_format s id r
  end.
Fixpoint run (s : storage) (l : list op) : res (list bool * storage) :=
  match l with
  | [] => Ok ([], s)
  | o :: l' => let* (b, s1) := step s o in let* (bs, s2) := run s1 l' in Ok (b :: bs, s2)
  end.

(** Ids fit 32 bits and records fit the format. *)
Definition op_ok (o : op) : Prop :=
  match o with
  | Insert id r | Update id r | InsertOldFormat id r => (id < 2 ^ 32)%N /\ storable r
  | Remove id => (id < 2 ^ 32)%N
  | BatchInsert start rs => (start + N.of_nat (length rs) <= 2 ^ 32)%N /\ Forall storable rs
  | Reopen => True
  end.

(** A new database. *)
Definition empty_storage (fields : list bytes) : storage :=
  {| db := []; cached_count := 0; indexed_fields := fields |}.

(** [s] is the storage, opened with the given indexed fields, after the
    operations [ops] on a new database. *)
Definition reached (fields : list bytes) (ops : list op) (s : storage) : Prop :=
  Forall op_ok ops /\ exists answers, run (empty_storage fields) ops = Ok (answers, s).

(** Rows as a reader of the storage sees them. *)
Definition live (s : storage) (id : N) (r : scalar_data) : Prop :=
  is_valid s id = true /\ read_row s id = Ok r.

(** No indexed field name followed by '_' begins another one. *)
Definition fields_separated (fields : list bytes) : Prop :=
  forall f g rest, In f fields -> In g fields -> f <> g ++ [us] ++ rest.

(** A string that begins with [s] and the separator. *)
Definition extends_str (v w : value) : Prop :=
  match v, w with
  | VStr s, VStr s' => exists rest, s' = s ++ [us] ++ rest
  | _, _ => False
  end.
