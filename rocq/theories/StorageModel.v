(** Model of include/storage/rocksdb_storage.hpp, for IDType = uint32_t.
    RocksDB is the ordered map of Kv.v.  Not modelled: I/O errors reported by
    RocksDB, a database opened read-only (every writer throws), and the
    concurrency of readers with the writer holding write_mutex_. *)
From Coq Require Import String.
From Verif Require Export Kv IndexEncodingModel.

(** The storage: db_, cached_count_ and config_.indexed_fields_
    (rocksdb_storage.hpp:1034-1036, 57). *)
Record storage := { db : kv; cached_count : N; indexed_fields : list bytes }.
Definition set_db (s : storage) (d : kv) : storage :=
  {| db := d; cached_count := cached_count s; indexed_fields := indexed_fields s |}.
Definition set_db_count (s : storage) (d : kv) (c : N) : storage :=
  {| db := d; cached_count := c; indexed_fields := indexed_fields s |}.

(** kSortableDigits for uint32_t, rocksdb_storage.hpp:742: digits10 + 1 = 10 *)
Definition kSortableDigits : nat := 10.

(** data_key, rocksdb_storage.hpp:750-757 *)
Definition data_key (id : N) : bytes :=
  let digits := dec id in
  if Nat.leb kSortableDigits (length digits) then str "d_" ++ digits
  else str "d_" ++ repeat chr_0 (kSortableDigits - length digits) ++ digits.
(** legacy_data_key, rocksdb_storage.hpp:759-761 *)
Definition legacy_data_key (id : N) : bytes := str "d_" ++ dec id.

(** parse_data_key, rocksdb_storage.hpp:763-780; std::stoull throws when the
    number does not fit 64 bits. *)
Definition parse_data_key (key : bytes) : res (option N) :=
  if negb (starts_with (str "d_") key) then Ok None
  else
    let digits := skipn 2 key in
    match digits with
    | [] => Ok None
    | _ =>
        match digits_val 0 digits with
        | None => Ok None
        | Some v => if negb (N.ltb v (2 ^ 64)) then Throws
                    else if N.ltb (2 ^ 32 - 1) v then Ok None else Ok (Some v)
        end
    end.

(** get_data_value, rocksdb_storage.hpp:782-806: the value and the key it was
    found under. *)
Definition get_data_value (d : kv) (id : N) : option (bytes * bytes) :=
  match kv_get d (data_key id) with
  | Some v => Some (v, data_key id)
  | None =>
      if bytes_eqb (legacy_data_key id) (data_key id) then None
      else match kv_get d (legacy_data_key id) with
           | Some v => Some (v, legacy_data_key id)
           | None => None
           end
  end.

(** item_id_index_key, rocksdb_storage.hpp:986-988; count_key, 990 *)
Definition item_id_index_key (item : bytes) : bytes := str "i_" ++ item.
Definition count_key : bytes := str "__COUNT__".

(** find_by_item_id, rocksdb_storage.hpp:449-461; sizeof(IDType) = 4 *)
Definition find_by_item_id (d : kv) (item : bytes) : option N :=
  match kv_get d (item_id_index_key item) with
  | Some v => if Nat.eqb (length v) 4 then Some (le_dec v) else None
  | None => None
  end.

(** item_id_available with an allowed id (item_id_available_for_locked),
    rocksdb_storage.hpp:463-471, 992-995 *)
Definition item_id_available (d : kv) (item : bytes) (allowed : option N) : bool :=
  match item with
  | [] => true
  | _ => match find_by_item_id d item with
         | None => true
         | Some e => match allowed with Some a => N.eqb e a | None => false end
         end
  end.

(** delete_item_id_index, rocksdb_storage.hpp:997-1002 *)
Definition delete_item_id_index (item : bytes) : list batch_op :=
  match item with [] => [] | _ => [BDel (item_id_index_key item)] end.
(** The [if (!data.item_id.empty()) batch.Put(...)] blocks,
    rocksdb_storage.hpp:233-237, 337-341, 427-430 *)
Definition put_item_id_index (item : bytes) (id : N) : list batch_op :=
  match item with [] => [] | _ => [BPut (item_id_index_key item) (le_enc 4 id)] end.

(** The keys visited by add_field_indexes and remove_field_indexes,
    rocksdb_storage.hpp:1007-1031 *)
Definition field_keys (fields : list bytes) (id : N) (r : scalar_data) : list bytes :=
  flat_map (fun f => match meta_find f (meta r) with
                     | Some v => [make_field_index_key f (encode_value v) id]
                     | None => []
                     end) fields.
Definition add_field_indexes (fields : list bytes) (id : N) (r : scalar_data) : list batch_op :=
  map (fun k => BPut k []) (field_keys fields id r).
Definition remove_field_indexes (fields : list bytes) (id : N) (r : scalar_data) : list batch_op :=
  map BDel (field_keys fields id r).

(** The deletions for a replaced row, rocksdb_storage.hpp:223-229, 324-330 *)
Definition delete_old (fields : list bytes) (id : N) (old : option (scalar_data * bytes)) : list batch_op :=
  match old with
  | None => []
  | Some (r, resolved) =>
      (if bytes_eqb resolved (data_key id) then [] else [BDel resolved])
      ++ delete_item_id_index (item_id r) ++ remove_field_indexes fields id r
  end.
(** The insertions for a row, rocksdb_storage.hpp:230-240, 334-345 *)
Definition put_new (fields : list bytes) (id : N) (r : scalar_data) : list batch_op :=
  [BPut (data_key id) (serialize r)] ++ put_item_id_index (item_id r) id ++ add_field_indexes fields id r.

(** Reading the previous row, rocksdb_storage.hpp:210-213, 299-305 *)
Definition read_old (d : kv) (id : N) : res (option (scalar_data * bytes)) :=
  match get_data_value d id with
  | None => Ok None
  | Some (v, resolved) => let* r := deserialize v in Ok (Some (r, resolved))
  end.

(** insert, rocksdb_storage.hpp:204-254 *)
Definition insert (s : storage) (id : N) (r : scalar_data) : res (bool * storage) :=
  let* old := read_old (db s) id in
  if negb (item_id_available (db s) (item_id r) (Some id)) then Ok (false, s)
  else
    let d' := apply_batch (delete_old (indexed_fields s) id old ++ put_new (indexed_fields s) id r) (db s) in
    Ok (true, set_db_count s d' (match old with None => (cached_count s + 1)%N | Some _ => cached_count s end)).

(** batch_insert, rocksdb_storage.hpp:267-357.  Records with consecutive ids. *)
Fixpoint number_from (id : N) (rs : list scalar_data) : list (N * scalar_data) :=
  match rs with [] => [] | r :: rs' => (id, r) :: number_from (id + 1) rs' end.
(** The duplicate check inside the batch (batch_item_ids.emplace), 284-297 *)
Fixpoint batch_ids_distinct (seen : list bytes) (rs : list scalar_data) : bool :=
  match rs with
  | [] => true
  | r :: rs' =>
      match item_id r with
      | [] => batch_ids_distinct seen rs'
      | _ => if existsb (bytes_eqb (item_id r)) seen then false
             else batch_ids_distinct (item_id r :: seen) rs'
      end
  end.
(** batch_get_data_values and deserialization of the old rows, 299-306,
    808-864: MultiGet is a sequence of Gets. *)
Fixpoint read_olds (d : kv) (l : list (N * scalar_data))
  : res (list (N * scalar_data * option (scalar_data * bytes))) :=
  match l with
  | [] => Ok []
  | (id, r) :: l' => let* old := read_old d id in let* rest := read_olds d l' in Ok ((id, r, old) :: rest)
  end.
(** The owner check, 308-318, with batch_find_item_id_owners, 866-893 *)
Definition owners_ok (d : kv) (l : list (N * scalar_data)) : bool :=
  forallb (fun e => item_id_available d (item_id (snd e)) (Some (fst e))) l.
Definition batch_insert (s : storage) (start : N) (rs : list scalar_data) : res (bool * storage) :=
  if negb (batch_ids_distinct [] rs) then Ok (false, s)
  else
    let recs := number_from start rs in
    let* olds := read_olds (db s) recs in
    if negb (owners_ok (db s) recs) then Ok (false, s)
    else
      let batch := flat_map (fun e => delete_old (indexed_fields s) (fst (fst e)) (snd e)
                                      ++ put_new (indexed_fields s) (fst (fst e)) (snd (fst e))) olds in
      let fresh := length (filter (fun e => match snd e with None => true | Some _ => false end) olds) in
      Ok (true, set_db_count s (apply_batch batch (db s)) (cached_count s + N.of_nat fresh)%N).

(** remove, rocksdb_storage.hpp:362-393 *)
Definition remove (s : storage) (id : N) : res (bool * storage) :=
  match get_data_value (db s) id with
  | None => Ok (false, s)
  | Some (v, resolved) =>
      let* r := deserialize v in
      let batch := [BDel resolved] ++ delete_item_id_index (item_id r)
                   ++ remove_field_indexes (indexed_fields s) id r in
      Ok (true, set_db_count s (apply_batch batch (db s))
                  (if N.ltb 0 (cached_count s) then cached_count s - 1 else cached_count s)%N)
  end.

(** update, rocksdb_storage.hpp:398-444 *)
Definition update (s : storage) (id : N) (r : scalar_data) : res (bool * storage) :=
  match get_data_value (db s) id with
  | None => Ok (false, s)
  | Some (v, resolved) =>
      let* old := deserialize v in
      if negb (item_id_available (db s) (item_id r) (Some id)) then Ok (false, s)
      else
        let batch :=
          (if bytes_eqb resolved (data_key id) then [] else [BDel resolved])
          ++ [BPut (data_key id) (serialize r)]
          ++ (if bytes_eqb (item_id old) (item_id r) then []
              else delete_item_id_index (item_id old) ++ put_item_id_index (item_id r) id)
          ++ remove_field_indexes (indexed_fields s) id old
          ++ add_field_indexes (indexed_fields s) id r in
        Ok (true, set_db s (apply_batch batch (db s)))
  end.

(** operator[], rocksdb_storage.hpp:115-123: an empty record when absent *)
Definition empty_record : scalar_data := {| item_id := []; document := []; meta := [] |}.
Definition read_row (s : storage) (id : N) : res scalar_data :=
  match get_data_value (db s) id with
  | None => Ok empty_record
  | Some (v, _) => deserialize v
  end.
(** is_valid, rocksdb_storage.hpp:156-159 *)
Definition is_valid (s : storage) (id : N) : bool :=
  match get_data_value (db s) id with Some _ => true | None => false end.

(** save_count, rocksdb_storage.hpp:974-984, load_count, 964-972: closing the
    database normally and opening it again. *)
Definition close_and_open (s : storage) : storage :=
  let d := kv_put count_key (le_enc 8 (cached_count s)) (db s) in
  match kv_get d count_key with
  | Some v => set_db_count s d (if Nat.eqb (length v) 8 then le_dec v else 0%N)
  | None => set_db_count s d 0
  end.

(** scan_with_filter, rocksdb_storage.hpp:502-540 *)
Fixpoint scan_loop (fn : scalar_data -> bool) (l : kv) : res (list (N * scalar_data)) :=
  match l with
  | [] => Ok []
  | (k, v) :: l' =>
      if negb (starts_with (str "d_") k) then Ok []
      else
        let* id := parse_data_key k in
        match id with
        | None => scan_loop fn l'
        | Some i => let* sd := deserialize v in
                    let* rest := scan_loop fn l' in
                    Ok (if fn sd then (i, sd) :: rest else rest)
        end
  end.
(** std::sort by id, rocksdb_storage.hpp:531-533 (the ids are distinct, so the
    order of equal elements does not matter). *)
Fixpoint insert_by_id (e : N * scalar_data) (l : list (N * scalar_data)) : list (N * scalar_data) :=
  match l with
  | [] => [e]
  | x :: l' => if N.ltb (fst e) (fst x) then e :: l else x :: insert_by_id e l'
  end.
Definition sort_by_id (l : list (N * scalar_data)) := fold_right insert_by_id [] l.
Definition scan_with_filter (s : storage) (fn : scalar_data -> bool) (limit : nat)
  : res (list (N * scalar_data)) :=
  let* results := scan_loop fn (kv_seek (db s) (str "d_")) in
  let sorted := sort_by_id results in
  Ok (if Nat.ltb 0 limit && Nat.ltb limit (length sorted) then firstn limit sorted else sorted).

(** extract_id_from_key<uint32_t>: the parsed number is cut to 32 bits. *)
Definition extract_id32 (key : bytes) : res N :=
  match extract_id_from_key key with Some v => Ok (v mod 2 ^ 32)%N | None => Throws end.

(** get_ids_by_field_value, rocksdb_storage.hpp:548-569 *)
Fixpoint ids_loop (prefix : bytes) (l : kv) : res (list N) :=
  match l with
  | [] => Ok []
  | (k, _) :: l' =>
      if negb (starts_with prefix k) then Ok []
      else let* id := extract_id32 k in let* rest := ids_loop prefix l' in Ok (id :: rest)
  end.
Definition get_ids_by_field_value (s : storage) (field : bytes) (v : value) : res (list N) :=
  let prefix := make_field_index_prefix field (encode_value v) in
  ids_loop prefix (kv_seek (db s) prefix).

(** key.rfind('_'), rocksdb_storage.hpp:603, 648: position of the last one *)
Fixpoint rfind_us (i : nat) (s : bytes) : option nat :=
  match s with
  | [] => None
  | c :: s' => match rfind_us (S i) s' with
               | Some p => Some p
               | None => if N.eqb c us then Some i else None
               end
  end.
(** The loop of get_ids_by_int_range (590-613) and get_ids_by_double_range
    (636-657); [tag] is "i_" or "d_". *)
Fixpoint range_loop (field_prefix tag end_encoded : bytes) (l : kv) : res (list N) :=
  match l with
  | [] => Ok []
  | (k, _) :: l' =>
      if negb (starts_with field_prefix k) then Ok []
      else if Nat.ltb (length k) (length field_prefix + 2)
              || negb (bytes_eqb (firstn 2 (skipn (length field_prefix) k)) tag)
      then range_loop field_prefix tag end_encoded l'
      else
        let value_start := length field_prefix + 2 in
        match rfind_us 0 k with
        | None => range_loop field_prefix tag end_encoded l'
        | Some value_end =>
            if Nat.leb value_end value_start then range_loop field_prefix tag end_encoded l'
            else
              let encoded := firstn (value_end - value_start) (skipn value_start k) in
              if key_ltb end_encoded encoded then Ok []
              else let* id := extract_id32 k in
                   let* rest := range_loop field_prefix tag end_encoded l' in Ok (id :: rest)
        end
  end.
(** get_ids_by_int_range, rocksdb_storage.hpp:578-616 *)
Definition get_ids_by_int_range (s : storage) (field : bytes) (lo hi : Z) : res (list N) :=
  let fp := make_field_prefix field in
  range_loop fp (str "i_") (encode_int64 hi) (kv_seek (db s) (fp ++ str "i_" ++ encode_int64 lo)).
(** get_ids_by_double_range, rocksdb_storage.hpp:625-660; bounds as patterns *)
Definition get_ids_by_double_range (s : storage) (field : bytes) (lo hi : N) : res (list N) :=
  let fp := make_field_prefix field in
  range_loop fp (str "d_") (encode_double hi) (kv_seek (db s) (fp ++ str "d_" ++ encode_double lo)).
