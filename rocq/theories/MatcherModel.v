(** Model of include/utils/metadata_filter_matcher.hpp
    (MetadataFilterExecutor<uint32_t>). *)
From Verif Require Export StorageModel FilterModel.

(** std::numeric_limits used at metadata_filter_matcher.hpp:194-248 *)
Definition int64_max : Z := (2 ^ 63 - 1)%Z.
Definition int64_min : Z := (- 2 ^ 63)%Z.
Definition dbl_max : N := 0x7FEFFFFFFFFFFFFF.
Definition dbl_lowest : N := 0xFFEFFFFFFFFFFFFF.

(** std::nextafter (metadata_filter_matcher.hpp:216, 247) on bit patterns; a
    NaN operand gives a NaN (which one does not matter here). *)
Definition nextafter (x y : N) : N :=
  if dbl_is_nan x then x
  else if dbl_is_nan y then y
  else if dbl_eqb x y then y
  else if N.eqb (dbl_mag x) 0 then (if dbl_sign y then 2 ^ 63 + 1 else 1)%N
  else if dbl_ltb x y then (if dbl_sign x then x - 1 else x + 1)%N
  else (if dbl_sign x then x + 1 else x - 1)%N.

(** is_indexed_field, metadata_filter_matcher.hpp:166-169 *)
Definition is_indexed_field (s : storage) (f : bytes) : bool := existsb (bytes_eqb f) (indexed_fields s).

(** Loop of the IN_SET case, metadata_filter_matcher.hpp:182-186 *)
Fixpoint lookup_values (s : storage) (f : bytes) (vs : list value) : res (list N) :=
  match vs with
  | [] => Ok []
  | v :: vs' => let* a := get_ids_by_field_value s f v in
                let* b := lookup_values s f vs' in Ok (a ++ b)
  end.
(** std::sort, std::unique and erase, metadata_filter_matcher.hpp:187-188 *)
Fixpoint insert_id (x : N) (l : list N) : list N :=
  match l with [] => [x] | y :: l' => if N.leb x y then x :: l else y :: insert_id x l' end.
Definition sort_ids (l : list N) : list N := fold_right insert_id [] l.
Fixpoint unique (l : list N) : list N :=
  match l with
  | [] => []
  | x :: l' => match unique l' with
               | [] => [x]
               | y :: u => if N.eqb x y then y :: u else x :: y :: u
               end
  end.

(** lookup_indexed_ids, metadata_filter_matcher.hpp:171-254 *)
Definition lookup_indexed_ids (s : storage) (c : condition) : res (option (list N)) :=
  if negb (is_indexed_field s (field c)) then Ok None
  else
    let some (r : res (list N)) := let* l := r in Ok (Some l) in
    match op c with
    | EQ => some (get_ids_by_field_value s (field c) (operand c))
    | IN_SET => let* ids := lookup_values s (field c) (operands c) in Ok (Some (unique (sort_ids ids)))
    | GE => match operand c with
            | VInt v => some (get_ids_by_int_range s (field c) v int64_max)
            | VDouble v => some (get_ids_by_double_range s (field c) v dbl_max)
            | _ => Ok None
            end
    | GT => match operand c with
            | VInt v => if Z.eqb v int64_max then Ok (Some [])
                        else some (get_ids_by_int_range s (field c) (v + 1)%Z int64_max)
            | VDouble v => some (get_ids_by_double_range s (field c) (nextafter v dbl_max) dbl_max)
            | _ => Ok None
            end
    | LE => match operand c with
            | VInt v => some (get_ids_by_int_range s (field c) int64_min v)
            | VDouble v => some (get_ids_by_double_range s (field c) dbl_lowest v)
            | _ => Ok None
            end
    | LT => match operand c with
            | VInt v => if Z.eqb v int64_min then Ok (Some [])
                        else some (get_ids_by_int_range s (field c) int64_min (v - 1)%Z)
            | VDouble v => some (get_ids_by_double_range s (field c) dbl_lowest (nextafter v dbl_lowest))
            | _ => Ok None
            end
    | NE | NOT_IN_SET | CONTAINS => Ok None
    end.

(** build_index_fast_path, metadata_filter_matcher.hpp:260-276; [None]: no
    fast path. *)
Definition index_fast_path (s : storage) (f : filter) : res (option (list N)) :=
  match f with
  | Filter AND [c] [] => lookup_indexed_ids s c
  | _ => Ok None
  end.

(** collect_required_fields, metadata_filter_matcher.hpp:285-293: an
    unordered_set, here without repetitions. *)
Definition add_field (f : bytes) (l : list bytes) : list bytes :=
  if existsb (bytes_eqb f) l then l else f :: l.
Fixpoint collect_required_fields (f : filter) (acc : list bytes) : list bytes :=
  match f with
  | Filter _ cs subs =>
      fold_left (fun a g => collect_required_fields g a) subs
        (fold_left (fun a c => add_field (field c) a) cs acc)
  end.

(** evaluate_raw_value, metadata_filter_matcher.hpp:278-283 *)
Definition evaluate_raw_value (f : filter) (raw : bytes) : res bool :=
  let* m := deserialize_selected_metadata raw (collect_required_fields f []) in
  Ok (evaluate f m).

(** Bits of a DynamicBitset of [n] bits as a list (its words are modelled in
    BitsetModel.v); an access outside it is undefined behaviour. *)
Definition bit_get (b : list bool) (i : N) : res bool :=
  match nth_error b (N.to_nat i) with Some x => Ok x | None => OutOfBounds end.
Fixpoint replace_nth {A} (l : list A) (i : nat) (x : A) : list A :=
  match l, i with
  | [], _ => []
  | _ :: l', O => x :: l'
  | y :: l', S i' => y :: replace_nth l' i' x
  end.
Definition bit_put (x : bool) (b : list bool) (i : N) : res (list bool) :=
  if Nat.ltb (N.to_nat i) (length b) then Ok (replace_nth b (N.to_nat i) x) else OutOfBounds.
Fixpoint bits_put (x : bool) (b : list bool) (ids : list N) : res (list bool) :=
  match ids with [] => Ok b | i :: ids' => let* b' := bit_put x b i in bits_put x b' ids' end.

(** The executor after construction, metadata_filter_matcher.hpp:35-45, 295-301 *)
Record executor := { exec_filter : filter; exec_storage : storage; data_num : nat;
                     indexed_ids : option (list N); allow_ids : list bool }.
Definition make_executor (f : filter) (s : storage) (n : nat) : res executor :=
  let* ids := index_fast_path s f in
  let* allow := bits_put true (repeat false n) (match ids with Some l => l | None => [] end) in
  Ok {| exec_filter := f; exec_storage := s; data_num := n; indexed_ids := ids; allow_ids := allow |}.

(** match, metadata_filter_matcher.hpp:54-68 *)
Definition match_id (x : executor) (id : N) : res bool :=
  if is_empty (exec_filter x) then Ok true
  else match indexed_ids x with
       | Some _ => bit_get (allow_ids x) id
       | None => match get_data_value (db (exec_storage x)) id with
                 | None => Ok false
                 | Some (raw, _) => evaluate_raw_value (exec_filter x) raw
                 end
       end.

(** build_blocked_bitset(ids), metadata_filter_matcher.hpp:78-112: the blocked
    bits, one per position, and matched_count_; batch_get_raw_values
    (rocksdb_storage.hpp:144-153) gives an empty string for a missing row *)
Definition blocked_one (x : executor) (id : N) : res bool :=
  match indexed_ids x with
  | Some _ => let* a := bit_get (allow_ids x) id in Ok (negb a)
  | None =>
      match get_data_value (db (exec_storage x)) id with
      | None => Ok true
      | Some (raw, _) =>
          match raw with
          | [] => Ok true
          | _ => let* m := evaluate_raw_value (exec_filter x) raw in Ok (negb m)
          end
      end
  end.
Fixpoint blocked_each (x : executor) (ids : list N) : res (list bool) :=
  match ids with
  | [] => Ok []
  | i :: ids' => let* b := blocked_one x i in let* bs := blocked_each x ids' in Ok (b :: bs)
  end.
Definition count_false (l : list bool) : nat := length (List.filter negb l).
Definition build_blocked_for (x : executor) (ids : list N) : res (list bool * nat) :=
  if is_empty (exec_filter x) then Ok (repeat false (length ids), length ids)
  else let* bs := blocked_each x ids in Ok (bs, count_false bs).

(** eval_offsets, metadata_filter_matcher.hpp:70-76 *)
Definition eval_offsets (x : executor) (ids : list N) : res (list bool) :=
  let* (bs, _) := build_blocked_for x ids in Ok (map negb bs).

(** build_blocked_bitset(), metadata_filter_matcher.hpp:114-163: ids 0, 1, ...,
    data_num - 1, cast to uint32_t, in batches of 1024; the bits of a batch are
    written at its ids, which are consecutive. *)
Definition id_range (from upto : nat) : list N := map (fun i => N.of_nat i mod 2 ^ 32)%N (seq from (upto - from)).
Fixpoint blocked_batches (fuel : nat) (x : executor) (from : nat) : res (list bool * nat) :=
  match fuel with
  | O => Ok ([], 0)
  | S k =>
      if Nat.leb (data_num x) from then Ok ([], 0)
      else
        let upto := Nat.min (data_num x) (from + 1024) in
        let* (bs, n) := build_blocked_for x (id_range from upto) in
        let* (rest, m) := blocked_batches k x (from + 1024) in
        Ok (bs ++ rest, n + m)
  end.
Definition build_blocked (x : executor) : res (list bool * nat) :=
  if is_empty (exec_filter x) then Ok (repeat false (data_num x), data_num x)
  else match indexed_ids x with
       | Some ids => let* b := bits_put false (repeat true (data_num x)) ids in Ok (b, length ids)
       | None => blocked_batches (S (data_num x)) x 0
       end.
