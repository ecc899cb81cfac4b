(** Model of include/utils/scalar_data.hpp: records stored per row. *)
From Verif Require Export Text.

(** MetadataValue, scalar_data.hpp:21.  int64_t is a [Z] (range in the
    specification), double is its 64-bit pattern. *)
Inductive value := VInt (z : Z) | VDouble (bits : N) | VStr (s : bytes) | VBool (b : bool).

(** MetadataMap, scalar_data.hpp:22: an association list with distinct keys in
    the iteration order of the unordered_map. *)
Definition metadata := list (bytes * value).

(** ScalarData, scalar_data.hpp:30-33 *)
Record scalar_data := { item_id : bytes; document : bytes; meta : metadata }.

(** int64_t as an unsigned bit pattern and back (two's complement). *)
Definition int64_bits (z : Z) : N := Z.to_N (z mod 2 ^ 64).
Definition int64_of_bits (b : N) : Z :=
  if N.ltb b (2 ^ 63) then Z.of_N b else (Z.of_N b - 2 ^ 64)%Z.

(** ** Writing *)

(** serialize_string, scalar_data.hpp:205-210: the length is truncated to 32
    bits. *)
Definition serialize_string (s : bytes) : bytes := le_enc 4 (N.of_nat (length s)) ++ s.

(** serialize_value, scalar_data.hpp:303-319 *)
Definition serialize_value (v : value) : bytes :=
  match v with
  | VInt z => [0%N] ++ le_enc 8 (int64_bits z)
  | VDouble b => [1%N] ++ le_enc 8 b
  | VStr s => [2%N] ++ serialize_string s
  | VBool b => [3%N; if b then 1%N else 0%N]
  end.

(** Loop body of serialize_metadata, scalar_data.hpp:297-300 *)
Definition serialize_entry (kv : bytes * value) : bytes :=
  serialize_string (fst kv) ++ serialize_value (snd kv).

(** serialize_metadata, scalar_data.hpp:292-301 *)
Definition serialize_metadata (m : metadata) : bytes :=
  le_enc 4 (N.of_nat (length m)) ++ flat_map serialize_entry m.

(** serialize, scalar_data.hpp:44-55 *)
Definition serialize (r : scalar_data) : bytes :=
  serialize_string (item_id r) ++ serialize_string (document r) ++ serialize_metadata (meta r).

(** serialized_size, scalar_data.hpp:182-202 *)
Definition serialized_size (r : scalar_data) : nat :=
  (4 + length (item_id r)) + (4 + length (document r)) + 4
  + fold_left (fun n kv =>
      n + (4 + length (fst kv)) + 1 +
      match snd kv with VStr s => 4 + length s | VInt _ | VDouble _ => 8 | VBool _ => 1 end)
      (meta r) 0.

(** ** Reading.  A read outside the buffer and a bool object whose byte is not
    0 or 1 are undefined behaviour and distinct outcomes; [Throws] is the
    std::runtime_error of deserialize. *)
Inductive res (A : Type) := Ok (a : A) | OutOfBounds | InvalidBool | Throws.
Arguments Ok {A} a.
Arguments OutOfBounds {A}.
Arguments InvalidBool {A}.
Arguments Throws {A}.

Definition bind {A B} (r : res A) (f : A -> res B) : res B :=
  match r with Ok a => f a | OutOfBounds => OutOfBounds | InvalidBool => InvalidBool | Throws => Throws end.
Notation "'let*' x := r 'in' e" := (bind r (fun x => e)) (at level 200, x pattern, e at level 200).

(** memcpy of [n] bytes from data + offset (scalar_data.hpp:107, 227, 244, ...) *)
Definition memcpy (data : bytes) (off n : N) : res bytes :=
  if N.leb (off + n) (N.of_nat (length data))
  then Ok (firstn (N.to_nat n) (skipn (N.to_nat off) data))
  else OutOfBounds.

Definition fsize (data : bytes) : N := N.of_nat (length data).

(** deserialize_string with bounds, scalar_data.hpp:221-236.  Offsets are size_t;
    sums do not wrap for buffers below 2^63 bytes. *)
Definition deserialize_string (data : bytes) (off : N) : res (bytes * N) :=
  if N.ltb (fsize data) (off + 4) then Ok ([], fsize data + 1)%N
  else let* lenb := memcpy data off 4 in
       let len := le_dec lenb in
       let off1 := (off + 4)%N in
       if N.ltb (fsize data) (off1 + len) then Ok ([], fsize data + 1)%N
       else let* s := memcpy data off1 len in
            Ok (s, off1 + len)%N.

(** skip_string, scalar_data.hpp:238-251 *)
Definition skip_string (data : bytes) (off : N) : res N :=
  if N.ltb (fsize data) (off + 4) then Ok (fsize data + 1)%N
  else let* lenb := memcpy data off 4 in
       let len := le_dec lenb in
       let off1 := (off + 4)%N in
       if N.ltb (fsize data) (off1 + len) then Ok (fsize data + 1)%N
       else Ok (off1 + len)%N.

(** deserialize_value with bounds, scalar_data.hpp:390-435.  Reading a bool
    object from a byte other than 0 or 1 (426-429) is undefined behaviour. *)
Definition deserialize_value (data : bytes) (off : N) : res (value * N) :=
  if N.leb (fsize data) off then Ok (VInt 0, fsize data + 1)%N
  else
    let* tb := memcpy data off 1 in
    let tag := le_dec tb in
    let off1 := (off + 1)%N in
    if N.eqb tag 0 then
      if N.ltb (fsize data) (off1 + 8) then Ok (VInt 0, fsize data + 1)%N
      else let* b := memcpy data off1 8 in Ok (VInt (int64_of_bits (le_dec b)), off1 + 8)%N
    else if N.eqb tag 1 then
      if N.ltb (fsize data) (off1 + 8) then Ok (VInt 0, fsize data + 1)%N
      else let* b := memcpy data off1 8 in Ok (VDouble (le_dec b), off1 + 8)%N
    else if N.eqb tag 2 then
      let* (s, off2) := deserialize_string data off1 in Ok (VStr s, off2)
    else if N.eqb tag 3 then
      if N.ltb (fsize data) (off1 + 1) then Ok (VInt 0, fsize data + 1)%N
      else let* b := memcpy data off1 1 in
           if N.eqb (le_dec b) 0 then Ok (VBool false, off1 + 1)%N
           else if N.eqb (le_dec b) 1 then Ok (VBool true, off1 + 1)%N
           else InvalidBool
    else Ok (VInt 0, fsize data + 1)%N.

(** skip_value, scalar_data.hpp:253-290 *)
Definition skip_value (data : bytes) (off : N) : res N :=
  if N.leb (fsize data) off then Ok (fsize data + 1)%N
  else
    let* tb := memcpy data off 1 in
    let tag := le_dec tb in
    let off1 := (off + 1)%N in
    if N.eqb tag 0 || N.eqb tag 1 then
      if N.ltb (fsize data) (off1 + 8) then Ok (fsize data + 1)%N else Ok (off1 + 8)%N
    else if N.eqb tag 2 then skip_string data off1
    else if N.eqb tag 3 then
      if N.ltb (fsize data) (off1 + 1) then Ok (fsize data + 1)%N else Ok (off1 + 1)%N
    else Ok (fsize data + 1)%N.

(** unordered_map::find on a MetadataMap (e.g. metadata_filter.hpp:57) *)
Fixpoint meta_find (k : bytes) (m : metadata) : option value :=
  match m with
  | [] => None
  | (k', v) :: m' => if bytes_eqb k' k then Some v else meta_find k m'
  end.

(** result[key] = value, scalar_data.hpp:355 *)
Fixpoint meta_set (k : bytes) (v : value) (m : metadata) : metadata :=
  match m with
  | [] => [(k, v)]
  | (k', v') :: m' => if bytes_eqb k' k then (k', v) :: m' else (k', v') :: meta_set k v m'
  end.

(** result.emplace(key, value), scalar_data.hpp:121: keeps an existing entry. *)
Definition meta_emplace (k : bytes) (v : value) (m : metadata) : metadata :=
  match meta_find k m with Some _ => m | None => m ++ [(k, v)] end.

(** The loop of deserialize_metadata, scalar_data.hpp:346-356; [n] iterations
    are left.  On failure the map is replaced by an empty one and the offset is
    past the end. *)
Fixpoint metadata_loop (data : bytes) (n : nat) (off : N) (acc : metadata) : res (metadata * N) :=
  match n with
  | O => Ok (acc, off)
  | S n' =>
      let* (key, off1) := deserialize_string data off in
      if N.ltb (fsize data) off1 then Ok ([], off1)
      else let* (v, off2) := deserialize_value data off1 in
           if N.ltb (fsize data) off2 then Ok ([], off2)
           else metadata_loop data n' off2 (meta_set key v acc)
  end.

(** deserialize_metadata with bounds, scalar_data.hpp:335-358 *)
Definition deserialize_metadata (data : bytes) (off : N) : res (metadata * N) :=
  if N.ltb (fsize data) (off + 4) then Ok ([], fsize data + 1)%N
  else let* cb := memcpy data off 4 in
       metadata_loop data (N.to_nat (le_dec cb)) (off + 4)%N [].

(** deserialize, scalar_data.hpp:63-80; the final offset is returned as well.
    [size == 0] throws; a null pointer with a positive size is not modelled. *)
Definition deserialize_with_offset (data : bytes) : res (scalar_data * N) :=
  if N.eqb (fsize data) 0 then Throws
  else
    let* (id, o1) := deserialize_string data 0 in
    let* (doc, o2) := deserialize_string data o1 in
    let* (m, o3) := deserialize_metadata data o2 in
    if N.ltb (fsize data) o3 then Throws
    else Ok ({| item_id := id; document := doc; meta := m |}, o3).
Definition deserialize (data : bytes) : res scalar_data :=
  let* (r, _) := deserialize_with_offset data in Ok r.

Definition contains (k : bytes) (fields : list bytes) : bool := existsb (bytes_eqb k) fields.

(** The loop of deserialize_selected_metadata, scalar_data.hpp:110-131.
    [required] is the unordered_set: a list without duplicates. *)
Fixpoint selected_loop (data : bytes) (required : list bytes) (n : nat) (off : N) (acc : metadata)
  : res metadata :=
  match n with
  | O => Ok acc
  | S n' =>
      if negb (N.ltb off (fsize data)) then Ok acc
      else
        let* (key, off1) := deserialize_string data off in
        if match key with [] => N.ltb (fsize data) off1 | _ => false end then Ok []
        else if contains key required then
          let* (v, off2) := deserialize_value data off1 in
          if N.ltb (fsize data) off2 then Ok []
          else let acc' := meta_emplace key v acc in
               if Nat.eqb (length acc') (length required) then Ok acc'
               else selected_loop data required n' off2 acc'
        else
          let* off2 := skip_value data off1 in
          if N.ltb (fsize data) off2 then Ok []
          else selected_loop data required n' off2 acc
  end.

(** deserialize_selected_metadata, scalar_data.hpp:89-133 *)
Definition deserialize_selected_metadata (data : bytes) (required : list bytes) : res metadata :=
  match required with
  | [] => Ok []
  | _ =>
      if N.eqb (fsize data) 0 then Ok []
      else
        let* o1 := skip_string data 0 in
        let* o2 := skip_string data o1 in
        if N.ltb (fsize data) (o2 + 4) then Ok []
        else let* cb := memcpy data o2 4 in
             selected_loop data required (N.to_nat (le_dec cb)) (o2 + 4)%N []
  end.

(** The loop of deserialize_single_metadata_value, scalar_data.hpp:155-173 *)
Fixpoint single_loop (data : bytes) (field : bytes) (n : nat) (off : N) : res (option value) :=
  match n with
  | O => Ok None
  | S n' =>
      if negb (N.ltb off (fsize data)) then Ok None
      else
        let* (key, off1) := deserialize_string data off in
        if match key with [] => N.ltb (fsize data) off1 | _ => false end then Ok None
        else if bytes_eqb key field then
          let* (v, off2) := deserialize_value data off1 in
          if N.ltb (fsize data) off2 then Ok None else Ok (Some v)
        else
          let* off2 := skip_value data off1 in
          if N.ltb (fsize data) off2 then Ok None else single_loop data field n' off2
  end.

(** deserialize_single_metadata_value, scalar_data.hpp:135-176 *)
Definition deserialize_single_metadata_value (data : bytes) (field : bytes) : res (option value) :=
  match field with
  | [] => Ok None
  | _ =>
      if N.eqb (fsize data) 0 then Ok None
      else
        let* o1 := skip_string data 0 in
        let* o2 := skip_string data o1 in
        if N.ltb (fsize data) (o2 + 4) then Ok None
        else let* cb := memcpy data o2 4 in
             single_loop data field (N.to_nat (le_dec cb)) (o2 + 4)%N
  end.
