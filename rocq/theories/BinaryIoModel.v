(** Model of include/utils/binary_io.hpp and of the log payloads built from it
    in python/include/index.hpp. *)
From Verif Require Export ScalarDataModel.

(** BinaryWriter, binary_io.hpp:23-68: the buffer; each call appends. *)
(** write_u8 / write_u32 / write_u64, binary_io.hpp:25-27, 61-65 *)
Definition write_u8 (b : bytes) (v : N) : bytes := b ++ le_enc 1 v.
Definition write_u32 (b : bytes) (v : N) : bytes := b ++ le_enc 4 v.
Definition write_u64 (b : bytes) (v : N) : bytes := b ++ le_enc 8 v.
(** write_bytes, binary_io.hpp:29-34 *)
Definition write_bytes (b x : bytes) : bytes := match x with [] => b | _ => b ++ x end.
(** write_string, write_blob: binary_io.hpp:36-49; write_vector_blob (51-56)
    writes the bytes of the elements the same way. *)
Definition write_string (b x : bytes) : bytes := write_bytes (write_u64 b (N.of_nat (length x))) x.

(** BinaryReader, binary_io.hpp:76-136: the data and the read offset. *)
Record reader := { rd_data : bytes; rd_offset : N }.
(** Constructor, binary_io.hpp:78 *)
Definition new_reader (data : bytes) : reader := {| rd_data := data; rd_offset := 0 |}.

(** remaining, binary_io.hpp:119 (size_t subtraction; wraps when the offset is
    past the end) *)
Definition remaining (r : reader) : N :=
  ((2 ^ 64 + N.of_nat (length (rd_data r)) - rd_offset r) mod 2 ^ 64)%N.

(** Copying [n] bytes at the offset and advancing, binary_io.hpp:92-93,
    105-106, 114-115, 128-129; outside the data it is undefined behaviour. *)
Definition copy_out (r : reader) (n : N) : res (bytes * reader) :=
  let* x := memcpy (rd_data r) (rd_offset r) n in
  Ok (x, {| rd_data := rd_data r; rd_offset := (rd_offset r + n)%N |}).

(** read_pod, binary_io.hpp:122-131: [None] is std::nullopt. *)
Definition read_pod (size : N) (r : reader) : res (option N * reader) :=
  if N.ltb (remaining r) size then Ok (None, r)
  else let* (x, r') := copy_out r size in Ok (Some (le_dec x), r').
(** binary_io.hpp:80-82 *)
Definition read_u8 := read_pod 1.
Definition read_u32 := read_pod 4.
Definition read_u64 := read_pod 8.

(** read_fixed_blob, binary_io.hpp:110-117 *)
Definition read_fixed_blob (size : N) (r : reader) : res (option bytes * reader) :=
  if N.ltb (remaining r) size then Ok (None, r)
  else let* (x, r') := copy_out r size in Ok (Some x, r').

(** read_string, read_blob: binary_io.hpp:84-108.  Note: when the length was
    read but the bytes are missing, the offset has advanced by 8. *)
Definition read_string (r : reader) : res (option bytes * reader) :=
  let* (size, r1) := read_u64 r in
  match size with
  | None => Ok (None, r1)
  | Some n => if N.ltb (remaining r1) n then Ok (None, r1)
              else let* (x, r2) := copy_out r1 n in Ok (Some x, r2)
  end.

(** encode_insert_like_payload, python/include/index.hpp:299-308; [vec] are
    the bytes of the vector. *)
Definition encode_insert_like_payload (vec : bytes) (ef : N) (sd : scalar_data) : bytes :=
  write_string (write_string (write_u32 [] ef) vec) (serialize sd).
(** encode_remove_item_payload, index.hpp:310-315 *)
Definition encode_remove_item_payload (id : bytes) : bytes := write_string [] id.
(** encode_remove_internal_payload, index.hpp:317-321 *)
Definition encode_remove_internal_payload (id : N) : bytes := write_u64 [] id.

(** The arguments with which replay_record re-applies an operation. *)
Inductive replay_args :=
| ReplayInsertLike (vec : bytes) (ef : N) (sd : scalar_data)
| ReplayRemoveItem (id : bytes)
| ReplayRemoveInternal (id : N).

(** Decoding in replay_record, index.hpp:414-427: kInsert and kUpsert;
    [vec_bytes] is data_dim_ * sizeof(DataType). *)
Definition decode_insert_like (vec_bytes : N) (payload : bytes) : res replay_args :=
  let* (ef, r1) := read_u32 (new_reader payload) in
  let* (vb, r2) := read_string r1 in
  let* (sb, r3) := read_string r2 in
  match ef, vb, sb with
  | Some e, Some v, Some s =>
      if negb (N.eqb (N.of_nat (length v)) vec_bytes) then Throws
      else let* sd := deserialize s in Ok (ReplayInsertLike v e sd)
  | _, _, _ => Throws
  end.
(** index.hpp:435-439 *)
Definition decode_remove_item (payload : bytes) : res replay_args :=
  let* (id, _) := read_string (new_reader payload) in
  match id with Some x => Ok (ReplayRemoveItem x) | None => Throws end.
(** index.hpp:447-451 *)
Definition decode_remove_internal (payload : bytes) : res replay_args :=
  let* (id, _) := read_u64 (new_reader payload) in
  match id with Some x => Ok (ReplayRemoveInternal x) | None => Throws end.
