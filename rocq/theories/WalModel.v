(** Model of the write-ahead log: include/recovery/write_ahead_log.hpp. *)
From Verif Require Export Bytes.

(** write_ahead_log.hpp:28-31 *)
Definition kWalFrameMagic : N := 0x48454144.
Definition kWalTrailerMagic : N := 0x5441494C.
Definition kWalFormatVersion : N := 1.
Definition kMaxWalPayloadSize : N := 2 ^ 30.

(** write_ahead_log.hpp:39-42 *)
Inductive frame_type := kPrepare | kCommit.

(** write_ahead_log.hpp:50-55 *)
Inductive mutation := kInsert | kUpsert | kRemoveByItemId | kRemoveByInternalId.

(** Enumerator values, write_ahead_log.hpp:40-41. *)
Definition frame_type_code (t : frame_type) : N :=
  match t with kPrepare => 1 | kCommit => 2 end.

(** Enumerator values, write_ahead_log.hpp:51-54. *)
Definition mutation_code (m : mutation) : N :=
  match m with
  | kInsert => 1 | kUpsert => 2 | kRemoveByItemId => 3 | kRemoveByInternalId => 4
  end.

(** Enum comparison [!=] used at write_ahead_log.hpp:214. *)
Definition mutation_eqb (a b : mutation) : bool :=
  match a, b with
  | kInsert, kInsert | kUpsert, kUpsert
  | kRemoveByItemId, kRemoveByItemId | kRemoveByInternalId, kRemoveByInternalId => true
  | _, _ => false
  end.

(** WalRecord, write_ahead_log.hpp:64-68.  [op_id] is a uint64_t; the range is
    a hypothesis of the theorems ([op_id_ok] in WalSpec). *)
Record wal_record := { op_id : N; mut : mutation; payload : bytes }.

(** parse_frame_type, write_ahead_log.hpp:242-251 *)
Definition parse_frame_type (c : N) : option frame_type :=
  if N.eqb c 1 then Some kPrepare else if N.eqb c 2 then Some kCommit else None.

(** parse_mutation_type, write_ahead_log.hpp:253-267 *)
Definition parse_mutation_type (c : N) : option mutation :=
  if N.eqb c 1 then Some kInsert
  else if N.eqb c 2 then Some kUpsert
  else if N.eqb c 3 then Some kRemoveByItemId
  else if N.eqb c 4 then Some kRemoveByInternalId
  else None.

(** The byte buffer built by append_frame, write_ahead_log.hpp:328-349. *)
Definition encode_frame (ft : frame_type) (r : wal_record) : bytes :=
  le_enc 4 kWalFrameMagic
  ++ le_enc 1 kWalFormatVersion
  ++ le_enc 1 (frame_type_code ft)
  ++ le_enc 1 (mutation_code (mut r))
  ++ le_enc 1 0
  ++ le_enc 8 (op_id r)
  ++ le_enc 8 (N.of_nat (length (payload r)))
  ++ payload r
  ++ le_enc 4 kWalTrailerMagic.

(** The log file: [None] when it does not exist. *)
Definition wal_file := option bytes.

(** Bytes read back from the file; a missing file reads as no records,
    write_ahead_log.hpp:136-150. *)
Definition file_bytes (f : wal_file) : bytes := match f with None => [] | Some b => b end.

(** Outcome of a call that may throw. *)
Inductive outcome (A : Type) := Ret (a : A) | Throw.
Arguments Ret {A} a.
Arguments Throw {A}.

(** append_frame, write_ahead_log.hpp:314-360.  The file is created by
    ensure_stream_open (297-305) before the size check, opened in append mode.
    Simplified: stream errors, which the code does not check, do not occur. *)
Definition append_frame (f : wal_file) (ft : frame_type) (r : wal_record) : outcome wal_file :=
  if N.ltb kMaxWalPayloadSize (N.of_nat (length (payload r)))
  then Throw
  else Ret (Some (file_bytes f ++ encode_frame ft r)).

(** append_prepare, write_ahead_log.hpp:96-98 *)
Definition append_prepare (f : wal_file) (r : wal_record) : outcome wal_file :=
  append_frame f kPrepare r.

(** append_commit, write_ahead_log.hpp:100-103 *)
Definition append_commit (f : wal_file) (id : N) (m : mutation) : outcome wal_file :=
  append_frame f kCommit {| op_id := id; mut := m; payload := [] |}.

(** truncate, write_ahead_log.hpp:105-115 (removal assumed to succeed) *)
Definition truncate (_ : wal_file) : wal_file := None.

(** FrameHeader, write_ahead_log.hpp:235-240 *)
Record frame_header := { h_type : frame_type; h_mut : mutation; h_op : N; h_size : N }.

(** read_frame_header, write_ahead_log.hpp:368-420.  [input] is the unread
    rest of the file; a short read makes the stream fail and yields nullopt. *)
Definition read_frame_header (input : bytes) : option (frame_header * bytes) :=
  match take_bytes 4 input with None => None | Some (magic, i1) =>
  if negb (N.eqb (le_dec magic) kWalFrameMagic) then None else
  match take_bytes 1 i1 with None => None | Some (version, i2) =>
  match take_bytes 1 i2 with None => None | Some (ft, i3) =>
  match take_bytes 1 i3 with None => None | Some (mt, i4) =>
  match take_bytes 1 i4 with None => None | Some (_, i5) =>
  match take_bytes 8 i5 with None => None | Some (op, i6) =>
  match take_bytes 8 i6 with None => None | Some (size, i7) =>
  if negb (N.eqb (le_dec version) kWalFormatVersion) then None else
  match parse_frame_type (le_dec ft) with None => None | Some t =>
  match parse_mutation_type (le_dec mt) with None => None | Some m =>
  Some ({| h_type := t; h_mut := m; h_op := le_dec op; h_size := le_dec size |}, i7)
  end end end end end end end end end.

(** payload_size_is_plausible, write_ahead_log.hpp:269-295.  The quantity
    [wal_file_size - payload_offset] is the number of unread bytes.  The
    streamsize/size_t checks (275-280) are implied by the first check. *)
Definition payload_size_is_plausible (rest : bytes) (size : N) : bool :=
  if N.ltb kMaxWalPayloadSize size then false
  else let remaining := N.of_nat (length rest) in
       N.leb 4 remaining && N.leb size (remaining - 4).

(** The unordered_map<uint64_t, WalRecord> [pending] of
    write_ahead_log.hpp:148, as an association list with unique keys. *)
Definition pending_map := list (N * wal_record).

(** pending.find, write_ahead_log.hpp:209 *)
Fixpoint pending_find (id : N) (p : pending_map) : option wal_record :=
  match p with
  | [] => None
  | (k, r) :: p' => if N.eqb k id then Some r else pending_find id p'
  end.

(** pending.erase, write_ahead_log.hpp:216,222 *)
Definition pending_erase (id : N) (p : pending_map) : pending_map :=
  filter (fun kr => negb (N.eqb (fst kr) id)) p.

(** pending[id] = r, write_ahead_log.hpp:203-205 *)
Definition pending_set (id : N) (r : wal_record) (p : pending_map) : pending_map :=
  (id, r) :: pending_erase id p.

(** Local variables of replayable_records: write_ahead_log.hpp:147,148,171 *)
Record scan_state := { committed : list wal_record; pending : pending_map; max_op : N }.

(** Loop body after a complete frame has been read,
    write_ahead_log.hpp:201-222 *)
Definition process_frame (applied_through : N) (s : scan_state) (h : frame_header) (pl : bytes)
  : scan_state :=
  let mx := N.max (max_op s) (h_op h) in
  match h_type h with
  | kPrepare =>
      {| committed := committed s;
         pending := pending_set (h_op h)
                      {| op_id := h_op h; mut := h_mut h; payload := pl |} (pending s);
         max_op := mx |}
  | kCommit =>
      match pending_find (h_op h) (pending s) with
      | None => {| committed := committed s; pending := pending s; max_op := mx |}
      | Some r =>
          if negb (mutation_eqb (mut r) (h_mut h)) then
            {| committed := committed s; pending := pending_erase (h_op h) (pending s);
               max_op := mx |}
          else
            {| committed := if N.ltb applied_through (h_op h)
                            then committed s ++ [r] else committed s;
               pending := pending_erase (h_op h) (pending s);
               max_op := mx |}
      end
  end.

(** Reading one frame: write_ahead_log.hpp:173-199.  [None] is a [break]. *)
Definition read_frame (input : bytes) : option (frame_header * bytes * bytes) :=
  match read_frame_header input with
  | None => None
  | Some (h, rest) =>
      if negb (payload_size_is_plausible rest (h_size h)) then None
      else match take_bytes (N.to_nat (h_size h)) rest with
           | None => None
           | Some (pl, rest2) =>
               match take_bytes 4 rest2 with
               | None => None
               | Some (tr, rest3) =>
                   if N.eqb (le_dec tr) kWalTrailerMagic then Some (h, pl, rest3) else None
               end
           end
  end.

(** The scan loop, write_ahead_log.hpp:172-223.  [None] means the fuel ran
    out; the theorems show it never does with the fuel used below. *)
Fixpoint scan (fuel : nat) (applied_through : N) (input : bytes) (s : scan_state)
  : option scan_state :=
  match fuel with
  | O => None
  | S fuel' =>
      match read_frame input with
      | None => Some s
      | Some (h, pl, rest) =>
          scan fuel' applied_through rest (process_frame applied_through s h pl)
      end
  end.

(** std::ranges::sort by op_id, write_ahead_log.hpp:228-230.  The C++ sort is
    not stable; this one is, so the theorems only rely on the result being a
    sorted permutation. *)
Fixpoint insert_by_op (r : wal_record) (l : list wal_record) : list wal_record :=
  match l with
  | [] => [r]
  | x :: l' => if N.leb (op_id x) (op_id r) then x :: insert_by_op r l' else r :: l
  end.
Definition sort_by_op (l : list wal_record) : list wal_record :=
  fold_left (fun acc r => insert_by_op r acc) l [].

(** replayable_records, write_ahead_log.hpp:136-232: the returned records and
    the value stored through [max_seen_op_id].  Simplified: opening and
    stat-ing an existing file succeeds. *)
Definition replayable_records (f : wal_file) (applied_through : N)
  : option (list wal_record * N) :=
  match f with
  | None => Some ([], applied_through)
  | Some b =>
      match scan (S (length b)) applied_through b
                 {| committed := []; pending := []; max_op := applied_through |} with
      | None => None
      | Some s => Some (sort_by_op (committed s), max_op s)
      end
  end.
