(** TombstoneBitmap and TombstoneSnapshot,
    include/index/graph/diskann/tombstone_bitmap.hpp:50-305, and SlotAllocator,
    include/index/graph/diskann/slot_allocator.hpp.  Sequential executions:
    every access is one step (the callers hold the update lock, 108).  Memory
    allocation and stream writes do not fail; ids are uint64_t values. *)
From Verif Require Export BitsetModel.
Local Open Scope N_scope.

(** tombstone_bitmap.hpp:78-84 *)
Definition kTombMagic : N := 0x414C5954424D5031.
Definition kChunkBits : N := 2 ^ 16.
Definition kChunkWords : N := kChunkBits / 64.
Definition kMaxChunks : N := 2 ^ 16.

(** The members, 297-299; the chunk table has kMaxChunks entries, null
    pointers are [None] and a chunk is its kChunkWords words (242-244). *)
Record tomb := { tb_table : N -> option (list N); tb_bits : N; tb_count : N }.
(** Default constructor, 86 *)
Definition tb_empty : tomb := {| tb_table := fun _ => None; tb_bits := 0; tb_count := 0 |}.
(** Chunk's initialiser, 243 *)
Definition fresh_chunk : list N := repeat 0 (N.to_nat kChunkWords).
(** ( *table_)[c], an unchecked access to a fixed array *)
Definition table_at (t : tomb) (c : N) : res (option (list N)) :=
  if N.ltb c kMaxChunks then Ok (tb_table t c) else OutOfBounds.
Definition table_put (t : tomb) (c : N) (ws : list N) : tomb :=
  {| tb_table := fun d => if N.eqb d c then Some ws else tb_table t d; tb_bits := tb_bits t; tb_count := tb_count t |}.
Definition with_count (t : tomb) (n : N) : tomb := {| tb_table := tb_table t; tb_bits := tb_bits t; tb_count := n |}.
(** bump_capacity, 288-295 *)
Definition bump_capacity (t : tomb) (bits : N) : tomb :=
  {| tb_table := tb_table t; tb_bits := N.max (tb_bits t) bits; tb_count := tb_count t |}.
(** chunk_at, 246-252 *)
Definition chunk_at (t : tomb) (id : N) : option (list N) :=
  let c := N.shiftr id 16 in if N.leb kMaxChunks c then None else tb_table t c.
(** chunk_grow, 255-275 *)
Definition chunk_grow (t : tomb) (id : N) : res (list N * tomb) :=
  let c := N.shiftr id 16 in
  if N.leb kMaxChunks c then Throws
  else match tb_table t c with
       | Some ws => Ok (ws, t)
       | None => Ok (fresh_chunk, bump_capacity (table_put t c fresh_chunk) ((c + 1) * kChunkBits))
       end.
(** ensure_capacity, 278-286; the loop throws at the latest after kMaxChunks
    rounds. *)
Fixpoint grow_loop (fuel : nat) (t : tomb) (c bits : N) : res tomb :=
  match fuel with
  | O => Throws
  | S k => if N.ltb (c * kChunkBits) bits then let* (_, t') := chunk_grow t (c * kChunkBits) in grow_loop k t' (c + 1) bits else Ok t
  end.
Definition ensure_capacity (t : tomb) (bits : N) : res tomb :=
  if N.eqb bits 0 then Ok t
  else let* t' := grow_loop (N.to_nat (kMaxChunks + 2)) t 0 bits in
       Ok (bump_capacity t' ((bits + kChunkBits - 1) mod 2 ^ 64 / kChunkBits * kChunkBits)).
(** Constructor with a size 89-91, reset 100-105 *)
Definition tb_reset (t : tomb) (initial_bits : N) : res tomb := ensure_capacity tb_empty initial_bits.
Definition tb_new (initial_bits : N) : res tomb := ensure_capacity tb_empty initial_bits.

(** The word and the mask of an id inside its chunk, 112-114 *)
Definition word_in (id : N) : N := N.land (N.shiftr id 6) (kChunkWords - 1).
(** set, 110-118 *)
Definition tb_set (t : tomb) (id : N) : res tomb :=
  let* (ws, t') := chunk_grow t id in
  let* old := aget ws (word_in id) in
  let* ws' := or_word ws (word_in id) (mask_of id) in
  let t2 := table_put t' (N.shiftr id 16) ws' in
  Ok (if N.eqb (N.land old (mask_of id)) 0 then with_count t2 ((tb_count t2 + 1) mod 2 ^ 64) else t2).
(** clear, 122-133 *)
Definition tb_clear (t : tomb) (id : N) : res tomb :=
  match chunk_at t id with
  | None => Ok t
  | Some ws =>
      let* old := aget ws (word_in id) in
      let* ws' := andn_word ws (word_in id) (mask_of id) in
      let t2 := table_put t (N.shiftr id 16) ws' in
      Ok (if N.eqb (N.land old (mask_of id)) 0 then t2 else with_count t2 ((2 ^ 64 + tb_count t2 - 1) mod 2 ^ 64))
  end.
(** is_deleted, 137-144 *)
Definition tb_is_deleted (t : tomb) (id : N) : res bool :=
  match chunk_at t id with
  | None => Ok false
  | Some ws => let* w := aget ws (word_in id) in Ok (negb (N.eqb (N.land (N.shiftr w (N.land id 63)) 1) 0))
  end.

(** TombstoneSnapshot, 53-74, and snapshot_into, 154-165 *)
Record tomb_snap := { sn_words : list N; sn_bits : N }.
Definition sn_is_deleted (s : tomb_snap) (id : N) : res bool :=
  if N.leb (sn_bits s) id then Ok false
  else let* w := aget (sn_words s) (N.shiftr id 6) in Ok (negb (N.eqb (N.land (N.shiftr w (N.land id 63)) 1) 0)).
Fixpoint snap_words (n : nat) (t : tomb) (w : N) : res (list N) :=
  match n with
  | O => Ok []
  | S k => let* chunk := table_at t (w / kChunkWords) in
           let* x := match chunk with None => Ok 0 | Some ws => aget ws (N.land w (kChunkWords - 1)) end in
           let* rest := snap_words k t (w + 1) in Ok (x :: rest)
  end.
Definition snapshot (t : tomb) : res tomb_snap :=
  let n_words := tb_bits t / 64 in
  let* ws := snap_words (N.to_nat n_words) t 0 in Ok {| sn_words := ws; sn_bits := n_words * 64 |}.

(** A word array as bytes (little endian, 48-49) and back *)
Definition words_bytes (ws : list N) : bytes := flat_map (le_enc 8) ws.
Fixpoint bytes_words (n : nat) (b : bytes) : list N :=
  match n with O => [] | S k => le_dec (firstn 8 b) :: bytes_words k (skipn 8 b) end.
(** serialize, 169-184: the loop over the chunks *)
Fixpoint ser_chunks (n : nat) (t : tomb) (w n_words : N) : res bytes :=
  match n with
  | O => Ok []
  | S k => if N.ltb w n_words then
             let* chunk := table_at t (w / kChunkWords) in
             let span := N.min kChunkWords (n_words - w) in
             let* out := ser_chunks k t (w + kChunkWords) n_words in
             Ok (words_bytes (match chunk with None => repeat 0 (N.to_nat span) | Some ws => firstn (N.to_nat span) ws end) ++ out)
           else Ok []
  end.
Definition tb_serialize (t : tomb) : res bytes :=
  let n_words := tb_bits t / 64 in
  let* body := ser_chunks (N.to_nat ((n_words + kChunkWords - 1) / kChunkWords)) t 0 n_words in
  Ok (le_enc 8 kTombMagic ++ le_enc 8 n_words ++ body).

(** std::popcount of a 64-bit word *)
Definition popcount (w : N) : N := N.of_nat (length (filter (fun k => N.testbit w (N.of_nat k)) (seq 0 64))).
(** deserialize, 189-215: the loop over the chunks.  A null chunk is
    dereferenced (undefined behaviour).  Every round consumes input, so the
    length of the input is enough fuel. *)
Fixpoint deser_chunks (fuel : nat) (t : tomb) (w n_words recount : N) (inp : bytes) : res (tomb * N * bytes) :=
  match fuel with
  | O => Throws
  | S k => if N.ltb w n_words then
             let span := N.min kChunkWords (n_words - w) in
             match take_bytes (N.to_nat (span * 8)) inp with
             | None => Throws
             | Some (b, inp') =>
                 let buf := bytes_words (N.to_nat span) b in
                 let* chunk := table_at t (w / kChunkWords) in
                 match chunk with
                 | None => OutOfBounds
                 | Some ws => deser_chunks k (table_put t (w / kChunkWords) (buf ++ skipn (N.to_nat span) ws)) (w + kChunkWords) n_words
                                (recount + fold_right N.add 0 (map popcount buf)) inp'
                 end
             end
           else Ok (t, recount, inp)
  end.
Definition tb_deserialize (t0 : tomb) (inp : bytes) : res (tomb * bytes) :=
  match take_bytes 8 inp with
  | None => Throws
  | Some (m, inp1) =>
      match take_bytes 8 inp1 with
      | None => Throws
      | Some (n, inp2) =>
          if negb (N.eqb (le_dec m) kTombMagic) then Throws
          else
            let n_words := le_dec n in
            let* t1 := tb_reset t0 0 in
            let* t2 := ensure_capacity t1 (n_words * 64 mod 2 ^ 64) in
            let* (t3, recount, inp3) := deser_chunks (S (length inp2)) t2 0 n_words 0 inp2 in
            Ok (with_count t3 (recount mod 2 ^ 64), inp3)
      end
  end.

(** ** SlotAllocator *)
(** slot_allocator.hpp:40 *)
Definition kSlotMagic : N := 0x414C59534C4F5431.
(** The members, 141-144; the free list is a vector, its back is the end *)
Record slots := { sl_free : list N; sl_next : N; sl_tomb : tomb }.
(** Constructor 46-47, reset 51-55 *)
Definition sl_new (num_existing : N) : res slots :=
  let* t := tb_new num_existing in Ok {| sl_free := []; sl_next := num_existing; sl_tomb := t |}.
(** alloc, 59-69; next_fresh_id_ is a uint32_t and wraps *)
Definition sl_alloc (s : slots) : res (N * slots) :=
  let '(id, free, next) :=
    match sl_free s with
    | [] => (sl_next s, [], (sl_next s + 1) mod 2 ^ 32)
    | _ => (last (sl_free s) 0, removelast (sl_free s), sl_next s)
    end in
  let* t := tb_set (sl_tomb s) id in Ok (id, {| sl_free := free; sl_next := next; sl_tomb := t |}).
(** publish, 72 *)
Definition sl_publish (s : slots) (id : N) : res slots :=
  let* t := tb_clear (sl_tomb s) id in Ok {| sl_free := sl_free s; sl_next := sl_next s; sl_tomb := t |}.
(** free, 75-78 *)
Definition sl_free_slot (s : slots) (id : N) : res slots :=
  let* t := tb_set (sl_tomb s) id in Ok {| sl_free := sl_free s ++ [id]; sl_next := sl_next s; sl_tomb := t |}.
(** is_deleted, 80 *)
Definition sl_is_deleted (s : slots) (id : N) : res bool := tb_is_deleted (sl_tomb s) id.
(** save, 90-109 *)
Definition sl_save (s : slots) : res bytes :=
  let* body := tb_serialize (sl_tomb s) in
  Ok (le_enc 8 kSlotMagic ++ le_enc 8 (sl_next s) ++ le_enc 8 (N.of_nat (length (sl_free s)))
      ++ flat_map (le_enc 4) (sl_free s) ++ body).
(** load, 112-139.  A free list too large for memory makes assign throw. *)
Fixpoint bytes_u32s (n : nat) (b : bytes) : list N :=
  match n with O => [] | S k => le_dec (firstn 4 b) :: bytes_u32s k (skipn 4 b) end.
Definition sl_load (s0 : slots) (inp : bytes) : res slots :=
  match take_bytes 24 inp with
  | None => Throws
  | Some (h, inp1) =>
      if negb (N.eqb (le_dec (firstn 8 h)) kSlotMagic) then Throws
      else
        let next := le_dec (firstn 8 (skipn 8 h)) in
        let n_free := le_dec (skipn 16 h) in
        if N.ltb (N.of_nat (length inp1)) (n_free * 4) then Throws
        else
          let free := bytes_u32s (N.to_nat n_free) inp1 in
          let inp2 := skipn (N.to_nat (n_free * 4)) inp1 in
          if N.ltb (2 ^ 32 - 1) next then Throws
          else let* (t, _) := tb_deserialize (sl_tomb s0) inp2 in
               Ok {| sl_free := free; sl_next := next; sl_tomb := t |}
  end.
