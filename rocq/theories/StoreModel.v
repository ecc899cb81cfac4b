(** SequentialStorage, include/storage/sequential_storage.hpp:17-130, and the
    counters of RawSpace, include/space/raw_space.hpp, and SQ8Space,
    include/space/sq8_space.hpp.  Memory is a list of bytes and an access
    outside it is [OutOfBounds]; allocation and stream writes do not fail.  The
    scalar data of a space is not part of this model (see StorageModel). *)
From Verif Require Export Arr.
Local Open Scope N_scope.

(** math::round_up_pow2, include/utils/math.hpp:151-156 *)
Definition round_up_pow2 (x alignment : N) : N := N.ldiff ((x + alignment - 1) mod 2 ^ 64) (alignment - 1).

(** memcpy of [n] bytes from and to an offset of an allocation *)
Definition read_at (m : bytes) (off n : N) : res bytes :=
  if N.leb (off + n) (N.of_nat (length m)) then Ok (firstn (N.to_nat n) (skipn (N.to_nat off) m)) else OutOfBounds.
Definition write_at (m : bytes) (off : N) (b : bytes) : res bytes :=
  if N.leb (off + N.of_nat (length b)) (N.of_nat (length m))
  then Ok (firstn (N.to_nat off) m ++ b ++ skipn (N.to_nat off + length b) m) else OutOfBounds.

(** The members, 23-29 *)
Record store := { st_isz : N; st_asz : N; st_cap : N; st_pos : N; st_align : N; st_data : bytes; st_bitmap : bytes }.
(** init, 40-55 *)
Definition st_init (item_size capacity fill alignment : N) : store :=
  let asz := round_up_pow2 item_size alignment in
  {| st_isz := item_size; st_asz := asz; st_cap := capacity; st_pos := 0; st_align := alignment;
     st_data := repeat fill (N.to_nat (asz * capacity));
     st_bitmap := repeat 0 (N.to_nat (round_up_pow2 ((capacity + 8 - 1) / 8) alignment)) |}.
(** operator[], 57-60: the offset of a slot; item_size_ bytes read through it *)
Definition slot_off (s : store) (id : N) : N := id * st_asz s mod 2 ^ 64.
Definition st_get (s : store) (id : N) : res bytes := read_at (st_data s) (slot_off s id) (st_isz s).
(** is_valid, 62-64 *)
Definition st_valid (s : store) (id : N) : res bool :=
  let* b := aget (st_bitmap s) (id / 8) in Ok (negb (N.eqb (N.land b (N.shiftl 1 (id mod 8))) 0)).
Definition with_data (s : store) (d : bytes) : store :=
  {| st_isz := st_isz s; st_asz := st_asz s; st_cap := st_cap s; st_pos := st_pos s; st_align := st_align s; st_data := d; st_bitmap := st_bitmap s |}.
Definition with_bitmap (s : store) (b : bytes) : store :=
  {| st_isz := st_isz s; st_asz := st_asz s; st_cap := st_cap s; st_pos := st_pos s; st_align := st_align s; st_data := st_data s; st_bitmap := b |}.
Definition with_pos (s : store) (p : N) : store :=
  {| st_isz := st_isz s; st_asz := st_asz s; st_cap := st_cap s; st_pos := p; st_align := st_align s; st_data := st_data s; st_bitmap := st_bitmap s |}.
(** The value -1 of an id type of [w] bits *)
Definition no_id (w : N) : N := 2 ^ w - 1.
(** bitmap_[p / 8] |= 1 << (p % 8) and bitmap_[p / 8] &= ~(1 << (p % 8)) *)
Definition set_bit (s : store) (p : N) : res store :=
  let* b := aget (st_bitmap s) (p / 8) in
  let* bm := aput (st_bitmap s) (p / 8) (N.lor b (N.shiftl 1 (p mod 8))) in Ok (with_bitmap s bm).
Definition clear_bit (s : store) (p : N) : res store :=
  let* b := aget (st_bitmap s) (p / 8) in
  let* bm := aput (st_bitmap s) (p / 8) (N.ldiff b (N.shiftl 1 (p mod 8))) in Ok (with_bitmap s bm).
(** insert, 66-73; [d] is the item_size_ bytes at the argument.  pos_ is a
    size_t and is returned as an id of [w] bits. *)
Definition st_insert (w : N) (s : store) (d : bytes) : res (N * store) :=
  if N.leb (st_cap s) (st_pos s) then Ok (no_id w, s)
  else let* m := write_at (st_data s) (slot_off s (st_pos s mod 2 ^ w)) d in
       let* s' := set_bit (with_data s m) (st_pos s) in
       Ok (st_pos s mod 2 ^ w, with_pos s' (st_pos s + 1)).
(** reserve, 75-81 *)
Definition st_reserve (w : N) (s : store) : res (N * store) :=
  if N.leb (st_cap s) (st_pos s) then Ok (no_id w, s)
  else let* s' := set_bit s (st_pos s) in Ok (st_pos s mod 2 ^ w, with_pos s' (st_pos s + 1)).
(** remove, 83-89 *)
Definition st_remove (w : N) (s : store) (id : N) : res (N * store) :=
  let* v := st_valid s id in
  if negb v then Ok (no_id w, s) else let* s' := clear_bit s id in Ok (id, s').
(** update, 91-97 *)
Definition st_update (w : N) (s : store) (id : N) (d : bytes) : res (N * store) :=
  let* v := st_valid s id in
  if negb v then Ok (no_id w, s) else let* m := write_at (st_data s) (slot_off s id) d in Ok (id, with_data s m).

(** save, 99-108 *)
Definition st_save (s : store) : bytes :=
  le_enc 8 (st_isz s) ++ le_enc 8 (st_asz s) ++ le_enc 8 (st_cap s) ++ le_enc 8 (st_pos s) ++ le_enc 8 (st_align s)
  ++ st_data s ++ firstn (N.to_nat ((st_cap s + 8 - 1) / 8)) (st_bitmap s).
(** load, 110-129.  [junk] is what the freshly allocated bitmap contains: only
    its first bytes are read from the file.  A file that is too short leaves
    members unset; here that is [Throws] (not modelled further). *)
Definition take_u64 (inp : bytes) : res (N * bytes) :=
  match take_bytes 8 inp with Some (b, r) => Ok (le_dec b, r) | None => Throws end.
Definition take_n (n : N) (inp : bytes) : res (bytes * bytes) :=
  match take_bytes (N.to_nat n) inp with Some (b, r) => Ok (b, r) | None => Throws end.
Definition st_load (junk : list N) (inp : bytes) : res (store * bytes) :=
  let* (isz, r) := take_u64 inp in
  let* (asz, r) := take_u64 r in
  let* (cap, r) := take_u64 r in
  let* (pos, r) := take_u64 r in
  let* (align, r) := take_u64 r in
  let* (data, r) := take_n (asz * cap mod 2 ^ 64) r in
  let bitmap_size := round_up_pow2 ((cap + 8 - 1) / 8) align in
  let* (bm, r) := take_n ((cap + 8 - 1) / 8) r in
  if N.ltb bitmap_size (N.of_nat (length bm)) then OutOfBounds
  else Ok ({| st_isz := isz; st_asz := asz; st_cap := cap; st_pos := pos; st_align := align; st_data := data;
              st_bitmap := bm ++ firstn (N.to_nat bitmap_size - length bm) junk |}, r).

(** ** The counters of a space: raw_space.hpp:63-65 *)
Record space := { sp_store : store; sp_items : N; sp_deleted : N }.
(** RawSpace::insert, 163-174 *)
Definition raw_insert (w : N) (sp : space) (d : bytes) : res (N * space) :=
  let* (id, s) := st_insert w (sp_store sp) d in
  Ok (id, {| sp_store := s; sp_items := (sp_items sp + 1) mod 2 ^ w; sp_deleted := sp_deleted sp |}).
(** RawSpace::remove, 181-189; SQ8Space::remove, sq8_space.hpp:309-320, is the same *)
Definition sp_remove (w : N) (sp : space) (id : N) : res (N * space) :=
  let* (r, s) := st_remove w (sp_store sp) id in
  Ok (r, {| sp_store := s; sp_items := sp_items sp; sp_deleted := (sp_deleted sp + 1) mod 2 ^ w |}).
(** SQ8Space::insert, sq8_space.hpp:279-301; [d] is the encoded vector *)
Definition sq8_insert (w : N) (sp : space) (d : bytes) : res (N * space) :=
  let* (id, s) := st_reserve w (sp_store sp) in
  if N.eqb id (no_id w) then Ok (no_id w, {| sp_store := s; sp_items := sp_items sp; sp_deleted := sp_deleted sp |})
  else let* m := write_at (st_data s) (slot_off s id) d in
       Ok (id, {| sp_store := with_data s m; sp_items := (sp_items sp + 1) mod 2 ^ w; sp_deleted := sp_deleted sp |}).
(** get_data_num 225, get_avl_data_num 231: IDType arithmetic *)
Definition sp_available (w : N) (sp : space) : N := (2 ^ w + sp_items sp - sp_deleted sp) mod 2 ^ w.
(** Constructor, raw_space.hpp:79-98 (item_cnt_ and delete_cnt_ start at 0,
    init's fill and alignment are the defaults) *)
Definition sp_new (item_size capacity : N) : space := {| sp_store := st_init item_size capacity 0 64; sp_items := 0; sp_deleted := 0 |}.
