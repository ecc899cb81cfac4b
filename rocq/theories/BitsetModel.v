(** Model of the bit sets and visited sets of include/utils/query_utils.hpp
    (58-277), include/index/graph/diskann/visited_bitset.hpp and
    include/utils/rabitq_utils/search_utils/hashset.hpp.  Memory allocation
    does not fail; positions are size_t or uint32_t values. *)
From Verif Require Export Arr.
Local Open Scope N_scope.

(** ** Words of 64 bits: pos >> 6 (also pos / 64), pos & 63 (also pos % 64) and
    1ULL << (pos & 63), query_utils.hpp:78, 87, 103 *)
Definition word_of (pos : N) : N := N.shiftr pos 6.
Definition mask_of (pos : N) : N := N.shiftl 1 (N.land pos 63).
(** data_[i] |= m; data_[i] &= ~m *)
Definition or_word (ws : list N) (i m : N) : res (list N) := let* w := aget ws i in aput ws i (N.lor w m).
Definition andn_word (ws : list N) (i m : N) : res (list N) := let* w := aget ws i in aput ws i (N.land w (N.lnot m 64)).
(** (data_[pos >> 6] >> (pos & 63)) & 1ULL, query_utils.hpp:87 *)
Definition test_word (ws : list N) (pos : N) : res bool :=
  let* w := aget ws (word_of pos) in Ok (negb (N.eqb (N.land (N.shiftr w (N.land pos 63)) 1) 0)).
(** data_.resize((num_bits + 63) / 64, 0) *)
Definition zero_words (num_bits : N) : list N := repeat 0 (N.to_nat ((num_bits + 63) / 64)).

(** ** DynamicBitset, query_utils.hpp:58-119 *)
Record dynamic_bitset := { db_data : list N; db_size : N }.
(** Constructor, 69-71 *)
Definition db_new (n : N) : dynamic_bitset := {| db_data := zero_words n; db_size := n |}.
Definition db_with (b : dynamic_bitset) (ws : list N) : dynamic_bitset := {| db_data := ws; db_size := db_size b |}.
(** set 78, get 86-88, reset 103, set_all 108, clear 113 *)
Definition db_set (b : dynamic_bitset) (pos : N) : res dynamic_bitset :=
  let* ws := or_word (db_data b) (word_of pos) (mask_of pos) in Ok (db_with b ws).
Definition db_get (b : dynamic_bitset) (pos : N) : res bool := test_word (db_data b) pos.
Definition db_reset (b : dynamic_bitset) (pos : N) : res dynamic_bitset :=
  let* ws := andn_word (db_data b) (pos / 64) (N.shiftl 1 (pos mod 64)) in Ok (db_with b ws).
Definition db_set_all (b : dynamic_bitset) : dynamic_bitset := db_with b (map (fun _ => N.lnot 0 64) (db_data b)).
Definition db_clear (b : dynamic_bitset) : dynamic_bitset := db_with b (map (fun _ => 0) (db_data b)).

(** ** EpochVisitedSet, query_utils.hpp:127-159; TagType has [w] bits *)
Record epoch_set := { es_tags : list N; es_epoch : N }.
(** Constructor 139; resize 141-144 *)
Definition es_new (n : N) : epoch_set := {| es_tags := repeat 0 (N.to_nat n); es_epoch := 1 |}.
(** clear 146-152 *)
Definition es_clear (w : N) (s : epoch_set) : epoch_set :=
  let e := (es_epoch s + 1) mod 2 ^ w in
  if N.eqb e 0 then {| es_tags := map (fun _ => 0) (es_tags s); es_epoch := 1 |}
  else {| es_tags := es_tags s; es_epoch := e |}.
(** get 154, set 156 *)
Definition es_get (s : epoch_set) (id : N) : res bool := let* t := aget (es_tags s) id in Ok (N.eqb t (es_epoch s)).
Definition es_set (s : epoch_set) (id : N) : res epoch_set :=
  let* ts := aput (es_tags s) id (es_epoch s) in Ok {| es_tags := ts; es_epoch := es_epoch s |}.

(** ** SparseBitset, query_utils.hpp:173-199: the unordered_set as a list
    without repetitions. *)
Definition sparse_bitset := list N.
Definition sb_get (b : sparse_bitset) (pos : N) : bool := existsb (N.eqb pos) b.
Definition sb_set (b : sparse_bitset) (pos : N) : sparse_bitset := if sb_get b pos then b else pos :: b.
Definition sb_reset (b : sparse_bitset) (pos : N) : sparse_bitset := filter (fun x => negb (N.eqb pos x)) b.

(** ** HierarchicalBitset, query_utils.hpp:213-277 *)
Definition kBitsPerBlock : N := 512.
Definition kSummaryBlockSize : N := 64.
Record hier_bitset := { hb_data : list N; hb_summary : list N }.
(** Constructor, 227-230 *)
Definition hb_new (n : N) : hier_bitset :=
  let data := zero_words n in
  {| hb_data := data; hb_summary := zero_words (N.of_nat (length data)) |}.
(** set, 237-242 *)
Definition hb_set (b : hier_bitset) (pos : N) : res hier_bitset :=
  let block := pos / kBitsPerBlock in
  let offset := pos mod kBitsPerBlock in
  let* d := or_word (hb_data b) (block * 8 + offset / 64) (N.shiftl 1 (offset mod 64)) in
  let* s := or_word (hb_summary b) (block / kSummaryBlockSize) (N.shiftl 1 (block mod kSummaryBlockSize)) in
  Ok {| hb_data := d; hb_summary := s |}.
(** get, 250-254 *)
Definition hb_get (b : hier_bitset) (pos : N) : res bool :=
  let block := pos / kBitsPerBlock in
  let offset := pos mod kBitsPerBlock in
  let* w := aget (hb_data b) (block * 8 + offset / 64) in
  Ok (negb (N.eqb (N.land w (N.shiftl 1 (offset mod 64))) 0)).
(** count_trailing_zeros, 28-44, of a non-zero 64-bit word: the loop of the
    portable version *)
Fixpoint ctz_loop (fuel : nat) (x : N) : N :=
  match fuel with
  | O => 0
  | S k => if N.eqb (N.land x 1) 0 then 1 + ctz_loop k (N.shiftr x 1) else 0
  end.
Definition count_trailing_zeros (x : N) : N := ctz_loop 64 x.
(** The inner loop of find_first_set, 267-273, from [j]; [None]: none found *)
Fixpoint hb_inner (b : hier_bitset) (block j : N) (k : nat) : res (option N) :=
  match k with
  | O => Ok None
  | S k' =>
      let* w := aget (hb_data b) (block * 8 + j) in
      if N.eqb w 0 then hb_inner b block (j + 1) k'
      else Ok (Some (block * kBitsPerBlock + j * 64 + count_trailing_zeros w))
  end.
(** The outer loop, 262-275; [None] is -1.  The result is an int: exact for
    positions below 2^31. *)
Fixpoint hb_outer (b : hier_bitset) (i : N) (k : nat) : res (option N) :=
  match k with
  | O => Ok None
  | S k' =>
      let* s := aget (hb_summary b) i in
      if N.eqb s 0 then hb_outer b (i + 1) k'
      else
        let* r := hb_inner b (i * kSummaryBlockSize + count_trailing_zeros s) 0 8 in
        match r with Some p => Ok (Some p) | None => hb_outer b (i + 1) k' end
  end.
Definition find_first_set (b : hier_bitset) : res (option N) := hb_outer b 0 (length (hb_summary b)).

(** ** VisitedBitset, visited_bitset.hpp:13-80 *)
Record visited_bitset := { vb_bits : N; vb_words : list N; vb_dirty : list N }.
(** resize, 15-19 *)
Definition vb_resize (n : N) : visited_bitset :=
  {| vb_bits := n; vb_words := repeat 0 (N.to_nat (N.shiftr (n + 63) 6)); vb_dirty := [] |}.
(** The loop of clear, 21-26 *)
Fixpoint zero_dirty (ws : list N) (dirty : list N) : res (list N) :=
  match dirty with [] => Ok ws | w :: d => let* ws' := aput ws w 0 in zero_dirty ws' d end.
Definition vb_clear (b : visited_bitset) : res visited_bitset :=
  let* ws := zero_dirty (vb_words b) (vb_dirty b) in
  Ok {| vb_bits := vb_bits b; vb_words := ws; vb_dirty := [] |}.
(** ensure_in_range, 68-72; test, 28-32 *)
Definition vb_test (b : visited_bitset) (id : N) : res bool :=
  if N.leb (vb_bits b) id then Throws
  else let* w := aget (vb_words b) (word_of id) in Ok (negb (N.eqb (N.land w (mask_of id)) 0)).
(** set, 34-41; the new word is recorded when it was zero *)
Definition vb_mark (b : visited_bitset) (id : N) : res (N * visited_bitset) :=
  if N.leb (vb_bits b) id then Throws
  else
    let* w := aget (vb_words b) (word_of id) in
    let* ws := aput (vb_words b) (word_of id) (N.lor w (mask_of id)) in
    Ok (w, {| vb_bits := vb_bits b; vb_words := ws;
              vb_dirty := if N.eqb w 0 then vb_dirty b ++ [word_of id] else vb_dirty b |}).
Definition vb_set (b : visited_bitset) (id : N) : res visited_bitset :=
  let* (_, b') := vb_mark b id in Ok b'.
(** test_and_set, 43-53 *)
Definition vb_test_and_set (b : visited_bitset) (id : N) : res (bool * visited_bitset) :=
  let* (w, b') := vb_mark b id in
  Ok (negb (negb (N.eqb (N.land w (mask_of id)) 0)), b').

(** ** HashBasedBooleanSet, hashset.hpp:35-118 *)
Definition kEmptyHashId : N := 0xFFFFFFFF.
Record hash_set := { hs_mask : N; hs_table : list N; hs_stl : list N }.
(** initialize, 80-91: table_size is cast to 32 bits after subtracting one *)
Definition hs_init (table_size : N) : hash_set :=
  {| hs_mask := (table_size + 2 ^ 64 - 1) mod 2 ^ 32;
     hs_table := repeat kEmptyHashId (N.to_nat table_size); hs_stl := [] |}.
(** The constructor's table size, 69-78 *)
Definition bucket_size (size : N) : N := N.shiftl 1 ((N.size size + 4) / 2 + 3).
(** clear, 93-96 *)
Definition hs_clear (s : hash_set) : hash_set :=
  {| hs_mask := hs_mask s; hs_table := map (fun _ => kEmptyHashId) (hs_table s); hs_stl := [] |}.
(** hash1 44, get 99-105 *)
Definition hs_get (s : hash_set) (id : N) : res bool :=
  let* val := aget (hs_table s) (N.land id (hs_mask s)) in
  if N.eqb val id then Ok true
  else Ok (negb (N.eqb val kEmptyHashId) && existsb (N.eqb id) (hs_stl s)).
(** set, 107-117 *)
Definition hs_set (s : hash_set) (id : N) : res hash_set :=
  let* val := aget (hs_table s) (N.land id (hs_mask s)) in
  if N.eqb val id then Ok s
  else if N.eqb val kEmptyHashId then
    let* t := aput (hs_table s) (N.land id (hs_mask s)) id in
    Ok {| hs_mask := hs_mask s; hs_table := t; hs_stl := hs_stl s |}
  else Ok {| hs_mask := hs_mask s; hs_table := hs_table s;
             hs_stl := if existsb (N.eqb id) (hs_stl s) then hs_stl s else id :: hs_stl s |}.
