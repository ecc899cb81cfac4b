(** Bounded candidate pools of the in-memory graph searches.

    A distance is represented by an integer that orders like it.  For a float
    that is not NaN this is [float_key] of its bit pattern: the pools only
    compare distances, and comparing two such floats is comparing their keys
    (both zeros have key 0).  Sizes and indices are natural numbers: the
    capacity is an int (query_utils.hpp:281), so no sum wraps. *)
From Verif Require Export Arr.

(** Order of the non-NaN floats, from the 32-bit pattern. *)
Definition float_key (bits : N) : Z :=
  if N.ltb bits (2 ^ 31) then Z.of_N bits else (- Z.of_N (bits - 2 ^ 31))%Z.
(** std::numeric_limits<float>::max() has pattern 0x7F7FFFFF, infinity the
    next one. *)
Definition float_max : Z := 2139095039.
Definition float_inf : Z := 2139095040.

(** One entry: Neighbor (index/neighbor.hpp:20-27, without its unused flag) or
    ANNCand (buffer.hpp:40-46).  Bit 31 of the stored id is the mark. *)
Record cand := { c_id : N; c_dist : Z }.
Definition zero_cand : cand := {| c_id := 0; c_dist := 0 |}.

(** The members size_, cur_, capacity_, data_, query_utils.hpp:356-357;
    buffer.hpp:49-50.  The visited bitmap of LinearPool is a separate
    DynamicBitset. *)
Record pool := { p_size : nat; p_cur : nat; p_cap : nat; p_data : list cand }.

(** Constructors, query_utils.hpp:282, buffer.hpp:78: capacity + 1 entries *)
Definition pool_new (cap : nat) : pool :=
  {| p_size := 0; p_cur := 0; p_cap := cap; p_data := repeat zero_cand (cap + 1) |}.

(** data_[i] *)
Definition get {A} (l : list A) (i : nat) : res A :=
  match nth_error l i with Some x => Ok x | None => OutOfBounds end.
(** data_[i] = x *)
Definition put {A} (l : list A) (i : nat) (x : A) : res (list A) :=
  if Nat.ltb i (length l) then Ok (upd l i x) else OutOfBounds.
(** std::memmove(&data_[lo + 1], &data_[lo], cnt * sizeof) *)
Definition memmove_up {A} (l : list A) (lo cnt : nat) : res (list A) :=
  if Nat.eqb cnt 0 then Ok l
  else if Nat.leb (lo + 1 + cnt) (length l)
  then Ok (firstn (lo + 1) l ++ firstn cnt (skipn lo l) ++ skipn (lo + 1 + cnt) l)
  else OutOfBounds.

(** set_checked, is_checked, get_id, query_utils.hpp:349-353; buffer.hpp:64-68 *)
Definition set_checked (id : N) : N := N.lor id (2 ^ 31).
Definition is_checked (id : N) : bool := negb (N.eqb (N.land (N.shiftr id 31) 1) 0).
Definition get_id (id : N) : N := N.land id 2147483647.

(** ** LinearPool, query_utils.hpp:280-358 *)

(** find_bsearch, 284-296; the fuel is the length of the interval. *)
Fixpoint bsearch_loop (fuel : nat) (data : list cand) (l r : nat) (dist : Z) : res nat :=
  match fuel with
  | O => Ok l
  | S k => if Nat.ltb l r then
             let mid := Nat.div (l + r) 2 in
             let* c := get data mid in
             if Z.ltb dist (c_dist c) then bsearch_loop k data l mid dist
             else bsearch_loop k data (mid + 1) r dist
           else Ok l
  end.
Definition find_bsearch (p : pool) (dist : Z) : res nat :=
  bsearch_loop (p_size p) (p_data p) 0 (p_size p) dist.

(** The common tail of both insertions: shift, store, grow, move the cursor
    back.  query_utils.hpp:303-310, buffer.hpp:90-93 *)
Definition insert_at (p : pool) (lo : nat) (id : N) (dist : Z) : res pool :=
  let* moved := memmove_up (p_data p) lo (p_size p - lo) in
  let* data := put moved lo {| c_id := id; c_dist := dist |} in
  Ok {| p_size := if Nat.ltb (p_size p) (p_cap p) then p_size p + 1 else p_size p;
        p_cur := if Nat.ltb lo (p_cur p) then lo else p_cur p;
        p_cap := p_cap p; p_data := data |}.

(** LinearPool::insert, 298-316.  With capacity 0 data_[size_ - 1] is an
    access outside the vector. *)
Definition lp_insert (p : pool) (id : N) (dist : Z) : res (bool * pool) :=
  let* refuse :=
    if Nat.eqb (p_size p) (p_cap p) then
      match p_size p with
      | O => OutOfBounds
      | S n => let* c := get (p_data p) n in Ok (Z.leb (c_dist c) dist)
      end
    else Ok false in
  if (refuse : bool) then Ok (false, p)
  else let* lo := find_bsearch p dist in
       let* p' := insert_at p lo id dist in Ok (true, p').

(** The loop of pop, 331-333, buffer.hpp:102-104; the fuel is the number of
    remaining entries. *)
Fixpoint advance (fuel : nat) (data : list cand) (cur size : nat) : res nat :=
  match fuel with
  | O => Ok cur
  | S k => if Nat.ltb cur size then
             let* c := get data cur in
             if is_checked (c_id c) then advance k data (cur + 1) size else Ok cur
           else Ok cur
  end.
(** LinearPool::pop, 328-336: the masked id and the distance *)
Definition lp_pop (p : pool) : res ((N * Z) * pool) :=
  let* c := get (p_data p) (p_cur p) in
  let* data := put (p_data p) (p_cur p) {| c_id := set_checked (c_id c); c_dist := c_dist c |} in
  let* cur := advance (p_size p - p_cur p) data (p_cur p) (p_size p) in
  let* e := get data (p_cur p) in
  Ok ((get_id (c_id e), c_dist e), {| p_size := p_size p; p_cur := cur; p_cap := p_cap p; p_data := data |}).
(** has_next, 343, buffer.hpp:117 *)
Definition has_next (p : pool) : bool := Nat.ltb (p_cur p) (p_size p).
(** id(i) and dist(i), 345-346 *)
Definition lp_id (p : pool) (i : nat) : res N := let* c := get (p_data p) i in Ok (get_id (c_id c)).
Definition lp_dist (p : pool) (i : nat) : res Z := let* c := get (p_data p) i in Ok (c_dist c).

(** ** SearchBuffer<float>, utils/rabitq_utils/search_utils/buffer.hpp:36-151 *)

(** The loop of binary_search, 56-60; the fuel is the length. *)
Fixpoint half_loop (fuel : nat) (data : list cand) (lo len : nat) (dist : Z) : res nat :=
  match fuel with
  | O => Ok lo
  | S k => if Nat.ltb 1 len then
             let half := Nat.div len 2 in
             let* c := get data (lo + half - 1) in
             half_loop k data (if Z.ltb (c_dist c) dist then lo + half else lo) (len - half) dist
           else Ok lo
  end.
(** binary_search, 52-62 *)
Definition binary_search (p : pool) (dist : Z) : res nat :=
  let* lo := half_loop (p_size p) (p_data p) 0 (p_size p) dist in
  if Nat.ltb lo (p_size p) then
    let* c := get (p_data p) lo in Ok (if Z.ltb (c_dist c) dist then lo + 1 else lo)
  else Ok lo.
(** top_dist, 136-141 *)
Definition top_dist (p : pool) : res Z :=
  if Nat.eqb (p_size p) 0 || Nat.eqb (p_cap p) 0 then Ok float_max
  else if Nat.eqb (p_size p) (p_cap p) then let* c := get (p_data p) (p_size p - 1) in Ok (c_dist c)
  else Ok float_max.
(** insert, 81-95 (with is_full(dist), 146) *)
Definition sb_insert (p : pool) (id : N) (dist : Z) : res (bool * pool) :=
  if Nat.eqb (p_cap p) 0 then Ok (false, p)
  else let* top := top_dist p in
       if Z.ltb top dist then Ok (false, p)
       else let* lo := binary_search p dist in
            let* p' := insert_at p lo id dist in Ok (true, p').
(** pop, 98-106: the id as stored before it is marked *)
Definition sb_pop (p : pool) : res ((N * Z) * pool) :=
  let* c := get (p_data p) (p_cur p) in
  let* data := put (p_data p) (p_cur p) {| c_id := set_checked (c_id c); c_dist := c_dist c |} in
  let* cur := advance (p_size p - (p_cur p + 1)) data (p_cur p + 1) (p_size p) in
  Ok ((c_id c, c_dist c), {| p_size := p_size p; p_cur := cur; p_cap := p_cap p; p_data := data |}).
(** clear, 108-111 *)
Definition sb_clear (p : pool) : pool :=
  {| p_size := 0; p_cur := 0; p_cap := p_cap p; p_data := p_data p |}.

(** ** laser::buffer::SearchBuffer, index/graph/laser/utils/buffer.hpp:33-99:
    the same search, pop and cursor; insert (62-68) does not check for a full
    buffer, is_full (70-72) is for the caller. *)
Definition laser_insert (p : pool) (id : N) (dist : Z) : res (bool * pool) :=
  let* lo := binary_search p dist in
  let* p' := insert_at p lo id dist in Ok (true, p').
Definition laser_is_full (p : pool) (dist : Z) : res bool :=
  if Nat.eqb (p_size p) (p_cap p) then
    match p_size p with
    | O => OutOfBounds
    | S n => let* c := get (p_data p) n in Ok (Z.ltb (c_dist c) dist)
    end
  else Ok false.
