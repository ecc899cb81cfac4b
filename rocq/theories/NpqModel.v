(** NeighborPriorityQueue, include/index/graph/vamana/robust_prune.hpp:20-123.
    Distances are integers that order like the floats (see PoolModel; NaN is
    excluded); sizes are natural numbers (size_t, no sum wraps). *)
From Verif Require Export PoolModel.

(** Neighbor, 20-26 *)
Record nbr := { n_id : N; n_dist : Z; n_exp : bool }.
(** operator<, 28-30 *)
Definition nbr_lt (a b : nbr) : bool :=
  Z.ltb (n_dist a) (n_dist b) || (Z.eqb (n_dist a) (n_dist b) && N.ltb (n_id a) (n_id b)).

(** The members, 118-121 *)
Record npq := { q_size : nat; q_cap : nat; q_cur : nat; q_data : list nbr }.
(** Constructor, 47: capacity + 1 default entries *)
Definition npq_new (cap : nat) : npq :=
  {| q_size := 0; q_cap := cap; q_cur := 0;
     q_data := repeat {| n_id := 0; n_dist := 0; n_exp := false |} (cap + 1) |}.

(** reserve, 49-54: the array only grows *)
Definition npq_reserve (q : npq) (cap : nat) : npq :=
  {| q_size := q_size q; q_cap := cap; q_cur := q_cur q;
     q_data := q_data q ++ repeat {| n_id := 0; n_dist := 0; n_exp := false |} (cap + 1 - length (q_data q)) |}.

(** The search loop, 66-77; [None]: an entry with the same id was met.  The
    fuel is the length of the interval. *)
Fixpoint npq_search (fuel : nat) (data : list nbr) (lo hi : nat) (x : nbr) : res (option nat) :=
  match fuel with
  | O => Ok (Some lo)
  | S k => if Nat.ltb lo hi then
             let mid := Nat.div (lo + hi) 2 in
             let* c := get data mid in
             if nbr_lt x c then npq_search k data lo mid x
             else if N.eqb (n_id c) (n_id x) then Ok None
             else npq_search k data (mid + 1) hi x
           else Ok (Some lo)
  end.
(** NeighborQueueInsertResult, 34-38: inserted, and the evicted id *)
Record insert_result := { r_inserted : bool; r_evicted : option N }.
Definition not_inserted : insert_result := {| r_inserted := false; r_evicted := None |}.
(** insert_with_result, 58-94 *)
Definition npq_insert (q : npq) (x : nbr) : res (insert_result * npq) :=
  if Nat.eqb (q_cap q) 0 then Ok (not_inserted, q)
  else
    let full := Nat.eqb (q_size q) (q_cap q) in
    let* refuse := if full then let* c := get (q_data q) (q_size q - 1) in Ok (nbr_lt c x) else Ok false in
    if (refuse : bool) then Ok (not_inserted, q)
    else
      let* r := npq_search (q_size q) (q_data q) 0 (q_size q) x in
      match r with
      | None => Ok (not_inserted, q)
      | Some lo =>
          let* evicted := if full then let* c := get (q_data q) (q_cap q - 1) in Ok (Some (n_id c)) else Ok None in
          let* moved := if Nat.ltb lo (q_cap q) then memmove_up (q_data q) lo (q_size q - lo) else Ok (q_data q) in
          let* data := put moved lo {| n_id := n_id x; n_dist := n_dist x; n_exp := false |} in
          Ok ({| r_inserted := true; r_evicted := evicted |},
              {| q_size := if Nat.ltb (q_size q) (q_cap q) then q_size q + 1 else q_size q;
                 q_cap := q_cap q;
                 q_cur := if Nat.ltb lo (q_cur q) then lo else q_cur q; q_data := data |})
      end.

(** The loop of closest_unexpanded, 99-101 *)
Fixpoint npq_advance (fuel : nat) (data : list nbr) (cur size : nat) : res nat :=
  match fuel with
  | O => Ok cur
  | S k => if Nat.ltb cur size then
             let* c := get data cur in
             if n_exp c then npq_advance k data (cur + 1) size else Ok cur
           else Ok cur
  end.
(** closest_unexpanded, 96-103 *)
Definition closest_unexpanded (q : npq) : res (nbr * npq) :=
  let* c := get (q_data q) (q_cur q) in
  let* data := put (q_data q) (q_cur q) {| n_id := n_id c; n_dist := n_dist c; n_exp := true |} in
  let* cur := npq_advance (q_size q - q_cur q) data (q_cur q) (q_size q) in
  let* e := get data (q_cur q) in
  Ok (e, {| q_size := q_size q; q_cap := q_cap q; q_cur := cur; q_data := data |}).
(** has_unexpanded_node, 105 *)
Definition has_unexpanded_node (q : npq) : bool := Nat.ltb (q_cur q) (q_size q).
(** clear, 113-116 *)
Definition npq_clear (q : npq) : npq :=
  {| q_size := 0; q_cap := q_cap q; q_cur := 0; q_data := q_data q |}.
