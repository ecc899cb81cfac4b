(** What the caller of a filtered search should find in its array. *)
From Verif Require Export ResultIdsModel.

(** The caller's array: [k] entries of [w] bytes, with arbitrary contents *)
Definition array (w k : nat) (mem : bytes) : Prop := length mem = w * k /\ Forall is_byte mem.

(** Entry [i] of the array is the number [v] *)
Definition holds (w : nat) (mem : bytes) (i : nat) (v : N) : Prop :=
  firstn w (skipn (w * i) mem) = le_enc w v /\ (v <= id_max w)%N.

(** The first entries are the nearest ids of the pool, the others the largest id *)
Definition delivered (w k : nat) (pool : list N) (mem : bytes) : Prop :=
  length mem = w * k /\
  (forall i v, i < k -> nth_error pool i = Some v -> holds w mem i v) /\
  (forall i, i < k -> length pool <= i -> holds w mem i (id_max w)).

(** Ids a 32-bit pool can hold for rows that exist *)
Definition row_ids (pool : list N) : Prop := Forall (fun v => (v < 4294967295)%N) pool.
