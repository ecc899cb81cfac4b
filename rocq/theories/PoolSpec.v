(** What a bounded pool of candidates is for. *)
From Coq Require Export Permutation Sorting.Sorted.
From Verif Require Export PoolModel.

(** A candidate as the user of a pool sees it: its id, its distance and
    whether it has been explored.  Bit 31 of the stored id is the mark. *)
Definition entry := ((N * Z) * bool)%type.
Definition e_dist (e : entry) : Z := snd (fst e).
Definition entry_of (c : cand) : entry := ((c_id c mod 2 ^ 31, c_dist c)%N, N.leb (2 ^ 31) (c_id c)).
(** The candidates in the pool, closest first. *)
Definition content (p : pool) : list entry := map entry_of (firstn (p_size p) (p_data p)).

(** What is done to a pool.  [Pop] on a pool with nothing left does nothing:
    the searches only pop when has_next holds. *)
Inductive pool_op := Ins (id : N) (d : Z) | Pop.
Definition inserted (ops : list pool_op) : list (N * Z) :=
  flat_map (fun o => match o with Ins id d => [(id, d)] | Pop => [] end) ops.
(** Ids leave room for the mark. *)
Definition op_ok (dmax : Z) (o : pool_op) : Prop :=
  match o with Ins id d => (id < 2 ^ 31)%N /\ (d <= dmax)%Z | Pop => True end.

Section Run.
  Variable insert : pool -> N -> Z -> res (bool * pool).
  Variable pop : pool -> res ((N * Z) * pool).
  Definition pool_step (p : pool) (o : pool_op) : res pool :=
    match o with
    | Ins id d => let* r := insert p id d in Ok (snd r)
    | Pop => if has_next p then let* r := pop p in Ok (snd r) else Ok p
    end.
  Fixpoint run_pool (p : pool) (ops : list pool_op) : res pool :=
    match ops with [] => Ok p | o :: ops' => let* p' := pool_step p o in run_pool p' ops' end.
End Run.

(** [l] holds the [cap] closest of the candidates [all]: it is made of some of
    them, and the others were left out because it is full of candidates at
    least as close. *)
Definition keeps_closest (cap : nat) (all l : list (N * Z)) : Prop :=
  length l <= cap /\
  exists rest, Permutation all (l ++ rest)
    /\ (rest <> [] -> length l = cap)
    /\ forall x y, In x l -> In y rest -> (snd x <= snd y)%Z.

(** C25: after the operations on the pool [p0], empty and of capacity [cap],
    the content is sorted and holds the closest candidates inserted. *)
Definition holds_closest_from insert pop (p0 : pool) (cap : nat) (ops : list pool_op) : Prop :=
  exists p, run_pool insert pop p0 ops = Ok p
    /\ StronglySorted (fun a b => (e_dist a <= e_dist b)%Z) (content p)
    /\ keeps_closest cap (inserted ops) (map fst (content p)).
Definition holds_closest insert pop (cap : nat) := holds_closest_from insert pop (pool_new cap) cap.

(** C25, refusals: an insertion either adds the candidate, unexplored, among
    the others (pushing out the last one if there is no room) or refuses it,
    and then the pool is full of candidates at least as close. *)
Definition refuses_only_far insert pop (cap : nat) (dmax : Z) (ops : list pool_op) : Prop :=
  exists p, run_pool insert pop (pool_new cap) ops = Ok p
    /\ forall id d, op_ok dmax (Ins id d) ->
       (exists p' before after pushed_out, insert p id d = Ok (true, p')
          /\ content p = before ++ after
          /\ before ++ ((id, d), false) :: after = content p' ++ pushed_out
          /\ (pushed_out = [] \/ length (content p) = cap /\ length pushed_out = 1))
       \/ (insert p id d = Ok (false, p) /\ length (content p) = cap
           /\ forall e, In e (content p) -> (e_dist e <= d)%Z).

(** C26: pop returns the closest candidate not yet explored and marks it, and
    nothing else changes; has_next fails only when all are explored. *)
Definition never_skips_from insert pop (p0 : pool) (ops : list pool_op) : Prop :=
  exists p, run_pool insert pop p0 ops = Ok p
    /\ (has_next p = false -> forall e, In e (content p) -> snd e = true)
    /\ (has_next p = true ->
        exists id d p' before after, pop p = Ok ((id, d), p')
          /\ content p = before ++ ((id, d), false) :: after
          /\ content p' = before ++ ((id, d), true) :: after
          /\ forall e, In e (content p) -> snd e = false -> (d <= e_dist e)%Z).
Definition never_skips insert pop (cap : nat) := never_skips_from insert pop (pool_new cap).
