(** What the search frontier should contain. *)
From Coq Require Export Permutation Sorting.Sorted.
From Verif Require Export NpqModel.

(** A candidate: id and distance, ordered by distance and then id. *)
Definition cand_lt (a b : N * Z) : Prop := (snd a < snd b)%Z \/ (snd a = snd b /\ (fst a < fst b)%N).

(** [l] lists, in increasing order, the [cap] smallest of the candidates
    [all], each once. *)
Definition smallest (cap : nat) (all l : list (N * Z)) : Prop :=
  StronglySorted cand_lt l /\ length l <= cap /\ incl l all
  /\ forall x, In x all -> In x l \/ (length l = cap /\ forall y, In y l -> cand_lt y x).

(** Every id comes with one distance. *)
Definition one_distance (all : list (N * Z)) : Prop :=
  forall x y, In x all -> In y all -> fst x = fst y -> snd x = snd y.

(** The operations of a search. *)
Inductive q_op := Insert (id : N) (d : Z) | Expand | Reset.
(** The candidates inserted since the last reset. *)
Fixpoint since_reset (acc : list (N * Z)) (ops : list q_op) : list (N * Z) :=
  match ops with
  | [] => acc
  | Insert id d :: ops' => since_reset (acc ++ [(id, d)]) ops'
  | Expand :: ops' => since_reset acc ops'
  | Reset :: ops' => since_reset [] ops'
  end.
(** All candidates ever inserted. *)
Definition candidates (ops : list q_op) : list (N * Z) :=
  flat_map (fun o => match o with Insert id d => [(id, d)] | _ => [] end) ops.
Definition q_step (q : npq) (o : q_op) : res npq :=
  match o with
  | Insert id d => let* r := npq_insert q {| n_id := id; n_dist := d; n_exp := false |} in Ok (snd r)
  | Expand => if has_unexpanded_node q then let* r := closest_unexpanded q in Ok (snd r) else Ok q
  | Reset => Ok (npq_clear q)
  end.
Fixpoint run_q (q : npq) (ops : list q_op) : res npq :=
  match ops with [] => Ok q | o :: ops' => let* q' := q_step q o in run_q q' ops' end.
(** The queue's entries and their candidates. *)
Definition q_entries (q : npq) : list nbr := firstn (q_size q) (q_data q).
Definition q_content (q : npq) : list (N * Z) := map (fun e => (n_id e, n_dist e)) (q_entries q).
