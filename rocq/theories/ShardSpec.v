(** What shards should hold. *)
From Coq Require Export Permutation Sorting.Sorted.
From Verif Require Export ShardModel GraphFileSpec.
Import ListNotations.

(** A data file: number of vectors, dimension, vectors of [4 * dim] bytes. *)
Definition fbin (dim : N) (vecs : list bytes) : bytes :=
  le_enc 4 (N.of_nat (length vecs)) ++ le_enc 4 dim ++ concat vecs.
Record vectors (dim : N) (vecs : list bytes) : Prop := {
  v_dim : (0 < dim < 2 ^ 32)%N;
  v_some : vecs <> [];
  v_count : (N.of_nat (length vecs) < 2 ^ 32)%N;
  v_size : forall v, In v vecs -> length v = 4 * N.to_nat dim;
}.
(** An idmap file: number of ids, 1, ids. *)
Definition idfile (ids : list nat) : bytes :=
  le_enc 4 (N.of_nat (length ids)) ++ le_enc 4 1 ++ flat_map (fun g => le_enc 4 (N.of_nat g)) ids.

(** ** The nearest centres *)

(** All distances are numbers, and at least [k] of them are below FLT_MAX. *)
Definition measured (k : nat) (row : list fl) : Prop :=
  (forall d, In d row -> d <> None)
  /\ exists cs, NoDup cs /\ length cs = k /\ forall c, In c cs -> exists x, nth_error row c = Some (Some x) /\ (x < flt_max)%Z.
(** Centre [a] goes before centre [b]: it is nearer, or as near and has the
    smaller number. *)
Definition before (row : list fl) (a b : nat) : Prop :=
  exists x y, nth_error row a = Some (Some x) /\ nth_error row b = Some (Some y) /\ ((x < y)%Z \/ x = y /\ a < b).
(** The [k] nearest centres, in order. *)
Record nearest_k (k : nat) (row : list fl) (ids : list nat) : Prop := {
  nk_length : length ids = k;
  nk_sorted : StronglySorted (before row) ids;
  nk_in : forall c, In c ids -> c < length row;
  nk_best : forall c i, c < length row -> ~ In c ids -> In i ids -> before row i c;
}.

(** ** The shards.  [near g] are the shards of vector [g]. *)
Definition members (near : nat -> list nat) (n s : nat) : list nat :=
  filter (fun g => existsb (Nat.eqb s) (near g)) (seq 0 n).
(** Shard [s] holds the vectors it should, in the order of their numbers. *)
Record holds_shard (dim : N) (vecs : list bytes) (ids : list nat) (f : shard_files) : Prop := {
  hs_data : f_data f = fbin dim (map (fun g => nth g vecs []) ids);
  hs_ids : f_ids f = idfile ids;
  hs_count : f_count f = N.of_nat (length ids);
}.

(** A graph on [n] nodes, as a shard's builder returns it. *)
Record graph_on (n : nat) (rows : list (list N)) (medoid : N) : Prop := {
  go_rows : length rows = n;
  go_medoid : (medoid < N.of_nat n)%N;
  go_row : forall adj, In adj rows -> (N.of_nat (length adj) < 2 ^ 32)%N /\ forall l, In l adj -> (l < N.of_nat n)%N;
}.

(** The estimated sizes of all [p] shards are within the budget. *)
Definition fits (rams : nat -> list fl) (budget : Z) (p : nat) : Prop := forall x, In (Some x) (rams p) -> (x <= budget)%Z.
(** The numbers of parts that are tried. *)
Definition tried (num_train max_parts p : nat) : Prop := Nat.Odd p /\ 3 <= p <= max_parts /\ p <= num_train.
