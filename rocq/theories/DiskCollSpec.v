(** What a disk collection keeps: the rows of the flushed batches, whatever
    fails and whenever the process dies. *)
From Coq Require Import String.
From Verif Require Export DiskCollModel.
Local Open Scope N_scope.

(** A row as the types of the code allow it. *)
Definition row_ok (dim : N) (r : row) : Prop :=
  fst r < 2 ^ 64 /\ N.of_nat (length (snd r)) = dim /\ Forall (fun b => b < 2 ^ 32) (snd r).
(** The arguments of the constructor as their types allow them. *)
Record config_ok (g : config) : Prop := {
  go_dim : g_dim g < 2 ^ 32;
  go_max : g_max_pending g < 2 ^ 64;
  go_R : v_R (g_vamana g) < 2 ^ 32;
  go_L : v_L (g_vamana g) < 2 ^ 32;
  go_threads : v_threads (g_vamana g) < 2 ^ 32;
  go_seed : v_seed (g_vamana g) < 2 ^ 64;
}.
(** Normalizing gives a vector of the same length. *)
Definition extern_ok (x : extern) : Prop := forall v v', Forall (fun b => b < 2 ^ 32) v -> x_normalize x v = Ok v' -> length v' = length v /\ Forall (fun b => b < 2 ^ 32) v'.
Definition op_ok (dim : N) (o : op) : Prop := match o with Add rows => Forall (row_ok dim) rows | _ => True end.

(** What is stored of a row: itself, under COS with the vector normalized. *)
Definition stores (x : extern) (g : config) (r r' : row) : Prop :=
  match g_metric g with COS => fst r' = fst r /\ x_normalize x (snd r) = Ok (snd r') | _ => r' = r end.
(** The rows kept on disk, and the rows added since the last flush to an open
    collection. *)
Record contents := { kept : list row; added : option (list row) }.
Definition labels (l : list row) : list N := map fst l.
(** [l'] is [l] with the stored form of [rows] behind it, which are some rows,
    with labels that occur nowhere else. *)
Definition extended (x : extern) (g : config) (l rows l' : list row) : Prop :=
  exists new, l' = l ++ new /\ Forall2 (stores x g) rows new /\ rows <> [] /\ NoDup (labels rows) /\ (forall n, In n (labels rows) -> ~ In n (labels l)).
(** One call and how it ends. *)
Inductive allowed (x : extern) (g : config) : contents -> op -> result -> contents -> Prop :=
| add_returns k a rows : allowed x g {| kept := k; added := Some a |} (Add rows) Returned {| kept := k; added := Some (a ++ rows) |}
| add_throws k a rows : allowed x g {| kept := k; added := Some a |} (Add rows) Threw {| kept := k; added := Some a |}
| flush_nothing k s1 s2 : allowed x g {| kept := k; added := Some [] |} (Flush s1 s2) Returned {| kept := k; added := Some [] |}
| flush_returns k a k' s1 s2 : extended x g k a k' -> allowed x g {| kept := k; added := Some a |} (Flush s1 s2) Returned {| kept := k'; added := Some [] |}
| flush_throws k a s1 s2 : allowed x g {| kept := k; added := Some a |} (Flush s1 s2) Threw {| kept := k; added := Some a |}
| flush_dies_before k a s1 s2 : allowed x g {| kept := k; added := Some a |} (Flush s1 s2) Died {| kept := k; added := None |}
| flush_dies_after k a k' s1 s2 : extended x g k a k' -> allowed x g {| kept := k; added := Some a |} (Flush s1 s2) Died {| kept := k'; added := None |}
| reopen_returns k a : allowed x g {| kept := k; added := a |} Reopen Returned {| kept := k; added := Some [] |}
| reopen_throws k a r : r = Threw \/ r = Died -> allowed x g {| kept := k; added := a |} Reopen r {| kept := k; added := None |}
| not_open k o : o <> Reopen -> allowed x g {| kept := k; added := None |} o NotOpen {| kept := k; added := None |}.
Inductive history (x : extern) (g : config) : contents -> list (op * result) -> contents -> Prop :=
| history_nil s : history x g s [] s
| history_cons s o r s' h s'' : allowed x g s o r s' -> history x g s' h s'' -> history x g s ((o, r) :: h) s''.

(** The pending rows make a segment. *)
Definition finite (b : N) : Prop := (b / 2 ^ 23) mod 2 ^ 8 <> 255.
Record batch_ok (x : extern) (g : config) (l rows : list row) : Prop := {
  bo_labels : NoDup (labels rows);
  bo_new : forall n, In n (labels rows) -> ~ In n (labels l);
  bo_finite : Forall (fun r => Forall finite (snd r)) rows;
  bo_direction : g_metric g = COS -> Forall (fun r => exists v, x_normalize x (snd r) = Ok v) rows;
  bo_vamana : g_type g = Vamana -> g_metric g = L2 /\ (2 <= length rows)%nat /\ N.of_nat (length rows) < 2 ^ 32
              /\ forall v, exists graph, x_graph x v rows = Ok graph /\ x_graph_loads x graph = true;
}.
Definition flushes (h : list (op * list event)) : nat := length (filter (fun o => match fst o with Flush _ _ => true | _ => false end) h).
(** No access of the history fails; the process may die. *)
Definition no_failure (h : list (op * list event)) : Prop := Forall (fun o => Forall (fun e => match e with Fails _ => False | _ => True end) (snd o)) h.
(** What opening needs: with disk_vamana, the metric L2 and a seed of 32 bits. *)
Definition can_reopen (g : config) : Prop := g_type g = Vamana -> g_metric g = L2 /\ v_seed (g_vamana g) < 2 ^ 32.
(** What flushing needs with disk_vamana: the graphs that are built can be loaded,
    and the pending rows fit into 2^36 bytes, so that there are less than 2^32. *)
Definition can_flush (x : extern) (g : config) : Prop :=
  (forall v rows graph, x_graph x v rows = Ok graph -> x_graph_loads x graph = true) /\ (g_type g = Vamana -> g_max_pending g <= 2 ^ 36).
(** No temporary directory with this stamp is left. *)
Definition unused (g : config) (d : disk) (stamp : bytes) : Prop := g_type g = Vamana -> forall n, dir_get (d_segs d) (tmp_segment n stamp) = None.
