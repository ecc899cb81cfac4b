(** What the page store should be: a memory of pages. *)
From Verif Require Export CacheModel.
Local Open Scope N_scope.

(** The latest acknowledged content of every page; [None] after a failed write
    that went straight to the disk. *)
Definition memory := N -> option page.
Definition put (m : memory) (off : N) (c : option page) : memory := fun x => if N.eqb x off then c else m x.
Definition remember (cached : bool) (m : memory) (oa : cop * answer) : memory :=
  match oa with
  | (CWrite off p, Acked) => put m off (Some p)
  | (CWrite off _, Threw) => if cached then m else put m off None
  | _ => m
  end.
(** The memory after the first steps of a history. *)
Definition memory_after (cached : bool) (disk : N -> page) (ops : list cop) (answers : list answer) : memory :=
  fold_left (remember cached) (combine ops answers) (fun off => Some (disk off)).

Definition cached_pages (w : world) (s : N) : list N := map fst (sd_pages (w_shards w s)).
