(** Vector storage as a table of slots, filled in order and never reused. *)
From Verif Require Export StoreModel.
Local Open Scope N_scope.

(** What callers do.  [Reload] saves the storage to a file and loads it into a
    fresh one; [junk] is the memory the new bitmap was allocated in. *)
Inductive st_op := Insert (d : bytes) | Reserve | Remove (id : N) | Update (id : N) (d : bytes) | Reload (junk : list N).

(** One slot of the table: live with its contents, or removed. *)
Inductive slot := Live (b : bytes) | Removed.
(** The table after an operation, and the slot it reports ([None]: refused). *)
Definition tab_step (cap : N) (blank : bytes) (t : list slot) (o : st_op) : option N * list slot :=
  let full := N.leb cap (N.of_nat (length t)) in
  match o with
  | Insert d => if full then (None, t) else (Some (N.of_nat (length t)), t ++ [Live d])
  | Reserve => if full then (None, t) else (Some (N.of_nat (length t)), t ++ [Live blank])
  | Remove id => match nth_error t (N.to_nat id) with Some (Live _) => (Some id, upd t (N.to_nat id) Removed) | _ => (None, t) end
  | Update id d => match nth_error t (N.to_nat id) with Some (Live _) => (Some id, upd t (N.to_nat id) (Live d)) | _ => (None, t) end
  | Reload _ => (None, t)
  end.
Fixpoint tab_run (cap : N) (blank : bytes) (t : list slot) (ops : list st_op) : list (option N) * list slot :=
  match ops with
  | [] => ([], t)
  | o :: r => let '(x, t1) := tab_step cap blank t o in let '(xs, t2) := tab_run cap blank t1 r in (x :: xs, t2)
  end.
Definition live (t : list slot) (id : N) : bool :=
  match nth_error t (N.to_nat id) with Some (Live _) => true | _ => false end.

(** The code run on the same operations. *)
Definition st_step (w : N) (s : store) (o : st_op) : res (N * store) :=
  match o with
  | Insert d => st_insert w s d
  | Reserve => st_reserve w s
  | Remove id => st_remove w s id
  | Update id d => st_update w s id d
  | Reload junk => let* (s', _) := st_load junk (st_save s) in Ok (no_id w, s')
  end.
Fixpoint st_run (w : N) (s : store) (ops : list st_op) : res (list N * store) :=
  match ops with
  | [] => Ok ([], s)
  | o :: r => let* (x, s1) := st_step w s o in let* (xs, s2) := st_run w s1 r in Ok (x :: xs, s2)
  end.
(** A refused operation returns -1. *)
Definition id_of (w : N) (x : option N) : N := match x with Some id => id | None => no_id w end.

(** Sizes: the alignment is a power of two, the allocation fits in the address
    space, and every slot is an id of [w] bits other than -1. *)
Definition sizes_ok (w isz cap a : N) : Prop :=
  w <= 64 /\ cap < 2 ^ w /\ a <= 12 /\ isz < 2 ^ 32 /\ (isz + 2 ^ a) * cap < 2 ^ 64.
(** Items have the item size and ids name slots within the capacity (the code
    does not check ids). *)
Definition st_op_ok (isz cap a : N) (o : st_op) : Prop :=
  match o with
  | Insert d => N.of_nat (length d) = isz
  | Reserve => True
  | Remove id => id < cap
  | Update id d => id < cap /\ N.of_nat (length d) = isz
  | Reload junk => N.of_nat (length junk) = round_up_pow2 ((cap + 8 - 1) / 8) (2 ^ a)
  end.
(** The slots handed out by insert and reserve, oldest first. *)
Fixpoint handed_out (w : N) (ops : list st_op) (rs : list N) : list N :=
  match ops, rs with
  | (Insert _ | Reserve) :: ops', r :: rs' => (if N.eqb r (no_id w) then [] else [r]) ++ handed_out w ops' rs'
  | _ :: ops', _ :: rs' => handed_out w ops' rs'
  | _, _ => []
  end.

(** ** A space *)
Inductive sp_op := SpInsert (d : bytes) | SpRemove (id : N).
Definition raw_step (w : N) (sp : space) (o : sp_op) : res (N * space) :=
  match o with SpInsert d => raw_insert w sp d | SpRemove id => sp_remove w sp id end.
Definition sq8_step (w : N) (sp : space) (o : sp_op) : res (N * space) :=
  match o with SpInsert d => sq8_insert w sp d | SpRemove id => sp_remove w sp id end.
Fixpoint sp_run (step : space -> sp_op -> res (N * space)) (sp : space) (ops : list sp_op) : res space :=
  match ops with [] => Ok sp | o :: r => let* (_, sp1) := step sp o in sp_run step sp1 r end.
(** The table of a space is that of its storage. *)
Definition as_st (o : sp_op) : st_op := match o with SpInsert d => Insert d | SpRemove id => Remove id end.
Definition available (t : list slot) : N := N.of_nat (length (filter (fun x => match x with Live _ => true | Removed => false end) t)).
(** Every removal in the history is of a slot that is live at that time, and
    every insertion finds room. *)
Definition step_removes_live (t : list slot) (o : sp_op) : Prop := match o with SpRemove id => live t id = true | _ => True end.
Definition step_has_room (cap : N) (t : list slot) (o : sp_op) : Prop := match o with SpInsert _ => N.of_nat (length t) < cap | _ => True end.
Fixpoint along (P : list slot -> sp_op -> Prop) (cap : N) (t : list slot) (ops : list sp_op) : Prop :=
  match ops with [] => True | o :: r => P t o /\ along P cap (snd (tab_step cap [] t (as_st o))) r end.
