(** The tombstone bitmap as a set of ids, and the life of a slot. *)
From Verif Require Export TombModel.
From Verif Require Import BitsetSpec.
Local Open Scope N_scope.

(** Operations on the bitmap; [Clear] is reset(0). *)
Definition tomb_step (t : tomb) (o : set_op) : res tomb :=
  match o with Add p => tb_set t p | Del p => tb_clear t p | Clear => tb_reset t 0 | Fill => Throws end.
(** Ids given to set and clear are 32-bit slot ids. *)
Definition tomb_op_ok (o : set_op) : Prop := match o with Add p | Del p => p < 2 ^ 32 | Clear => True | Fill => False end.
(** [n] is the number of ids satisfying [mem]. *)
Definition cardinality (mem : N -> bool) (n : N) : Prop :=
  exists l, NoDup l /\ (forall p, In p l <-> mem p = true) /\ n = N.of_nat (length l).

(** What happened to the slots, oldest first. *)
Inductive slot_event := EAlloc (id : N) | EPublish (id : N) | EFree (id : N).
Inductive slot_status := Unused | Dark | Visible | Freed.
(** The status of slot [id]: the first [n0] slots start visible; after that the
    last event about it decides. *)
Definition status (n0 : N) (h : list slot_event) (id : N) : slot_status :=
  fold_left (fun st e => match e with
                         | EAlloc i => if N.eqb i id then Dark else st
                         | EPublish i => if N.eqb i id then Visible else st
                         | EFree i => if N.eqb i id then Freed else st
                         end) h (if N.ltb id n0 then Visible else Unused).
(** In use: handed out (or there from the start) and not freed. *)
Definition in_use (st : slot_status) : bool := match st with Dark | Visible => true | _ => false end.
(** The states of an allocator that starts with [n0] existing nodes; the
    callers publish only slots they were given and free only slots in use.  A
    save and load, into an allocator in any state, may happen at any time. *)
Inductive reach (n0 : N) : slots -> list slot_event -> Prop :=
| reach_new s : sl_new n0 = Ok s -> reach n0 s []
| reach_alloc s h id s' : reach n0 s h -> sl_alloc s = Ok (id, s') -> reach n0 s' (h ++ [EAlloc id])
| reach_publish s h id s' : reach n0 s h -> status n0 h id = Dark -> sl_publish s id = Ok s' -> reach n0 s' (h ++ [EPublish id])
| reach_free s h id s' : reach n0 s h -> in_use (status n0 h id) = true -> sl_free_slot s id = Ok s' -> reach n0 s' (h ++ [EFree id])
| reach_load s h s0 file s' : reach n0 s h -> sl_save s = Ok file -> sl_load s0 file = Ok s' -> reach n0 s' h.
(** Ids are 32 bits: the last one has not been handed out yet. *)
Definition fits (n0 : N) (h : list slot_event) : Prop := status n0 h (2 ^ 32 - 1) = Unused.
(** [id] is the most recently freed slot that is still free. *)
Definition latest_freed (n0 : N) (h : list slot_event) (id : N) : Prop :=
  status n0 h id = Freed /\ exists h1 h2, h = h1 ++ EFree id :: h2
    /\ forall j, In (EFree j) h2 -> status n0 h j <> Freed.
