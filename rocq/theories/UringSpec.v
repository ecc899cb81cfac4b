(** What reading a batch should mean. *)
From Verif Require Export UringModel.
From Coq Require Import List.
Import ListNotations.

(** The kernel's answers, in the order given. *)
Fixpoint answers (acts : list action) : list (entry * Z) :=
  match acts with [] => [] | Complete e r :: t => (e, r) :: answers t | _ :: t => answers t end.
(** Read [k] of batch [i] was answered exactly once, with [r]. *)
Definition answered_once (acts : list action) (i k : nat) (r : Z) : Prop :=
  filter (fun x => (fst (fst x) =? i) && (snd (fst x) =? k)) (answers acts) = [((i, k), r)].
(** The reads that did not return the number of bytes asked for. *)
Fixpoint short_reads (sizes : list N) (results : list Z) : nat :=
  match sizes, results with
  | s :: ss, r :: rr => (if Z.eqb (Z.of_N s) r then 0 else 1) + short_reads ss rr
  | _, _ => 0
  end.
(** A submission was refused by the kernel. *)
Definition refused (acts : list action) : Prop := exists i, In (Submit i Hard) acts \/ In (Submit i Busy) acts.
(** The steps other than new batches and interrupted calls. *)
Definition counts (a : action) : bool := match a with Arrive _ | Submit _ Eintr => false | _ => true end.
