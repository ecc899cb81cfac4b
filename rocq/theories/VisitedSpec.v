(** What the lists of visited nodes promise. *)
From Verif Require Export VisitedModel.
Import ListNotations.

(** A history of steps read backwards: newest first. *)
(** A search may mark and ask after it has reset its list and until it gives
    it back; it resets once, and gives the list back once. *)
Definition takes (past : list vop) : nat := length (filter (fun o => match o with Take => true | _ => false end) past).
Definition did_reset (h : N) (past : list vop) : Prop := In (Reset h) past.
Definition gave_back (h : N) (past : list vop) : Prop := In (Release h) past.
Definition allowed (n : nat) (past : list vop) (o : vop) : Prop :=
  match o with
  | Take => True
  | Reset h => N.to_nat h < takes past /\ ~ did_reset h past
  | Mark h id | Seen h id => did_reset h past /\ ~ gave_back h past /\ N.to_nat id < n
  | Release h => did_reset h past /\ ~ gave_back h past
  end.
Fixpoint history_ok (n : nat) (past : list vop) (ops : list vop) : Prop :=
  match ops with [] => True | o :: rest => allowed n past o /\ history_ok n (o :: past) rest end.

(** The right answers: a node is seen if this search marked it. *)
Definition marked (h id : N) (past : list vop) : bool :=
  existsb (fun o => match o with Mark h' id' => (N.eqb h' h && N.eqb id' id)%bool | _ => false end) past.
Fixpoint right_answers (past : list vop) (ops : list vop) : list bool :=
  match ops with
  | [] => []
  | o :: rest => match o with
                 | Seen h id => marked h id past :: right_answers (o :: past) rest
                 | _ => right_answers (o :: past) rest
                 end
  end.
(** Two searches that have not given back their lists have different ones. *)
Definition holds (s : pool) (h l : N) : Prop :=
  nth_error (vp_handles s) (N.to_nat h) = Some (Taken l) \/ nth_error (vp_handles s) (N.to_nat h) = Some (Ready l).
Definition separate (s : pool) : Prop := forall h h' l, holds s h l -> holds s h' l -> h = h'.
