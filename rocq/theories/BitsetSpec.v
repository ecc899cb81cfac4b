(** Sets of positions under a sequence of operations. *)
From Verif Require Import BitsetModel.

(** What is done to a set. *)
Inductive set_op := Add (p : N) | Del (p : N) | Fill | Clear.
(** Is [p] a member after the operations, oldest first, starting empty: decided
    by the last operation that concerns it. *)
Definition member (ops : list set_op) (p : N) : bool :=
  fold_left (fun b o => match o with
                        | Add q => N.eqb q p || b
                        | Del q => negb (N.eqb q p) && b
                        | Fill => true
                        | Clear => false
                        end) ops false.

(** Operations inside the declared size [n]. *)
Definition op_below (n : N) (o : set_op) : Prop :=
  match o with Add p | Del p => (p < n)%N | Fill | Clear => True end.
Definition no_del (o : set_op) : Prop := match o with Del _ | Fill => False | _ => True end.
Definition only_add (o : set_op) : Prop := match o with Add _ => True | _ => False end.

(** Running a sequence with a step function. *)
Fixpoint run_ops {S} (step : S -> set_op -> res S) (s : S) (ops : list set_op) : res S :=
  match ops with [] => Ok s | o :: ops' => let* s' := step s o in run_ops step s' ops' end.

Definition dynamic_step (b : dynamic_bitset) (o : set_op) : res dynamic_bitset :=
  match o with
  | Add p => db_set b p
  | Del p => db_reset b p
  | Fill => Ok (db_set_all b)
  | Clear => Ok (db_clear b)
  end.
Definition epoch_step (w : N) (s : epoch_set) (o : set_op) : res epoch_set :=
  match o with Add p => es_set s p | Clear => Ok (es_clear w s) | _ => Throws end.
Definition sparse_step (b : sparse_bitset) (o : set_op) : res sparse_bitset :=
  match o with Add p => Ok (sb_set b p) | Del p => Ok (sb_reset b p) | _ => Throws end.
Definition hier_step (b : hier_bitset) (o : set_op) : res hier_bitset :=
  match o with Add p => hb_set b p | _ => Throws end.
Definition visited_step (b : visited_bitset) (o : set_op) : res visited_bitset :=
  match o with Add p => vb_set b p | Clear => vb_clear b | _ => Throws end.
Definition hash_step (s : hash_set) (o : set_op) : res hash_set :=
  match o with Add p => hs_set s p | Clear => Ok (hs_clear s) | _ => Throws end.
