(** What a filter means, stated on the metadata as a set of (field, value)
    pairs and on the numeric values. *)
From Verif Require Import FilterModel.

(** Lexicographic order on byte strings. *)
Inductive lex_lt : bytes -> bytes -> Prop :=
| lex_nil x t : lex_lt [] (x :: t)
| lex_head x y s t : (x < y)%N -> lex_lt (x :: s) (y :: t)
| lex_tail x s t : lex_lt s t -> lex_lt (x :: s) (x :: t).

(** Order and equality of values of the same type; values of different types
    are unrelated. *)
Definition val_lt (a b : value) : Prop :=
  match a, b with
  | VInt x, VInt y => (x < y)%Z
  | VDouble x, VDouble y => dval_lt (dbl_val x) (dbl_val y)
  | VStr x, VStr y => lex_lt x y
  | VBool x, VBool y => x = false /\ y = true
  | _, _ => False
  end.
Definition val_eq (a b : value) : Prop :=
  match a, b with
  | VInt x, VInt y => x = y
  | VDouble x, VDouble y => dval_eq (dbl_val x) (dbl_val y)
  | VStr x, VStr y => x = y
  | VBool x, VBool y => x = y
  | _, _ => False
  end.

(** The relation an operator denotes. *)
Definition op_holds (c : condition) (v : value) : Prop :=
  match op c with
  | EQ => val_eq v (operand c)
  | NE => ~ val_eq v (operand c)
  | GT => val_lt (operand c) v
  | GE => val_lt (operand c) v \/ val_eq v (operand c)
  | LT => val_lt v (operand c)
  | LE => val_lt v (operand c) \/ val_eq v (operand c)
  | IN_SET => exists w, In w (operands c) /\ val_eq v w
  | NOT_IN_SET => ~ exists w, In w (operands c) /\ val_eq v w
  | CONTAINS => match v, operand c with
                | VStr s, VStr p => exists a b, s = a ++ p ++ b
                | _, _ => False
                end
  end.
Definition cond_denotes (c : condition) (m : metadata) : Prop :=
  exists v, In (field c, v) m /\ op_holds c v.

(** Meaning of a filter tree.  NOT negates the conjunction of its parts. *)
Fixpoint denotes (f : filter) (m : metadata) : Prop :=
  match f with
  | Filter logic cs subs =>
      let parts := map (fun c => cond_denotes c m) cs ++ map (fun s => denotes s m) subs in
      parts = [] \/
      match logic with
      | AND => Forall (fun p => p) parts
      | OR => Exists (fun p => p) parts
      | NOT => ~ Forall (fun p => p) parts
      end
  end.

(** No NaN takes part in an ordering comparison that includes equality. *)
Definition not_nan (v : value) : Prop :=
  match v with VDouble b => dbl_is_nan b = false | _ => True end.
Definition cond_no_nan (m : metadata) (c : condition) : Prop :=
  match op c with
  | GE | LE => not_nan (operand c) /\ forall v, In (field c, v) m -> not_nan v
  | _ => True
  end.
(** Every condition of the tree is free of NaN and every NOT has one part. *)
Fixpoint well_formed (m : metadata) (f : filter) : Prop :=
  match f with
  | Filter logic cs subs =>
      Forall (cond_no_nan m) cs
      /\ (logic = NOT -> length cs + length subs <= 1)
      /\ fold_right (fun s P => well_formed m s /\ P) True subs
  end.
