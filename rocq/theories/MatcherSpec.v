(** When the metadata index can be trusted to answer a condition. *)
From Verif Require Export StorageSpec.
From Verif Require Export FilterModel MatcherModel.

(** What the operand must not be: NaN always; for equality a zero; for an
    inclusive bound the zero on the wrong side; for a strict bound the extreme
    finite number (or beyond). *)
Definition operand_safe (o : filter_op) (v : value) : Prop :=
  match v with
  | VDouble b =>
      dbl_val b <> DNan /\
      match o with
      | EQ | IN_SET => dbl_val b <> DNum 0
      | GE => b <> 0%N
      | LE => b <> (2 ^ 63)%N
      | GT => dval_lt (dbl_val b) (dbl_val dbl_max)
      | LT => dval_lt (dbl_val dbl_lowest) (dbl_val b)
      | _ => True
      end
  | _ => True
  end.
(** What a stored value must not be: for equality with a string, an extension
    of it by '_'; for an order comparison, NaN or an infinity. *)
Definition stored_safe (o : filter_op) (v w : value) : Prop :=
  match o with
  | EQ | IN_SET => ~ extends_str v w
  | GE | GT | LE | LT => match v, w with VDouble _, VDouble b => exists z, dbl_val b = DNum z | _, _ => True end
  | _ => True
  end.
(** The condition is answered correctly by the index for the rows of [s]. *)
Definition index_safe (s : storage) (c : condition) : Prop :=
  forall v, (op c = IN_SET /\ In v (operands c) \/ op c <> IN_SET /\ v = operand c) ->
    operand_safe (op c) v
    /\ forall id r w, live s id r -> In (field c, w) (meta r) -> stored_safe (op c) v w.

(** The single condition of a filter that takes the fast path. *)
Definition single_condition (f : filter) (c : condition) : Prop := f = Filter AND [c] [].

Definition cond_values_ok (c : condition) : Prop :=
  ScalarDataSpec.value_ok (operand c) /\ Forall ScalarDataSpec.value_ok (operands c).

(** The ids a filtered search may return: all of them for an empty filter,
    otherwise those whose stored row satisfies the filter. *)
Definition accepted (s : storage) (f : filter) (id : N) : Prop :=
  is_empty f = true \/ exists r, live s id r /\ evaluate f (meta r) = true.
