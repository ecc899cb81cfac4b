(** Model of include/utils/metadata_filter.hpp. *)
From Verif Require Export ScalarDataModel Double.

(** FilterOp, metadata_filter.hpp:20-30; LogicOp, 33-37 *)
Inductive filter_op := EQ | NE | GT | GE | LT | LE | IN_SET | NOT_IN_SET | CONTAINS.
Inductive logic_op := AND | OR | NOT.

(** FilterCondition, metadata_filter.hpp:45-49 *)
Record condition := { field : bytes; op : filter_op; operand : value; operands : list value }.

(** MetadataFilter, metadata_filter.hpp:148-151 *)
Inductive filter := Filter (logic : logic_op) (conditions : list condition) (sub_filters : list filter).

(** operator== of the std::variant (scalar_data.hpp:21): same alternative and
    equal contents; double uses IEEE equality. *)
Definition value_eqb (a b : value) : bool :=
  match a, b with
  | VInt x, VInt y => Z.eqb x y
  | VDouble x, VDouble y => dbl_eqb x y
  | VStr x, VStr y => bytes_eqb x y
  | VBool x, VBool y => Bool.eqb x y
  | _, _ => false
  end.

(** The [if (va < vb) ... if (va > vb) ...] cascade, metadata_filter.hpp:111-117 *)
Definition cascade (lt gt : bool) : Z := if lt then (-1)%Z else if gt then 1%Z else 0%Z.

(** compare, metadata_filter.hpp:101-120 *)
Definition compare (a b : value) : option Z :=
  match a, b with
  | VInt x, VInt y => Some (cascade (Z.ltb x y) (Z.ltb y x))
  | VDouble x, VDouble y => Some (cascade (dbl_ltb x y) (dbl_ltb y x))
  | VStr x, VStr y => Some (cascade (match bytes_cmp x y with Lt => true | _ => false end)
                                   (match bytes_cmp x y with Gt => true | _ => false end))
  | VBool x, VBool y => Some (cascade (negb x && y) (negb y && x))
  | _, _ => None
  end.

(** std::string::find(pattern) != npos, metadata_filter.hpp:130 *)
Fixpoint has_substring (pat s : bytes) : bool :=
  starts_with pat s || match s with [] => false | _ :: s' => has_substring pat s' end.

(** contains_string, metadata_filter.hpp:125-131 *)
Definition contains_string (actual pattern : value) : bool :=
  match actual, pattern with
  | VStr a, VStr p => has_substring p a
  | _, _ => false
  end.

(** FilterCondition::evaluate, metadata_filter.hpp:56-94 *)
Definition evaluate_condition (c : condition) (m : metadata) : bool :=
  match meta_find (field c) m with
  | None => false
  | Some actual =>
      match op c with
      | EQ => value_eqb actual (operand c)
      | NE => negb (value_eqb actual (operand c))
      | GT => match compare actual (operand c) with Some r => Z.ltb 0 r | None => false end
      | GE => match compare actual (operand c) with Some r => Z.leb 0 r | None => false end
      | LT => match compare actual (operand c) with Some r => Z.ltb r 0 | None => false end
      | LE => match compare actual (operand c) with Some r => Z.leb r 0 | None => false end
      | IN_SET => existsb (fun v => value_eqb v actual) (operands c)
      | NOT_IN_SET => negb (existsb (fun v => value_eqb v actual) (operands c))
      | CONTAINS => contains_string actual (operand c)
      end
  end.

(** MetadataFilter::evaluate, metadata_filter.hpp:160-203.  Sub-filters are
    shared_ptrs built by add_sub_filter (a finite tree, never null). *)
Fixpoint evaluate (f : filter) (m : metadata) : bool :=
  match f with
  | Filter logic cs subs =>
      let results := map (fun c => evaluate_condition c m) cs ++ map (fun s => evaluate s m) subs in
      match results with
      | [] => true
      | r0 :: _ =>
          match logic with
          | AND => forallb (fun v => v) results
          | OR => existsb (fun v => v) results
          | NOT => negb r0
          end
      end
  end.

(** is_empty, metadata_filter.hpp:215 *)
Definition is_empty (f : filter) : bool :=
  match f with Filter _ [] [] => true | _ => false end.
