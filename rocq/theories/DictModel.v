(** Filters written as Python dictionaries: _build_filter of Collection
    (python/src/alayalite/collection.py 460-501), with add_eq ... add_sub_filter of
    MetadataFilter (include/utils/metadata_filter.hpp 223-317).

    Simplified: a Python number, string or truth value is the MetadataValue that
    pybind makes of it; a MetadataFilter instead of a dictionary (469-470) is left
    out; the recursion limit of Python is left out; an empty string or dictionary in
    place of the list of "$and" or "$or" (accepted, no iteration) counts as an error. *)
From Coq Require Import String.
From Verif Require Export FilterModel.

(** A Python value: None, a scalar, a list, a dictionary (in the order of insertion) *)
Inductive pv := PNone | Val (v : value) | Lst (l : list pv) | Dict (items : list (bytes * pv)).

(** add_eq, add_gt ..., 223-299: the condition that is added *)
Definition cond (f : bytes) (o : filter_op) (v : value) : condition := {| field := f; op := o; operand := v; operands := [] |}.
(** add_in, 306-313: operand stays what the constructor of the variant made it, an
    int64_t 0 *)
Definition cond_in (f : bytes) (vs : list value) : condition := {| field := f; op := IN_SET; operand := VInt 0; operands := vs |}.
(** The argument of add_in: a list of scalars, else pybind raises TypeError *)
Fixpoint scalars (l : list pv) : res (list value) :=
  match l with
  | [] => Ok []
  | Val v :: rest => let* vs := scalars rest in Ok (v :: vs)
  | _ :: _ => Throws
  end.
(** 484-496: one operator of a key *)
Definition add_op (key name : bytes) (x : pv) : res condition :=
  if bytes_eqb name (str "$in") then match x with Lst l => let* vs := scalars l in Ok (cond_in key vs) | _ => Throws end
  else match x with
       | Val v =>
           if bytes_eqb name (str "$eq") then Ok (cond key EQ v)
           else if bytes_eqb name (str "$gt") then Ok (cond key GT v)
           else if bytes_eqb name (str "$ge") then Ok (cond key GE v)
           else if bytes_eqb name (str "$lt") then Ok (cond key LT v)
           else if bytes_eqb name (str "$le") then Ok (cond key LE v)
           else Throws
       | _ => Throws
       end.
(** 481: the operators of a key *)
Fixpoint add_ops (key : bytes) (ops : list (bytes * pv)) (cs : list condition) : res (list condition) :=
  match ops with
  | [] => Ok cs
  | (name, x) :: rest => let* c := add_op key name x in add_ops key rest (cs ++ [c])
  end.
(** _build_filter, 460-501 *)
Fixpoint build (d : pv) : res filter :=
  match d with
  | PNone => Ok (Filter AND [] [])
  | Dict items =>
      (fix loop (items : list (bytes * pv)) (logic : logic_op) (cs : list condition) (subs : list filter) : res filter :=
         match items with
         | [] => Ok (Filter logic cs subs)
         | (key, v) :: rest =>
             if bytes_eqb key (str "$and") || bytes_eqb key (str "$or") then
               match v with
               | Lst l =>
                   let* subs' := (fix each (l : list pv) (subs : list filter) : res (list filter) :=
                                    match l with
                                    | [] => Ok subs
                                    | e :: r => let* f := build e in each r (subs ++ [f])
                                    end) l subs in
                   loop rest (if bytes_eqb key (str "$or") then OR else logic) cs subs'
               | _ => Throws
               end
             else match v with
                  | Dict ops => let* cs' := add_ops key ops cs in loop rest logic cs' subs
                  | Val x => loop rest logic (cs ++ [cond key EQ x]) subs
                  | _ => Throws
                  end
         end) items AND [] []
  | _ => Throws
  end.
