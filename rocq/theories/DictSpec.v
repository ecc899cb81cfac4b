(** What a dictionary filter means. *)
From Coq Require Import String.
From Verif Require Export FilterSpec DictModel.

(** The operators on a value of the row *)
Definition compares (name : bytes) (x : pv) (v : value) : Prop :=
  match x with
  | Lst l => name = str "$in" /\ exists w, In (Val w) l /\ val_eq v w
  | Val w =>
      (name = str "$eq" /\ val_eq v w) \/
      (name = str "$gt" /\ val_lt w v) \/
      (name = str "$ge" /\ (val_lt w v \/ val_eq v w)) \/
      (name = str "$lt" /\ val_lt v w) \/
      (name = str "$le" /\ (val_lt v w \/ val_eq v w))
  | _ => False
  end.
Definition all_of (l : list Prop) : Prop := Forall (fun p => p) l.
Definition any_of (l : list Prop) : Prop := Exists (fun p => p) l.
(** The row [m] satisfies every key of the dictionary: "$and": every element of its
    list; "$or": some element of its list; another key: the row has that field and
    its value compares as every operator says. *)
Fixpoint accepts (m : metadata) (d : pv) : Prop :=
  match d with
  | PNone => True
  | Dict items =>
      all_of (map (fun item =>
        match item with
        | (key, v) =>
            if bytes_eqb key (str "$and") then match v with Lst l => all_of (map (accepts m) l) | _ => False end
            else if bytes_eqb key (str "$or") then match v with Lst l => any_of (map (accepts m) l) | _ => False end
            else match v with
                 | Dict ops => Forall (fun o => exists w, In (key, w) m /\ compares (fst o) (snd o) w) ops
                 | Val x => exists w, In (key, w) m /\ val_eq w x
                 | _ => False
                 end
        end) items)
  | _ => False
  end.
(** "$or" is the only key of its dictionary, and its list is not empty. *)
Fixpoint or_alone (d : pv) : Prop :=
  match d with
  | Dict items =>
      ((exists l, items = [(str "$or", Lst l)] /\ l <> []) \/ ~ In (str "$or") (map fst items)) /\
      all_of (map (fun item => match item with
                               | (key, Lst l) => if bytes_eqb key (str "$and") || bytes_eqb key (str "$or") then all_of (map or_alone l) else True
                               | _ => True
                               end) items)
  | _ => True
  end.
(** The documented form: dictionaries whose keys are "$and" or "$or" with a list of
    such dictionaries, or a field with a value or a dictionary of operators. *)
Definition documented_op (o : bytes * pv) : Prop :=
  (fst o = str "$in" /\ exists vs, snd o = Lst (map Val vs)) \/
  (In (fst o) [str "$eq"; str "$gt"; str "$ge"; str "$lt"; str "$le"] /\ exists v, snd o = Val v).
Fixpoint documented (d : pv) : Prop :=
  match d with
  | Dict items =>
      all_of (map (fun item => match item with
                               | (key, v) =>
                                   if bytes_eqb key (str "$and") || bytes_eqb key (str "$or") then match v with Lst l => all_of (map documented l) | _ => False end
                                   else match v with Dict ops => Forall documented_op ops | Val _ => True | _ => False end
                               end) items)
  | _ => False
  end.
(** The values of the dictionary *)
Fixpoint values (d : pv) : list value :=
  match d with
  | PNone => []
  | Val v => [v]
  | Lst l => flat_map values l
  | Dict items => flat_map (fun item => match item with (_, v) => values v end) items
  end.
(** No NaN (C12). *)
Definition no_nan (m : metadata) (d : pv) : Prop := (forall k v, In (k, v) m -> not_nan v) /\ forall v, In v (values d) -> not_nan v.
