(** C55: filters written as Python dictionaries keep their meaning. *)
From Coq Require Import String.
From Verif Require Import DictProofs.

(** Every dictionary of the documented form gives a filter. *)
Theorem dict_filter_built d : documented d -> exists f, build d = Ok f.
Proof. exact (proj1 (build_ok d)). Qed.

(** A row passes the filter exactly when it satisfies the dictionary.  Missing for
    the full property: "$or" beside other keys, "$or" with an empty list, and NaN
    (see the refutations below and C12). *)
Theorem dict_filter_partial d m f : NoDup (map fst m) -> no_nan m d -> or_alone d -> build d = Ok f ->
  (evaluate f m = true <-> accepts m d).
Proof. intros ND [NM NV] OA. exact (proj1 (good_lemma m ND NM d) NV OA f). Qed.

(** {"$and": [{"$or": [{"a": 1}, {"b": {"$gt": 2, "$le": 9}}]}, {"c": {"$in": ["x", "y"]}}], "a": 0} *)
Definition ex_dict : pv :=
  Dict [(str "$and", Lst [Dict [(str "$or", Lst [Dict [(str "a", Val (VInt 1))];
                                                 Dict [(str "b", Dict [(str "$gt", Val (VInt 2)); (str "$le", Val (VInt 9))])]])];
                          Dict [(str "c", Dict [(str "$in", Lst [Val (VStr (str "x")); Val (VStr (str "y"))])])]]);
        (str "a", Val (VInt 0))].
Definition ex_row (b : Z) : metadata := [(str "a", VInt 0); (str "b", VInt b); (str "c", VStr (str "y"))].

Example dict_filter_case : exists f,
  documented ex_dict /\ or_alone ex_dict /\ no_nan (ex_row 9) ex_dict /\ NoDup (map fst (ex_row 9)) /\
  build ex_dict = Ok f /\ evaluate f (ex_row 9) = true /\ evaluate f (ex_row 2) = false.
Proof.
  eexists. split; [|split; [|split; [|split; [|split; [reflexivity|split; reflexivity]]]]].
  - vm_compute.
    repeat match goal with
           | |- Forall _ [] => constructor
           | |- Forall _ (_ :: _) => constructor
           | |- True => exact Logic.I
           end.
    1, 2: right; split; [tauto|eexists; reflexivity].
    left. split; [reflexivity|]. exists [VStr (str "x"); VStr (str "y")]. reflexivity.
  - vm_compute. split; [right; intros [H|[H|[]]]; discriminate H|].
    repeat match goal with
           | |- Forall _ [] => constructor
           | |- Forall _ (_ :: _) => constructor
           | |- _ /\ _ => split
           | |- True => exact Logic.I
           end; first [left; eexists; split; [reflexivity|discriminate]|right; intros [H|[]]; discriminate H].
  - split; [intros k v I|intros v I]; cbn in I; repeat (destruct I as [I|I]; [first [injection I as <- <-|subst v]; exact Logic.I|]); contradiction.
  - repeat constructor; cbn; intuition discriminate.
Qed.

(** Keys next to "$or" are alternatives, not further conditions:
    {"a": 0, "$or": [{"b": 1}, {"b": 2}]} accepts a row with b = 7. *)
Theorem dict_or_sibling_refuted : exists d m f,
  documented d /\ no_nan m d /\ NoDup (map fst m) /\ build d = Ok f /\ evaluate f m = true /\ ~ accepts m d.
Proof.
  exists (Dict [(str "a", Val (VInt 0)); (str "$or", Lst [Dict [(str "b", Val (VInt 1))]; Dict [(str "b", Val (VInt 2))]])]).
  exists [(str "a", VInt 0); (str "b", VInt 7)]. eexists.
  split; [vm_compute; repeat constructor|].
  split; [split; [intros k v I|intros v I]; cbn in I; repeat (destruct I as [I|I]; [first [injection I as <- <-|subst v]; exact Logic.I|]); contradiction|].
  split; [repeat constructor; cbn; intuition discriminate|].
  split; [reflexivity|]. split; [reflexivity|].
  vm_compute. intros H. apply Forall_cons_iff in H as [_ H]. apply Forall_cons_iff in H as [K _].
  assert (A : forall b, b <> 7%Z -> ~ exists w, (([97%N], VInt 0) = ([98%N], w) \/ ([98%N], VInt 7) = ([98%N], w) \/ False) /\ match w with VInt x => x = b | _ => False end).
  { intros b NB (w & [I|[I|[]]] & E); [discriminate I|]. injection I as <-. congruence. }
  apply Exists_cons in K as [K|K]; [|apply Exists_cons in K as [K|K]; [|inversion K]]; apply Forall_cons_iff in K as [K _].
  - now apply (A 1%Z).
  - now apply (A 2%Z).
Qed.

(** An empty "$or" accepts every row. *)
Theorem dict_or_empty_refuted : exists d f,
  documented d /\ build d = Ok f /\ (forall m, evaluate f m = true) /\ forall m, ~ accepts m d.
Proof.
  exists (Dict [(str "$or", Lst [])]). eexists. split; [vm_compute; repeat constructor|].
  split; [reflexivity|]. split; [reflexivity|]. intros m. vm_compute. intros H. inversion_clear H as [|? ? K _]. inversion K.
Qed.

Print Assumptions dict_filter_built.
Print Assumptions dict_filter_partial.
Print Assumptions dict_or_sibling_refuted.
Print Assumptions dict_or_empty_refuted.
