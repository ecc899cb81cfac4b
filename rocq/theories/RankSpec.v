(** What exact ranking should return. *)
From Coq Require Export Permutation Sorting.Sorted.
From Verif Require Export RankModel SearchSpec MatcherSpec.
From Verif Require Import FilterModel StorageSpec.

(** ** The C++ library *)

(** By distance, then by id. *)
Definition closer (a b : candidate) : Prop := (snd a < snd b)%Z \/ snd a = snd b /\ (fst a < fst b)%N.
(** A heap of the standard: no element is smaller than one of its children. *)
Definition heap (l : list candidate) : Prop :=
  forall i a b, 0 < i -> nth_error l ((i - 1) / 2) = Some a -> nth_error l i = Some b -> ~ closer a b.
(** What the standard says of std::push_heap, std::pop_heap and std::sort with
    a strict total order. *)
Record heap_lib_ok (lib : heap_lib) : Prop := {
  push_ok : forall l c, heap l -> Permutation (l ++ [c]) (push_heap lib (l ++ [c])) /\ heap (push_heap lib (l ++ [c]));
  pop_ok : forall front l, heap (front :: l) ->
    exists l', pop_heap lib (front :: l) = l' ++ [front] /\ Permutation l l' /\ heap l';
  sort_ok : forall l, Permutation l (sort_all lib l) /\ StronglySorted (fun a b => ~ closer b a) (sort_all lib l);
}.

(** ** Reranking *)

(** [ids] and [dists] are the [k] best of the candidates, best first, then
    padding. *)
Definition reranked (candidates : list N) (dist : N -> Z) (k : nat) (ids : list N) (dists : list Z) : Prop :=
  exists best left_out,
    Permutation candidates (best ++ left_out)
    /\ length best = Nat.min k (length candidates)
    /\ StronglySorted (fun a b => (dist a <= dist b)%Z) best
    /\ (forall a b, In a best -> In b left_out -> (dist a <= dist b)%Z)
    /\ ids = best ++ repeat kInvalidId (k - length best)
    /\ dists = map dist best ++ repeat float_max (k - length best).

(** ** Filtered search *)

(** The [k] nearest members, nearest first, then padding. *)
Definition knn (member : N -> Prop) (dist : N -> Z) (k : nat) (ids : list N) : Prop :=
  exists res, ranked member dist k res /\ nearest member dist k res
    /\ ids = map fst res ++ repeat kInvalidId (k - length res).

(** The conditions anywhere in a filter. *)
Inductive has_condition (c : condition) : FilterModel.filter -> Prop :=
| in_conditions l cs subs : In c cs -> has_condition c (Filter l cs subs)
| in_sub l cs subs g : In g subs -> has_condition c g -> has_condition c (Filter l cs subs).
(** Operands that equality can be looked up for: not NaN, not a zero. *)
Definition lookup_safe (v : value) : Prop :=
  ScalarDataSpec.value_ok v /\ match v with VDouble b => dbl_val b <> DNan /\ dbl_val b <> DNum 0 | _ => True end.
Definition condition_safe (c : condition) : Prop := lookup_safe (operand c) /\ Forall lookup_safe (operands c).
