(** What searching a disk collection should return. *)
From Coq Require Export Permutation Sorting.Sorted.
From Verif Require Export CollSearchModel.

(** ** The C++ library *)

(** A strict weak ordering of the elements of a list: the standard's condition on
    the comparison. *)
Record weak_order {A} (less : A -> A -> bool) (l : list A) : Prop := {
  wo_irreflexive : forall a, In a l -> less a a = false;
  wo_transitive : forall a b c, In a l -> In b l -> In c l -> less a b = true -> less b c = true -> less a c = true;
  wo_incomparable : forall a b c, In a l -> In b l -> In c l -> less a b = false -> less b c = false -> less a c = false;
}.
(** No element is smaller than one of its children. *)
Definition heap {A} (less : A -> A -> bool) (l : list A) : Prop :=
  forall i a b, 0 < i -> nth_error l ((i - 1) / 2) = Some a -> nth_error l i = Some b -> less a b = false.
(** What the standard says of std::push_heap, std::pop_heap and std::sort. *)
Record std_lib_ok (lib : std_lib) : Prop := {
  push_ok : forall A less l (x : A), weak_order less (l ++ [x]) -> heap less l ->
    Permutation (l ++ [x]) (push_heap lib less (l ++ [x])) /\ heap less (push_heap lib less (l ++ [x]));
  pop_ok : forall A less front (l : list A), weak_order less (front :: l) -> heap less (front :: l) ->
    exists l', pop_heap lib less (front :: l) = l' ++ [front] /\ Permutation l l' /\ heap less l';
  sort_ok : forall A less (l : list A), weak_order less l ->
    Permutation l (sort lib less l) /\ StronglySorted (fun a b => less b a = false) (sort lib less l);
}.

(** ** The best hits *)

(** Smaller distances come first, NaN last, then by label. *)
Definition before (a b : hit) : Prop :=
  match snd a, snd b with
  | Some x, Some y => (x < y)%Z \/ x = y /\ (fst a < fst b)%N
  | Some _, None => True
  | None, Some _ => False
  | None, None => (fst a < fst b)%N
  end.
(** [out] is made of the [k] first of the rows, in order. *)
Definition best (k : nat) (rows out : list hit) : Prop :=
  exists left_out, Permutation rows (out ++ left_out)
    /\ length out = Nat.min k (length rows)
    /\ StronglySorted (fun a b => ~ before b a) out
    /\ forall a b, In a out -> In b left_out -> ~ before b a.
(** A distance that is a number *)
Definition numeric (h : hit) : Prop := snd h <> None.
