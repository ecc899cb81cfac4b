(** Searching a disk collection: search of DiskCollection
    (include/index/disk/disk_collection.hpp 657-668, 1036-1106) and of
    DiskFlatSegmentSearcher (include/index/disk/disk_flat_searcher.hpp 117-205).

    A distance is an integer ordered like the floats, or NaN.  (The code can be
    compiled with -Ofast, where isnan need not work; here it does.)  Left out:
    disk_laser. *)
From Verif Require Export Bytes ScalarDataModel.

(** A float: [None] is NaN *)
Definition float := option Z.
(** a == b and a < b of two floats: false with NaN *)
Definition feqb (a b : float) : bool := match a, b with Some x, Some y => Z.eqb x y | _, _ => false end.
Definition fltb (a b : float) : bool := match a, b with Some x, Some y => Z.ltb x y | _, _ => false end.
Definition isnan (a : float) : bool := match a with None => true | _ => false end.
(** A DiskSearchHit: label and distance *)
Notation hit := (N * float)%type.

(** The algorithms of the C++ library, each with the comparison it is given.
    Which ones they are is not fixed here; CollSearchSpec.v states what the
    standard demands. *)
Record std_lib := {
  push_heap : forall A, (A -> A -> bool) -> list A -> list A;
  pop_heap : forall A, (A -> A -> bool) -> list A -> list A;
  sort : forall A, (A -> A -> bool) -> list A -> list A;
}.
Arguments push_heap _ {A}.
Arguments pop_heap _ {A}.
Arguments sort _ {A}.

(** cmp, disk_flat_searcher.hpp 178-183 *)
Definition flat_less (a b : hit) : bool := if negb (feqb (snd a) (snd b)) then fltb (snd a) (snd b) else N.ltb (fst a) (fst b).
(** The body of the loop over the rows, 188-200: heap.front() and heap.back() need
    a non-empty vector *)
Definition flat_insert (lib : std_lib) (k : nat) (heap : list hit) (h : hit) : res (list hit) :=
  if Nat.ltb (length heap) k then Ok (push_heap lib flat_less (heap ++ [h]))
  else match heap with
       | [] => OutOfBounds
       | front :: _ =>
           if flat_less h front then
             match pop_heap lib flat_less heap with
             | [] => OutOfBounds
             | popped => Ok (push_heap lib flat_less (removelast popped ++ [h]))
             end
           else Ok heap
       end.
Fixpoint flat_scan (lib : std_lib) (k : nat) (heap rows : list hit) : res (list hit) :=
  match rows with
  | [] => Ok heap
  | h :: rest => let* heap' := flat_insert lib k heap h in flat_scan lib k heap' rest
  end.
(** search of DiskFlatSegmentSearcher, 117-205, on the labels and distances of the
    rows.  [good]: the checks of the query, 125-137, and of its norm, 142-157. *)
Definition flat_search (lib : std_lib) (good : bool) (rows : list hit) (top_k : nat) : res (list hit) :=
  if Nat.eqb top_k 0 then Throws
  else if negb good then Throws
  else let* heap := flat_scan lib (Nat.min top_k (length rows)) [] rows in Ok (sort lib flat_less heap).

(** disk_search_distance_less and disk_search_distance_equal_for_order,
    disk_collection.hpp 657-668 *)
Definition distance_less (a b : float) : bool := if isnan a || isnan b then negb (isnan a) && isnan b else fltb a b.
Definition distance_equal (a b : float) : bool := (isnan a && isnan b) || feqb a b.
(** The comparison of one segment, 1053-1058 *)
Definition hit_less (a b : hit) : bool := if negb (distance_equal (snd a) (snd b)) then distance_less (snd a) (snd b) else N.ltb (fst a) (fst b).
(** A Tagged: the hit and segment_index, 1065-1069 (the rank is only used with
    disk_laser) and the comparison, 1083-1097 *)
Notation tagged := (hit * N)%type.
Definition tagged_less (a b : tagged) : bool :=
  if negb (distance_equal (snd (fst a)) (snd (fst b))) then distance_less (snd (fst a)) (snd (fst b))
  else if negb (N.eqb (fst (fst a)) (fst (fst b))) then N.ltb (fst (fst a)) (fst (fst b))
  else N.ltb (snd a) (snd b).
(** The loop over the segments, 1074-1079: segment_index is a uint32_t, and there
    are less than 2^32 segments.  A segment is given by its search. *)
Fixpoint gather (segments : list (nat -> res (list hit))) (top_k : nat) (s : N) : res (list tagged) :=
  match segments with
  | [] => Ok []
  | seg :: rest => let* hits := seg top_k in let* more := gather rest top_k (s + 1)%N in Ok (map (fun h => (h, s)) hits ++ more)
  end.
(** search of DiskCollection, 1036-1106 *)
Definition search_segments (lib : std_lib) (segments : list (nat -> res (list hit))) (top_k : nat) : res (list hit) :=
  if Nat.eqb top_k 0 then Throws
  else match segments with
       | [] => Ok []
       | [seg] => let* hits := seg top_k in Ok (firstn top_k (sort lib hit_less hits))
       | _ => let* all := gather segments top_k 0%N in Ok (map fst (firstn (Nat.min top_k (length all)) (sort lib tagged_less all)))
       end.
(** search of a collection of flat segments: the labels and distances of the rows
    of each *)
Definition search_flat (lib : std_lib) (good : bool) (segments : list (list hit)) (top_k : nat) : res (list hit) :=
  search_segments lib (map (flat_search lib good) segments) top_k.
