(** include/index/graph/hnsw/visited_list_pool.hpp: the lists in which an HNSW
    construction notes the nodes a search has visited.

    Simplifications: memory holds as many lists as are asked for; the
    destructors (34, 77-83) are not modelled.  A search is known by the
    order of its call of get_free_visited_list. *)
From Verif Require Export Bytes Arr ScalarDataModel.
Import ListNotations.

(** class VisitedList, 15-19; vl_type is uint16_t, 13 *)
Record vlist := { v_cur : N; v_mass : list N }.
(** VisitedList(numelements), 21-25: cur_v_ = -1; [junk] is what the memory
    obtained from new[] holds *)
Definition vl_new (n : nat) (junk : nat -> N) : vlist :=
  {| v_cur := 65535; v_mass := map (fun i => junk i mod 65536)%N (seq 0 n) |}.
(** reset, 27-33 *)
Definition vl_reset (v : vlist) : vlist :=
  let cur := ((v_cur v + 1) mod 65536)%N in
  if N.eqb cur 0 then {| v_cur := (cur + 1) mod 65536; v_mass := repeat 0%N (length (v_mass v)) |}
  else {| v_cur := cur; v_mass := v_mass v |}.

(** A search has taken a list from the pool; the list is also reset; the list
    is given back. *)
Inductive handle := Taken (l : N) | Ready (l : N) | Released.
(** VisitedListPool, 43-46: all lists, the deque of free ones, and which
    search has which list *)
Record pool := { vp_lists : list vlist; vp_free : list N; vp_handles : list handle }.
(** The constructor, 49-54: [k] lists, each put in front *)
Fixpoint vp_fill (k : nat) (n : nat) (junk : nat -> nat -> N) (s : pool) : pool :=
  match k with
  | O => s
  | S k' => vp_fill k' n junk {| vp_lists := vp_lists s ++ [vl_new n (junk (length (vp_lists s)))];
                                 vp_free := N.of_nat (length (vp_lists s)) :: vp_free s; vp_handles := vp_handles s |}
  end.
Definition vp_new (k n : nat) (junk : nat -> nat -> N) : pool := vp_fill k n junk {| vp_lists := []; vp_free := []; vp_handles := [] |}.

Inductive vop :=
| Take                       (** the locked part of get_free_visited_list, 59-66 *)
| Reset (h : N)              (** rez->reset(), 67, without the lock *)
| Mark (h : N) (id : N)      (** visited_array[id] = visited_array_tag, hnswlib.hpp 389, 443 *)
| Seen (h : N) (id : N)      (** visited_array[id] == visited_array_tag, hnswlib.hpp 439 *)
| Release (h : N).           (** release_visited_list, 71-74 *)

(** One step of some search; Seen has an answer. *)
Definition vstep (n : nat) (junk : nat -> nat -> N) (s : pool) (o : vop) : res (pool * option bool) :=
  match o with
  | Take =>
      match vp_free s with
      | l :: free => Ok ({| vp_lists := vp_lists s; vp_free := free; vp_handles := vp_handles s ++ [Taken l] |}, None)
      | [] => let l := N.of_nat (length (vp_lists s)) in
              Ok ({| vp_lists := vp_lists s ++ [vl_new n (junk (length (vp_lists s)))]; vp_free := [];
                     vp_handles := vp_handles s ++ [Taken l] |}, None)
      end
  | Reset h =>
      let* x := aget (vp_handles s) h in
      match x with
      | Taken l => let* v := aget (vp_lists s) l in
                   let* lists := aput (vp_lists s) l (vl_reset v) in
                   let* handles := aput (vp_handles s) h (Ready l) in
                   Ok ({| vp_lists := lists; vp_free := vp_free s; vp_handles := handles |}, None)
      | _ => OutOfBounds
      end
  | Mark h id =>
      let* x := aget (vp_handles s) h in
      match x with
      | Ready l => let* v := aget (vp_lists s) l in
                   let* mass := aput (v_mass v) id (v_cur v) in
                   let* lists := aput (vp_lists s) l {| v_cur := v_cur v; v_mass := mass |} in
                   Ok ({| vp_lists := lists; vp_free := vp_free s; vp_handles := vp_handles s |}, None)
      | _ => OutOfBounds
      end
  | Seen h id =>
      let* x := aget (vp_handles s) h in
      match x with
      | Ready l => let* v := aget (vp_lists s) l in
                   let* m := aget (v_mass v) id in
                   Ok (s, Some (N.eqb m (v_cur v)))
      | _ => OutOfBounds
      end
  | Release h =>
      let* x := aget (vp_handles s) h in
      match x with
      | Ready l => let* handles := aput (vp_handles s) h Released in
                   Ok ({| vp_lists := vp_lists s; vp_free := l :: vp_free s; vp_handles := handles |}, None)
      | _ => OutOfBounds
      end
  end.
(** The steps of all searches in the order in which they happen; the answers
    of the Seen steps. *)
Fixpoint vrun (n : nat) (junk : nat -> nat -> N) (s : pool) (ops : list vop) : res (pool * list bool) :=
  match ops with
  | [] => Ok (s, [])
  | o :: rest => let* a := vstep n junk s o in
                 let* b := vrun n junk (fst a) rest in
                 Ok (fst b, match snd a with Some x => x :: snd b | None => snd b end)
  end.
