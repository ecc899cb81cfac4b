(** What a client promises about its collections and indices. *)
From Coq Require Import String.
From Verif Require Export ClientModel.
Import ListNotations.
Open Scope string_scope.
Open Scope list_scope.

(** A name without slashes, not empty, "." or "..". *)
Definition plain (s : string) : Prop := s <> "" /\ s <> "." /\ s <> "..".
(** An absolute directory, written with plain names. *)
Definition plain_url (url : text) (dir : path) : Prop := url = "" :: dir /\ dir <> [] /\ Forall plain dir.

(** The objects of a client by name, what is kept on disk under a name, and
    whether there is a scalar database under it. *)
Inductive object := Coll (items : option (list N)) | Ind (items : option (list N)).
Record shelf := { live : string -> option object; kept : string -> option (kind * list N); database : string -> bool }.
Definition set {A} (f : string -> A) (s : string) (x : A) : string -> A := fun t => if String.eqb s t then x else f t.
Definition empty_shelf : shelf := {| live := fun _ => None; kept := fun _ => None; database := fun _ => false |}.
Definition reopened (k : option (kind * list N)) : option object :=
  match k with Some (KCollection, l) => Some (Coll (Some l)) | Some (KIndex, l) => Some (Ind (Some l)) | None => None end.
Definition drop (b : shelf) (s : string) (on_disk : bool) : shelf :=
  {| live := set (live b) s None; kept := if on_disk then set (kept b) s None else kept b;
     database := if on_disk then set (database b) s false else database b |}.

(** What a call should do; None: it raises. *)
Definition should (b : shelf) (k : call) : option shelf :=
  match k with
  | CreateCollection [s] _ =>
      match live b s with Some _ => None | None => Some {| live := set (live b) s (Some (Coll None)); kept := kept b; database := database b |} end
  | CreateIndex [s] =>
      match live b s with Some _ => None | None => Some {| live := set (live b) s (Some (Ind None)); kept := kept b; database := database b |} end
  | Insert [s] items =>
      match live b s, items with
      | Some (Coll _), [] => Some b
      (* the first items: refused if a deleted collection left its database *)
      | Some (Coll None), _ =>
          if database b s then None
          else Some {| live := set (live b) s (Some (Coll (Some items))); kept := set (kept b) s (Some (KCollection, items)); database := set (database b) s true |}
      (* more items: kept at once, without saving *)
      | Some (Coll (Some old)), _ =>
          Some {| live := set (live b) s (Some (Coll (Some (old ++ items)))); kept := set (kept b) s (Some (KCollection, old ++ items)); database := database b |}
      | _, _ => None
      end
  | Fit [s] items =>
      match live b s with
      | Some (Ind None) => Some {| live := set (live b) s (Some (Ind (Some items))); kept := kept b; database := database b |}
      | _ => None
      end
  | SaveCollection [s] => match live b s with Some (Coll (Some _)) => Some b | _ => None end
  | SaveIndex [s] =>
      match live b s with
      | Some (Ind (Some items)) => Some {| live := live b; kept := set (kept b) s (Some (KIndex, items)); database := database b |}
      | _ => None
      end
  | DeleteCollection [s] on_disk => match live b s with Some (Coll _) => Some (drop b s on_disk) | _ => None end
  | DeleteIndex [s] on_disk => match live b s with Some (Ind _) => Some (drop b s on_disk) | _ => None end
  | Reset on_disk =>
      let gone s := match live b s with Some _ => on_disk | None => false end in
      Some {| live := fun _ => None; kept := fun s => if gone s then None else kept b s; database := fun s => if gone s then false else database b s |}
  | Reopen => Some {| live := fun s => reopened (kept b s); kept := kept b; database := database b |}
  | _ => None
  end.
Fixpoint should_all (b : shelf) (ks : list call) : shelf * list bool :=
  match ks with
  | [] => (b, [])
  | k :: rest => match should b k with
                 | Some b' => let '(b2, l) := should_all b' rest in (b2, true :: l)
                 | None => let '(b2, l) := should_all b rest in (b2, false :: l)
                 end
  end.

(** Calls with plain names and the default place for the database. *)
Definition plain_call (k : call) : Prop :=
  match k with
  | CreateCollection n db => (exists s, n = [s] /\ plain s) /\ db = [""]
  | CreateIndex n | Insert n _ | Fit n _ | SaveCollection n | SaveIndex n | DeleteCollection n _ | DeleteIndex n _ => exists s, n = [s] /\ plain s
  | Reset _ | Reopen => True
  end.
(** What get_collection and get_index show under a name. *)
Definition shown (c : client) (name : text) : option object :=
  match assoc (cl_collections c) name, assoc (cl_indices c) name with
  | Some col, None => Some (Coll (c_items col))
  | None, Some i => Some (Ind i)
  | _, _ => None
  end.
Definition fresh_client (url : text) : client := {| cl_url := Some url; cl_collections := []; cl_indices := [] |}.
(** A name is not given to a collection and an index, nor twice. *)
Definition names_unique (c : client) : Prop := NoDup (map fst (cl_collections c) ++ map fst (cl_indices c)).
