(** What it means for a record to be storable, and for a decoder to be safe. *)
From Verif Require Import ScalarDataModel.

(** The C++ ranges: a length or count is written as a uint32_t; int64_t and
    double are 64 bits wide. *)
Definition fits_u32 {A} (l : list A) : Prop := (N.of_nat (length l) < 2 ^ 32)%N.
Definition int64_range (z : Z) : Prop := (- 2 ^ 63 <= z < 2 ^ 63)%Z.
Definition value_ok (v : value) : Prop :=
  match v with
  | VInt z => int64_range z
  | VDouble b => (b < 2 ^ 64)%N
  | VStr s => fits_u32 s
  | VBool _ => True
  end.

(** A record all of whose parts fit; metadata keys are distinct because the
    metadata is a map. *)
Record storable (r : scalar_data) : Prop := {
  st_id : fits_u32 (item_id r);
  st_doc : fits_u32 (document r);
  st_count : fits_u32 (meta r);
  st_nodup : NoDup (map fst (meta r));
  st_entries : forall k v, In (k, v) (meta r) -> fits_u32 k /\ value_ok v;
}.

(** A decoder result that did not read outside the buffer. *)
Definition in_bounds {A} (x : res A) : Prop := x <> OutOfBounds.
