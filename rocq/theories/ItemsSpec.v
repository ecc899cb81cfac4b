(** What a collection of items should be: a map from item ids to vectors and
    records. *)
From Verif Require Export ItemsModel.
From Verif Require UpdateSpec StorageSpec ScalarDataSpec.

Local Notation record := ScalarDataModel.scalar_data.
Local Notation vec := UpdateModel.vec.
Local Notation item_id := ScalarDataModel.item_id.

(** The item has this vector, not removed, and this record. *)
Definition holds (st : items) (item : bytes) (v : vec) (r : record) : Prop :=
  item <> [] /\ item_id r = item /\ exists id, StorageSpec.live (i_store st) id r
    /\ UpdateSpec.live (i_job st) id /\ nth_error (UpdateModel.u_vecs (i_job st)) (N.to_nat id) = Some v.
(** The same items with the same contents. *)
Definition same (st st' : items) : Prop := forall item v r, holds st' item v r <-> holds st item v r.
(** Item [item] now has [v] and [r]; the others are as before. *)
Definition put (item : bytes) (v : vec) (r : record) (st st' : items) : Prop := forall item' v' r',
  holds st' item' v' r' <-> (item' = item /\ item <> [] /\ v' = v /\ r' = r) \/ (item' <> item /\ holds st item' v' r').
(** Item [item] is gone; the others are as before. *)
Definition gone (item : bytes) (st st' : items) : Prop := forall item' v' r',
  holds st' item' v' r' <-> item' <> item /\ holds st item' v' r'.
(** The vector of item [item] is removed; the others are as live as before. *)
Definition vector_gone (item : bytes) (st st' : items) : Prop := forall id, N.to_nat id < UpdateSpec.size (i_job st) ->
  (UpdateSpec.live (i_job st') id <-> UpdateSpec.live (i_job st) id /\ ~ (item <> [] /\ exists r, StorageSpec.live (i_store st) id r /\ item_id r = item)).

(** A collection after its first batch, or loaded: a built graph, a scalar
    storage with some history, and a vector for each of its rows. *)
Definition good_start (c : UpdateModel.conf) (fields : list bytes) (st : items) : Prop :=
  UpdateSpec.built c (i_job st) /\ (exists ops, StorageSpec.reached fields ops (i_store st))
  /\ forall id r, StorageSpec.live (i_store st) id r -> UpdateSpec.live (i_job st) id.
Definition event_ok (e : event) : Prop :=
  match e with
  | EInsert _ _ r h _ => ScalarDataSpec.storable r /\ UpdateSpec.order_ok h
  | EUpsert _ _ r h h2 _ _ => ScalarDataSpec.storable r /\ UpdateSpec.order_ok h /\ UpdateSpec.order_ok h2
  | EDelete _ => True
  end.
Inductive after (fuel : nat) (c : UpdateModel.conf) (fields : list bytes) : items -> Prop :=
| after_start st : good_start c fields st -> after fuel c fields st
| after_event st e out st' : after fuel c fields st -> event_ok e -> perform fuel c st e = Done (Ok (out, st')) -> after fuel c fields st'.
(** All slots are used, live or not. *)
Definition full (c : UpdateModel.conf) (st : items) : Prop := UpdateSpec.size (i_job st) = UpdateModel.k_cap c.
(** No removed node is without recorded neighbours (UpdateSpec.v). *)
Definition no_sink (st : items) : Prop := forall x, ~ UpdateSpec.sink (i_job st) x.
