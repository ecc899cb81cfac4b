(** Properties C09, C10, C11 of the stored records. *)
From Coq Require Import String.
From Verif Require Import ScalarDataModel ScalarDataSpec ScalarDataProofs.

(** C09.  Decoding gives the record back and consumes exactly the bytes of the
    record, whatever follows it in the buffer. *)
Theorem scalar_data_round_trip : forall r extra,
  storable r ->
  deserialize_with_offset (serialize r ++ extra) = Ok (r, N.of_nat (serialized_size r)).
Proof. intros r extra H. rewrite <- serialized_size_lemma. exact (round_trip_offset_lemma r extra H). Qed.
Print Assumptions scalar_data_round_trip.

(** C09.  serialized_size is the length of the serialized text. *)
Theorem serialized_size_exact : forall r, length (serialize r) = serialized_size r.
Proof. exact serialized_size_lemma. Qed.
Print Assumptions serialized_size_exact.

Definition ex_record : scalar_data :=
  {| item_id := str "id-1"; document := [0; 255; 10]%N;
     meta := [(str "price", VDouble 0x7FF8000000000001); (str "n", VInt (- 2 ^ 63)%Z);
              (str "", VStr []); (str "tag", VStr (str "a_b")); (str "ok", VBool true)] |}.
Example ex_record_storable : storable ex_record.
Proof.
  constructor; try reflexivity.
  - repeat constructor; cbn; intuition discriminate.
  - intros k v H. cbn in H.
    repeat (destruct H as [H|H]; [inversion H; subst; split; [reflexivity|cbn; try exact I; try reflexivity;
      unfold int64_range; lia]|]); destruct H.
Qed.

(** C10.  No decoder reads outside the buffer, for any bytes. *)
Theorem scalar_data_decoders_in_bounds : forall (data : bytes) (required : list bytes) (field : bytes),
  in_bounds (deserialize data)
  /\ in_bounds (deserialize_selected_metadata data required)
  /\ in_bounds (deserialize_single_metadata_value data field).
Proof.
  intros data req f. split; [apply deserialize_safe|]. split; [apply selected_safe|apply single_safe].
Qed.
Print Assumptions scalar_data_decoders_in_bounds.

(** C10: the claim that decoding arbitrary bytes returns a value or reports
    corruption is false: a bool whose stored byte is neither 0 nor 1 is copied
    into a bool object (undefined behaviour). *)
Theorem scalar_data_invalid_bool_refuted :
  exists data, deserialize data = InvalidBool
    /\ deserialize_single_metadata_value data (str "a") = InvalidBool.
Proof.
  exists ([0;0;0;0; 0;0;0;0; 1;0;0;0; 1;0;0;0; 97; 3; 2]%N). split; vm_compute; reflexivity.
Qed.
Print Assumptions scalar_data_invalid_bool_refuted.

Example in_bounds_example :
  deserialize [255; 255; 255; 255; 1]%N = Throws
  /\ deserialize [] = Throws
  /\ deserialize_single_metadata_value [0;0;0;0; 0;0;0;0; 9;0;0;0; 1;0;0;0; 98; 2; 9]%N (str "b") = Ok None.
Proof. repeat split; vm_compute; reflexivity. Qed.

(** C11.  The selected decoder returns exactly the requested fields. *)
Theorem selected_metadata_agrees : forall r required,
  storable r -> NoDup required ->
  exists m, deserialize_selected_metadata (serialize r) required = Ok m
    /\ NoDup (map fst m)
    /\ forall k v, In (k, v) m <-> In k required /\ In (k, v) (meta r).
Proof.
  intros r req S NR. exists (selected req (meta r)). split; [now apply selected_lemma|].
  split; [apply selected_nodup; apply S|]. intros k v. unfold selected. rewrite filter_In.
  cbn [fst]. rewrite contains_In. tauto.
Qed.
Print Assumptions selected_metadata_agrees.

Example selected_metadata_example :
  deserialize_selected_metadata (serialize ex_record) [str "ok"; str "zz"; str "n"]
  = Ok [(str "n", VInt (- 2 ^ 63)%Z); (str "ok", VBool true)].
Proof. vm_compute. reflexivity. Qed.

(** C11 for one field, except the field with the empty name. *)
Theorem single_metadata_agrees_partial : forall r field,
  storable r -> field <> [] ->
  deserialize_single_metadata_value (serialize r) field = Ok (meta_find field (meta r)).
Proof. exact single_lemma. Qed.
Print Assumptions single_metadata_agrees_partial.

Example single_metadata_example :
  deserialize_single_metadata_value (serialize ex_record) (str "tag") = Ok (Some (VStr (str "a_b"))).
Proof. vm_compute. reflexivity. Qed.

(** C11 is false for the empty field name: it is reported absent. *)
Theorem single_metadata_empty_name_refuted :
  exists r v, storable r /\ meta_find [] (meta r) = Some v
    /\ deserialize_single_metadata_value (serialize r) [] = Ok None.
Proof. exists ex_record. eexists. split; [apply ex_record_storable|]. split; vm_compute; reflexivity. Qed.
Print Assumptions single_metadata_empty_name_refuted.
