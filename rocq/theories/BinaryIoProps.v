(** Properties C58 (binary reader and writer) and C61 (log payloads). *)
From Coq Require Import String.
From Verif Require Import BinaryIoModel BinaryIoSpec ScalarDataSpec BinaryIoProofs ScalarDataProps.

(** C58.  Reading back the kinds in the order written gives the written values
    and consumes exactly the written bytes, whatever follows. *)
Theorem binary_io_round_trip : forall l extra,
  Forall item_ok l -> total_size (write_items l ++ extra) ->
  read_items (map kind_of l) (new_reader (write_items l ++ extra)) =
  Ok (l, true, {| rd_data := write_items l ++ extra; rd_offset := N.of_nat (length (write_items l)) |}).
Proof. exact items_round_trip. Qed.
Print Assumptions binary_io_round_trip.

(** C58.  On any bytes and any sequence of reads, no read leaves the buffer
    and the offset never passes its end. *)
Theorem binary_io_reads_in_bounds : forall ks data,
  total_size data ->
  exists l ok r, read_items ks (new_reader data) = Ok (l, ok, r)
    /\ rd_data r = data /\ (rd_offset r <= N.of_nat (length data))%N.
Proof.
  intros ks data T.
  destruct (read_items_safe ks (new_reader data)) as (l & ok & r & E & S1 & S2 & S3).
  - split; [cbn; lia|exact T].
  - exists l, ok, r. split; [exact E|]. split; [exact S1|]. destruct S3 as [S3 _]. now rewrite S1 in S3.
Qed.
Print Assumptions binary_io_reads_in_bounds.

(** C58.  Reading from a strict prefix of the written bytes reports a missing
    item, and the items before it are those written. *)
Theorem binary_io_truncated : forall l n,
  Forall item_ok l -> total_size (write_items l) -> n < length (write_items l) ->
  exists l1 l2 r, l = l1 ++ l2 /\ l2 <> []
    /\ read_items (map kind_of l) (new_reader (firstn n (write_items l))) = Ok (l1, false, r).
Proof. exact items_truncated_lemma. Qed.
Print Assumptions binary_io_truncated.

Example binary_io_example :
  let l := [U32 200; Str (str "ab"); U64 (2 ^ 64 - 1); Fixed [1; 2; 3]%N; U8 255; Str []]%N in
  Forall item_ok l /\ total_size (write_items l ++ [7]%N)
  /\ length (write_items l) = 34
  /\ (exists r, read_items (map kind_of l) (new_reader (firstn 13 (write_items l))) = Ok ([U32 200%N], false, r)).
Proof.
  cbv zeta. split; [repeat constructor|]. split; [vm_compute; reflexivity|]. split; [reflexivity|].
  eexists. vm_compute. reflexivity.
Qed.

(** The reader's own comment (binary_io.hpp:73) says a failed read leaves the
    offset unchanged; a string whose bytes are missing moves it by 8. *)
Theorem binary_io_failed_read_moves_offset_refuted :
  exists data r, read_string (new_reader data) = Ok (None, r)
    /\ rd_offset r <> rd_offset (new_reader data).
Proof.
  exists [5; 0; 0; 0; 0; 0; 0; 0; 1]%N. eexists. split; [vm_compute; reflexivity|vm_compute; discriminate].
Qed.
Print Assumptions binary_io_failed_read_moves_offset_refuted.

(** C61.  What the log payload of an operation decodes to at replay is what
    was encoded when the operation was logged. *)
Theorem insert_payload_round_trip : forall vec ef sd,
  (ef < 2 ^ 32)%N -> storable sd ->
  (N.of_nat (length vec) + N.of_nat (serialized_size sd) < 2 ^ 63)%N ->
  decode_insert_like (N.of_nat (length vec)) (encode_insert_like_payload vec ef sd)
  = Ok (ReplayInsertLike vec ef sd).
Proof. exact insert_payload_lemma. Qed.
Print Assumptions insert_payload_round_trip.

Theorem remove_item_payload_round_trip : forall id,
  (N.of_nat (length id) < 2 ^ 63)%N ->
  decode_remove_item (encode_remove_item_payload id) = Ok (ReplayRemoveItem id).
Proof. exact remove_item_payload_lemma. Qed.
Print Assumptions remove_item_payload_round_trip.

Theorem remove_internal_payload_round_trip : forall id,
  (id < 2 ^ 64)%N ->
  decode_remove_internal (encode_remove_internal_payload id) = Ok (ReplayRemoveInternal id).
Proof. exact remove_internal_payload_lemma. Qed.
Print Assumptions remove_internal_payload_round_trip.

Example payload_example :
  decode_insert_like 4 (encode_insert_like_payload [1; 2; 3; 4]%N 100 ex_record)
  = Ok (ReplayInsertLike [1; 2; 3; 4]%N 100 ex_record)
  /\ decode_insert_like 8 (encode_insert_like_payload [1; 2; 3; 4]%N 100 ex_record) = Throws.
Proof. split; vm_compute; reflexivity. Qed.
