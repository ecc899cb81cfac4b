(** Properties C15, C16 and C18 to C22: the scalar storage. *)
From Coq Require Import String.
From Verif Require Import StorageModel StorageSpec ScalarDataSpec ScalarDataProofs FilterSpec FilterProofs IndexEncodingProofs
  StorageProofs StorageQueryProofs.

(** Every history of operations behaves as on the table of StorageSpec.v: no
    operation throws, each gives the table's answer, and reading a row gives
    the row of the table. *)
Theorem storage_refines_table : forall fields ops, Forall op_ok ops ->
  exists s, run (empty_storage fields) ops = Ok (fst (spec_run [] ops), s)
    /\ forall id r, live s id r <-> row (snd (spec_run [] ops)) id = Some r.
Proof.
  intros fields ops H. destruct (history fields ops H) as (s & E & R & _). exists s. split; [exact E|].
  apply (live_row s _ R).
Qed.
Print Assumptions storage_refines_table.

Definition rec_a : scalar_data := {| item_id := str "a"; document := str "doc"; meta := [(str "x", VInt 3)] |}.
Definition rec_b : scalar_data := {| item_id := str "b"; document := []; meta := [(str "x", VStr (str "p")); (str "y", VBool true)] |}.
Definition rec_c : scalar_data := {| item_id := str "a"; document := []; meta := [(str "x", VInt (-5))] |}.
Definition ex_ops : list op :=
  [Insert 7 rec_a; InsertOldFormat 12 rec_b; Insert 3 rec_c; Update 7 rec_b; Remove 7; BatchInsert 4000000000 [rec_c; rec_a];
   Insert 3 rec_c; Remove 99; Reopen; Update 12 rec_b].
Lemma ex_ops_ok : Forall op_ok ex_ops.
Proof. apply op_okb_ok. vm_compute. reflexivity. Qed.
(** The third operation is refused (item id "a" is taken), as are the fourth,
    the batch (it repeats "a") and the removal of a missing row. *)
Example storage_example : fst (spec_run [] ex_ops) =
  [true; true; false; false; true; false; true; false; true; true]
  /\ map fst (snd (spec_run [] ex_ops)) = [12; 3]%N.
Proof. vm_compute. auto. Qed.

(** C18 *)
Theorem item_ids_unique : forall fields ops s, reached fields ops s ->
  (forall a b ra rb, live s a ra -> live s b rb -> item_id ra = item_id rb -> item_id ra <> [] -> a = b)
  /\ (forall item id, item <> [] ->
      (find_by_item_id (db s) item = Some id <-> exists r, live s id r /\ item_id r = item))
  /\ find_by_item_id (db s) [] = None.
Proof. exact item_ids_unique_lemma. Qed.
Print Assumptions item_ids_unique.

Example item_ids_example : exists s, reached [str "x"] ex_ops s
  /\ find_by_item_id (db s) (str "a") = Some 3%N /\ find_by_item_id (db s) (str "b") = Some 12%N.
Proof.
  destruct (run (empty_storage [str "x"]) ex_ops) as [[bs s]| | |] eqn:E; try (vm_compute in E; discriminate).
  exists s. split; [split; [exact ex_ops_ok|now exists bs]|]. vm_compute in E. inversion E. vm_compute. auto.
Qed.

(** C19.  The entries under "f_" are exactly the keys of the (indexed field
    present in a live row, row) pairs. *)
Theorem secondary_index_exact : forall fields ops s, reached fields ops s ->
  forall k v, In (str "f_" ++ k, v) (db s) <->
    v = [] /\ exists id r f w, live s id r /\ In f fields /\ In (f, w) (meta r)
              /\ str "f_" ++ k = make_field_index_key f (encode_value w) id.
Proof. exact secondary_index_lemma. Qed.
Print Assumptions secondary_index_exact.

(** With separated field names different pairs have different keys. *)
Theorem secondary_index_one_entry_partial : forall fields f w id f' w' id',
  fields_separated fields -> In f fields -> In f' fields -> value_ok w -> value_ok w' ->
  make_field_index_key f (encode_value w) id = make_field_index_key f' (encode_value w') id' ->
  f = f' /\ w = w' /\ id = id'.
Proof. exact index_key_inj. Qed.
Print Assumptions secondary_index_one_entry_partial.

Example fields_separated_example : fields_separated [str "a"; str "price_usd"; str "ab"; str ""].
Proof.
  intros f g rest Hf Hg E. apply (f_equal (starts_with (g ++ [us]))) in E. rewrite app_assoc, starts_with_app in E.
  cbn in Hf, Hg. intuition (subst; vm_compute in E; discriminate).
Qed.

(** In general two pairs of one row can share an entry: field "a" = "b_s_c"
    and field "a_s_b" = "c". *)
Theorem secondary_index_one_entry_refuted : exists fields ops s id r f w f' w',
  reached fields ops s /\ live s id r /\ In f fields /\ In f' fields
  /\ In (f, w) (meta r) /\ In (f', w') (meta r) /\ f <> f'
  /\ make_field_index_key f (encode_value w) id = make_field_index_key f' (encode_value w') id.
Proof.
  set (r := {| item_id := []; document := []; meta := [(str "a", VStr (str "b_s_c")); (str "a_s_b", VStr (str "c"))] |}).
  set (fields := [str "a"; str "a_s_b"]).
  assert (OK : Forall op_ok [Insert 1 r]).
  { constructor; [|constructor]. split; [lia|]. apply storableb_ok. vm_compute. reflexivity. }
  destruct (storage_refines_table fields _ OK) as (s & E & L).
  exists fields, [Insert 1 r], s, 1%N, r, (str "a"), (VStr (str "b_s_c")), (str "a_s_b"), (VStr (str "c")).
  split; [split; [exact OK|eauto]|]. split; [apply L; reflexivity|].
  repeat split; cbn; auto. discriminate.
Qed.
Print Assumptions secondary_index_one_entry_refuted.

(** C20 *)
Theorem row_count_exact : forall fields ops s, reached fields ops s ->
  exists ids, NoDup ids /\ (forall id, In id ids <-> is_valid s id = true) /\ cached_count s = N.of_nat (length ids).
Proof. exact row_count_lemma. Qed.
Print Assumptions row_count_exact.

Example row_count_example : exists s, reached [str "x"] ex_ops s /\ cached_count s = 2%N.
Proof.
  destruct (run (empty_storage [str "x"]) ex_ops) as [[bs s]| | |] eqn:E; try (vm_compute in E; discriminate).
  exists s. split; [split; [exact ex_ops_ok|now exists bs]|]. vm_compute in E. inversion E. reflexivity.
Qed.

(** C21 *)
Theorem row_keys : forall a b, (a < 2 ^ 32)%N -> (b < 2 ^ 32)%N ->
  (lex_lt (data_key a) (data_key b) <-> (a < b)%N)
  /\ (data_key a = data_key b -> a = b)
  /\ (data_key a = legacy_data_key b -> a = b)
  /\ parse_data_key (data_key a) = Ok (Some a)
  /\ parse_data_key (legacy_data_key a) = Ok (Some a).
Proof.
  intros a b Ha Hb. split; [|split; [apply data_key_inj|split; [apply data_legacy_inj|split]]].
  - rewrite <- bytes_cmp_lt, data_key_cmp by assumption. apply N.compare_lt_iff.
  - now apply parse_data_key_ok.
  - now apply parse_legacy_ok.
Qed.
Print Assumptions row_keys.
Example row_keys_example : data_key 42 = str "d_0000000042" /\ data_key 4294967295 = str "d_4294967295"
  /\ legacy_data_key 42 = str "d_42".
Proof. vm_compute. auto. Qed.

(** A text that parses as the key of row [id] is "d_" and a number equal to
    [id]; the keys of the other kinds do not parse. *)
Theorem other_keys_are_not_row_keys :
  (forall k id, parse_data_key k = Ok (Some id) ->
     exists digits, k = str "d_" ++ digits /\ digits <> [] /\ Forall (fun c => (48 <= c <= 57)%N) digits
       /\ fold_left (fun n c => 10 * n + (c - 48))%N digits 0%N = id)
  /\ (forall item, parse_data_key (item_id_index_key item) = Ok None)
  /\ (forall f w id, parse_data_key (make_field_index_key f w id) = Ok None)
  /\ parse_data_key count_key = Ok None.
Proof.
  split; [|repeat split]. intros k id H. apply parse_data_key_inv in H as (x & -> & Hx & D & _). exists x.
  split; [reflexivity|]. split; [exact Hx|]. now apply digits_fold.
Qed.
Print Assumptions other_keys_are_not_row_keys.

(** C22.  [L] lists the live rows that satisfy the predicate by increasing id;
    the scan returns its first [limit] elements, all of it for limit 0. *)
Theorem scan_exact : forall fields ops s fn limit, reached fields ops s ->
  exists L, StronglySorted (fun a b => (fst a < fst b)%N) L
    /\ (forall id r, In (id, r) L <-> live s id r /\ fn r = true)
    /\ scan_with_filter s fn limit = Ok (if Nat.eqb limit 0 then L else firstn limit L).
Proof. exact scan_lemma. Qed.
Print Assumptions scan_exact.

Example scan_example : exists s, reached [str "x"] ex_ops s
  /\ scan_with_filter s (fun _ => true) 1 = Ok [(3%N, rec_c)]
  /\ scan_with_filter s (fun r => match document r with [] => true | _ => false end) 0 = Ok [(3%N, rec_c); (12%N, rec_b)].
Proof.
  destruct (run (empty_storage [str "x"]) ex_ops) as [[bs s]| | |] eqn:E; try (vm_compute in E; discriminate).
  exists s. split; [split; [exact ex_ops_ok|now exists bs]|]. vm_compute in E. inversion E. vm_compute. auto.
Qed.

(** C15.  With separated field names the lookup returns, each once, the rows
    whose value is the one looked up or a string that extends it with '_'.
    Missing from the full claim: the second kind of row must not be returned. *)
Theorem equality_lookup_partial : forall fields ops s field v, reached fields ops s ->
  fields_separated fields -> In field fields -> value_ok v ->
  exists ids, get_ids_by_field_value s field v = Ok ids /\ NoDup ids
    /\ forall id, In id ids <-> exists r w, live s id r /\ In (field, w) (meta r) /\ (w = v \/ extends_str v w).
Proof. exact equality_lookup_lemma. Qed.
Print Assumptions equality_lookup_partial.

Example equality_lookup_example : exists s, reached [str "x"] ex_ops s
  /\ get_ids_by_field_value s (str "x") (VStr (str "p")) = Ok [12%N]
  /\ get_ids_by_field_value s (str "x") (VInt (-5)) = Ok [3%N].
Proof.
  destruct (run (empty_storage [str "x"]) ex_ops) as [[bs s]| | |] eqn:E; try (vm_compute in E; discriminate).
  exists s. split; [split; [exact ex_ops_ok|now exists bs]|]. vm_compute in E. inversion E. vm_compute. auto.
Qed.

(** The claim is false: looking up "x" also returns the row holding "x_y", and
    with fields "a" and "a_s_b" looking up a = "b" returns a row without field
    "a". *)
Theorem equality_lookup_refuted :
  (exists ops s id r, reached [str "a"] ops s
    /\ get_ids_by_field_value s (str "a") (VStr (str "x")) = Ok [id]
    /\ live s id r /\ In (str "a", VStr (str "x_y")) (meta r) /\ length (meta r) = 1)
  /\ (exists ops s id r, reached [str "a"; str "a_s_b"] ops s
    /\ get_ids_by_field_value s (str "a") (VStr (str "b")) = Ok [id]
    /\ live s id r /\ ~ In (str "a") (map fst (meta r))).
Proof.
  assert (W : forall fields f w, storableb {| item_id := []; document := []; meta := [(f, w)] |} = true ->
     let r := {| item_id := []; document := []; meta := [(f, w)] |} in
     exists s, reached fields [Insert 1 r] s /\ live s 1 r /\ run (empty_storage fields) [Insert 1 r] = Ok ([true], s)).
  { intros fields f w Hw r. assert (OK : Forall op_ok [Insert 1 r]).
    { constructor; [|constructor]. split; [lia|]. now apply storableb_ok. }
    destruct (storage_refines_table fields _ OK) as (s & E & L). exists s. split; [split; [exact OK|eauto]|].
    split; [apply L; reflexivity|exact E]. }
  split.
  - destruct (W [str "a"] (str "a") (VStr (str "x_y"))) as (s & R & L & E); [vm_compute; reflexivity|].
    eexists _, s, 1%N, _. split; [exact R|]. split; [|split; [exact L|split; [now left|reflexivity]]].
    vm_compute in E. inversion E. vm_compute. reflexivity.
  - destruct (W [str "a"; str "a_s_b"] (str "a_s_b") (VInt 5)) as (s & R & L & E); [vm_compute; reflexivity|].
    eexists _, s, 1%N, _. split; [exact R|]. split; [|split; [exact L|]].
    + vm_compute in E. inversion E. vm_compute. reflexivity.
    + cbn. intros [H|[]]. discriminate.
Qed.
Print Assumptions equality_lookup_refuted.

(** C16, integers: exact for separated field names. *)
Theorem int_range_lookup_partial : forall fields ops s field lo hi, reached fields ops s ->
  fields_separated fields -> In field fields -> int64_range lo -> int64_range hi ->
  exists ids, get_ids_by_int_range s field lo hi = Ok ids /\ NoDup ids
    /\ forall id, In id ids <-> exists r z, live s id r /\ In (field, VInt z) (meta r) /\ (lo <= z <= hi)%Z.
Proof. exact int_range_lemma. Qed.
Print Assumptions int_range_lookup_partial.

(** C16, doubles: exact for separated field names and bounds that are numbers,
    except a lower bound +0.0 and an upper bound -0.0. *)
Theorem double_range_lookup_partial : forall fields ops s field lo hi, reached fields ops s ->
  fields_separated fields -> In field fields -> (lo < 2 ^ 64)%N -> (hi < 2 ^ 64)%N ->
  dbl_val lo <> DNan -> dbl_val hi <> DNan -> lo <> 0%N -> hi <> (2 ^ 63)%N ->
  exists ids, get_ids_by_double_range s field lo hi = Ok ids /\ NoDup ids
    /\ forall id, In id ids <-> exists r b, live s id r /\ In (field, VDouble b) (meta r)
         /\ (dval_lt (dbl_val lo) (dbl_val b) \/ dval_eq (dbl_val lo) (dbl_val b))
         /\ (dval_lt (dbl_val b) (dbl_val hi) \/ dval_eq (dbl_val b) (dbl_val hi)).
Proof. exact double_range_lemma. Qed.
Print Assumptions double_range_lookup_partial.

Definition rec_d (x : N) : scalar_data := {| item_id := []; document := []; meta := [(str "x", VDouble x)] |}.
Definition range_ops : list op := [Insert 3 rec_c; Insert 5 (rec_d 0xBFF0000000000000); Insert 4 (rec_d 0x8000000000000000);
  Insert 9 (rec_d 0x3FF0000000000000); Insert 8 rec_b].
Lemma range_ops_ok : Forall op_ok range_ops.
Proof. apply op_okb_ok. vm_compute. reflexivity. Qed.
(** Rows x = -5, -1.0, -0.0, 1.0 and "p". *)
Example range_lookup_example : exists s, reached [str "x"] range_ops s
  /\ get_ids_by_int_range s (str "x") (-10) 3 = Ok [3%N]
  /\ get_ids_by_double_range s (str "x") 0xBFF0000000000000 0x3FF0000000000000 = Ok [5; 4; 9]%N.
Proof.
  destruct (run (empty_storage [str "x"]) range_ops) as [[bs s]| | |] eqn:E; try (vm_compute in E; discriminate).
  exists s. split; [split; [exact range_ops_ok|now exists bs]|]. vm_compute in E. inversion E. vm_compute. auto.
Qed.

(** The claim is false: from +0.0 upwards the row holding -0.0, an equal
    number, is missing; and with a badly named field an integer lookup returns
    a row that does not have the field. *)
Theorem range_lookup_refuted :
  (exists ops s, reached [str "x"] ops s
    /\ live s 4 (rec_d 0x8000000000000000)
    /\ dval_eq (dbl_val 0) (dbl_val 0x8000000000000000)
    /\ get_ids_by_double_range s (str "x") 0 0x3FF0000000000000 = Ok [9%N])
  /\ (exists fields ops s id r, reached fields ops s
    /\ get_ids_by_int_range s (str "a") 0 10 = Ok [id] /\ live s id r /\ ~ In (str "a") (map fst (meta r))).
Proof.
  split.
  - destruct (storage_refines_table [str "x"] _ range_ops_ok) as (s & E & L).
    exists range_ops, s. split; [split; [exact range_ops_ok|eauto]|]. split; [apply L; reflexivity|].
    split; [reflexivity|]. vm_compute in E. inversion E. vm_compute. reflexivity.
  - set (r := {| item_id := []; document := []; meta := [(str "a_i_8000000000000005", VStr (str "x"))] |}).
    set (fields := [str "a"; str "a_i_8000000000000005"]).
    assert (OK : Forall op_ok [Insert 1 r]).
    { constructor; [|constructor]. split; [lia|]. apply storableb_ok. vm_compute. reflexivity. }
    destruct (storage_refines_table fields _ OK) as (s & E & L). exists fields, [Insert 1 r], s, 1%N, r.
    split; [split; [exact OK|eauto]|]. split; [vm_compute in E; inversion E; vm_compute; reflexivity|].
    split; [apply L; reflexivity|]. cbn. intros [H|[]]. discriminate.
Qed.
Print Assumptions range_lookup_refuted.
