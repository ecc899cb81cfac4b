From Coq Require Import String Permutation.
From Verif Require Import StorageModel StorageSpec ScalarDataSpec ScalarDataProofs IndexEncodingProofs.

(** ** Tables *)
Lemma row_In t id r : NoDup (map fst t) -> (row t id = Some r <-> In (id, r) t).
Proof.
  induction t as [|[i x] t IH]; cbn; intros ND; [intuition discriminate|].
  inversion ND as [|? ? N ND']; subst. destruct (N.eqb_spec i id) as [->|Hn].
  - split; [intros H; inversion H; now left|]. intros [H|H]; [congruence|].
    exfalso. apply N. change id with (fst (id, r)). now apply in_map.
  - rewrite IH by assumption. split; [now right|]. intros [H|H]; [congruence|exact H].
Qed.
Lemma row_del t id id' : row (del_row id t) id' = if N.eqb id id' then None else row t id'.
Proof.
  unfold del_row. induction t as [|[i x] t IH]; cbn; [now destruct (N.eqb id id')|].
  destruct (N.eqb_spec i id) as [->|Hn]; cbn.
  - rewrite IH. destruct (N.eqb_spec id id'); reflexivity.
  - rewrite IH. destruct (N.eqb_spec i id') as [->|]; [|reflexivity].
    destruct (N.eqb_spec id id'); [congruence|reflexivity].
Qed.
Lemma row_set t id r id' : row (set_row id r t) id' = if N.eqb id id' then Some r else row t id'.
Proof. unfold set_row. cbn. rewrite row_del. destruct (N.eqb id id'); reflexivity. Qed.
Lemma del_row_In id t e : In e (del_row id t) <-> In e t /\ fst e <> id.
Proof. unfold del_row. rewrite filter_In, negb_true_iff, N.eqb_neq. reflexivity. Qed.
Lemma nodup_filter_map {A} (P : N * A -> bool) t : NoDup (map fst t) -> NoDup (map fst (filter P t)).
Proof.
  induction t as [|e t IH]; cbn; intros ND; [constructor|]. inversion ND as [|? ? N ND']; subst.
  destruct (P e); cbn; [|now apply IH]. constructor; [|now apply IH].
  intros H. apply N. apply in_map_iff in H as (x & Hx & HI). apply filter_In in HI as [HI _].
  rewrite <- Hx. now apply in_map.
Qed.
Lemma nodup_del id t : NoDup (map fst t) -> NoDup (map fst (del_row id t)).
Proof. apply nodup_filter_map. Qed.
Lemma nodup_set id r t : NoDup (map fst t) -> NoDup (map fst (set_row id r t)).
Proof.
  intros H. cbn. constructor; [|now apply nodup_del].
  intros X. apply in_map_iff in X as (e & He & HI). apply del_row_In in HI. tauto.
Qed.
Lemma del_row_absent id t : row t id = None -> del_row id t = t.
Proof.
  unfold del_row. induction t as [|[i x] t IH]; cbn; intros H; [reflexivity|].
  destruct (N.eqb i id); [discriminate|]. cbn. f_equal. now apply IH.
Qed.
Lemma length_del id t r : NoDup (map fst t) -> row t id = Some r -> length t = S (length (del_row id t)).
Proof.
  induction t as [|[i x] t IH]; cbn; intros ND H; [discriminate|].
  inversion ND as [|? ? N ND']; subst. destruct (N.eqb_spec i id) as [->|Hn]; cbn.
  - fold (del_row id t). rewrite del_row_absent; [reflexivity|].
    destruct (row t id) eqn:E; [|reflexivity]. apply row_In in E; [|assumption].
    exfalso. apply N. change id with (fst (id, s)). now apply in_map.
  - f_equal. fold (del_row id t). now apply IH.
Qed.

(** ** Batches: the last operation on a key decides. *)
Definition op_key (o : batch_op) : bytes := match o with BPut k _ => k | BDel k => k end.
Definition op_val (o : batch_op) : option bytes := match o with BPut _ v => Some v | BDel _ => None end.
Fixpoint batch_last (l : list batch_op) (k : bytes) : option (option bytes) :=
  match l with
  | [] => None
  | o :: l' => match batch_last l' k with
               | Some x => Some x
               | None => if bytes_eqb (op_key o) k then Some (op_val o) else None
               end
  end.
Lemma get_batch l : forall db k,
  kv_get (apply_batch l db) k = match batch_last l k with Some x => x | None => kv_get db k end.
Proof.
  induction l as [|o l IH]; intros db k; cbn; [reflexivity|].
  change (fold_left apply_op l (apply_op db o)) with (apply_batch l (apply_op db o)).
  rewrite IH. destruct (batch_last l k); [reflexivity|].
  destruct o; cbn [apply_op op_key op_val]; [rewrite kv_get_put|rewrite kv_get_del]; now destruct (bytes_eqb _ _).
Qed.
Lemma batch_last_app a b k :
  batch_last (a ++ b) k = match batch_last b k with Some x => Some x | None => batch_last a k end.
Proof.
  induction a as [|o a IH]; cbn; [now destruct (batch_last b k)|].
  rewrite IH. destruct (batch_last b k); reflexivity.
Qed.
Definition mem (k : bytes) (l : list bytes) : bool := existsb (bytes_eqb k) l.
Lemma mem_In k l : mem k l = true <-> In k l.
Proof.
  unfold mem. rewrite existsb_exists. split.
  - intros (x & H & E). apply bytes_eqb_eq in E. now subst.
  - intros H. exists k. split; [exact H|apply bytes_eqb_refl].
Qed.
Lemma batch_last_dels l k : batch_last (map BDel l) k = if mem k l then Some None else None.
Proof.
  induction l as [|x l IH]; cbn; [reflexivity|]. rewrite IH. fold (mem k l).
  destruct (mem k l); [now rewrite orb_true_r|]. rewrite orb_false_r, bytes_eqb_sym. now destruct (bytes_eqb k x).
Qed.
Lemma batch_last_puts l k : batch_last (map (fun x => BPut x []) l) k = if mem k l then Some (Some []) else None.
Proof.
  induction l as [|x l IH]; cbn; [reflexivity|]. rewrite IH. fold (mem k l).
  destruct (mem k l); [now rewrite orb_true_r|]. rewrite orb_false_r, bytes_eqb_sym. now destruct (bytes_eqb k x).
Qed.

(** ** Keys *)
Definition dk (k : bytes) : bytes := str "d_" ++ k.
Definition ik (k : bytes) : bytes := str "i_" ++ k.
Definition fk (k : bytes) : bytes := str "f_" ++ k.
Definition padded (id : N) : bytes :=
  if Nat.leb kSortableDigits (length (dec id)) then dec id
  else repeat chr_0 (kSortableDigits - length (dec id)) ++ dec id.
Lemma data_key_dk id : data_key id = dk (padded id).
Proof. unfold data_key, padded, dk. destruct (Nat.leb _ _); reflexivity. Qed.
Lemma legacy_dk id : legacy_data_key id = dk (dec id).
Proof. reflexivity. Qed.
Lemma dk_inj a b : dk a = dk b -> a = b.
Proof. intros H. now apply (app_inv_head (str "d_")). Qed.
Lemma ik_inj a b : ik a = ik b -> a = b.
Proof. intros H. now apply (app_inv_head (str "i_")). Qed.
Lemma fk_inj a b : fk a = fk b -> a = b.
Proof. intros H. now apply (app_inv_head (str "f_")). Qed.
Lemma field_key_fk f e id : make_field_index_key f e id = fk (f ++ [us] ++ e ++ [us] ++ dec id).
Proof. reflexivity. Qed.
Lemma eqb_dk a b : bytes_eqb (dk a) (dk b) = bytes_eqb a b.
Proof. destruct (bytes_eqb_spec a b) as [->|H]; [apply bytes_eqb_refl|]. apply bytes_eqb_neq. intros X. apply H. now apply dk_inj. Qed.
Lemma eqb_ik a b : bytes_eqb (ik a) (ik b) = bytes_eqb a b.
Proof. destruct (bytes_eqb_spec a b) as [->|H]; [apply bytes_eqb_refl|]. apply bytes_eqb_neq. intros X. apply H. now apply ik_inj. Qed.

Lemma digits_zeros n l : digits_val 0 (repeat chr_0 n ++ l) = digits_val 0 l.
Proof. induction n as [|n IH]; cbn; [reflexivity|]. exact IH. Qed.
Lemma padded_val id : digits_val 0 (padded id) = Some id.
Proof.
  unfold padded. destruct (Nat.leb _ _); [apply digits_val_dec|]. rewrite digits_zeros. apply digits_val_dec.
Qed.
Lemma padded_inj a b : padded a = padded b -> a = b.
Proof. intros H. apply (f_equal (digits_val 0)) in H. rewrite !padded_val in H. congruence. Qed.
Lemma padded_dec_inj a b : padded a = dec b -> a = b.
Proof. intros H. apply (f_equal (digits_val 0)) in H. rewrite padded_val, digits_val_dec in H. congruence. Qed.
Lemma data_key_inj a b : data_key a = data_key b -> a = b.
Proof. rewrite !data_key_dk. intros H. apply dk_inj in H. now apply padded_inj. Qed.
Lemma data_legacy_inj a b : data_key a = legacy_data_key b -> a = b.
Proof. rewrite data_key_dk, legacy_dk. intros H. apply dk_inj in H. now apply padded_dec_inj. Qed.
Lemma legacy_inj a b : legacy_data_key a = legacy_data_key b -> a = b.
Proof. rewrite !legacy_dk. intros H. apply dk_inj in H. now apply dec_inj. Qed.

(** The id is the text after the last separator. *)
Lemma field_key_id f e id f' e' id' : make_field_index_key f e id = make_field_index_key f' e' id' -> id = id'.
Proof. intros H. apply (f_equal extract_id_from_key) in H. rewrite !extract_id in H. congruence. Qed.

Lemma field_keys_In fields id r k : In k (field_keys fields id r) <->
  exists f v, In f fields /\ meta_find f (meta r) = Some v /\ k = make_field_index_key f (encode_value v) id.
Proof.
  unfold field_keys. rewrite in_flat_map. split.
  - intros (f & Hf & H). destruct (meta_find f (meta r)) as [v|] eqn:E; [|destruct H].
    destruct H as [<-|[]]. now exists f, v.
  - intros (f & v & Hf & E & ->). exists f. split; [exact Hf|]. rewrite E. now left.
Qed.
Lemma field_keys_fk fields id r k : In k (field_keys fields id r) -> exists x, k = fk x.
Proof. intros H. apply field_keys_In in H as (f & v & _ & _ & ->). rewrite field_key_fk. eauto. Qed.
Lemma mem_not_fk fields id r k : (forall x, k <> fk x) -> mem k (field_keys fields id r) = false.
Proof.
  intros H. apply not_true_iff_false. intros X. apply mem_In in X. apply field_keys_fk in X as [x ->]. now apply (H x).
Qed.

(** ** Representation *)
Definition owns (t : table) (item : bytes) (id : N) : Prop :=
  exists r, row t id = Some r /\ item_id r = item.
Definition entry (fields : list bytes) (t : table) (k : bytes) : Prop :=
  exists id r f v, row t id = Some r /\ In f fields /\ meta_find f (meta r) = Some v
    /\ k = make_field_index_key f (encode_value v) id.

Record represents (s : storage) (t : table) : Prop := {
  rp_sorted : kv_sorted (db s);
  rp_nodup : NoDup (map fst t);
  rp_rows : forall id r, row t id = Some r -> (id < 2 ^ 32)%N /\ storable r;
  rp_keys : forall k v, kv_get (db s) (dk k) = Some v ->
    exists id r, row t id = Some r /\ (dk k = data_key id \/ dk k = legacy_data_key id);
  rp_data : forall id r, row t id = Some r ->
    (kv_get (db s) (data_key id) = Some (serialize r)
     /\ (legacy_data_key id <> data_key id -> kv_get (db s) (legacy_data_key id) = None))
    \/ (kv_get (db s) (data_key id) = None /\ kv_get (db s) (legacy_data_key id) = Some (serialize r));
  rp_item : forall item v, kv_get (db s) (ik item) = Some v <->
    item <> [] /\ exists id, owns t item id /\ v = le_enc 4 id;
  rp_field : forall k v, kv_get (db s) (fk k) = Some v <-> v = [] /\ entry (indexed_fields s) t (fk k);
  rp_count : cached_count s = N.of_nat (length t);
}.

Lemma get_data_none s t id : represents s t -> row t id = None -> get_data_value (db s) id = None.
Proof.
  intros R H. unfold get_data_value.
  destruct (kv_get (db s) (data_key id)) eqn:E1.
  { rewrite data_key_dk in E1. apply (rp_keys _ _ R) in E1 as (i & r & Hr & [X|X]).
    - rewrite <- data_key_dk in X. apply data_key_inj in X. congruence.
    - rewrite <- data_key_dk in X. apply data_legacy_inj in X. congruence. }
  destruct (bytes_eqb_spec (legacy_data_key id) (data_key id)); [reflexivity|].
  destruct (kv_get (db s) (legacy_data_key id)) eqn:E2; [|reflexivity].
  rewrite legacy_dk in E2. apply (rp_keys _ _ R) in E2 as (i & r & Hr & [X|X]).
  - rewrite <- legacy_dk in X. symmetry in X. apply data_legacy_inj in X. congruence.
  - rewrite <- legacy_dk in X. apply legacy_inj in X. congruence.
Qed.
Lemma get_data_some s t id r : represents s t -> row t id = Some r ->
  exists k, get_data_value (db s) id = Some (serialize r, k)
    /\ (k = data_key id /\ (legacy_data_key id <> data_key id -> kv_get (db s) (legacy_data_key id) = None)
        \/ k = legacy_data_key id /\ k <> data_key id /\ kv_get (db s) (data_key id) = None).
Proof.
  intros R H. unfold get_data_value. destruct (rp_data _ _ R _ _ H) as [[E L]|[E1 E2]].
  - rewrite E. exists (data_key id). split; [reflexivity|]. left. auto.
  - rewrite E1. destruct (bytes_eqb_spec (legacy_data_key id) (data_key id)) as [X|X]; [congruence|].
    rewrite E2. exists (legacy_data_key id). split; [reflexivity|]. right. auto.
Qed.
Lemma deserialize_serialize r : storable r -> deserialize (serialize r) = Ok r.
Proof.
  intros H. unfold deserialize. rewrite <- (app_nil_r (serialize r)).
  rewrite round_trip_offset_lemma by assumption. reflexivity.
Qed.
Lemma read_old_spec s t id : represents s t ->
  (row t id = None /\ read_old (db s) id = Ok None /\ get_data_value (db s) id = None)
  \/ exists r k, row t id = Some r /\ read_old (db s) id = Ok (Some (r, k))
     /\ get_data_value (db s) id = Some (serialize r, k)
     /\ (k = data_key id /\ (legacy_data_key id <> data_key id -> kv_get (db s) (legacy_data_key id) = None)
        \/ k = legacy_data_key id /\ k <> data_key id /\ kv_get (db s) (data_key id) = None).
Proof.
  intros R. destruct (row t id) as [r|] eqn:E.
  - right. destruct (get_data_some _ _ _ _ R E) as (k & G & K). exists r, k.
    split; [reflexivity|]. unfold read_old. rewrite G. rewrite deserialize_serialize by (apply (rp_rows _ _ R _ _ E)).
    auto.
  - left. pose proof (get_data_none _ _ _ R E) as G. unfold read_old. rewrite G. auto.
Qed.

Lemma owns_unique s t item a b : represents s t -> item <> [] -> owns t item a -> owns t item b -> a = b.
Proof.
  intros R H A B.
  assert (Ra : (a < 2 ^ 32)%N) by (destruct A as (r & Hr & _); apply (rp_rows _ _ R _ _ Hr)).
  assert (Rb : (b < 2 ^ 32)%N) by (destruct B as (r & Hr & _); apply (rp_rows _ _ R _ _ Hr)).
  assert (kv_get (db s) (ik item) = Some (le_enc 4 a)) as Ga by (apply (rp_item _ _ R); eauto).
  assert (kv_get (db s) (ik item) = Some (le_enc 4 b)) as Gb by (apply (rp_item _ _ R); eauto).
  assert (E : le_enc 4 a = le_enc 4 b) by congruence. apply (f_equal le_dec) in E.
  rewrite !le_dec_enc in E by assumption. exact E.
Qed.
Lemma find_by_item_id_spec s t item : represents s t ->
  (find_by_item_id (db s) item = None /\ (item = [] \/ forall id, ~ owns t item id))
  \/ exists id, find_by_item_id (db s) item = Some id /\ item <> [] /\ owns t item id.
Proof.
  intros R. unfold find_by_item_id. change (item_id_index_key item) with (ik item).
  destruct (kv_get (db s) (ik item)) as [v|] eqn:E.
  - right. apply (rp_item _ _ R) in E as (H & id & O & ->). exists id.
    rewrite le_enc_length. cbn [Nat.eqb]. rewrite le_dec_enc; auto.
    destruct O as (r & Hr & _). apply (rp_rows _ _ R _ _ Hr).
  - left. split; [reflexivity|]. destruct item as [|c item]; [now left|right]. intros id O.
    assert (kv_get (db s) (ik (c :: item)) = Some (le_enc 4 id)) by (apply (rp_item _ _ R); split; [discriminate|eauto]).
    congruence.
Qed.
Lemma taken_spec t id item : NoDup (map fst t) -> taken_by_other t id item = true <->
  item <> [] /\ exists i, i <> id /\ owns t item i.
Proof.
  intros ND. unfold taken_by_other. destruct item as [|c item].
  - split; [discriminate|]. intros [H _]. now destruct H.
  - set (it := c :: item). assert (it <> []) by discriminate. rewrite existsb_exists. split.
    + intros ((i & r) & HI & E). cbn in E. apply andb_true_iff in E as [E1 E2].
      apply negb_true_iff, N.eqb_neq in E1. apply bytes_eqb_eq in E2.
      split; [assumption|]. exists i. split; [assumption|]. exists r. split; [now apply row_In|assumption].
    + intros (_ & i & Hi & r & Hr & E). exists (i, r). split; [now apply row_In|]. cbn.
      rewrite (proj2 (N.eqb_neq i id)) by assumption. subst. rewrite E. now rewrite bytes_eqb_refl.
Qed.
Lemma available_spec s t item id : represents s t ->
  item_id_available (db s) item (Some id) = negb (taken_by_other t id item).
Proof.
  intros R. unfold item_id_available. destruct item as [|c item]; [reflexivity|].
  set (it := c :: item) in *. assert (Hn : it <> []) by discriminate.
  destruct (find_by_item_id_spec s t it R) as [[-> H]|(i & -> & _ & O)].
  - destruct H as [H|H]; [congruence|]. symmetry. apply negb_true_iff, not_true_iff_false.
    intros X. apply taken_spec in X; [|apply R]. destruct X as (_ & i & _ & O). now apply (H i).
  - destruct (N.eqb_spec i id) as [->|Hi]; symmetry.
    + apply negb_true_iff, not_true_iff_false. intros X. apply taken_spec in X; [|apply R].
      destruct X as (_ & j & Hj & Oj). apply Hj. eapply owns_unique; eassumption.
    + apply negb_false_iff. apply taken_spec; [apply R|]. split; [assumption|]. now exists i.
Qed.

(** ** Replacing one row *)
Definition keys_of (fields : list bytes) (id : N) (o : option scalar_data) : list bytes :=
  match o with None => [] | Some r => field_keys fields id r end.
Definition item_of (o : option scalar_data) : bytes := match o with None => [] | Some r => item_id r end.

Record effect (fields : list bytes) (id : N) (old new : option scalar_data) (d d' : kv) : Prop := {
  ef_sorted : kv_sorted d -> kv_sorted d';
  ef_data : (kv_get d' (data_key id) = option_map serialize new
             /\ (legacy_data_key id <> data_key id -> kv_get d' (legacy_data_key id) = None))
            \/ (kv_get d' (data_key id) = None /\ kv_get d' (legacy_data_key id) = option_map serialize new);
  ef_rest : forall k, dk k <> data_key id -> dk k <> legacy_data_key id -> kv_get d' (dk k) = kv_get d (dk k);
  ef_item : forall item, item <> [] -> kv_get d' (ik item) =
     if bytes_eqb (item_of new) item then Some (le_enc 4 id)
     else if bytes_eqb (item_of old) item then None else kv_get d (ik item);
  ef_item0 : kv_get d' (ik []) = kv_get d (ik []);
  ef_field : forall k, kv_get d' (fk k) =
     if mem (fk k) (keys_of fields id new) then Some []
     else if mem (fk k) (keys_of fields id old) then None else kv_get d (fk k);
}.

Lemma effect_intro (fields : list bytes) (id : N) (old new : option scalar_data) (d d' : kv) :
  (kv_sorted d -> kv_sorted d') ->
  kv_get d' (data_key id) = option_map serialize new ->
  (legacy_data_key id <> data_key id -> kv_get d' (legacy_data_key id) = None) ->
  (forall k, dk k <> data_key id -> dk k <> legacy_data_key id -> kv_get d' (dk k) = kv_get d (dk k)) ->
  (forall item, item <> [] -> kv_get d' (ik item) =
     if bytes_eqb (item_of new) item then Some (le_enc 4 id)
     else if bytes_eqb (item_of old) item then None else kv_get d (ik item)) ->
  kv_get d' (ik []) = kv_get d (ik []) ->
  (forall k, kv_get d' (fk k) =
     if mem (fk k) (keys_of fields id new) then Some []
     else if mem (fk k) (keys_of fields id old) then None else kv_get d (fk k)) ->
  effect fields id old new d d'.
Proof. intros. constructor; auto. Qed.

Definition replace (id : N) (new : option scalar_data) (t : table) : table :=
  match new with Some r => set_row id r t | None => del_row id t end.
Lemma row_replace id new t id' : row (replace id new t) id' = if N.eqb id id' then new else row t id'.
Proof.
  destruct new; cbn [replace]; [apply row_set|]. rewrite row_del. now destruct (N.eqb id id').
Qed.

Lemma effect_represents s t id new d' c' :
  represents s t ->
  effect (indexed_fields s) id (row t id) new (db s) d' ->
  (id < 2 ^ 32)%N -> (forall r, new = Some r -> storable r) ->
  taken_by_other t id (item_of new) = false ->
  c' = N.of_nat (length (replace id new t)) ->
  represents (set_db_count s d' c') (replace id new t).
Proof.
  intros R E Hid Hst Hfree Hc.
  assert (Free : forall i, item_of new <> [] -> owns t (item_of new) i -> i = id).
  { intros i Hn O. destruct (N.eq_dec i id) as [|Hi]; [assumption|]. exfalso.
    assert (taken_by_other t id (item_of new) = true); [|congruence].
    apply taken_spec; [apply R|]. split; [assumption|]. now exists i. }
  constructor; cbn [set_db_count db cached_count indexed_fields].
  - apply E. apply R.
  - destruct new; [apply nodup_set|apply nodup_del]; apply R.
  - intros i r. rewrite row_replace. destruct (N.eqb_spec id i) as [<-|Hi].
    + intros ->. split; [assumption|now apply Hst].
    + apply R.
  - intros k v Hk. destruct (bytes_eqb_spec (dk k) (data_key id)) as [X|X].
    + rewrite X in Hk. destruct (ef_data _ _ _ _ _ _ E) as [[D _]|[D _]]; [|congruence].
      rewrite D in Hk. destruct new as [r|]; [|discriminate].
      exists id, r. rewrite row_replace, N.eqb_refl. auto.
    + destruct (bytes_eqb_spec (dk k) (legacy_data_key id)) as [Y|Y].
      * rewrite Y in Hk. destruct (ef_data _ _ _ _ _ _ E) as [[_ D]|[_ D]].
        { rewrite D in Hk by congruence. discriminate. }
        rewrite D in Hk. destruct new as [r|]; [|discriminate].
        exists id, r. rewrite row_replace, N.eqb_refl. auto.
      * rewrite (ef_rest _ _ _ _ _ _ E) in Hk by assumption.
        apply (rp_keys _ _ R) in Hk as (i & r & Hr & Z). exists i, r. rewrite row_replace.
        destruct (N.eqb_spec id i) as [<-|Hi]; [intuition congruence|auto].
  - intros i r. rewrite row_replace. destruct (N.eqb_spec id i) as [<-|Hi].
    + intros ->. apply (ef_data _ _ _ _ _ _ E).
    + intros Hr. pose proof (rp_data _ _ R _ _ Hr) as D.
      assert (G1 : kv_get d' (data_key i) = kv_get (db s) (data_key i)).
      { rewrite data_key_dk. apply (ef_rest _ _ _ _ _ _ E); rewrite <- data_key_dk; intros X.
        - apply data_key_inj in X. congruence.
        - apply data_legacy_inj in X. congruence. }
      assert (G2 : kv_get d' (legacy_data_key i) = kv_get (db s) (legacy_data_key i)).
      { rewrite legacy_dk. apply (ef_rest _ _ _ _ _ _ E); rewrite <- legacy_dk; intros X.
        - symmetry in X. apply data_legacy_inj in X. congruence.
        - apply legacy_inj in X. congruence. }
      rewrite G1, G2. exact D.
  - intros item v. destruct item as [|c item].
    { rewrite (ef_item0 _ _ _ _ _ _ E), (rp_item _ _ R). intuition congruence. }
    set (it := c :: item). assert (Hn : it <> []) by discriminate. clearbody it.
    rewrite (ef_item _ _ _ _ _ _ E) by assumption.
    assert (OR : forall i, owns (replace id new t) it i <->
      (i = id /\ exists r, new = Some r /\ item_id r = it) \/ (i <> id /\ owns t it i)).
    { intros i. unfold owns. rewrite row_replace. destruct (N.eqb_spec id i) as [<-|Hi]; [intuition|].
      assert (i <> id) by congruence. intuition. }
    destruct (bytes_eqb_spec (item_of new) it) as [X|X].
    { split.
      - intros H. inversion H; subst. split; [assumption|]. exists id. split; [|reflexivity].
        apply OR. left. split; [reflexivity|]. destruct new as [r|]; [|now destruct Hn]. now exists r.
      - intros (_ & i & O & ->). f_equal. f_equal. apply OR in O as [[-> _]|[Hi O]]; [reflexivity|].
        exfalso. apply Hi. apply Free; congruence. }
    assert (OR' : forall i, owns (replace id new t) it i <-> i <> id /\ owns t it i).
    { intros i. rewrite OR. split; [|now right]. intros [[_ (r & -> & E2)]|H]; [|exact H]. now destruct X. }
    destruct (bytes_eqb_spec (item_of (row t id)) it) as [Y|Y].
    { split; [discriminate|]. intros (_ & i & O & _). apply OR' in O as [Hi O]. exfalso. apply Hi.
      apply (owns_unique s t it); auto. destruct (row t id) as [r|] eqn:Er; [|cbn in Y; congruence].
      exists r. auto. }
    rewrite (rp_item _ _ R). split; intros (H & i & O & ->); (split; [assumption|]); exists i; (split; [|reflexivity]).
    + apply OR'. split; [|assumption]. intros ->. apply Y. destruct O as (r & -> & Z). exact Z.
    + now apply OR' in O.
  - intros k v. rewrite (ef_field _ _ _ _ _ _ E).
    assert (EN : entry (indexed_fields s) (replace id new t) (fk k) <->
      In (fk k) (keys_of (indexed_fields s) id new) \/
      (exists i r, i <> id /\ row t i = Some r /\ In (fk k) (field_keys (indexed_fields s) i r))).
    { unfold entry. split.
      - intros (i & r & f & w & Hr & Hf & Hm & Hk). rewrite row_replace in Hr.
        destruct (N.eqb_spec id i) as [<-|Hi].
        + left. rewrite Hr. cbn. apply field_keys_In. eauto.
        + right. exists i, r. split; [congruence|]. split; [assumption|]. apply field_keys_In. eauto.
      - intros [H|(i & r & Hi & Hr & H)].
        + destruct new as [r|]; [|destruct H]. cbn in H. apply field_keys_In in H as (f & w & Hf & Hm & Hk).
          exists id, r, f, w. rewrite row_replace, N.eqb_refl. auto.
        + apply field_keys_In in H as (f & w & Hf & Hm & Hk). exists i, r, f, w.
          rewrite row_replace. destruct (N.eqb_spec id i); [congruence|auto]. }
    destruct (mem (fk k) (keys_of (indexed_fields s) id new)) eqn:M1.
    { apply mem_In in M1. rewrite EN. split; [intros H; inversion H; auto|]. intros [-> _]. reflexivity. }
    assert (M1' : ~ In (fk k) (keys_of (indexed_fields s) id new)) by (rewrite <- mem_In; congruence).
    destruct (mem (fk k) (keys_of (indexed_fields s) id (row t id))) eqn:M2.
    { split; [discriminate|]. intros [_ H]. apply EN in H as [H|(i & r & Hi & Hr & H)]; [easy|].
      apply mem_In in M2. destruct (row t id) as [r0|]; [|destruct M2]. cbn in M2.
      apply field_keys_In in M2 as (f & w & _ & _ & K1). apply field_keys_In in H as (f' & w' & _ & _ & K2).
      pose proof (eq_trans (eq_sym K1) K2) as K3. apply field_key_id in K3. congruence. }
    assert (M2' : ~ In (fk k) (keys_of (indexed_fields s) id (row t id))) by (rewrite <- mem_In; congruence).
    rewrite (rp_field _ _ R), EN.
    assert (X : entry (indexed_fields s) t (fk k) <-> 
       (exists i r, i <> id /\ row t i = Some r /\ In (fk k) (field_keys (indexed_fields s) i r))).
    { unfold entry. split.
      - intros (i & r & f & w & Hr & Hf & Hm & Hk). exists i, r. split; [|split; [assumption|apply field_keys_In; eauto]].
        intros ->. apply M2'. rewrite Hr. cbn. apply field_keys_In. eauto.
      - intros (i & r & Hi & Hr & H). apply field_keys_In in H as (f & w & Hf & Hm & Hk). exists i, r, f, w. auto. }
    rewrite X. tauto.
  - exact Hc.
Qed.

(** ** The batches have the stated effect. *)
Lemma dk_not_ik a b : bytes_eqb (dk a) (ik b) = false. Proof. reflexivity. Qed.
Lemma ik_not_dk a b : bytes_eqb (ik a) (dk b) = false. Proof. reflexivity. Qed.
Lemma dk_not_fk a b : bytes_eqb (dk a) (fk b) = false. Proof. reflexivity. Qed.
Lemma ik_not_fk a b : bytes_eqb (ik a) (fk b) = false. Proof. reflexivity. Qed.
Lemma mem_dk fields id r k : mem (dk k) (field_keys fields id r) = false.
Proof. apply mem_not_fk. discriminate. Qed.
Lemma mem_ik fields id r k : mem (ik k) (field_keys fields id r) = false.
Proof. apply mem_not_fk. discriminate. Qed.

Lemma last_del_item_dk item k : batch_last (delete_item_id_index item) (dk k) = None.
Proof. destruct item; reflexivity. Qed.
Lemma last_del_item_fk item k : batch_last (delete_item_id_index item) (fk k) = None.
Proof. destruct item; reflexivity. Qed.
Lemma last_del_item_ik item k : batch_last (delete_item_id_index item) (ik k) =
  match item with [] => None | _ => if bytes_eqb item k then Some None else None end.
Proof.
  destruct item as [|c it]; [reflexivity|]. cbn [delete_item_id_index batch_last op_key op_val].
  change (item_id_index_key (c :: it)) with (ik (c :: it)). now rewrite eqb_ik.
Qed.
Lemma last_put_item_dk item id k : batch_last (put_item_id_index item id) (dk k) = None.
Proof. destruct item; reflexivity. Qed.
Lemma last_put_item_fk item id k : batch_last (put_item_id_index item id) (fk k) = None.
Proof. destruct item; reflexivity. Qed.
Lemma last_put_item_ik item id k : batch_last (put_item_id_index item id) (ik k) =
  match item with [] => None | _ => if bytes_eqb item k then Some (Some (le_enc 4 id)) else None end.
Proof.
  destruct item as [|c it]; [reflexivity|]. cbn [put_item_id_index batch_last op_key op_val].
  change (item_id_index_key (c :: it)) with (ik (c :: it)). now rewrite eqb_ik.
Qed.
Lemma item_match item k (A : option (option bytes)) : k <> [] ->
  match item with [] => None | _ => if bytes_eqb item k then A else None end = if bytes_eqb item k then A else None.
Proof. intros H. destruct item; [|reflexivity]. destruct k; [easy|reflexivity]. Qed.

Definition resolved_ok (d : kv) (id : N) (k : bytes) : Prop :=
  k = data_key id /\ (legacy_data_key id <> data_key id -> kv_get d (legacy_data_key id) = None)
  \/ k = legacy_data_key id /\ k <> data_key id /\ kv_get d (data_key id) = None.
Definition resolved_del (id : N) (k : bytes) : list batch_op :=
  if bytes_eqb k (data_key id) then [] else [BDel k].
Lemma last_resolved_dk d id k x : resolved_ok d id k -> dk x <> data_key id -> dk x <> legacy_data_key id ->
  batch_last (resolved_del id k) (dk x) = None.
Proof.
  intros R H1 H2. unfold resolved_del. destruct (bytes_eqb_spec k (data_key id)) as [|Hk]; [reflexivity|].
  destruct R as [[-> _]|[-> _]]; [easy|]. cbn [batch_last op_key op_val].
  destruct (bytes_eqb_spec (legacy_data_key id) (dk x)); [congruence|reflexivity].
Qed.
Lemma last_resolved_legacy d id k : resolved_ok d id k -> legacy_data_key id <> data_key id ->
  match batch_last (resolved_del id k) (legacy_data_key id) with Some x => x | None => kv_get d (legacy_data_key id) end = None.
Proof.
  intros R H. unfold resolved_del. destruct R as [[-> L]|[-> Hk]].
  - rewrite bytes_eqb_refl. cbn. now apply L.
  - destruct (bytes_eqb_spec (legacy_data_key id) (data_key id)); [easy|]. cbn [batch_last op_key op_val].
    now rewrite bytes_eqb_refl.
Qed.
Lemma last_resolved_ik d id k x : resolved_ok d id k -> batch_last (resolved_del id k) (ik x) = None.
Proof.
  intros R. unfold resolved_del. destruct (bytes_eqb_spec k (data_key id)) as [|Hk]; [reflexivity|].
  destruct R as [[-> _]|[-> _]]; [easy|]. reflexivity.
Qed.
Lemma last_resolved_fk d id k x : resolved_ok d id k -> batch_last (resolved_del id k) (fk x) = None.
Proof.
  intros R. unfold resolved_del. destruct (bytes_eqb_spec k (data_key id)) as [|Hk]; [reflexivity|].
  destruct R as [[-> _]|[-> _]]; [easy|]. reflexivity.
Qed.

Ltac batch_simpl := rewrite ?get_batch, ?batch_last_app.

(** [insert] and the records of [batch_insert]. *)
Definition old_ok (d : kv) (id : N) (old : option (scalar_data * bytes)) : Prop :=
  match old with
  | None => kv_get d (data_key id) = None /\ kv_get d (legacy_data_key id) = None
  | Some (_, k) => resolved_ok d id k
  end.
Lemma put_new_last_dk fields id r k :
  batch_last (put_new fields id r) (dk k) = if bytes_eqb (data_key id) (dk k) then Some (Some (serialize r)) else None.
Proof.
  unfold put_new. rewrite !batch_last_app. unfold add_field_indexes. rewrite batch_last_puts, mem_dk, last_put_item_dk.
  cbn [batch_last op_key op_val]. reflexivity.
Qed.
Lemma put_new_last_ik fields id r k :
  batch_last (put_new fields id r) (ik k) = match item_id r with [] => None | _ => if bytes_eqb (item_id r) k then Some (Some (le_enc 4 id)) else None end.
Proof.
  unfold put_new. rewrite !batch_last_app. unfold add_field_indexes. rewrite batch_last_puts, mem_ik, last_put_item_ik.
  cbn [batch_last op_key op_val]. rewrite data_key_dk, dk_not_ik.
  destruct (item_id r); [reflexivity|]. now destruct (bytes_eqb _ _).
Qed.
Lemma put_new_last_fk fields id r k :
  batch_last (put_new fields id r) (fk k) = if mem (fk k) (field_keys fields id r) then Some (Some []) else None.
Proof.
  unfold put_new. rewrite !batch_last_app. unfold add_field_indexes. rewrite batch_last_puts, last_put_item_fk.
  destruct (mem _ _); [reflexivity|]. cbn [batch_last op_key op_val]. now rewrite data_key_dk, dk_not_fk.
Qed.

Lemma insert_effect fields d id old r :
  old_ok d id old ->
  effect fields id (option_map fst old) (Some r) d (apply_batch (delete_old fields id old ++ put_new fields id r) d).
Proof.
  intros O. apply effect_intro.
  - apply kv_sorted_batch.
  - batch_simpl. rewrite data_key_dk, put_new_last_dk, data_key_dk, bytes_eqb_refl. reflexivity.
  - intros H. batch_simpl. rewrite legacy_dk. rewrite put_new_last_dk.
    rewrite <- legacy_dk. destruct (bytes_eqb_spec (data_key id) (legacy_data_key id)); [congruence|].
    destruct old as [[ro k]|]; cbn [delete_old old_ok] in *.
    + fold (resolved_del id k). rewrite !batch_last_app. unfold remove_field_indexes.
      rewrite batch_last_dels. rewrite legacy_dk. rewrite mem_dk, last_del_item_dk.
      rewrite <- legacy_dk. exact (last_resolved_legacy _ _ _ O H).
    + cbn. apply O.
  - intros k H1 H2. batch_simpl. rewrite put_new_last_dk.
    destruct (bytes_eqb_spec (data_key id) (dk k)); [congruence|].
    destruct old as [[ro kk]|]; cbn [delete_old old_ok] in *; [|reflexivity].
    fold (resolved_del id kk). rewrite !batch_last_app. unfold remove_field_indexes.
    rewrite batch_last_dels, mem_dk, last_del_item_dk. now rewrite (last_resolved_dk _ _ _ _ O).
  - intros item Hi. batch_simpl. rewrite put_new_last_ik, item_match by assumption. cbn [item_of].
    destruct (bytes_eqb (item_id r) item); [reflexivity|].
    destruct old as [[ro kk]|]; cbn [delete_old old_ok option_map fst item_of] in *.
    + fold (resolved_del id kk). rewrite !batch_last_app. unfold remove_field_indexes.
      rewrite batch_last_dels, mem_ik, last_del_item_ik, item_match by assumption.
      destruct (bytes_eqb (item_id ro) item); [reflexivity|]. now rewrite (last_resolved_ik _ _ _ _ O).
    + cbn [batch_last]. destruct (bytes_eqb_spec [] item); [congruence|reflexivity].
  - batch_simpl. rewrite put_new_last_ik.
    assert (Z : forall (it : bytes) (A : option (option bytes)), match it with [] => None | _ => if bytes_eqb it [] then A else None end = None)
      by (intros [|? ?] ?; reflexivity).
    rewrite Z. destruct old as [[ro kk]|]; cbn [delete_old old_ok] in *; [|reflexivity].
    fold (resolved_del id kk). rewrite !batch_last_app. unfold remove_field_indexes.
    rewrite batch_last_dels, mem_ik, last_del_item_ik, Z. now rewrite (last_resolved_ik _ _ _ _ O).
  - intros k. batch_simpl. rewrite put_new_last_fk. cbn [keys_of].
    destruct (mem (fk k) (field_keys fields id r)); [reflexivity|].
    destruct old as [[ro kk]|]; cbn [delete_old old_ok option_map fst keys_of] in *; [|reflexivity].
    fold (resolved_del id kk). rewrite !batch_last_app. unfold remove_field_indexes.
    rewrite batch_last_dels. destruct (mem (fk k) (field_keys fields id ro)); [reflexivity|].
    rewrite last_del_item_fk. now rewrite (last_resolved_fk _ _ _ _ O).
Qed.

Lemma remove_effect fields d id r k :
  resolved_ok d id k ->
  effect fields id (Some r) None d
    (apply_batch ([BDel k] ++ delete_item_id_index (item_id r) ++ remove_field_indexes fields id r) d).
Proof.
  intros O.
  assert (Hk : exists x, k = dk x) by (destruct O as [[-> _]|[-> _]]; [rewrite data_key_dk|rewrite legacy_dk]; eauto).
  apply effect_intro.
  - apply kv_sorted_batch.
  - batch_simpl. unfold remove_field_indexes. rewrite batch_last_dels. rewrite data_key_dk.
    rewrite mem_dk, last_del_item_dk. cbn [batch_last op_key op_val option_map]. rewrite <- data_key_dk.
    destruct (bytes_eqb_spec k (data_key id)) as [|Hn]; [reflexivity|].
    destruct O as [[-> _]|[-> [Hne G]]]; [easy|]. exact G.
  - intros H. batch_simpl. unfold remove_field_indexes. rewrite batch_last_dels. rewrite legacy_dk.
    rewrite mem_dk, last_del_item_dk. cbn [batch_last op_key op_val option_map]. rewrite <- legacy_dk.
    destruct O as [[-> L]|[-> _]].
    + destruct (bytes_eqb_spec (data_key id) (legacy_data_key id)); [reflexivity|]. now apply L.
    + now rewrite bytes_eqb_refl.
  - intros x H1 H2. batch_simpl. unfold remove_field_indexes. rewrite batch_last_dels, mem_dk, last_del_item_dk.
    cbn [batch_last op_key op_val].
    destruct (bytes_eqb_spec k (dk x)) as [X|]; [|reflexivity]. destruct O as [[-> _]|[-> _]]; congruence.
  - intros item Hi. batch_simpl. unfold remove_field_indexes. rewrite batch_last_dels, mem_ik, last_del_item_ik, item_match by assumption.
    cbn [item_of]. destruct (bytes_eqb_spec [] item) as [X|_]; [congruence|].
    destruct (bytes_eqb (item_id r) item); [reflexivity|].
    cbn [batch_last op_key op_val]. destruct Hk as [x ->]. reflexivity.
  - batch_simpl. unfold remove_field_indexes. rewrite batch_last_dels, mem_ik, last_del_item_ik.
    destruct Hk as [x ->]. destruct (item_id r); reflexivity.
  - intros x. batch_simpl. unfold remove_field_indexes. rewrite batch_last_dels. cbn [keys_of]. change (mem (fk x) []) with false; cbv iota.
    destruct (mem (fk x) (field_keys fields id r)); [reflexivity|]. rewrite last_del_item_fk.
    destruct Hk as [y ->]. reflexivity.
Qed.

Lemma update_effect fields d id old r k :
  resolved_ok d id k ->
  (item_id old <> [] -> kv_get d (ik (item_id old)) = Some (le_enc 4 id)) ->
  effect fields id (Some old) (Some r) d
    (apply_batch (resolved_del id k ++ [BPut (data_key id) (serialize r)]
       ++ (if bytes_eqb (item_id old) (item_id r) then []
           else delete_item_id_index (item_id old) ++ put_item_id_index (item_id r) id)
       ++ remove_field_indexes fields id old ++ add_field_indexes fields id r) d).
Proof.
  intros O Hown.
  assert (M : forall x, (forall y, x <> fk y) ->
    batch_last (remove_field_indexes fields id old ++ add_field_indexes fields id r) x = None).
  { intros x Hx. unfold remove_field_indexes, add_field_indexes.
    rewrite batch_last_app, batch_last_puts, batch_last_dels, !mem_not_fk by assumption. reflexivity. }
  assert (I : forall x, (forall y, x <> ik y) -> (forall item, batch_last (delete_item_id_index item) x = None) ->
    (forall item, batch_last (put_item_id_index item id) x = None) ->
    batch_last (if bytes_eqb (item_id old) (item_id r) then []
           else delete_item_id_index (item_id old) ++ put_item_id_index (item_id r) id) x = None).
  { intros x Hx D P. destruct (bytes_eqb _ _); [reflexivity|]. now rewrite batch_last_app, D, P. }
  assert (Dk : forall x, batch_last ((if bytes_eqb (item_id old) (item_id r) then []
           else delete_item_id_index (item_id old) ++ put_item_id_index (item_id r) id)
         ++ remove_field_indexes fields id old ++ add_field_indexes fields id r) (dk x) = None).
  { intros x. rewrite batch_last_app, M by discriminate. apply I; [discriminate|intros; apply last_del_item_dk|intros; apply last_put_item_dk]. }
  apply effect_intro.
  - apply kv_sorted_batch.
  - rewrite get_batch, batch_last_app, batch_last_app. rewrite data_key_dk. rewrite Dk.
    cbn [batch_last op_key op_val]. rewrite <- data_key_dk. now rewrite bytes_eqb_refl.
  - intros H. rewrite get_batch, batch_last_app, batch_last_app. rewrite legacy_dk. rewrite Dk.
    cbn [batch_last op_key op_val]. rewrite <- legacy_dk.
    destruct (bytes_eqb_spec (data_key id) (legacy_data_key id)); [congruence|].
    now apply last_resolved_legacy.
  - intros x H1 H2. rewrite get_batch, batch_last_app, batch_last_app, Dk.
    cbn [batch_last op_key op_val]. destruct (bytes_eqb_spec (data_key id) (dk x)); [congruence|].
    now rewrite (last_resolved_dk _ _ _ _ O).
  - intros item Hi. rewrite get_batch. do 3 rewrite batch_last_app. rewrite M by discriminate.
    cbn [item_of batch_last op_key op_val]. rewrite data_key_dk, dk_not_ik, (last_resolved_ik _ _ _ _ O).
    destruct (bytes_eqb_spec (item_id old) (item_id r)) as [E|E].
    + rewrite <- E. cbn [batch_last]. destruct (bytes_eqb_spec (item_id old) item) as [X|X]; [|reflexivity].
      rewrite <- X. apply Hown. congruence.
    + rewrite batch_last_app, last_del_item_ik, last_put_item_ik, !item_match by assumption.
      destruct (bytes_eqb (item_id r) item); [reflexivity|]. now destruct (bytes_eqb (item_id old) item).
  - rewrite get_batch. do 3 rewrite batch_last_app. rewrite M by discriminate.
    cbn [item_of batch_last op_key op_val]. rewrite data_key_dk, dk_not_ik, (last_resolved_ik _ _ _ _ O).
    destruct (bytes_eqb (item_id old) (item_id r)); [reflexivity|].
    rewrite batch_last_app, last_del_item_ik, last_put_item_ik. destruct (item_id old), (item_id r); reflexivity.
  - intros x. rewrite get_batch. do 4 rewrite batch_last_app. unfold remove_field_indexes, add_field_indexes.
    rewrite batch_last_puts, batch_last_dels. cbn [keys_of].
    destruct (mem (fk x) (field_keys fields id r)); [reflexivity|].
    destruct (mem (fk x) (field_keys fields id old)); [reflexivity|].
    rewrite I; [|discriminate|intros; apply last_del_item_fk|intros; apply last_put_item_fk].
    cbn [batch_last op_key op_val]. now rewrite data_key_dk, dk_not_fk, (last_resolved_fk _ _ _ _ O).
Qed.

(** ** Each step *)
Lemma insert_step s t id r : represents s t -> (id < 2 ^ 32)%N -> storable r ->
  exists s', insert s id r = Ok (fst (spec_step t (Insert id r)), s')
    /\ represents s' (snd (spec_step t (Insert id r))) /\ indexed_fields s' = indexed_fields s.
Proof.
  intros R Hid Hst. unfold insert. cbn [spec_step].
  rewrite (available_spec s t (item_id r) id R), negb_involutive.
  destruct (read_old_spec s t id R) as [(E & RO & _)|(ro & k & E & RO & _ & K)]; rewrite RO; cbn [bind];
    destruct (taken_by_other t id (item_id r)) eqn:T; cbn [fst snd]; try (eexists; split; [reflexivity|]; split; [exact R|reflexivity]).
  - eexists. split; [reflexivity|]. split; [|reflexivity].
    apply (effect_represents s t id (Some r)); auto.
    + rewrite E. change (@None scalar_data) with (option_map fst (@None (scalar_data * bytes))).
      apply insert_effect. cbn [old_ok]. pose proof (get_data_none _ _ _ R E) as G. unfold get_data_value in G.
      destruct (kv_get (db s) (data_key id)) eqn:G1; [discriminate|]. split; [reflexivity|].
      destruct (bytes_eqb_spec (legacy_data_key id) (data_key id)) as [X|X]; [now rewrite X|].
      now destruct (kv_get (db s) (legacy_data_key id)).
    + congruence.
    + cbn [replace length]. unfold set_row. cbn [length]. rewrite del_row_absent by assumption. rewrite (rp_count _ _ R). lia.
  - eexists. split; [reflexivity|]. split; [|reflexivity].
    apply (effect_represents s t id (Some r)); auto.
    + rewrite E. change (Some ro) with (option_map fst (Some (ro, k))). apply insert_effect. exact K.
    + congruence.
    + cbn [replace length]. unfold set_row. cbn [length].
      rewrite <- (length_del id t ro); [apply R|apply R|assumption].
Qed.

Lemma update_step s t id r : represents s t -> (id < 2 ^ 32)%N -> storable r ->
  exists s', update s id r = Ok (fst (spec_step t (Update id r)), s')
    /\ represents s' (snd (spec_step t (Update id r))) /\ indexed_fields s' = indexed_fields s.
Proof.
  intros R Hid Hst. unfold update. cbn [spec_step].
  destruct (read_old_spec s t id R) as [(E & RO & G)|(ro & k & E & RO & G & K)]; rewrite G, E.
  - eexists. split; [reflexivity|]. split; [exact R|reflexivity].
  - rewrite deserialize_serialize by (apply (rp_rows _ _ R _ _ E)). cbn [bind].
    rewrite (available_spec s t (item_id r) id R), negb_involutive.
    destruct (taken_by_other t id (item_id r)) eqn:T; cbn [fst snd].
    + eexists. split; [reflexivity|]. split; [exact R|reflexivity].
    + eexists. split; [reflexivity|]. split; [|reflexivity].
      apply (effect_represents s t id (Some r)); auto.
      * rewrite E. apply update_effect; [exact K|]. intros Hn. apply (rp_item _ _ R). split; [assumption|].
        exists id. split; [|reflexivity]. now exists ro.
      * congruence.
      * cbn [replace length]. unfold set_row. cbn [length].
        rewrite <- (length_del id t ro); [apply R|apply R|assumption].
Qed.

Lemma remove_step s t id : represents s t -> (id < 2 ^ 32)%N ->
  exists s', remove s id = Ok (fst (spec_step t (Remove id)), s')
    /\ represents s' (snd (spec_step t (Remove id))) /\ indexed_fields s' = indexed_fields s.
Proof.
  intros R Hid. unfold remove. cbn [spec_step].
  destruct (read_old_spec s t id R) as [(E & RO & G)|(ro & k & E & RO & G & K)]; rewrite G, E.
  - eexists. split; [reflexivity|]. split; [exact R|reflexivity].
  - rewrite deserialize_serialize by (apply (rp_rows _ _ R _ _ E)). cbn [bind fst snd].
    eexists. split; [reflexivity|]. split; [|reflexivity].
    apply (effect_represents s t id None); auto.
    + rewrite E. now apply remove_effect.
    + congruence.
    + cbn [replace]. rewrite (rp_count _ _ R). rewrite (length_del id t ro) by (assumption || apply R).
      destruct (N.ltb_spec 0 (N.of_nat (S (length (del_row id t))))); lia.
Qed.

Lemma old_format_effect fields d id r :
  kv_get d (data_key id) = None -> kv_get d (legacy_data_key id) = None ->
  effect fields id None (Some r) d
    (apply_batch ([BPut (legacy_data_key id) (serialize r)] ++ put_item_id_index (item_id r) id
                  ++ add_field_indexes fields id r) d).
Proof.
  intros G1 G2.
  assert (D : forall x, batch_last ([BPut (legacy_data_key id) (serialize r)] ++ put_item_id_index (item_id r) id
                  ++ add_field_indexes fields id r) (dk x) =
            if bytes_eqb (legacy_data_key id) (dk x) then Some (Some (serialize r)) else None).
  { intros x. do 2 rewrite batch_last_app. unfold add_field_indexes.
    rewrite batch_last_puts, mem_dk, last_put_item_dk. reflexivity. }
  constructor.
  - apply kv_sorted_batch.
  - rewrite !get_batch. destruct (bytes_eqb_spec (legacy_data_key id) (data_key id)) as [X|X].
    + left. rewrite data_key_dk, D, <- data_key_dk. rewrite X, bytes_eqb_refl. cbn. split; [reflexivity|congruence].
    + right. rewrite data_key_dk, legacy_dk, !D, <- legacy_dk, <- data_key_dk, bytes_eqb_refl.
      destruct (bytes_eqb_spec (legacy_data_key id) (data_key id)); [congruence|]. now split.
  - intros k H1 H2. rewrite get_batch, D. destruct (bytes_eqb_spec (legacy_data_key id) (dk k)); [congruence|reflexivity].
  - intros item Hi. rewrite get_batch. do 2 rewrite batch_last_app. unfold add_field_indexes.
    rewrite batch_last_puts, mem_ik, last_put_item_ik, item_match by assumption. cbn [item_of batch_last op_key op_val].
    rewrite legacy_dk, dk_not_ik. destruct (bytes_eqb (item_id r) item); [reflexivity|].
    destruct (bytes_eqb_spec [] item); [congruence|reflexivity].
  - rewrite get_batch. do 2 rewrite batch_last_app. unfold add_field_indexes.
    rewrite batch_last_puts, mem_ik, last_put_item_ik. destruct (item_id r); reflexivity.
  - intros k. rewrite get_batch. do 2 rewrite batch_last_app. unfold add_field_indexes.
    rewrite batch_last_puts, last_put_item_fk. cbn [keys_of].
    destruct (mem (fk k) (field_keys fields id r)); reflexivity.
Qed.

Lemma no_keys s t id : represents s t -> row t id = None ->
  kv_get (db s) (data_key id) = None /\ kv_get (db s) (legacy_data_key id) = None.
Proof.
  intros R E. pose proof (get_data_none _ _ _ R E) as G. unfold get_data_value in G.
  destruct (kv_get (db s) (data_key id)) eqn:G1; [discriminate|]. split; [reflexivity|].
  destruct (bytes_eqb_spec (legacy_data_key id) (data_key id)) as [X|X]; [now rewrite X|].
  now destruct (kv_get (db s) (legacy_data_key id)).
Qed.

Lemma old_format_step s t id r : represents s t -> (id < 2 ^ 32)%N -> storable r ->
  exists s', insert_old_format s id r = Ok (fst (spec_step t (InsertOldFormat id r)), s')
    /\ represents s' (snd (spec_step t (InsertOldFormat id r))) /\ indexed_fields s' = indexed_fields s.
Proof.
  intros R Hid Hst. unfold insert_old_format. cbn [spec_step].
  destruct (read_old_spec s t id R) as [(E & _ & G)|(ro & k & E & _ & G & K)]; rewrite G, E.
  - rewrite (available_spec s t (item_id r) id R), negb_involutive.
    destruct (taken_by_other t id (item_id r)) eqn:T; cbn [fst snd].
    + eexists. split; [reflexivity|]. split; [exact R|reflexivity].
    + eexists. split; [reflexivity|]. split; [|reflexivity].
      apply (effect_represents s t id (Some r)); auto.
      * rewrite E. destruct (no_keys _ _ _ R E). now apply old_format_effect.
      * congruence.
      * cbn [replace length]. unfold set_row. cbn [length]. rewrite del_row_absent by assumption. rewrite (rp_count _ _ R). lia.
  - eexists. split; [reflexivity|]. split; [exact R|reflexivity].
Qed.

(** ** Batches of records *)
Lemma read_old_ext d d' id : kv_get d' (data_key id) = kv_get d (data_key id) ->
  kv_get d' (legacy_data_key id) = kv_get d (legacy_data_key id) -> read_old d' id = read_old d id.
Proof. intros A B. unfold read_old, get_data_value. now rewrite A, B. Qed.
Lemma read_olds_ext d d' l :
  (forall e, In e l -> kv_get d' (data_key (fst e)) = kv_get d (data_key (fst e))
     /\ kv_get d' (legacy_data_key (fst e)) = kv_get d (legacy_data_key (fst e))) ->
  read_olds d' l = read_olds d l.
Proof.
  induction l as [|[id r] l IH]; cbn [read_olds]; intros H; [reflexivity|].
  destruct (H (id, r) (or_introl eq_refl)) as [A B]. cbn [fst] in A, B.
  rewrite (read_old_ext d d' id A B), IH; [reflexivity|]. intros e He. apply H. now right.
Qed.
Lemma effect_other fields id old new d d' i : effect fields id old new d d' -> i <> id ->
  kv_get d' (data_key i) = kv_get d (data_key i) /\ kv_get d' (legacy_data_key i) = kv_get d (legacy_data_key i).
Proof.
  intros E Hi. split.
  - rewrite data_key_dk. apply (ef_rest _ _ _ _ _ _ E); rewrite <- data_key_dk; intros X.
    + apply data_key_inj in X. congruence.
    + apply data_legacy_inj in X. congruence.
  - rewrite legacy_dk. apply (ef_rest _ _ _ _ _ _ E); rewrite <- legacy_dk; intros X.
    + symmetry in X. apply data_legacy_inj in X. congruence.
    + apply legacy_inj in X. congruence.
Qed.

Definition batch_ops (fields : list bytes) (olds : list (N * scalar_data * option (scalar_data * bytes))) :=
  flat_map (fun e => delete_old fields (fst (fst e)) (snd e) ++ put_new fields (fst (fst e)) (snd (fst e))) olds.
Definition fresh_count (olds : list (N * scalar_data * option (scalar_data * bytes))) : nat :=
  length (filter (fun e => match snd e with None => true | Some _ => false end) olds).

Lemma batch_loop recs : forall s t, represents s t -> NoDup (map fst recs) ->
  (forall e, In e recs -> (fst e < 2 ^ 32)%N /\ storable (snd e)) ->
  (forall e, In e recs -> taken_by_other t (fst e) (item_id (snd e)) = false) ->
  distinct (nonempty_ids (map snd recs)) = true ->
  exists olds, read_olds (db s) recs = Ok olds /\
    represents (set_db_count s (apply_batch (batch_ops (indexed_fields s) olds) (db s))
                 (cached_count s + N.of_nat (fresh_count olds))%N) (set_rows recs t).
Proof.
  induction recs as [|[id r] recs IH]; intros s t R ND Hok Hfree Hd.
  { exists []. split; [reflexivity|]. cbn. rewrite N.add_0_r. destruct s; exact R. }
  cbn [map fst] in ND. inversion ND as [|? ? Nin ND']; subst.
  destruct (Hok (id, r) (or_introl eq_refl)) as [Hid Hst]. cbn [fst snd] in Hid, Hst.
  pose proof (Hfree (id, r) (or_introl eq_refl)) as Hf. cbn [fst snd] in Hf.
  assert (exists old, read_old (db s) id = Ok old /\ old_ok (db s) id old /\ option_map fst old = row t id) as (old & RO & OO & Eo).
  { destruct (read_old_spec s t id R) as [(E & RO & _)|(ro & k & E & RO & _ & K)].
    - exists None. rewrite E. split; [exact RO|]. split; [|reflexivity]. cbn. now apply (no_keys s t).
    - exists (Some (ro, k)). rewrite E. auto. }
  set (d' := apply_batch (delete_old (indexed_fields s) id old ++ put_new (indexed_fields s) id r) (db s)).
  assert (EF : effect (indexed_fields s) id (row t id) (Some r) (db s) d') by (rewrite <- Eo; now apply insert_effect).
  set (c' := (cached_count s + match old with None => 1 | Some _ => 0 end)%N).
  set (s' := set_db_count s d' c').
  assert (R' : represents s' (set_row id r t)).
  { apply (effect_represents s t id (Some r)); auto; [congruence|]. unfold c'. cbn [replace]. unfold set_row. cbn [length].
    rewrite (rp_count _ _ R). destruct old as [[ro k]|]; cbn [option_map fst] in Eo.
    - rewrite <- (length_del id t ro); [lia|apply R|congruence].
    - rewrite del_row_absent by congruence. lia. }
  destruct (IH s' (set_row id r t) R' ND') as (olds & RD & RR).
  - intros e He. apply Hok. now right.
  - intros e He. apply not_true_iff_false. intros X. apply taken_spec in X; [|apply R'].
    destruct X as (Hn & i & Hi & ri & Hri & Hit). rewrite row_set in Hri. destruct (N.eqb_spec id i) as [<-|Hni].
    + inversion Hri; subst ri. clear -Hd He Hit Hn. unfold nonempty_ids in Hd. cbn [map snd filter] in Hd.
      destruct (item_id r) as [|c it] eqn:Er; [congruence|]. cbn [distinct] in Hd.
      apply andb_true_iff in Hd as [Hd _]. apply negb_true_iff in Hd.
      assert (existsb (bytes_eqb (c :: it)) (filter (fun i => match i with [] => false | _ => true end) (map item_id (map snd recs))) = true); [|congruence].
      apply existsb_exists. exists (item_id (snd e)). split; [|rewrite <- Hit; apply bytes_eqb_refl].
      apply filter_In. split; [apply in_map, in_map, He|]. now destruct (item_id (snd e)).
    + assert (taken_by_other t (fst e) (item_id (snd e)) = true); [|rewrite (Hfree e) in H by (now right); discriminate].
      apply taken_spec; [apply R|]. split; [exact Hn|]. exists i. split; [exact Hi|]. now exists ri.
  - unfold nonempty_ids in *. cbn [map snd filter] in Hd. destruct (item_id r); [exact Hd|].
    cbn [distinct] in Hd. now apply andb_true_iff in Hd.
  - exists ((id, r, old) :: olds). split.
    + cbn [read_olds]. rewrite RO. cbn [bind].
      rewrite <- (read_olds_ext (db s) (db s') recs); [now rewrite RD|].
      intros e He. apply (effect_other _ _ _ _ _ _ _ EF). intros X. apply Nin. rewrite <- X. now apply in_map.
    + cbn [set_rows fold_left fst snd]. fold (set_rows recs (set_row id r t)).
      unfold s' in RR. cbn [set_db_count db cached_count indexed_fields] in RR.
      cbn [batch_ops flat_map fst snd]. fold (batch_ops (indexed_fields s) olds).
      rewrite apply_batch_app. fold d'.
      replace (cached_count s + N.of_nat (fresh_count ((id, r, old) :: olds)))%N with (c' + N.of_nat (fresh_count olds))%N; [exact RR|].
      unfold c', fresh_count. cbn [filter snd]. destruct old; cbn [length]; lia.
Qed.

Lemma rows_from_ids rs : forall start e, In e (rows_from start rs) ->
  (start <= fst e < start + N.of_nat (length rs))%N /\ In (snd e) rs.
Proof.
  induction rs as [|r rs IH]; intros start e; cbn; [easy|]. intros [<-|H]; cbn [fst snd].
  - split; [lia|now left].
  - apply IH in H as [H1 H2]. split; [lia|now right].
Qed.
Lemma rows_from_nodup rs : forall start, NoDup (map fst (rows_from start rs)).
Proof.
  induction rs as [|r rs IH]; intros start; cbn; constructor; [|apply IH].
  intros H. apply in_map_iff in H as (e & He & HI). apply rows_from_ids in HI. lia.
Qed.
Lemma rows_from_snd rs : forall start, map snd (rows_from start rs) = rs.
Proof. induction rs as [|r rs IH]; intros start; cbn; [reflexivity|]. now rewrite IH. Qed.
Lemma number_from_rows rs : forall start, number_from start rs = rows_from start rs.
Proof. induction rs as [|r rs IH]; intros start; cbn; [reflexivity|]. now rewrite IH. Qed.
Lemma distinct_seen rs : forall seen, batch_ids_distinct seen rs =
  forallb (fun i => negb (existsb (bytes_eqb i) seen)) (nonempty_ids rs) && distinct (nonempty_ids rs).
Proof.
  unfold nonempty_ids. induction rs as [|r rs IH]; intros seen; [reflexivity|]. cbn [batch_ids_distinct map filter].
  destruct (item_id r) as [|c it] eqn:E; [apply IH|]. rewrite <- E.
  cbn [forallb distinct]. destruct (existsb (bytes_eqb (item_id r)) seen) eqn:X; [reflexivity|].
  cbn [negb andb]. rewrite IH. clear.
  generalize (filter (fun i : list N => match i with [] => false | _ :: _ => true end) (map item_id rs)). intros l.
  assert (forallb (fun i => negb (existsb (bytes_eqb i) (item_id r :: seen))) l =
    forallb (fun i => negb (existsb (bytes_eqb i) seen)) l && negb (existsb (bytes_eqb (item_id r)) l)) as ->.
  { induction l as [|x l IH]; [reflexivity|]. cbn [forallb]. rewrite IH. cbn [existsb].
    rewrite (bytes_eqb_sym x (item_id r)).
    destruct (bytes_eqb (item_id r) x), (existsb (bytes_eqb x) seen), (forallb (fun i : bytes => negb (existsb (bytes_eqb i) seen)) l), (existsb (bytes_eqb (item_id r)) l); reflexivity. }
  now rewrite andb_assoc.
Qed.
Lemma distinct_nil rs : batch_ids_distinct [] rs = distinct (nonempty_ids rs).
Proof.
  rewrite distinct_seen. replace (forallb _ _) with true; [reflexivity|]. symmetry. now apply forallb_forall.
Qed.

Lemma read_olds_total s t l : represents s t -> exists olds, read_olds (db s) l = Ok olds.
Proof.
  intros R. induction l as [|[id r] l (olds & IH)]; [now exists []|]. cbn [read_olds].
  destruct (read_old_spec s t id R) as [(E & RO & _)|(ro & k & E & RO & _ & K)]; rewrite RO, IH; cbn [bind]; eauto.
Qed.

Lemma batch_step s t start rs : represents s t -> op_ok (BatchInsert start rs) ->
  exists s', batch_insert s start rs = Ok (fst (spec_step t (BatchInsert start rs)), s')
    /\ represents s' (snd (spec_step t (BatchInsert start rs))) /\ indexed_fields s' = indexed_fields s.
Proof.
  intros R [Hb Hst]. unfold batch_insert. cbn [spec_step]. rewrite distinct_nil, number_from_rows.
  destruct (distinct (nonempty_ids rs)) eqn:D; cbn [negb andb].
  2:{ eexists. split; [reflexivity|]. split; [exact R|reflexivity]. }
  destruct (read_olds_total s t (rows_from start rs) R) as (olds & RO). rewrite RO. cbn [bind].
  assert (OK : owners_ok (db s) (rows_from start rs) =
    forallb (fun e => negb (taken_by_other t (fst e) (item_id (snd e)))) (rows_from start rs)).
  { clear RO. unfold owners_ok. induction (rows_from start rs) as [|e l IH]; [reflexivity|]. cbn [forallb].
    now rewrite IH, (available_spec s t _ _ R). }
  rewrite OK. destruct (forallb _ (rows_from start rs)) eqn:F; cbn [negb fst snd].
  - eexists. split; [reflexivity|]. split; [|reflexivity].
    destruct (batch_loop (rows_from start rs) s t R) as (olds' & RO' & RR).
    + apply rows_from_nodup.
    + intros e He. apply rows_from_ids in He as [H1 H2]. split; [lia|]. rewrite Forall_forall in Hst. auto.
    + intros e He. rewrite forallb_forall in F. apply F in He. now apply negb_true_iff in He.
    + now rewrite rows_from_snd.
    + rewrite RO in RO'. inversion RO'; subst olds'. exact RR.
  - eexists. split; [reflexivity|]. split; [exact R|reflexivity].
Qed.

(** ** Reopening *)
Lemma bounded_length (l : list N) (n : N) : NoDup l -> (forall x, In x l -> (x < n)%N) -> (N.of_nat (length l) <= n)%N.
Proof.
  intros ND B.
  assert (H : (length (map N.to_nat l) <= length (seq 0 (N.to_nat n)))%nat).
  { apply NoDup_incl_length.
    - apply FinFun.Injective_map_NoDup; [|exact ND]. intros a b. apply N2Nat.inj.
    - intros x Hx. apply in_map_iff in Hx as (y & <- & Hy). apply B in Hy. apply in_seq. lia. }
  rewrite map_length, seq_length in H. lia.
Qed.
Lemma table_small s t : represents s t -> (N.of_nat (length t) <= 2 ^ 32)%N.
Proof.
  intros R. rewrite <- (map_length fst). apply bounded_length; [apply R|].
  intros x Hx. apply in_map_iff in Hx as ((i & r) & <- & HI). cbn. apply row_In in HI; [|apply R].
  apply (rp_rows _ _ R _ _ HI).
Qed.
Lemma reopen_step s t : represents s t -> represents (close_and_open s) t /\ indexed_fields (close_and_open s) = indexed_fields s.
Proof.
  intros R. unfold close_and_open. rewrite kv_get_put, bytes_eqb_refl, le_enc_length. cbn [Nat.eqb].
  split; [|reflexivity].
  assert (G : forall k, k <> count_key -> kv_get (kv_put count_key (le_enc 8 (cached_count s)) (db s)) k = kv_get (db s) k).
  { intros k Hk. rewrite kv_get_put. destruct (bytes_eqb_spec count_key k); [congruence|reflexivity]. }
  assert (C : forall k, dk k <> count_key /\ ik k <> count_key /\ fk k <> count_key) by (intros k; repeat split; discriminate).
  constructor; cbn [set_db_count db cached_count indexed_fields]; try apply R.
  - apply kv_sorted_put. apply R.
  - intros k v. rewrite G by (apply C). apply R.
  - intros id r Hr. rewrite data_key_dk, legacy_dk, !G by (apply C). rewrite <- data_key_dk, <- legacy_dk. now apply R.
  - intros item v. rewrite G by (apply C). apply R.
  - intros k v. rewrite G by (apply C). apply R.
  - rewrite le_dec_enc; [apply R|]. rewrite (rp_count _ _ R). pose proof (table_small s t R).
    change (256 ^ N.of_nat 8)%N with (2 ^ 64)%N. lia.
Qed.

(** ** Histories *)
Lemma step_refines s t o : represents s t -> op_ok o ->
  exists s', step s o = Ok (fst (spec_step t o), s') /\ represents s' (snd (spec_step t o))
    /\ indexed_fields s' = indexed_fields s.
Proof.
  intros R H. destruct o as [id r|start rs|id r|id| |id r]; cbn [step].
  - destruct H. now apply insert_step.
  - now apply batch_step.
  - destruct H. now apply update_step.
  - now apply remove_step.
  - exists (close_and_open s). cbn [spec_step fst snd]. split; [reflexivity|]. now apply reopen_step.
  - destruct H. now apply old_format_step.
Qed.

Lemma spec_run_acc l : forall t bs,
  fold_left (fun bt o => let '(b, t') := spec_step (snd bt) o in (fst bt ++ [b], t')) l (bs, t)
  = (bs ++ fst (spec_run t l), snd (spec_run t l)).
Proof.
  unfold spec_run. induction l as [|o l IH]; intros t bs; cbn [fold_left fst snd]; [now rewrite app_nil_r|].
  destruct (spec_step t o) as [b t'] eqn:E. rewrite IH. rewrite (IH t' ([] ++ [b])). cbn [fst snd app].
  now rewrite <- app_assoc.
Qed.
Lemma spec_run_cons t o l : spec_run t (o :: l) =
  (fst (spec_step t o) :: fst (spec_run (snd (spec_step t o)) l), snd (spec_run (snd (spec_step t o)) l)).
Proof.
  unfold spec_run at 1. cbn [fold_left fst snd]. destruct (spec_step t o) as [b t'] eqn:E. now rewrite spec_run_acc.
Qed.
Lemma run_refines l : forall s t, represents s t -> Forall op_ok l ->
  exists s', run s l = Ok (fst (spec_run t l), s') /\ represents s' (snd (spec_run t l))
    /\ indexed_fields s' = indexed_fields s.
Proof.
  induction l as [|o l IH]; intros s t R H.
  - exists s. auto.
  - inversion H as [|? ? Ho Hl]; subst. destruct (step_refines s t o R Ho) as (s1 & E1 & R1 & F1).
    destruct (IH s1 _ R1 Hl) as (s2 & E2 & R2 & F2). exists s2.
    rewrite spec_run_cons. cbn [run fst snd]. rewrite E1. cbn [bind]. rewrite E2. cbn [bind].
    split; [reflexivity|]. split; [exact R2|congruence].
Qed.
Lemma empty_represents fields : represents (empty_storage fields) [].
Proof.
  constructor; cbn; try easy; try constructor.
  - intros H. discriminate.
  - intros (_ & id & (r & H & _) & _). discriminate.
  - discriminate.
  - intros (_ & id & r & f & v' & H & _). discriminate.
Qed.
Lemma history fields l : Forall op_ok l -> exists s,
  run (empty_storage fields) l = Ok (fst (spec_run [] l), s) /\ represents s (snd (spec_run [] l))
  /\ indexed_fields s = fields.
Proof. intros H. destruct (run_refines l _ _ (empty_represents fields) H) as (s & E & R & F). eauto. Qed.
