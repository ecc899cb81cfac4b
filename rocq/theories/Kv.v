(** An ordered key-value store (the RocksDB interface the storage uses):
    entries sorted by the bytewise comparator, point reads, atomic batches,
    iteration from a key. *)
From Coq Require Export Sorted.
From Verif Require Export Text.

Definition kv := list (bytes * bytes).

Definition key_ltb (a b : bytes) : bool := match bytes_cmp a b with Lt => true | _ => false end.

(** DB::Get *)
Fixpoint kv_get (db : kv) (k : bytes) : option bytes :=
  match db with
  | [] => None
  | (k', v) :: db' => if bytes_eqb k' k then Some v else kv_get db' k
  end.
(** WriteBatch::Delete *)
Definition kv_del (k : bytes) (db : kv) : kv := filter (fun e => negb (bytes_eqb (fst e) k)) db.
Fixpoint kv_ins (k v : bytes) (db : kv) : kv :=
  match db with
  | [] => [(k, v)]
  | (k', v') :: db' => if key_ltb k k' then (k, v) :: db else (k', v') :: kv_ins k v db'
  end.
(** WriteBatch::Put *)
Definition kv_put (k v : bytes) (db : kv) : kv := kv_ins k v (kv_del k db).

Inductive batch_op := BPut (k v : bytes) | BDel (k : bytes).
Definition apply_op (db : kv) (o : batch_op) : kv :=
  match o with BPut k v => kv_put k v db | BDel k => kv_del k db end.
(** DB::Write: the batch is applied in order, atomically. *)
Definition apply_batch (l : list batch_op) (db : kv) : kv := fold_left apply_op l db.

(** Iterator::Seek: the entries from the first key >= [k] on. *)
Fixpoint kv_seek (db : kv) (k : bytes) : kv :=
  match db with
  | [] => []
  | (k', v) :: db' => if key_ltb k' k then kv_seek db' k else db
  end.

Definition key_lt (a b : bytes) : Prop := bytes_cmp a b = Lt.
Definition kv_sorted (db : kv) : Prop := StronglySorted key_lt (map fst db).

(** ** Facts *)
Lemma key_ltb_iff a b : key_ltb a b = true <-> key_lt a b.
Proof. unfold key_ltb, key_lt. destruct (bytes_cmp a b); intuition discriminate. Qed.
Lemma key_lt_irrefl a : ~ key_lt a a.
Proof. unfold key_lt. rewrite bytes_cmp_refl. discriminate. Qed.
Lemma key_lt_trans a b c : key_lt a b -> key_lt b c -> key_lt a c.
Proof. apply bytes_cmp_trans. Qed.
Lemma key_total a b : key_lt a b \/ a = b \/ key_lt b a.
Proof.
  unfold key_lt. destruct (bytes_cmp a b) eqn:E; [right; left; now apply bytes_cmp_eq|now left|].
  right; right. rewrite bytes_cmp_antisym, E. reflexivity.
Qed.

Lemma kv_get_del db k k' : kv_get (kv_del k db) k' = if bytes_eqb k k' then None else kv_get db k'.
Proof.
  unfold kv_del. induction db as [|[x v] db IH]; cbn; [now destruct (bytes_eqb k k')|].
  destruct (bytes_eqb_spec x k) as [->|Hn]; cbn.
  - rewrite IH. destruct (bytes_eqb_spec k k'); [reflexivity|]. destruct (bytes_eqb_spec k k'); [easy|reflexivity].
  - rewrite IH. destruct (bytes_eqb_spec x k') as [->|]; [|reflexivity].
    destruct (bytes_eqb_spec k k'); [congruence|reflexivity].
Qed.
Lemma kv_get_ins db k v k' : kv_get db k = None ->
  kv_get (kv_ins k v db) k' = if bytes_eqb k k' then Some v else kv_get db k'.
Proof.
  induction db as [|[x w] db IH]; intros N; cbn in *; [reflexivity|].
  destruct (bytes_eqb_spec x k) as [->|Hn]; [discriminate|].
  destruct (key_ltb k x); cbn.
  - reflexivity.
  - rewrite IH by assumption. destruct (bytes_eqb_spec x k') as [->|]; [|reflexivity].
    destruct (bytes_eqb_spec k k'); [congruence|reflexivity].
Qed.
Lemma kv_get_put db k v k' : kv_get (kv_put k v db) k' = if bytes_eqb k k' then Some v else kv_get db k'.
Proof.
  unfold kv_put. rewrite kv_get_ins by (now rewrite kv_get_del, bytes_eqb_refl).
  rewrite kv_get_del. now destruct (bytes_eqb k k').
Qed.

Lemma kv_del_In db k e : In e (kv_del k db) <-> In e db /\ fst e <> k.
Proof.
  unfold kv_del. rewrite filter_In, negb_true_iff, bytes_eqb_neq. reflexivity.
Qed.
Lemma kv_sorted_del k db : kv_sorted db -> kv_sorted (kv_del k db).
Proof.
  unfold kv_sorted, kv_del. induction db as [|[x v] db IH]; cbn; intros S; [constructor|].
  inversion S; subst. specialize (IH H1). destruct (bytes_eqb x k); cbn [negb]; [exact IH|].
  cbn. constructor; [exact IH|]. rewrite Forall_forall in *. intros y Hy.
  apply in_map_iff in Hy as (e & <- & He). apply filter_In in He as [He _].
  apply H2. now apply in_map.
Qed.
Lemma kv_ins_keys k v db x : In x (map fst (kv_ins k v db)) <-> x = k \/ In x (map fst db).
Proof.
  induction db as [|[y w] db IH]; cbn; [intuition|]. destruct (key_ltb k y); cbn; [intuition|].
  rewrite IH. intuition.
Qed.
Lemma kv_sorted_ins k v db : kv_sorted db -> ~ In k (map fst db) -> kv_sorted (kv_ins k v db).
Proof.
  unfold kv_sorted. induction db as [|[y w] db IH]; cbn; intros S N; [repeat constructor|].
  inversion S as [|? ? S1 F]; subst. destruct (key_ltb k y) eqn:E; cbn.
  - apply key_ltb_iff in E. constructor; [exact S|]. constructor; [exact E|].
    eapply Forall_impl; [|exact F]. intros z Hz. now apply (key_lt_trans _ y).
  - constructor; [apply IH; [exact S1|tauto]|]. rewrite Forall_forall in *. intros z Hz.
    apply kv_ins_keys in Hz as [->|Hz]; [|now apply F].
    destruct (key_total k y) as [H|[H|H]]; [|exfalso; apply N; left; congruence|exact H].
    apply key_ltb_iff in H. congruence.
Qed.
Lemma kv_sorted_put k v db : kv_sorted db -> kv_sorted (kv_put k v db).
Proof.
  intros S. apply kv_sorted_ins; [now apply kv_sorted_del|].
  intros H. apply in_map_iff in H as (e & <- & He). apply kv_del_In in He as [_ He]. now apply He.
Qed.
Lemma kv_sorted_op db o : kv_sorted db -> kv_sorted (apply_op db o).
Proof. destruct o; cbn; [apply kv_sorted_put|apply kv_sorted_del]. Qed.
Lemma kv_sorted_batch l : forall db, kv_sorted db -> kv_sorted (apply_batch l db).
Proof. induction l as [|o l IH]; intros db S; cbn; [exact S|]. apply IH. now apply kv_sorted_op. Qed.
Lemma apply_batch_app a b db : apply_batch (a ++ b) db = apply_batch b (apply_batch a db).
Proof. apply fold_left_app. Qed.

Lemma kv_sorted_nodup db : kv_sorted db -> NoDup (map fst db).
Proof.
  unfold kv_sorted. induction 1 as [|k l S IH F]; constructor; [|exact IH].
  intros H. rewrite Forall_forall in F. apply F in H. now apply key_lt_irrefl in H.
Qed.
Lemma kv_get_In db k v : kv_sorted db -> (kv_get db k = Some v <-> In (k, v) db).
Proof.
  intros S. apply kv_sorted_nodup in S. induction db as [|[x w] db IH]; cbn; [intuition discriminate|].
  cbn in S. inversion S as [|? ? N S']; subst. destruct (bytes_eqb_spec x k) as [->|Hn].
  - split; [intros H; inversion H; now left|]. intros [H|H]; [congruence|].
    exfalso. apply N. change k with (fst (k, v)). now apply in_map.
  - rewrite IH by assumption. split; [now right|]. intros [H|H]; [congruence|exact H].
Qed.

(** Seek is the filter of keys that are not smaller. *)
Lemma kv_seek_filter db k : kv_sorted db -> kv_seek db k = filter (fun e => negb (key_ltb (fst e) k)) db.
Proof.
  unfold kv_sorted. induction db as [|[x v] db IH]; cbn; intros S; [reflexivity|].
  inversion S as [|? ? S1 F]; subst. destruct (key_ltb x k) eqn:E; cbn [negb]; [now apply IH|].
  f_equal. rewrite Forall_forall in F. symmetry. 
  assert (A : forall e, In e db -> negb (key_ltb (fst e) k) = true).
  { intros e He. rewrite negb_true_iff. apply not_true_iff_false. intros H. apply key_ltb_iff in H.
    assert (key_lt x (fst e)) by (apply F; now apply in_map).
    assert (key_lt x k) by (eapply key_lt_trans; eassumption). apply key_ltb_iff in H1. congruence. }
  clear -A. induction db as [|e db IH]; [reflexivity|]. cbn. rewrite (A e) by (now left).
  f_equal. apply IH. intros e' He'. apply A. now right.
Qed.

Lemma kv_sorted_filter P db : kv_sorted db -> kv_sorted (filter P db).
Proof.
  unfold kv_sorted. induction db as [|e db IH]; cbn; intros S; [constructor|].
  inversion S as [|? ? S1 F]; subst. destruct (P e); cbn; [|now apply IH].
  constructor; [now apply IH|]. rewrite Forall_forall in *. intros z Hz.
  apply in_map_iff in Hz as (x & <- & Hx). apply filter_In in Hx as [Hx _]. apply F. now apply in_map.
Qed.

(** All keys with a prefix lie at or after the prefix, and a key at or after
    it that lacks it is after all that have it. *)
Lemma prefix_ge p s : starts_with p s = true -> key_ltb s p = false.
Proof.
  intros H. apply starts_with_iff in H as [r ->]. unfold key_ltb.
  rewrite <- (app_nil_r p) at 2. rewrite bytes_cmp_app. now destruct r.
Qed.
Lemma prefix_block p a b : key_lt a b -> key_ltb a p = false -> starts_with p a = false -> starts_with p b = false.
Proof.
  intros L G N. apply not_true_iff_false. intros H. apply starts_with_iff in H as [r ->].
  revert a L G N. induction p as [|x p IH]; intros a L G N.
  - now rewrite (proj2 (starts_with_iff [] a)) in N by (now exists a).
  - destruct a as [|y a]; [unfold key_ltb in G; cbn in G; discriminate|].
    unfold key_lt, key_ltb in *. cbn in L, G. destruct (N.compare_spec y x) as [->|Hl|Hg]; try discriminate.
    apply (IH a); try assumption.
    apply not_true_iff_false. intros H. apply starts_with_iff in H as [q ->].
    rewrite (proj2 (starts_with_iff _ _)) in N; [discriminate|]. now exists q.
Qed.

(** The iterator loop [while (key.starts_with(p))] from Seek([k]) with [k]
    itself starting with [p] visits exactly the keys >= k with the prefix. *)
Fixpoint take_prefix (p : bytes) (db : kv) : kv :=
  match db with
  | [] => []
  | e :: db' => if starts_with p (fst e) then e :: take_prefix p db' else []
  end.
Lemma filter_none {A} (P : A -> bool) l : (forall x, In x l -> P x = false) -> filter P l = [].
Proof.
  induction l as [|x l IH]; cbn; intros H; [reflexivity|]. rewrite H by (now left). apply IH. intros y Hy. apply H. now right.
Qed.
Lemma take_prefix_filter p db : kv_sorted db -> (forall e, In e db -> key_ltb (fst e) p = false) ->
  take_prefix p db = filter (fun e => starts_with p (fst e)) db.
Proof.
  unfold kv_sorted. induction db as [|e db IH]; cbn; intros S G; [reflexivity|].
  inversion S as [|? ? S1 F]; subst. destruct (starts_with p (fst e)) eqn:E.
  - f_equal. apply IH; [exact S1|]. intros x Hx. apply G. now right.
  - symmetry. apply filter_none. intros x Hx. apply (prefix_block p (fst e)).
    + rewrite Forall_forall in F. apply F. now apply in_map.
    + apply G. now left.
    + exact E.
Qed.
Lemma seek_take p k db : kv_sorted db -> starts_with p k = true ->
  take_prefix p (kv_seek db k) = filter (fun e => starts_with p (fst e) && negb (key_ltb (fst e) k)) db.
Proof.
  intros S P. rewrite kv_seek_filter by assumption.
  rewrite take_prefix_filter.
  - clear. induction db as [|e db IH]; cbn; [reflexivity|].
    destruct (key_ltb (fst e) k); cbn; [now rewrite andb_false_r|].
    rewrite andb_true_r, IH. reflexivity.
  - now apply kv_sorted_filter.
  - intros e He. apply filter_In in He as [_ He]. apply not_true_iff_false. intros H.
    apply key_ltb_iff in H. apply negb_true_iff in He.
    pose proof (prefix_ge p k P) as Q. destruct (key_total k p) as [X|[X|X]].
    + apply key_ltb_iff in X. congruence.
    + subst. apply key_ltb_iff in H. congruence.
    + assert (key_lt (fst e) k) by (eapply key_lt_trans; eassumption). apply key_ltb_iff in H0. congruence.
Qed.
