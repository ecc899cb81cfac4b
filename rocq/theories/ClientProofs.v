From Coq Require Import String.
From Verif Require Export ClientSpec.
Import ListNotations.
Open Scope string_scope.
Open Scope list_scope.

(** ** Paths and files *)
Lemma path_eqb_spec a b : reflect (a = b) (path_eqb a b).
Proof. unfold path_eqb. destruct (list_eq_dec string_dec a b); constructor; assumption. Qed.
Lemma path_eqb_refl a : path_eqb a a = true.
Proof. destruct (path_eqb_spec a a); congruence. Qed.
Lemma below_app d e : below d (d ++ e) = true.
Proof. induction d as [|x d IH]; cbn; [reflexivity|]. rewrite String.eqb_refl. exact IH. Qed.
Lemma below_iff d p : below d p = true <-> exists e, p = d ++ e.
Proof.
  split.
  - revert p. induction d as [|x d IH]; intros p H; [exists p; reflexivity|]. destruct p as [|y p]; [discriminate H|]. cbn in H.
    apply andb_true_iff in H. destruct H as (E & H). apply String.eqb_eq in E. subst y. destruct (IH p H) as (e & ->). exists e. reflexivity.
  - intros (e & ->). apply below_app.
Qed.
Lemma below_common d e f : below (d ++ e) (d ++ f) = below e f.
Proof. induction d as [|x d IH]; cbn; [reflexivity|]. rewrite String.eqb_refl. exact IH. Qed.
Lemma read_write s p f q : read_file (write_file s p f) q = if path_eqb p q then Some f else read_file s q.
Proof.
  unfold write_file. cbn [read_file]. destruct (path_eqb_spec p q) as [ -> |D]; [reflexivity|].
  induction s as [|[r g] s IH]; cbn [filter read_file fst]; [reflexivity|].
  destruct (path_eqb_spec r p) as [ -> |D2]; cbn [negb].
  - rewrite IH. destruct (path_eqb_spec p q); [contradiction|reflexivity].
  - cbn [read_file]. rewrite IH. reflexivity.
Qed.
Lemma read_rmtree s d q : read_file (rmtree s d) q = if below d q then None else read_file s q.
Proof.
  induction s as [|[r g] s IH]; cbn [rmtree filter read_file fst]; [destruct (below d q); reflexivity|].
  destruct (below d r) eqn:B; cbn [negb].
  - fold (rmtree s d). rewrite IH. destruct (path_eqb_spec r q) as [ -> |_]; [rewrite B; reflexivity|reflexivity].
  - cbn [read_file]. fold (rmtree s d). rewrite IH. destruct (path_eqb_spec r q) as [ -> |_]; [rewrite B; reflexivity|reflexivity].
Qed.
Lemma read_in s p f : read_file s p = Some f -> In (p, f) s.
Proof.
  induction s as [|[q g] s IH]; cbn [read_file]; [discriminate|]. destruct (path_eqb_spec q p) as [ -> |D]; [intros H; inversion H; left; reflexivity|].
  intros H. right. auto.
Qed.
Lemma in_read s p f : In (p, f) s -> exists g, read_file s p = Some g.
Proof.
  induction s as [|[q g] s IH]; intros H; [destruct H|]. cbn [read_file]. destruct (path_eqb_spec q p) as [ -> |D]; [eauto|].
  destruct H as [H|H]; [inversion H; congruence|eauto].
Qed.
Lemma exists_read s d : dir_exists s d = true <-> exists p f, below d p = true /\ read_file s p = Some f.
Proof.
  unfold dir_exists. rewrite existsb_exists. split.
  - intros ([p f] & Hin & B). cbn in B. destruct (in_read s p f Hin) as (g & E). eauto.
  - intros (p & f & B & E). exists (p, f). split; [apply read_in; exact E|exact B].
Qed.

Section Url.
Context (url : text) (U : path) (PU : plain_url url U).

Lemma go_plain at_ t : Forall plain t -> go at_ t = at_ ++ t.
Proof.
  intros F. revert at_. induction F as [|x t (A & B & C) F IH]; intros at_; cbn [go]; [rewrite app_nil_r; reflexivity|].
  destruct (String.eqb_spec x ""); [contradiction|]. destruct (String.eqb_spec x "."); [contradiction|]. destruct (String.eqb_spec x ".."); [contradiction|].
  rewrite IH, <- app_assoc. reflexivity.
Qed.
Lemma last_plain (t : list string) d : t <> [] -> Forall plain t -> last t d <> "".
Proof.
  intros NE F. induction F as [|x t (A & B & C) F IH]; [congruence|]. destruct t as [|y t]; [exact A|]. apply IH. discriminate.
Qed.
Lemma resolve_plain cwd dir : dir <> [] -> Forall plain dir -> resolve cwd ("" :: dir) = dir.
Proof.
  intros NE F. unfold resolve. destruct dir as [|x d]; [congruence|]. transitivity (go [] (x :: d)); [reflexivity|]. rewrite go_plain by exact F. reflexivity.
Qed.
Lemma not_abs s : is_abs [s] = false.
Proof. destruct s; reflexivity. Qed.
Lemma join_plain dir s : dir <> [] -> Forall plain dir -> join ("" :: dir) [s] = "" :: dir ++ [s].
Proof.
  intros NE F. unfold join. rewrite not_abs. destruct dir as [|x d]; [congruence|].
  replace (last ("" :: x :: d) "x") with (last (x :: d) "x") by reflexivity.
  destruct (String.eqb_spec (last (x :: d) "x") "") as [E|_]; [|reflexivity].
  exfalso. exact (last_plain (x :: d) "x" ltac:(discriminate) F E).
Qed.
Definition dbtext (s : string) : text := "" :: U ++ [s; "rocksdb"].
Lemma plain_snoc s : plain s -> Forall plain (U ++ [s]).
Proof. destruct PU as (_ & _ & F). intros P. apply Forall_app. split; [exact F|]. repeat constructor; apply P. Qed.
Lemma snoc_ne {A} (l : list A) x : l ++ [x] <> [].
Proof. destruct l; discriminate. Qed.
Lemma join_name s : plain s -> join url [s] = "" :: U ++ [s].
Proof. destruct PU as (-> & NE & F). intros P. apply join_plain; assumption. Qed.
Lemma dir_name cwd s : plain s -> resolve cwd (join url [s]) = U ++ [s].
Proof. intros P. rewrite join_name by exact P. apply resolve_plain; [apply snoc_ne|apply plain_snoc; exact P]. Qed.
Lemma rocksdb_plain : plain "rocksdb".
Proof. repeat split; discriminate. Qed.
Lemma join_db s : plain s -> join (join url [s]) ["rocksdb"] = dbtext s.
Proof.
  intros P. rewrite join_name by exact P. rewrite join_plain; [|apply snoc_ne|apply plain_snoc; exact P].
  unfold dbtext. rewrite <- app_assoc. reflexivity.
Qed.
Lemma db_dir cwd s : plain s -> resolve cwd (dbtext s) = U ++ [s; "rocksdb"].
Proof.
  intros P. unfold dbtext. apply resolve_plain; [destruct U; discriminate|]. apply Forall_app. split; [apply PU|].
  repeat constructor; try apply P; discriminate.
Qed.
Lemma rstrip_plain t : t <> [] -> Forall plain t -> rstrip t = t.
Proof.
  intros NE F. induction F as [|x t (A & B & C) F IH]; [congruence|]. cbn [rstrip]. destruct t as [|y t].
  - cbn. destruct (String.eqb_spec x ""); [contradiction|reflexivity].
  - rewrite IH by discriminate. reflexivity.
Qed.
Lemma dirname_db s : plain s -> dirname (dbtext s) = "" :: U ++ [s].
Proof.
  intros P. unfold dirname, dbtext. replace ("" :: U ++ [s; "rocksdb"]) with (("" :: U ++ [s]) ++ ["rocksdb"]) by (cbn; rewrite <- app_assoc; reflexivity).
  rewrite removelast_last. cbn [rstrip]. rewrite rstrip_plain; [|apply snoc_ne|apply plain_snoc; exact P].
  destruct (U ++ [s]) eqn:E; [destruct (snoc_ne U s E)|]. reflexivity.
Qed.
Lemma recovery_name cwd s : plain s -> recovery_file cwd (dbtext s) = U ++ [s; "recovery"; "CURRENT"].
Proof.
  intros P. unfold recovery_file. rewrite dirname_db by exact P. rewrite resolve_plain; [|apply snoc_ne|apply plain_snoc; exact P].
  rewrite <- app_assoc. reflexivity.
Qed.
Lemma db_named s : text_eqb (dbtext s) [""] = false.
Proof.
  unfold text_eqb, path_eqb, dbtext. destruct (list_eq_dec string_dec ("" :: U ++ [s; "rocksdb"]) [""]) as [E|_]; [|reflexivity].
  inversion E as [E']. destruct U; discriminate E'.
Qed.
Lemma schema_name s : schema_file (U ++ [s]) = U ++ [s; "schema.json"].
Proof. unfold schema_file. rewrite <- app_assoc. reflexivity. Qed.
Lemma data_name s : data_file (U ++ [s]) = U ++ [s; "raw.data"].
Proof. unfold data_file. rewrite <- app_assoc. reflexivity. Qed.
Lemma dbf_name s : db_file (U ++ [s; "rocksdb"]) = U ++ [s; "rocksdb"; "CURRENT"].
Proof. unfold db_file. rewrite <- app_assoc. reflexivity. Qed.
Lemma path_eqb_under a b : path_eqb (U ++ a) (U ++ b) = path_eqb a b.
Proof.
  destruct (path_eqb_spec a b) as [ -> |D]; [apply path_eqb_refl|]. destruct (path_eqb_spec (U ++ a) (U ++ b)) as [E|_]; [|reflexivity].
  apply app_inv_head in E. contradiction.
Qed.
Lemma path_eqb_cons x y a b : path_eqb (x :: a) (y :: b) = (String.eqb x y && path_eqb a b)%bool.
Proof.
  destruct (path_eqb_spec (x :: a) (y :: b)) as [E|D].
  - inversion E; subst. rewrite String.eqb_refl, path_eqb_refl. reflexivity.
  - destruct (String.eqb_spec x y) as [ -> |_]; [|reflexivity]. destruct (path_eqb_spec a b) as [ -> |_]; [congruence|reflexivity].
Qed.

(** ** The disk of a client *)
Record disk_ok (d0 : disk) (b : shelf) (d : disk) : Prop := {
  dk_schema : forall s, plain s -> read_file d (U ++ [s; "schema.json"]) =
    match kept b s with Some (KCollection, _) => Some (FSchema KCollection (dbtext s)) | Some (KIndex, _) => Some (FSchema KIndex [""]) | None => None end;
  dk_data : forall s l, plain s -> kept b s = Some (KIndex, l) -> read_file d (U ++ [s; "raw.data"]) = Some (FData l);
  dk_recovery : forall s l, plain s -> kept b s = Some (KCollection, l) -> read_file d (U ++ [s; "recovery"; "CURRENT"]) = Some (FRecovery l);
  dk_db : forall s, plain s -> dir_exists d (U ++ [s; "rocksdb"]) = database b s;
  dk_has_db : forall s l, plain s -> kept b s = Some (KCollection, l) -> database b s = true;
  dk_plain : forall p f, read_file d (U ++ p) = Some f -> exists s q r, p = s :: q :: r /\ plain s;
  dk_outside : forall p, below U p = false -> read_file d p = read_file d0 p }.
Record client_ok (b : shelf) (c : client) : Prop := {
  ck_url : cl_url c = Some url;
  ck_shown : forall s, plain s -> shown c [s] = live b s;
  ck_db : forall s col, plain s -> assoc (cl_collections c) [s] = Some col -> c_db col = dbtext s;
  ck_plain : forall n, taken c n = true -> exists s, n = [s] /\ plain s;
  ck_one : forall n, assoc (cl_collections c) n = None \/ assoc (cl_indices c) n = None;
  ck_kept : forall s l, live b s = Some (Coll (Some l)) -> kept b s = Some (KCollection, l) }.

Lemma exists_write d p f q : dir_exists (write_file d p f) q = (below q p || dir_exists d q)%bool.
Proof.
  unfold dir_exists, write_file. cbn [existsb fst]. destruct (below q p) eqn:B; [reflexivity|]. cbn [orb].
  induction d as [|[r g] d IH]; cbn [filter existsb fst]; [reflexivity|].
  destruct (path_eqb_spec r p) as [ -> |D]; cbn [negb]; [rewrite B; exact IH|]. cbn [existsb fst]. rewrite IH. reflexivity.
Qed.
Lemma exists_rm d p q : dir_exists (rmtree d p) q = existsb (fun e => (below q (fst e) && negb (below p (fst e)))%bool) d.
Proof.
  unfold dir_exists, rmtree. induction d as [|[r g] d IH]; cbn [filter existsb fst]; [reflexivity|].
  destruct (below p r) eqn:B; cbn [negb]; [rewrite IH, andb_false_r; reflexivity|]. cbn [existsb fst]. rewrite IH, andb_true_r. reflexivity.
Qed.

(** Files written under a name [s]: the contents of other names stay. *)
Definition under (s : string) (p : path) : Prop := exists q r, p = U ++ s :: q :: r.
Lemma below_U p : below U (U ++ p) = true.
Proof. apply below_app. Qed.

Lemma text_eqb_spec a b : reflect (a = b) (text_eqb a b).
Proof. apply path_eqb_spec. Qed.
Lemma assoc_remove_get {A} (m : list (text * A)) k n : assoc (assoc_remove m k) n = if text_eqb k n then None else assoc m n.
Proof.
  unfold assoc_remove. induction m as [|[q g] m IH]; cbn [filter assoc fst]; [destruct (text_eqb k n); reflexivity|].
  destruct (text_eqb_spec q k) as [ -> |D2]; cbn [negb].
  - rewrite IH. destruct (text_eqb_spec k n) as [ -> |D]; reflexivity.
  - cbn [assoc]. rewrite IH. destruct (text_eqb_spec k n) as [ -> |D], (text_eqb_spec q n) as [ -> |D3]; try reflexivity. congruence.
Qed.
Lemma assoc_put_get {A} (m : list (text * A)) k v n : assoc (assoc_put m k v) n = if text_eqb k n then Some v else assoc m n.
Proof. unfold assoc_put. cbn [assoc]. rewrite assoc_remove_get. destruct (text_eqb k n); reflexivity. Qed.
Lemma text_eqb_one s t : text_eqb [s] [t] = String.eqb s t.
Proof. unfold text_eqb. rewrite path_eqb_cons. cbn. apply andb_true_r. Qed.

Lemma disk_same d0 b b' d : (forall s, plain s -> kept b' s = kept b s) -> (forall s, plain s -> database b' s = database b s) -> disk_ok d0 b d -> disk_ok d0 b' d.
Proof.
  intros K D I. constructor.
  - intros s P. rewrite K by exact P. apply (dk_schema d0 b d I s P).
  - intros s l P E. rewrite K in E by exact P. apply (dk_data d0 b d I s l P E).
  - intros s l P E. rewrite K in E by exact P. apply (dk_recovery d0 b d I s l P E).
  - intros s P. rewrite D by exact P. apply (dk_db d0 b d I s P).
  - intros s l P E. rewrite K in E by exact P. rewrite D by exact P. apply (dk_has_db d0 b d I s l P E).
  - apply (dk_plain d0 b d I).
  - apply (dk_outside d0 b d I).
Qed.
Lemma bool_iff a b : (a = true <-> b = true) -> a = b.
Proof. destruct a, b; intros [A B]; try reflexivity; [symmetry; auto|auto]. Qed.
Lemma under_other s t p : s <> t -> below (U ++ [t]) p = true -> ~ under s p.
Proof.
  intros D B (q & r & ->). apply below_iff in B. destruct B as (e & E). rewrite <- app_assoc in E. apply app_inv_head in E. inversion E. congruence.
Qed.
Lemma disk_change d0 b b' d d' s : plain s -> disk_ok d0 b d ->
  (forall p, ~ under s p -> read_file d' p = read_file d p) ->
  (forall t, t <> s -> kept b' t = kept b t /\ database b' t = database b t) ->
  read_file d' (U ++ [s; "schema.json"]) =
    match kept b' s with Some (KCollection, _) => Some (FSchema KCollection (dbtext s)) | Some (KIndex, _) => Some (FSchema KIndex [""]) | None => None end ->
  (forall l, kept b' s = Some (KIndex, l) -> read_file d' (U ++ [s; "raw.data"]) = Some (FData l)) ->
  (forall l, kept b' s = Some (KCollection, l) -> read_file d' (U ++ [s; "recovery"; "CURRENT"]) = Some (FRecovery l)) ->
  dir_exists d' (U ++ [s; "rocksdb"]) = database b' s -> (forall l, kept b' s = Some (KCollection, l) -> database b' s = true) ->
  disk_ok d0 b' d'.
Proof.
  intros P I Fr Ot Sc Da Re Db Hd.
  assert (Rt : forall t p, t <> s -> read_file d' (U ++ t :: p) = read_file d (U ++ t :: p)).
  { intros t p D. apply Fr. apply (under_other s t); [congruence|]. replace (U ++ t :: p) with ((U ++ [t]) ++ p) by (rewrite <- app_assoc; reflexivity). apply below_app. }
  constructor.
  - intros t Pt. destruct (string_dec t s) as [ -> |D]; [exact Sc|]. rewrite Rt by exact D. rewrite (proj1 (Ot t D)). apply (dk_schema d0 b d I t Pt).
  - intros t l Pt E. destruct (string_dec t s) as [ -> |D]; [exact (Da l E)|]. rewrite Rt by exact D. rewrite (proj1 (Ot t D)) in E. apply (dk_data d0 b d I t l Pt E).
  - intros t l Pt E. destruct (string_dec t s) as [ -> |D]; [exact (Re l E)|]. rewrite Rt by exact D. rewrite (proj1 (Ot t D)) in E. apply (dk_recovery d0 b d I t l Pt E).
  - intros t Pt. destruct (string_dec t s) as [ -> |D]; [exact Db|]. rewrite (proj2 (Ot t D)), <- (dk_db d0 b d I t Pt). apply bool_iff. rewrite !exists_read.
    split; intros (p & f & B & E); exists p, f; (split; [exact B|]); apply below_iff in B; destruct B as (e & ->); rewrite <- app_assoc in *; cbn [app] in *.
    + rewrite <- Rt by exact D. exact E.
    + rewrite Rt by exact D. exact E.
  - intros t l Pt E. destruct (string_dec t s) as [ -> |D]; [exact (Hd l E)|]. rewrite (proj1 (Ot t D)) in E. rewrite (proj2 (Ot t D)). apply (dk_has_db d0 b d I t l Pt E).
  - intros p f E. destruct p as [|x [|y r]].
    + rewrite Fr in E; [exact (dk_plain d0 b d I [] f E)|]. intros (q & r & C). apply app_inv_head in C. discriminate C.
    + rewrite Fr in E; [exact (dk_plain d0 b d I [x] f E)|]. intros (q & r & C). apply app_inv_head in C. discriminate C.
    + destruct (string_dec x s) as [ -> |D]; [exists s, y, r; auto|]. rewrite Rt in E by exact D. exact (dk_plain d0 b d I _ f E).
  - intros p B. rewrite Fr; [exact (dk_outside d0 b d I p B)|]. intros (q & r & ->). rewrite below_U in B. discriminate B.
Qed.
Lemma read_write_under s d q r f p : ~ under s p -> read_file (write_file d (U ++ s :: q :: r) f) p = read_file d p.
Proof.
  intros H. rewrite read_write. destruct (path_eqb_spec (U ++ s :: q :: r) p) as [ <- |_]; [|reflexivity]. exfalso. apply H. exists q, r. reflexivity.
Qed.
Lemma read_write_in d p f q : read_file (write_file d (U ++ p) f) (U ++ q) = if path_eqb p q then Some f else read_file d (U ++ q).
Proof. rewrite read_write, path_eqb_under. reflexivity. Qed.
Lemma read_write_name s d p f q : read_file (write_file d (U ++ s :: p) f) (U ++ s :: q) = if path_eqb p q then Some f else read_file d (U ++ s :: q).
Proof. rewrite read_write_in, path_eqb_cons, String.eqb_refl. reflexivity. Qed.
Lemma exists_write_name s d p f q : dir_exists (write_file d (U ++ s :: p) f) (U ++ s :: q) = (below q p || dir_exists d (U ++ s :: q))%bool.
Proof. rewrite exists_write, below_common. cbn [below]. rewrite String.eqb_refl. reflexivity. Qed.

(** ** The client *)
Lemma live_coll b c s x : client_ok b c -> plain s -> live b s = Some (Coll x) ->
  exists col, assoc (cl_collections c) [s] = Some col /\ assoc (cl_indices c) [s] = None /\ c_items col = x /\ c_db col = dbtext s.
Proof.
  intros C P E. rewrite <- (ck_shown b c C s P) in E. unfold shown in E.
  destruct (assoc (cl_collections c) [s]) as [col|] eqn:A, (assoc (cl_indices c) [s]) eqn:B; try discriminate E. inversion E; subst.
  exists col. repeat split; auto. exact (ck_db b c C s col P A).
Qed.
Lemma live_ind b c s x : client_ok b c -> plain s -> live b s = Some (Ind x) ->
  assoc (cl_collections c) [s] = None /\ assoc (cl_indices c) [s] = Some x.
Proof.
  intros C P E. rewrite <- (ck_shown b c C s P) in E. unfold shown in E.
  destruct (assoc (cl_collections c) [s]) as [col|] eqn:A, (assoc (cl_indices c) [s]) eqn:B; try discriminate E. inversion E; subst. auto.
Qed.
Lemma live_none b c s : client_ok b c -> plain s -> live b s = None -> assoc (cl_collections c) [s] = None /\ assoc (cl_indices c) [s] = None.
Proof.
  intros C P E. rewrite <- (ck_shown b c C s P) in E. unfold shown in E. pose proof (ck_one b c C [s]) as O.
  destruct (assoc (cl_collections c) [s]) as [col|] eqn:A, (assoc (cl_indices c) [s]) eqn:B; try discriminate E; [destruct O as [O|O]; congruence|auto].
Qed.
Lemma client_put_coll b b' c s col : client_ok b c -> plain s -> assoc (cl_indices c) [s] = None -> c_db col = dbtext s ->
  (forall t, live b' t = set (live b) s (Some (Coll (c_items col))) t) -> (forall t l, live b' t = Some (Coll (Some l)) -> kept b' t = Some (KCollection, l)) ->
  client_ok b' (set_coll c (assoc_put (cl_collections c) [s] col)).
Proof.
  intros C P NI Db Lv Kp. constructor; cbn [set_coll cl_url cl_collections cl_indices].
  - apply (ck_url b c C).
  - intros t Pt. rewrite Lv. unfold shown, set. cbn [set_coll cl_collections cl_indices]. rewrite assoc_put_get, text_eqb_one.
    destruct (String.eqb_spec s t) as [ <- |D]; [rewrite NI; reflexivity|]. exact (ck_shown b c C t Pt).
  - intros t col' Pt E. rewrite assoc_put_get, text_eqb_one in E. destruct (String.eqb_spec s t) as [ <- |D]; [inversion E; subst; exact Db|].
    exact (ck_db b c C t col' Pt E).
  - intros n T. unfold taken in T. cbn [set_coll cl_collections cl_indices] in T. rewrite assoc_put_get in T.
    destruct (text_eqb_spec [s] n) as [E|D]; [exists s; auto|]. exact (ck_plain b c C n T).
  - intros n. rewrite assoc_put_get. destruct (text_eqb_spec [s] n) as [E|D]; [right; rewrite <- E; exact NI|apply (ck_one b c C)].
  - exact Kp.
Qed.
Lemma client_put_ind b b' c s i : client_ok b c -> plain s -> assoc (cl_collections c) [s] = None ->
  (forall t, live b' t = set (live b) s (Some (Ind i)) t) -> (forall t l, live b' t = Some (Coll (Some l)) -> kept b' t = Some (KCollection, l)) ->
  client_ok b' (set_ind c (assoc_put (cl_indices c) [s] i)).
Proof.
  intros C P NI Lv Kp. constructor; cbn [set_ind cl_url cl_collections cl_indices].
  - apply (ck_url b c C).
  - intros t Pt. rewrite Lv. unfold shown, set. cbn [set_ind cl_collections cl_indices]. rewrite assoc_put_get, text_eqb_one.
    destruct (String.eqb_spec s t) as [ <- |D]; [rewrite NI; reflexivity|]. exact (ck_shown b c C t Pt).
  - intros t col' Pt E. exact (ck_db b c C t col' Pt E).
  - intros n T. unfold taken in T. cbn [set_ind cl_collections cl_indices] in T. rewrite assoc_put_get in T.
    destruct (text_eqb_spec [s] n) as [E|D]; [exists s; auto|]. exact (ck_plain b c C n T).
  - intros n. rewrite assoc_put_get. destruct (text_eqb_spec [s] n) as [E|D]; [left; rewrite <- E; exact NI|apply (ck_one b c C)].
  - exact Kp.
Qed.
Lemma client_drop b b' c s m m' : client_ok b c -> plain s ->
  (forall n, assoc m n = if text_eqb [s] n then None else assoc (cl_collections c) n) ->
  (forall n, assoc m' n = if text_eqb [s] n then None else assoc (cl_indices c) n) ->
  (forall t, live b' t = set (live b) s None t) -> (forall t, t <> s -> kept b' t = kept b t) ->
  client_ok b' {| cl_url := cl_url c; cl_collections := m; cl_indices := m' |}.
Proof.
  intros C P M M' Lv Kp. constructor; cbn [cl_url cl_collections cl_indices].
  - apply (ck_url b c C).
  - intros t Pt. rewrite Lv. unfold shown, set. cbn [cl_collections cl_indices]. rewrite M, M', text_eqb_one.
    destruct (String.eqb_spec s t) as [ <- |D]; [reflexivity|]. exact (ck_shown b c C t Pt).
  - intros t col' Pt E. rewrite M, text_eqb_one in E. destruct (String.eqb s t); [discriminate E|]. exact (ck_db b c C t col' Pt E).
  - intros n T. unfold taken in T. cbn [cl_collections cl_indices] in T. rewrite M, M' in T. destruct (text_eqb [s] n); [discriminate T|]. exact (ck_plain b c C n T).
  - intros n. rewrite M, M'. destruct (text_eqb [s] n); [auto|apply (ck_one b c C)].
  - intros t l E. rewrite Lv in E. unfold set in E. destruct (String.eqb_spec s t) as [ <- |D]; [discriminate E|]. rewrite Kp by congruence. apply (ck_kept b c C t l E).
Qed.
Lemma set_same {A} (f : string -> A) s x : set f s x s = x.
Proof. unfold set. rewrite String.eqb_refl. reflexivity. Qed.
Lemma set_other {A} (f : string -> A) s x t : t <> s -> set f s x t = f t.
Proof. unfold set. destruct (String.eqb_spec s t); congruence. Qed.

(** ** Single calls *)
Lemma rm_ok d0 b d s : disk_ok d0 b d -> plain s -> disk_ok d0 (drop b s true) (rmtree d (U ++ [s])).
Proof.
  intros I P. apply (disk_change d0 b _ d _ s P I); cbn [drop kept database].
  - intros p H. rewrite read_rmtree. destruct (below (U ++ [s]) p) eqn:B; [|reflexivity]. apply below_iff in B. destruct B as (e & ->).
    rewrite <- app_assoc in *. cbn [app] in *. destruct e as [|q r]; [|exfalso; apply H; exists q, r; reflexivity].
    destruct (read_file d (U ++ [s])) as [f|] eqn:E; [|reflexivity]. destruct (dk_plain d0 b d I _ _ E) as (x & q & r & C & _). discriminate C.
  - intros t D. rewrite !set_other by exact D. auto.
  - rewrite set_same, read_rmtree. replace (U ++ [s; "schema.json"]) with ((U ++ [s]) ++ ["schema.json"]) by (rewrite <- app_assoc; reflexivity).
    rewrite below_app. reflexivity.
  - intros l. rewrite set_same. discriminate.
  - intros l. rewrite set_same. discriminate.
  - rewrite set_same. apply Bool.not_true_is_false. rewrite exists_read. intros (p & f & B & E). rewrite read_rmtree in E.
    apply below_iff in B. destruct B as (e & ->). replace ((U ++ [s; "rocksdb"]) ++ e) with ((U ++ [s]) ++ "rocksdb" :: e) in E by (rewrite <- !app_assoc; reflexivity).
    rewrite below_app in E. discriminate E.
  - intros l. rewrite set_same. discriminate.
Qed.

Definition simulates d0 (r : res (world * client)) (o : option shelf) : Prop :=
  match r, o with
  | Ok (w', c'), Some b' => disk_ok d0 b' (w_disk w') /\ client_ok b' c'
  | Ok _, None => False
  | _, None => True
  | _, Some _ => False
  end.

Lemma kept_set b c s (x : object) t l : client_ok b c -> (forall l, x <> Coll (Some l)) ->
  set (live b) s (Some x) t = Some (Coll (Some l)) -> kept b t = Some (KCollection, l).
Proof.
  intros C Nx E. unfold set in E. destruct (String.eqb s t); [inversion E; subst; destruct (Nx l eq_refl)|]. exact (ck_kept b c C t l E).
Qed.
Lemma create_collection_ok d0 b w c s : disk_ok d0 b (w_disk w) -> client_ok b c -> plain s ->
  simulates d0 (do_call w c (CreateCollection [s] [""])) (should b (CreateCollection [s] [""])).
Proof.
  intros I C P. cbn [do_call should]. unfold create_collection, taken.
  destruct (live b s) as [[x|x]|] eqn:L.
  - destruct (live_coll b c s x C P L) as (col & -> & _). exact Logic.I.
  - destruct (live_ind b c s x C P L) as (-> & ->). exact Logic.I.
  - destruct (live_none b c s C P L) as (EC & EI). rewrite EC, EI. change (text_eqb [""] [""]) with true. cbv iota. rewrite (ck_url b c C).
    rewrite join_db by exact P. rewrite db_named. cbn [bind simulates]. split.
    + eapply disk_same; [| |exact I]; reflexivity.
    + eapply client_put_coll; [exact C|exact P|exact EI|reflexivity|reflexivity|]. cbn [live kept c_items].
      intros t l. apply (kept_set b c s (Coll None) t l C). discriminate.
Qed.
Lemma create_index_ok d0 b w c s : disk_ok d0 b (w_disk w) -> client_ok b c -> plain s ->
  simulates d0 (do_call w c (CreateIndex [s])) (should b (CreateIndex [s])).
Proof.
  intros I C P. cbn [do_call should]. unfold create_index, taken.
  destruct (live b s) as [[x|x]|] eqn:L.
  - destruct (live_coll b c s x C P L) as (col & -> & _). exact Logic.I.
  - destruct (live_ind b c s x C P L) as (-> & ->). exact Logic.I.
  - destruct (live_none b c s C P L) as (EC & EI). rewrite EC, EI. cbn [bind simulates]. split.
    + eapply disk_same; [| |exact I]; reflexivity.
    + eapply client_put_ind; [exact C|exact P|exact EC|reflexivity|]. cbn [live kept].
      intros t l. apply (kept_set b c s (Ind None) t l C). discriminate.
Qed.
Lemma fit_ok d0 b w c s items : disk_ok d0 b (w_disk w) -> client_ok b c -> plain s ->
  simulates d0 (do_call w c (Fit [s] items)) (should b (Fit [s] items)).
Proof.
  intros I C P. cbn [do_call should]. unfold fit.
  destruct (live b s) as [[x|[x|]]|] eqn:L.
  - destruct (live_coll b c s x C P L) as (col & _ & -> & _). exact Logic.I.
  - destruct (live_ind b c s _ C P L) as (_ & ->). exact Logic.I.
  - destruct (live_ind b c s _ C P L) as (EC & ->). cbn [bind simulates]. split.
    + eapply disk_same; [| |exact I]; reflexivity.
    + eapply client_put_ind; [exact C|exact P|exact EC|reflexivity|]. cbn [live kept].
      intros t l. apply (kept_set b c s (Ind (Some items)) t l C). discriminate.
  - destruct (live_none b c s C P L) as (_ & ->). exact Logic.I.
Qed.
Lemma insert_ok d0 b w c s items : disk_ok d0 b (w_disk w) -> client_ok b c -> plain s ->
  simulates d0 (do_call w c (Insert [s] items)) (should b (Insert [s] items)).
Proof.
  intros I C P. cbn [do_call should]. unfold insert.
  destruct (live b s) as [[x|x]|] eqn:L.
  2: { destruct (live_ind b c s _ C P L) as (-> & _). exact Logic.I. }
  2: { destruct (live_none b c s C P L) as (-> & _). exact Logic.I. }
  destruct (live_coll b c s x C P L) as (col & -> & EI & Ex & Ed).
  destruct items as [|y items]; [destruct x; split; assumption|]. set (its := y :: items). cbv zeta. rewrite Ex, Ed.
  destruct x as [old|].
  - rewrite recovery_name by exact P. pose proof (ck_kept b c C s old L) as K.
    rewrite (dk_recovery d0 b _ I s old P K). cbn [simulates with_disk w_disk]. split.
    + apply (disk_change d0 b _ (w_disk w) _ s P I); cbn [kept database].
      * intros p H. apply read_write_under. exact H.
      * intros t D. rewrite set_other by exact D. auto.
      * rewrite set_same. rewrite read_write_name. change (path_eqb ["recovery"; "CURRENT"] ["schema.json"]) with false. cbv iota.
        rewrite (dk_schema d0 b _ I s P), K. reflexivity.
      * intros l. rewrite set_same. discriminate.
      * intros l. rewrite set_same. intros E. inversion E; subst. rewrite read_write_name, path_eqb_refl. reflexivity.
      * rewrite exists_write_name. change (below ["rocksdb"] ["recovery"; "CURRENT"]) with false. apply (dk_db d0 b _ I s P).
      * intros l _. apply (dk_has_db d0 b _ I s old P K).
    + eapply client_put_coll; [exact C|exact P|exact EI|reflexivity|reflexivity|]. cbn [live kept c_items].
      intros t l E. unfold set in *. destruct (String.eqb s t); [inversion E; subst; reflexivity|]. exact (ck_kept b c C t l E).
  - rewrite db_dir by exact P. rewrite (dk_db d0 b _ I s P). destruct (database b s) eqn:Eb; [exact Logic.I|].
    rewrite recovery_name, dirname_db by exact P.
    assert (NE : text_eqb ("" :: U ++ [s]) [""] = false).
    { destruct (text_eqb_spec ("" :: U ++ [s]) [""]) as [E|]; [|reflexivity]. inversion E. destruct (snoc_ne U s H0). }
    rewrite NE. rewrite resolve_plain; [|apply snoc_ne|apply plain_snoc; exact P]. rewrite dbf_name, schema_name.
    cbn [simulates with_disk w_disk]. split.
    + apply (disk_change d0 b _ (w_disk w) _ s P I); cbn [kept database].
      * intros p H. rewrite !read_write_under by exact H. reflexivity.
      * intros t D. rewrite !set_other by exact D. auto.
      * rewrite set_same. rewrite read_write_name, path_eqb_refl. reflexivity.
      * intros l. rewrite set_same. discriminate.
      * intros l. rewrite set_same. intros E. inversion E; subst. rewrite !read_write_name.
        change (path_eqb ["schema.json"] ["recovery"; "CURRENT"]) with false. rewrite path_eqb_refl. reflexivity.
      * rewrite set_same, !exists_write_name. change (below ["rocksdb"] ["rocksdb"; "CURRENT"]) with true. rewrite !orb_true_r. reflexivity.
      * intros l _. rewrite set_same. reflexivity.
    + eapply client_put_coll; [exact C|exact P|exact EI|reflexivity|reflexivity|]. cbn [live kept c_items].
      intros t l E. unfold set in *. destruct (String.eqb s t); [inversion E; subst; reflexivity|]. exact (ck_kept b c C t l E).
Qed.
Lemma save_collection_ok d0 b w c s : disk_ok d0 b (w_disk w) -> client_ok b c -> plain s ->
  simulates d0 (do_call w c (SaveCollection [s])) (should b (SaveCollection [s])).
Proof.
  intros I C P. cbn [do_call should]. unfold save_collection. rewrite (ck_url b c C).
  destruct (live b s) as [[x|x]|] eqn:L.
  2: { destruct (live_ind b c s _ C P L) as (-> & _). exact Logic.I. }
  2: { destruct (live_none b c s C P L) as (-> & _). exact Logic.I. }
  destruct (live_coll b c s x C P L) as (col & -> & EI & -> & ->). destruct x as [l|]; [|exact Logic.I].
  pose proof (ck_kept b c C s l L) as K. rewrite dir_name, recovery_name by exact P. rewrite data_name, schema_name.
  cbn [bind simulates with_disk w_disk]. split; [|exact C].
  apply (disk_change d0 b _ (w_disk w) _ s P I).
  - intros p H. rewrite !read_write_under by exact H. reflexivity.
  - auto.
  - rewrite K, read_write_name, path_eqb_refl. reflexivity.
  - rewrite K. discriminate.
  - rewrite K. intros l' E. inversion E; subst. rewrite !read_write_name. change (path_eqb ["schema.json"] ["recovery"; "CURRENT"]) with false. rewrite path_eqb_refl. reflexivity.
  - rewrite !exists_write_name. change (below ["rocksdb"] ["schema.json"]) with false. change (below ["rocksdb"] ["recovery"; "CURRENT"]) with false.
    change (below ["rocksdb"] ["raw.data"]) with false. apply (dk_db d0 b _ I s P).
  - intros l'. apply (dk_has_db d0 b _ I s l' P).
Qed.
Lemma save_index_ok d0 b w c s : disk_ok d0 b (w_disk w) -> client_ok b c -> plain s ->
  simulates d0 (do_call w c (SaveIndex [s])) (should b (SaveIndex [s])).
Proof.
  intros I C P. cbn [do_call should]. unfold save_index. rewrite (ck_url b c C).
  destruct (live b s) as [[x|x]|] eqn:L.
  1: { destruct (live_coll b c s x C P L) as (col & _ & -> & _). exact Logic.I. }
  2: { destruct (live_none b c s C P L) as (_ & ->). exact Logic.I. }
  destruct (live_ind b c s _ C P L) as (_ & ->). destruct x as [l|]; [|exact Logic.I].
  rewrite dir_name by exact P. rewrite data_name, schema_name. cbn [bind simulates with_disk w_disk]. split.
  - apply (disk_change d0 b _ (w_disk w) _ s P I); cbn [kept database].
    + intros p H. rewrite !read_write_under by exact H. reflexivity.
    + intros t D. rewrite set_other by exact D. auto.
    + rewrite set_same, read_write_name, path_eqb_refl. reflexivity.
    + rewrite set_same. intros l' E. inversion E; subst. rewrite !read_write_name. change (path_eqb ["schema.json"] ["raw.data"]) with false. rewrite path_eqb_refl. reflexivity.
    + rewrite set_same. discriminate.
    + rewrite !exists_write_name. change (below ["rocksdb"] ["schema.json"]) with false. change (below ["rocksdb"] ["raw.data"]) with false. apply (dk_db d0 b _ I s P).
    + rewrite set_same. discriminate.
  - constructor; cbn [live kept]; try apply C. intros t l' E. unfold set. destruct (String.eqb_spec s t) as [ <- |D]; [congruence|]. exact (ck_kept b c C t l' E).
Qed.
Lemma drop_client b c s on_disk m m' : client_ok b c -> plain s ->
  (forall n, assoc m n = if text_eqb [s] n then None else assoc (cl_collections c) n) ->
  (forall n, assoc m' n = if text_eqb [s] n then None else assoc (cl_indices c) n) ->
  client_ok (drop b s on_disk) {| cl_url := cl_url c; cl_collections := m; cl_indices := m' |}.
Proof.
  intros C P M M'. eapply client_drop; [exact C|exact P|exact M|exact M'|reflexivity|].
  intros t D. cbn [drop kept]. destruct on_disk; [apply set_other; exact D|reflexivity].
Qed.
Lemma drop_disk d0 b w s on_disk : disk_ok d0 b (w_disk w) -> plain s ->
  disk_ok d0 (drop b s on_disk) (if on_disk then rmtree (w_disk w) (U ++ [s]) else w_disk w).
Proof. intros I P. destruct on_disk; [apply rm_ok; assumption|]. eapply disk_same; [| |exact I]; reflexivity. Qed.
Lemma delete_collection_ok d0 b w c s on_disk : disk_ok d0 b (w_disk w) -> client_ok b c -> plain s ->
  simulates d0 (do_call w c (DeleteCollection [s] on_disk)) (should b (DeleteCollection [s] on_disk)).
Proof.
  intros I C P. cbn [do_call should]. unfold delete_collection.
  destruct (live b s) as [[x|x]|] eqn:L.
  2: { destruct (live_ind b c s _ C P L) as (-> & _). exact Logic.I. }
  2: { destruct (live_none b c s C P L) as (-> & _). exact Logic.I. }
  destruct (live_coll b c s x C P L) as (col & -> & EI & _).
  assert (CO : client_ok (drop b s on_disk) (set_coll c (assoc_remove (cl_collections c) [s]))).
  { apply drop_client; [exact C|exact P|apply assoc_remove_get|]. intros n. destruct (text_eqb_spec [s] n) as [E|_]; [rewrite <- E; exact EI|reflexivity]. }
  pose proof (drop_disk d0 b w s on_disk I P) as DK. rewrite (ck_url b c C). destruct on_disk.
  - rewrite dir_name by exact P. split; assumption.
  - split; assumption.
Qed.
Lemma delete_index_ok d0 b w c s on_disk : disk_ok d0 b (w_disk w) -> client_ok b c -> plain s ->
  simulates d0 (do_call w c (DeleteIndex [s] on_disk)) (should b (DeleteIndex [s] on_disk)).
Proof.
  intros I C P. cbn [do_call should]. unfold delete_index.
  destruct (live b s) as [[x|x]|] eqn:L.
  1: { destruct (live_coll b c s x C P L) as (col & _ & -> & _). exact Logic.I. }
  2: { destruct (live_none b c s C P L) as (_ & ->). exact Logic.I. }
  destruct (live_ind b c s _ C P L) as (EC & ->).
  assert (CO : client_ok (drop b s on_disk) (set_ind c (assoc_remove (cl_indices c) [s]))).
  { apply drop_client; [exact C|exact P| |apply assoc_remove_get]. intros n. destruct (text_eqb_spec [s] n) as [E|_]; [rewrite <- E; exact EC|reflexivity]. }
  pose proof (drop_disk d0 b w s on_disk I P) as DK. rewrite (ck_url b c C). destruct on_disk.
  - rewrite dir_name by exact P. split; assumption.
  - split; assumption.
Qed.

(** ** Reset *)
Definition listed (names : list text) (s : string) : bool := existsb (fun n => text_eqb n [s]) names.
Definition without (b : shelf) (names : list text) : shelf :=
  {| live := live b; kept := fun s => if listed names s then None else kept b s; database := fun s => if listed names s then false else database b s |}.
Lemma rm_all_ok d0 w : forall names b s, disk_ok d0 b s -> Forall (fun n => exists t, n = [t] /\ plain t) names ->
  disk_ok d0 (without b names) (rm_all w url names s).
Proof.
  induction names as [|n names IH]; intros b s I F; cbn [rm_all].
  - eapply disk_same; [| |exact I]; reflexivity.
  - apply Forall_cons_iff in F. destruct F as ((t & -> & P) & F). rewrite dir_name by exact P.
    eapply disk_same; [| |apply (IH (drop b t true) _ (rm_ok d0 b s t I P) F)]; intros u _; cbn [without drop kept database listed existsb]; unfold listed, set; cbn [existsb]; rewrite text_eqb_one;
      destruct (String.eqb t u); cbn [orb]; destruct (existsb (fun n : text => text_eqb n [u]) names); reflexivity.
Qed.
Lemma assoc_listed {A} (m : list (text * A)) s : listed (map fst m) s = match assoc m [s] with Some _ => true | None => false end.
Proof.
  unfold listed. induction m as [|[n v] m IH]; cbn [map existsb assoc fst]; [reflexivity|]. destruct (text_eqb n [s]); [reflexivity|exact IH].
Qed.
Lemma assoc_in {A} (m : list (text * A)) n : In n (map fst m) -> assoc m n <> None.
Proof.
  induction m as [|[k v] m IH]; cbn [map In assoc fst]; [intros []|]. intros H. destruct (text_eqb_spec k n) as [E|D]; [discriminate|]. apply IH. destruct H; [contradiction|assumption].
Qed.
Lemma all_listed b c s : client_ok b c -> plain s ->
  listed (map fst (cl_collections c) ++ map fst (cl_indices c)) s = match live b s with Some _ => true | None => false end.
Proof.
  intros C P. unfold listed. rewrite existsb_app. fold (listed (map fst (cl_collections c)) s). fold (listed (map fst (cl_indices c)) s). rewrite !assoc_listed.
  destruct (live b s) as [[x|x]|] eqn:L.
  - destruct (live_coll b c s x C P L) as (col & -> & _). reflexivity.
  - destruct (live_ind b c s x C P L) as (-> & ->). reflexivity.
  - destruct (live_none b c s C P L) as (-> & ->). reflexivity.
Qed.
Lemma reset_ok d0 b w c on_disk : disk_ok d0 b (w_disk w) -> client_ok b c ->
  simulates d0 (do_call w c (Reset on_disk)) (should b (Reset on_disk)).
Proof.
  intros I C. cbn [do_call should]. unfold reset. rewrite (ck_url b c C).
  assert (CO : forall b', (forall s, live b' s = None) -> client_ok b' {| cl_url := Some url; cl_collections := []; cl_indices := [] |}).
  { intros b' L. constructor; cbn; auto; try discriminate; intros; try congruence; rewrite L in *; discriminate. }
  destruct on_disk; cbn [simulates with_disk w_disk]; (split; [|apply CO; reflexivity]).
  - eapply disk_same; [| |apply (rm_all_ok d0 w _ b (w_disk w) I)].
    3: { apply Forall_forall. intros n Hn. apply (ck_plain b c C). unfold taken. apply in_app_or in Hn. destruct Hn as [H|H]; apply assoc_in in H.
         - destruct (assoc (cl_collections c) n); [reflexivity|congruence].
         - destruct (assoc (cl_collections c) n); [reflexivity|]. destruct (assoc (cl_indices c) n); [reflexivity|congruence]. }
    + intros s P. cbn [without kept]. rewrite (all_listed b c s C P). destruct (live b s); reflexivity.
    + intros s P. cbn [without database]. rewrite (all_listed b c s C P). destruct (live b s); reflexivity.
  - eapply disk_same; [| |exact I]; cbn [kept database]; intros s _; destruct (live b s); reflexivity.
Qed.

(** ** Opening again *)
Lemma subdirs_in d x : In x (subdirs d U) <-> exists q r f, read_file d (U ++ x :: q :: r) = Some f.
Proof.
  unfold subdirs. rewrite nodup_In, in_flat_map. split.
  - intros ([p f] & Hin & H). cbn [fst] in H. destruct (below U p) eqn:B; [|destruct H]. apply below_iff in B. destruct B as (e & ->).
    rewrite skipn_app, skipn_all, Nat.sub_diag in H. cbn [skipn app] in H. destruct e as [|y [|q r]]; try destruct H.
    + subst y. destruct (in_read _ _ _ Hin) as (g & E). eauto.
    + destruct H.
  - intros (q & r & f & E). exists (U ++ x :: q :: r, f). split; [apply read_in; exact E|]. cbn [fst]. rewrite below_app.
    rewrite skipn_app, skipn_all, Nat.sub_diag. cbn [skipn app]. left. reflexivity.
Qed.
Lemma subdirs_nodup d : NoDup (subdirs d U).
Proof. apply NoDup_nodup. Qed.
Definition opened (b : shelf) (names : list string) : shelf :=
  {| live := fun s => if in_dec string_dec s names then reopened (kept b s) else None; kept := kept b; database := database b |}.
Lemma opened_kept b names t l : live (opened b names) t = Some (Coll (Some l)) -> kept b t = Some (KCollection, l).
Proof.
  cbn [opened live]. destruct (in_dec string_dec t names); [|discriminate]. unfold reopened. destruct (kept b t) as [[[|] l']|]; try discriminate. intros E. inversion E. reflexivity.
Qed.
Lemma opened_more b names x t : ~ In x names -> live (opened b (names ++ [x])) t = set (live (opened b names)) x (reopened (kept b x)) t.
Proof.
  intros N. unfold set. cbn [opened live]. destruct (String.eqb_spec x t) as [ <- |D].
  - destruct (in_dec string_dec x (names ++ [x])) as [_|C]; [reflexivity|]. destruct C. apply in_or_app. right. left. reflexivity.
  - destruct (in_dec string_dec t (names ++ [x])) as [A|A], (in_dec string_dec t names) as [B|B]; try reflexivity.
    + apply in_app_or in A. destruct A as [A|[A|[]]]; [contradiction|contradiction].
    + destruct A. apply in_or_app. auto.
Qed.
Lemma open_all_ok d0 b : forall names done w c, disk_ok d0 b (w_disk w) -> client_ok (opened b done) c -> Forall plain names -> NoDup (done ++ names) ->
  exists w' c', open_all w c url names = Ok (w', c') /\ disk_ok d0 b (w_disk w') /\ client_ok (opened b (done ++ names)) c'.
Proof.
  induction names as [|x names IH]; intros done w c I C F ND; cbn [open_all].
  - exists w, c. rewrite app_nil_r. auto.
  - apply Forall_cons_iff in F. destruct F as (P & F). rewrite dir_name by exact P. rewrite schema_name, (dk_schema d0 b _ I x P).
    assert (NI : ~ In x done). { apply NoDup_remove_2 in ND. intros H. apply ND. apply in_or_app. auto. }
    assert (L : live (opened b done) x = None). { cbn [opened live]. destruct (in_dec string_dec x done); [contradiction|reflexivity]. }
    destruct (live_none _ c x C P L) as (EC & EI).
    replace (done ++ x :: names) with ((done ++ [x]) ++ names) in * by (rewrite <- app_assoc; reflexivity).
    destruct (kept b x) as [[[|] l]|] eqn:K.
    + unfold load_collection. rewrite db_named. rewrite recovery_name by exact P. rewrite (dk_recovery d0 b _ I x l P K). rewrite db_dir by exact P. rewrite dbf_name.
      cbn [bind fst snd]. apply IH; [| |exact F|exact ND].
      * cbn [with_disk w_disk]. apply (disk_change d0 b b (w_disk w) _ x P I).
        -- intros p H. apply read_write_under. exact H.
        -- auto.
        -- rewrite read_write_name. change (path_eqb ["rocksdb"; "CURRENT"] ["schema.json"]) with false. apply (dk_schema d0 b _ I x P).
        -- intros l'. rewrite K. discriminate.
        -- intros l' E. rewrite read_write_name. change (path_eqb ["rocksdb"; "CURRENT"] ["recovery"; "CURRENT"]) with false. apply (dk_recovery d0 b _ I x l' P E).
        -- rewrite exists_write_name. change (below ["rocksdb"] ["rocksdb"; "CURRENT"]) with true. symmetry. apply (dk_has_db d0 b _ I x l P K).
        -- intros l' E. apply (dk_has_db d0 b _ I x l' P E).
      * eapply client_put_coll; [exact C|exact P|exact EI|reflexivity| |exact (opened_kept b (done ++ [x]))].
        intros t. rewrite opened_more by exact NI. rewrite K. reflexivity.
    + unfold load_index. rewrite dir_name by exact P. rewrite data_name, (dk_data d0 b _ I x l P K). cbn [bind].
      apply IH; [exact I| |exact F|exact ND].
      eapply client_put_ind; [exact C|exact P|exact EC| |exact (opened_kept b (done ++ [x]))]. intros t. rewrite opened_more by exact NI. rewrite K. reflexivity.
    + apply IH; [exact I| |exact F|exact ND]. destruct C as [C1 C2 C3 C4 C5 C6]. constructor; auto.
      * intros t Pt. rewrite C2 by exact Pt. rewrite opened_more by exact NI. unfold set. destruct (String.eqb_spec x t) as [ <- |D]; [rewrite L, K; reflexivity|reflexivity].
      * exact (opened_kept b (done ++ [x])).
Qed.
Lemma url_dir cwd : resolve cwd url = U.
Proof. destruct PU as (-> & NE & F). apply resolve_plain; assumption. Qed.
Lemma reopen_ok d0 b w c : disk_ok d0 b (w_disk w) -> client_ok b c -> simulates d0 (do_call w c Reopen) (should b Reopen).
Proof.
  intros I C. cbn [do_call should]. rewrite (ck_url b c C). unfold open_client. rewrite url_dir.
  destruct (open_all_ok d0 b (subdirs (w_disk w) U) [] w {| cl_url := Some url; cl_collections := []; cl_indices := [] |}) as (w' & c' & -> & I' & C').
  - exact I.
  - constructor; cbn; auto; try discriminate; try (intros; congruence).
  - apply Forall_forall. intros x H. apply subdirs_in in H. destruct H as (q & r & f & E). destruct (dk_plain d0 b _ I _ _ E) as (s & q' & r' & E' & P). inversion E'; subst. exact P.
  - apply subdirs_nodup.
  - cbn [app] in C'. split; [eapply disk_same; [| |exact I']; reflexivity|]. destruct C' as [C1 C2 C3 C4 C5 C6].
    constructor; auto; cbn [live kept].
    + intros s P. rewrite C2 by exact P. cbn [opened live]. destruct (in_dec string_dec s (subdirs (w_disk w) U)) as [_|N]; [reflexivity|].
      destruct (kept b s) as [[k l]|] eqn:K; [|reflexivity]. exfalso. apply N. apply subdirs_in. exists "schema.json", [].
      rewrite (dk_schema d0 b _ I s P), K. destruct k; eauto.
    + intros s l E. unfold reopened in E. destruct (kept b s) as [[[|] l']|]; try discriminate E. inversion E; reflexivity.
Qed.

(** ** All calls *)
Lemma call_ok d0 b w c k : plain_call k -> disk_ok d0 b (w_disk w) -> client_ok b c -> simulates d0 (do_call w c k) (should b k).
Proof.
  intros PC I C. destruct k; cbn [plain_call] in PC.
  - destruct PC as ((s & -> & P) & ->). apply create_collection_ok; assumption.
  - destruct PC as (s & -> & P). apply create_index_ok; assumption.
  - destruct PC as (s & -> & P). apply insert_ok; assumption.
  - destruct PC as (s & -> & P). apply fit_ok; assumption.
  - destruct PC as (s & -> & P). apply save_collection_ok; assumption.
  - destruct PC as (s & -> & P). apply save_index_ok; assumption.
  - destruct PC as (s & -> & P). apply delete_collection_ok; assumption.
  - destruct PC as (s & -> & P). apply delete_index_ok; assumption.
  - apply reset_ok; assumption.
  - apply reopen_ok; assumption.
Qed.
Lemma calls_ok d0 : forall ks b w c, Forall plain_call ks -> disk_ok d0 b (w_disk w) -> client_ok b c ->
  exists w' c', calls w c ks = (w', c', snd (should_all b ks)) /\ disk_ok d0 (fst (should_all b ks)) (w_disk w') /\ client_ok (fst (should_all b ks)) c'.
Proof.
  induction ks as [|k ks IH]; intros b w c F I C; cbn [calls should_all].
  - exists w, c. auto.
  - apply Forall_cons_iff in F. destruct F as (P & F). pose proof (call_ok d0 b w c k P I C) as S. unfold simulates in S.
    destruct (do_call w c k) as [[w1 c1]| | |], (should b k) as [b1|]; try contradiction.
    + destruct S as (I1 & C1). destruct (IH b1 w1 c1 F I1 C1) as (w' & c' & -> & I' & C'). exists w', c'. destruct (should_all b1 ks). auto.
    + destruct (IH b w c F I C) as (w' & c' & -> & I' & C'). exists w', c'. destruct (should_all b ks). auto.
    + destruct (IH b w c F I C) as (w' & c' & -> & I' & C'). exists w', c'. destruct (should_all b ks). auto.
    + destruct (IH b w c F I C) as (w' & c' & -> & I' & C'). exists w', c'. destruct (should_all b ks). auto.
Qed.
Lemma start_disk d : (forall p, below U p = true -> read_file d p = None) -> disk_ok d empty_shelf d.
Proof.
  intros N. assert (N' : forall p, read_file d (U ++ p) = None) by (intros p; apply N, below_app).
  constructor; cbn [empty_shelf kept database]; try discriminate; try reflexivity.
  - intros s _. apply N'.
  - intros s _. apply Bool.not_true_is_false. rewrite exists_read. intros (p & f & B & E). apply below_iff in B. destruct B as (e & ->). rewrite <- app_assoc, N' in E. discriminate E.
  - intros p f E. rewrite N' in E. discriminate E.
Qed.
Lemma start_client : client_ok empty_shelf (fresh_client url).
Proof. constructor; cbn; auto; try discriminate; try (intros; congruence). Qed.
End Url.

(** ** Names *)
Lemma remove_keys {A} (m : list (text * A)) k : map fst (assoc_remove m k) = filter (fun n => negb (text_eqb n k)) (map fst m).
Proof. unfold assoc_remove. induction m as [|[n v] m IH]; cbn [filter map fst]; [reflexivity|]. destruct (text_eqb n k); cbn [negb map fst]; rewrite IH; reflexivity. Qed.
Lemma remove_not_in {A} (m : list (text * A)) k : ~ In k (map fst (assoc_remove m k)).
Proof. rewrite remove_keys, filter_In. intros (_ & H). destruct (text_eqb_spec k k); [discriminate H|congruence]. Qed.
Lemma remove_incl {A} (m : list (text * A)) k n : In n (map fst (assoc_remove m k)) -> In n (map fst m).
Proof. rewrite remove_keys, filter_In. tauto. Qed.
Lemma nodup_split {A} (l r : list A) : NoDup (l ++ r) <-> NoDup l /\ NoDup r /\ (forall x, In x l -> ~ In x r).
Proof.
  induction l as [|a l IH]; cbn [app].
  - split; [intros H; repeat split; [constructor|exact H|intros x []]|tauto].
  - split.
    + intros H. apply NoDup_cons_iff in H. destruct H as (N & H). apply IH in H. destruct H as (A1 & A2 & A3). repeat split; [|exact A2|].
      * constructor; [intros C; apply N, in_or_app; auto|exact A1].
      * intros x [ <- |Hx]; [intros C; apply N, in_or_app; auto|auto].
    + intros (A1 & A2 & A3). apply NoDup_cons_iff in A1. destruct A1 as (N & A1). constructor.
      * intros C. apply in_app_or in C. destruct C as [C|C]; [contradiction|]. exact (A3 a (or_introl eq_refl) C).
      * apply IH. repeat split; [exact A1|exact A2|]. intros x Hx. apply A3. right. exact Hx.
Qed.
Lemma nodup_remove {A} (m : list (text * A)) k : NoDup (map fst m) -> NoDup (map fst (assoc_remove m k)).
Proof. rewrite remove_keys. apply NoDup_filter. Qed.
Lemma none_not_in {A} (m : list (text * A)) n : assoc m n = None -> ~ In n (map fst m).
Proof. intros E H. exact (assoc_in m n H E). Qed.
Lemma unique_put_coll c n v : names_unique c -> ~ In n (map fst (cl_indices c)) -> names_unique (set_coll c (assoc_put (cl_collections c) n v)).
Proof.
  unfold names_unique. cbn [set_coll cl_collections cl_indices assoc_put map fst]. rewrite !nodup_split. intros (A1 & A2 & A3) N. repeat split; [|exact A2|].
  - constructor; [apply remove_not_in|apply nodup_remove; exact A1].
  - intros x [ <- |Hx]; [exact N|]. apply A3. exact (remove_incl _ _ _ Hx).
Qed.
Lemma unique_put_ind c n v : names_unique c -> ~ In n (map fst (cl_collections c)) -> names_unique (set_ind c (assoc_put (cl_indices c) n v)).
Proof.
  unfold names_unique. cbn [set_ind cl_collections cl_indices assoc_put map fst]. rewrite !nodup_split. intros (A1 & A2 & A3) N. repeat split; [exact A1| |].
  - constructor; [apply remove_not_in|apply nodup_remove; exact A2].
  - intros x Hx [ <- |C]; [exact (N Hx)|]. exact (A3 x Hx (remove_incl _ _ _ C)).
Qed.
Lemma unique_not_ind c n col : names_unique c -> assoc (cl_collections c) n = Some col -> ~ In n (map fst (cl_indices c)).
Proof.
  unfold names_unique. rewrite nodup_split. intros (_ & _ & A3) E. apply A3. destruct (in_dec (list_eq_dec string_dec) n (map fst (cl_collections c))) as [H|H]; [exact H|].
  exfalso. clear A3. induction (cl_collections c) as [|[k v] m IH]; cbn [assoc map fst] in *; [discriminate E|].
  destruct (text_eqb_spec k n) as [E'|D]; [apply H; left; exact E'|]. apply IH; [exact E|]. intros C. apply H. right. exact C.
Qed.
Lemma unique_not_coll c n i : names_unique c -> assoc (cl_indices c) n = Some i -> ~ In n (map fst (cl_collections c)).
Proof.
  unfold names_unique. rewrite nodup_split. intros (_ & _ & A3) E C. apply (A3 n C). clear A3 C.
  induction (cl_indices c) as [|[k v] m IH]; cbn [assoc map fst] in *; [discriminate E|].
  destruct (text_eqb_spec k n) as [E'|D]; [left; exact E'|right; apply IH; exact E].
Qed.
Lemma not_taken c n : taken c n = false -> ~ In n (map fst (cl_collections c)) /\ ~ In n (map fst (cl_indices c)).
Proof.
  unfold taken. destruct (assoc (cl_collections c) n) eqn:A; [discriminate|]. destruct (assoc (cl_indices c) n) eqn:B; [discriminate|].
  intros _. split; apply none_not_in; assumption.
Qed.
Lemma open_unique url : forall names w c w' c', NoDup names -> names_unique c ->
  (forall x, In x names -> ~ In [x] (map fst (cl_collections c)) /\ ~ In [x] (map fst (cl_indices c))) ->
  open_all w c url names = Ok (w', c') -> names_unique c'.
Proof.
  induction names as [|x names IH]; intros w c w' c' ND Un Fr E; cbn [open_all] in E; [inversion E; subst; exact Un|].
  apply NoDup_cons_iff in ND. destruct ND as (N & ND). destruct (Fr x (or_introl eq_refl)) as (F1 & F2).
  destruct (read_file _ _) as [[[|] db| | | | |]|]; try discriminate E.
  - destruct (load_collection w url [x] db) as [[w1 col]| | |]; try discriminate E. cbn [bind fst snd] in E. eapply IH; [exact ND| | |exact E].
    + apply unique_put_coll; assumption.
    + intros y Hy. destruct (Fr y (or_intror Hy)) as (G1 & G2). split; [|exact G2]. cbn [set_coll cl_collections assoc_put map fst].
      intros [C|C]; [inversion C; subst; contradiction|]. exact (G1 (remove_incl _ _ _ C)).
  - destruct (load_index w url [x]) as [i| | |]; try discriminate E. cbn [bind] in E. eapply IH; [exact ND| | |exact E].
    + apply unique_put_ind; assumption.
    + intros y Hy. destruct (Fr y (or_intror Hy)) as (G1 & G2). split; [exact G1|]. cbn [set_ind cl_indices assoc_put map fst].
      intros [C|C]; [inversion C; subst; contradiction|]. exact (G2 (remove_incl _ _ _ C)).
  - eapply IH; [exact ND|exact Un| |exact E]. intros y Hy. apply Fr. right. exact Hy.
Qed.
Lemma call_unique w c k w' c' : names_unique c -> do_call w c k = Ok (w', c') -> names_unique c'.
Proof.
  intros Un E. destruct k; cbn [do_call] in E.
  - unfold create_collection in E. destruct (taken c name) eqn:T; [discriminate E|]. apply not_taken in T. cbn [bind] in E. inversion E; subst. apply unique_put_coll; [exact Un|apply T].
  - unfold create_index in E. destruct (taken c name) eqn:T; [discriminate E|]. apply not_taken in T. cbn [bind] in E. inversion E; subst. apply unique_put_ind; [exact Un|apply T].
  - unfold insert in E. destruct (assoc (cl_collections c) name) as [col|] eqn:A; [|discriminate E]. destruct items as [|y items]; [inversion E; subst; exact Un|].
    cbv zeta in E. destruct (c_items col) as [old|]; [|destruct (dir_exists _ _); [discriminate E|]]; inversion E; subst; apply unique_put_coll; try exact Un; exact (unique_not_ind c name col Un A).
  - unfold fit in E. destruct (assoc (cl_indices c) name) as [[i|]|] eqn:A; try discriminate E. cbn [bind] in E. inversion E; subst. apply unique_put_ind; [exact Un|exact (unique_not_coll c name _ Un A)].
  - destruct (save_collection w c name); try discriminate E. inversion E; subst. exact Un.
  - destruct (save_index w c name); try discriminate E. inversion E; subst. exact Un.
  - assert (D : names_unique (set_coll c (assoc_remove (cl_collections c) name))).
    { unfold names_unique in *. cbn [set_coll cl_collections cl_indices]. rewrite nodup_split in *. destruct Un as (A1 & A2 & A3). repeat split; [apply nodup_remove; exact A1|exact A2|].
      intros x Hx. apply A3. exact (remove_incl _ _ _ Hx). }
    unfold delete_collection in E. destruct (assoc (cl_collections c) name); [|discriminate E]. destruct on_disk; [destruct (cl_url c); [|discriminate E]|]; inversion E; subst; exact D.
  - assert (D : names_unique (set_ind c (assoc_remove (cl_indices c) name))).
    { unfold names_unique in *. cbn [set_ind cl_collections cl_indices]. rewrite nodup_split in *. destruct Un as (A1 & A2 & A3). repeat split; [exact A1|apply nodup_remove; exact A2|].
      intros x Hx C. apply (A3 x Hx). exact (remove_incl _ _ _ C). }
    unfold delete_index in E. destruct (assoc (cl_indices c) name); [|discriminate E]. destruct on_disk; [destruct (cl_url c); [|discriminate E]|]; inversion E; subst; exact D.
  - unfold reset in E. destruct on_disk; [destruct (cl_url c); [|discriminate E]|]; inversion E; subst; constructor.
  - unfold open_client in E. destruct (cl_url c) as [u|]; [|inversion E; subst; constructor].
    eapply open_unique; [| | |exact E]; [apply NoDup_nodup|constructor|]. intros x _. split; intros [].
Qed.
Lemma calls_unique : forall ks w c, names_unique c -> names_unique (snd (fst (calls w c ks))).
Proof.
  induction ks as [|k ks IH]; intros w c Un; cbn [calls]; [exact Un|].
  destruct (do_call w c k) as [[w1 c1]| | |] eqn:E.
  - pose proof (IH w1 c1 (call_unique w c k w1 c1 Un E)) as H. destruct (calls w1 c1 ks) as [[w2 c2] l]. exact H.
  - pose proof (IH w c Un) as H. destruct (calls w c ks) as [[w2 c2] l]. exact H.
  - pose proof (IH w c Un) as H. destruct (calls w c ks) as [[w2 c2] l]. exact H.
  - pose proof (IH w c Un) as H. destruct (calls w c ks) as [[w2 c2] l]. exact H.
Qed.
