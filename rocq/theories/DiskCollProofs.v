(** Lemmas about disk collections. *)
From Coq Require Import String.
From Verif Require Export DiskCollSpec.
From Verif Require Import SegManifestProofs SegManifestProps.
Local Open Scope N_scope.

(** ** The file system *)
Lemma dir_get_del l n m : dir_get (dir_del l n) m = if bytes_eqb n m then None else dir_get l m.
Proof.
  induction l as [|[k f] l IH]; [now destruct (bytes_eqb n m)|]. unfold dir_del in *. cbn [filter fst]. destruct (bytes_eqb_spec k n) as [->|NE]; cbn [negb].
  - rewrite IH. cbn [dir_get]. now destruct (bytes_eqb n m).
  - cbn [dir_get]. destruct (bytes_eqb_spec k m) as [->|NE2].
    + apply bytes_eqb_neq in NE. rewrite bytes_eqb_sym in NE. now rewrite NE.
    + exact IH.
Qed.
Lemma dir_get_put l n f m : dir_get (dir_put l n f) m = if bytes_eqb n m then Some f else dir_get l m.
Proof. unfold dir_put. cbn [dir_get]. rewrite dir_get_del. now destruct (bytes_eqb n m). Qed.
Lemma tmp_not_segment name stamp n : segment_name n -> tmp_segment name stamp <> n.
Proof. intros (ds & -> & _) E. discriminate E. Qed.

Lemma bind_inv {A B} (m : io A) (k : A -> io B) env d o env' d' : bindio m k env d = (o, env', d') ->
  (exists a e1 d1, m env d = (Ret a, e1, d1) /\ k a e1 d1 = (o, env', d'))
  \/ (m env d = (Thrown, env', d') /\ o = Thrown) \/ (m env d = (Crashed, env', d') /\ o = Crashed).
Proof.
  unfold bindio. destruct (m env d) as [[r e1] d1]. destruct r as [a| |].
  - intros H. left. exists a, e1, d1. split; [reflexivity|exact H].
  - intros [= <- <- <-]. right. left. split; reflexivity.
  - intros [= <- <- <-]. right. right. split; reflexivity.
Qed.
Lemma access_inv {A} (w : disk -> out A * disk) b env d o env' d' : access w b env d = (o, env', d') ->
  (w d = (o, d')) \/ (exists cut, d' = b cut d /\ (o = Thrown \/ o = Crashed)).
Proof.
  unfold access. destruct env as [|[|cut|cut] r].
  - destruct (w d) as [o1 d1]. intros [= <- <- <-]. now left.
  - destruct (w d) as [o1 d1]. intros [= <- <- <-]. now left.
  - intros [= <- <- <-]. right. exists cut. split; [reflexivity|now left].
  - intros [= <- <- <-]. right. exists cut. split; [reflexivity|now right].
Qed.
Lemma lift_inv {A} (r : res A) env d o env' d' : lift r env d = (o, env', d') -> d' = d /\ env' = env /\ ((exists a, r = Ok a /\ o = Ret a) \/ o = Thrown).
Proof.
  destruct r; cbn; intros [= <- <- <-]; (split; [reflexivity|split; [reflexivity|]]); try (right; reflexivity). left. eexists. split; reflexivity.
Qed.
Lemma throw_inv {A} env d o env' d' : @throw A env d = (o, env', d') -> d' = d /\ env' = env /\ o = Thrown.
Proof. unfold throw. intros [= <- <- <-]. repeat split. Qed.
Lemma ret_inv {A} (a : A) env d o env' d' : ret a env d = (o, env', d') -> d' = d /\ env' = env /\ o = Ret a.
Proof. unfold ret. intros [= <- <- <-]. repeat split. Qed.
Ltac iobind H :=
  let a := fresh "a" in let e := fresh "e" in let d := fresh "d" in let E := fresh "E" in let O := fresh "O" in
  apply bind_inv in H; destruct H as [(a & e & d & E & H)|[[E O]|[E O]]];
  [|first [discriminate O|match type of O with ?v = _ => subst v end]..].

(** What reading does *)
Lemma read_in_inv dir name env d o env' d' : read_in dir name env d = (o, env', d') ->
  d' = d /\ forall c, o = Ret c -> exists f, dir_get (d_segs d) dir = Some f /\ kv_get f name = Some c.
Proof.
  unfold read_in. intros H. apply access_inv in H. destruct H as [H|(cut & -> & R)].
  - injection H as H <-. split; [reflexivity|]. intros c ->. destruct (dir_get (d_segs d) dir) as [f|]; [|discriminate H].
    destruct (kv_get f name) as [c'|] eqn:E; [|discriminate H]. injection H as ->. exists f. split; [reflexivity|exact E].
  - split; [reflexivity|]. intros c ->. destruct R; discriminate.
Qed.
Lemma read_root_inv name env d o env' d' : read_root name env d = (o, env', d') ->
  d' = d /\ forall c, o = Ret c -> kv_get (d_root d) name = Some c.
Proof.
  unfold read_root. intros H. apply access_inv in H. destruct H as [H|(cut & -> & R)].
  - injection H as H <-. split; [reflexivity|]. intros c ->. destruct (kv_get (d_root d) name) as [c'|] eqn:E; [|discriminate H]. congruence.
  - split; [reflexivity|]. intros c ->. destruct R; discriminate.
Qed.

(** The published manifest and the published segments stay *)
Definition pres (d d' : disk) : Prop :=
  kv_get (d_root d') manifest_file = kv_get (d_root d) manifest_file
  /\ forall n f, segment_name n -> dir_get (d_segs d) n = Some f -> dir_get (d_segs d') n = Some f.
Lemma pres_refl d : pres d d. Proof. split; [reflexivity|auto]. Qed.
Lemma pres_trans a b c : pres a b -> pres b c -> pres a c.
Proof. intros [R1 S1] [R2 S2]. split; [congruence|]. intros n f N G. apply S2; [exact N|]. apply S1; assumption. Qed.
Lemma put_in_pres dir name c d : ~ segment_name dir -> pres d (put_in dir name c d).
Proof.
  intros NS. unfold put_in. destruct (dir_get (d_segs d) dir) as [f|]; [|apply pres_refl]. split; [reflexivity|]. intros n g N G. cbn [d_segs set_segs].
  rewrite dir_get_put. destruct (bytes_eqb_spec dir n) as [->|_]; [contradiction|exact G].
Qed.
Lemma write_in_pres dir name c env d o env' d' : ~ segment_name dir -> write_in dir name c env d = (o, env', d') -> pres d d'.
Proof.
  intros NS H. unfold write_in in H. apply access_inv in H. destruct H as [H|(cut & -> & _)].
  - injection H as _ <-. now apply put_in_pres.
  - now apply put_in_pres.
Qed.
Lemma write_in_ret dir name c env d env' d' : write_in dir name c env d = (Ret tt, env', d') ->
  exists f, dir_get (d_segs d) dir = Some f /\ d' = set_segs d (dir_put (d_segs d) dir (kv_put name c f)).
Proof.
  intros H. unfold write_in in H. apply access_inv in H. destruct H as [H|(cut & _ & [?|?])]; try discriminate.
  unfold put_in in H. destruct (dir_get (d_segs d) dir) as [f|]; [|discriminate H]. injection H as <-. exists f. split; reflexivity.
Qed.
Lemma mk_dir_pres dir env d o env' d' : ~ segment_name dir -> mk_dir dir env d = (o, env', d') -> pres d d'.
Proof.
  intros NS H. unfold mk_dir in H. apply access_inv in H. destruct H as [H|(cut & -> & _)]; [|apply pres_refl].
  injection H as _ <-. destruct (dir_get (d_segs d) dir) as [f|]; [apply pres_refl|]. split; [reflexivity|]. intros n g N G. cbn [d_segs set_segs].
  rewrite dir_get_put. destruct (bytes_eqb_spec dir n) as [->|_]; [contradiction|exact G].
Qed.
Lemma remove_dir_pres dir env d o env' d' : ~ segment_name dir -> remove_dir dir env d = (o, env', d') -> pres d d' /\ (o = Ret tt \/ o = Crashed).
Proof.
  intros NS H. assert (X : pres d (set_segs d (dir_del (d_segs d) dir))).
  { split; [reflexivity|]. intros n g N G. cbn [d_segs set_segs]. rewrite dir_get_del. destruct (bytes_eqb_spec dir n) as [->|_]; [contradiction|exact G]. }
  unfold remove_dir in H. destruct env as [|[|?|?] r]; injection H as <- <- <-; (split; [try exact X; apply pres_refl|auto]).
Qed.
Lemma rename_dir_pres from to env d o env' d' : ~ segment_name from -> rename_dir from to env d = (o, env', d') ->
  pres d d' /\ (o = Ret tt -> exists f, dir_get (d_segs d) from = Some f /\ dir_get (d_segs d) to = None /\ d' = set_segs d (dir_put (dir_del (d_segs d) from) to f)).
Proof.
  intros NS H. unfold rename_dir in H. apply access_inv in H. destruct H as [H|(cut & -> & R)].
  - destruct (dir_get (d_segs d) from) as [f|] eqn:F; [destruct (dir_get (d_segs d) to) as [g|] eqn:T|]; injection H as <- <-;
      try (split; [apply pres_refl|discriminate]).
    split.
    + split; [reflexivity|]. intros n g N G. cbn [d_segs set_segs]. rewrite dir_get_put, dir_get_del. destruct (bytes_eqb_spec to n) as [->|_]; [congruence|].
      destruct (bytes_eqb_spec from n) as [->|_]; [contradiction|exact G].
    + intros _. exists f. repeat split.
  - split; [apply pres_refl|]. intros ->. destruct R; discriminate.
Qed.
Lemma sync_quietly_same env d o env' d' : sync_quietly env d = (o, env', d') -> d' = d /\ (o = Ret tt \/ o = Crashed).
Proof. unfold sync_quietly. destruct env as [|[|?|?] r]; intros [= <- <- <-]; auto. Qed.
Lemma sync_dir_same env d o env' d' : sync_dir env d = (o, env', d') -> d' = d.
Proof. unfold sync_dir. intros H. apply access_inv in H. destruct H as [H|(cut & -> & _)]; [now injection H as _ <-|reflexivity]. Qed.
Lemma guarded_pres {A} dir (body : io A) env d o env' d' : ~ segment_name dir -> guarded dir body env d = (o, env', d') ->
  (forall o e d1, body env d = (o, e, d1) -> pres d d1) -> pres d d' /\ (forall a, o = Ret a -> exists e, body env d = (Ret a, e, d')).
Proof.
  intros NS H P. unfold guarded in H. destruct (body env d) as [[r e1] d1] eqn:B. specialize (P _ _ _ eq_refl). destruct r as [a| |].
  - injection H as <- <- <-. split; [exact P|]. intros b [= ->]. exists e1. reflexivity.
  - iobind H; apply remove_dir_pres in E; try exact NS; destruct E as [E O].
    + apply throw_inv in H. destruct H as (-> & _ & ->). split; [eapply pres_trans; eassumption|discriminate].
    + split; [eapply pres_trans; eassumption|discriminate].
    + split; [eapply pres_trans; eassumption|discriminate].
  - injection H as <- <- <-. split; [exact P|discriminate].
Qed.

(** ** The files of a segment *)
Lemma pieces_concat (A : Type) (f : A -> bytes) n : forall l, (forall a, In a l -> length (f a) = n) -> pieces n (length l) (concat (map f l)) = map f l.
Proof.
  induction l as [|a l IH]; intros H; [reflexivity|]. cbn [length pieces map concat].
  assert (E : length (f a) = n) by (apply H; now left). rewrite firstn_app, skipn_app, E, Nat.sub_diag, <- E, firstn_all, skipn_all. cbn [firstn skipn]. rewrite app_nil_r, app_nil_l.
  rewrite E. f_equal. apply IH. intros b B. apply H. now right.
Qed.
Lemma concat_length_const (A : Type) (f : A -> bytes) n l : (forall a, In a l -> length (f a) = n) -> length (concat (map f l)) = (length l * n)%nat.
Proof.
  induction l as [|a l IH]; intros H; [reflexivity|]. cbn [map concat]. rewrite app_length, IH by (intros b B; apply H; now right). rewrite (H a (or_introl eq_refl)). reflexivity.
Qed.
Lemma vector_length v : length (concat (map (le_enc 4) v)) = (4 * length v)%nat.
Proof. rewrite (concat_length_const _ _ 4) by (intros; apply le_enc_length). lia. Qed.
Lemma ids_length rows : length (ids_bytes rows) = (8 * length rows)%nat.
Proof. unfold ids_bytes. rewrite (concat_length_const _ _ 8) by (intros; apply le_enc_length). lia. Qed.
Lemma row_vector_length dim r : row_ok dim r -> length (concat (map (le_enc 4) (snd r))) = (4 * N.to_nat dim)%nat.
Proof. intros (_ & L & _). rewrite vector_length. lia. Qed.
Lemma vectors_length dim rows : Forall (row_ok dim) rows -> length (vectors_bytes rows) = (length rows * (4 * N.to_nat dim))%nat.
Proof. intros H. unfold vectors_bytes. apply concat_length_const. intros r R. eapply row_vector_length. eapply Forall_forall; [exact H|exact R]. Qed.
Lemma ids_back rows : Forall (fun l => l < 2 ^ 64) (labels rows) -> map le_dec (pieces 8 (length rows) (ids_bytes rows)) = labels rows.
Proof.
  intros H. unfold ids_bytes. rewrite pieces_concat by (intros; apply le_enc_length). rewrite map_map. unfold labels in *. apply map_ext_in.
  intros r R. apply le_dec_enc. rewrite Forall_forall in H. apply H. now apply in_map.
Qed.
Lemma vector_back dim v : N.of_nat (length v) = dim -> Forall (fun b => b < 2 ^ 32) v -> map le_dec (pieces 4 (N.to_nat dim) (concat (map (le_enc 4) v))) = v.
Proof.
  intros L H. replace (N.to_nat dim) with (length v) by lia. rewrite pieces_concat by (intros; apply le_enc_length). rewrite map_map. rewrite <- (map_id v) at 2. apply map_ext_in.
  intros b B. apply le_dec_enc. rewrite Forall_forall in H. exact (H b B).
Qed.
Lemma rows_back dim rows stored : Forall (row_ok dim) stored -> labels stored = labels rows ->
  rows_of (length rows) (N.to_nat dim) (ids_bytes rows) (vectors_bytes stored) = stored.
Proof.
  intros H L. unfold rows_of. assert (LL : length rows = length stored) by (apply (f_equal (@length N)) in L; unfold labels in L; rewrite !map_length in L; congruence).
  rewrite ids_back by (rewrite <- L; unfold labels; rewrite Forall_map; eapply Forall_impl; [|exact H]; intros r R; apply R).
  rewrite <- L, LL. unfold vectors_bytes. rewrite pieces_concat by (intros r R; eapply row_vector_length; eapply Forall_forall; [exact H|exact R]). rewrite map_map. unfold labels.
  transitivity (combine (map fst stored) (map snd stored)); [f_equal; apply map_ext_in; intros r R|clear; induction stored as [|[a b] s IH]; [reflexivity|cbn [map combine fst snd]; now rewrite IH]].
  rewrite Forall_forall in H. destruct (H r R) as (_ & Ln & F). now apply vector_back.
Qed.
Lemma stored_ok x g rows stored : extern_ok x -> Forall (row_ok (g_dim g)) rows -> stored_rows x (g_metric g) rows = Ok stored ->
  Forall2 (stores x g) rows stored /\ Forall (row_ok (g_dim g)) stored /\ labels stored = labels rows.
Proof.
  intros X H E. unfold stored_rows in E. unfold stores. destruct (g_metric g).
  1,2,4: injection E as <-; split; [clear; induction rows; constructor; auto|split; [exact H|reflexivity]].
  revert stored E. induction H as [|[l v] rows (L & LV & FV) H IH]; intros stored E; cbn [normalize_all] in E.
  - injection E as <-. split; [constructor|split; [constructor|reflexivity]].
  - destruct (x_normalize x v) as [v'| | |] eqn:V; cbn [bind] in E; try discriminate. destruct (normalize_all x rows) as [r'| | |]; cbn [bind] in E; try discriminate.
    injection E as <-. destruct (IH _ eq_refl) as (F2 & F & LB). destruct (X _ _ FV V) as [XL XF]. cbn [fst snd] in *. split; [|split].
    + constructor; [|exact F2]. cbn [fst snd]. split; [reflexivity|exact V].
    + constructor; [|exact F]. repeat split; cbn [fst snd]; [exact L|congruence|exact XF].
    + unfold labels in *. cbn [map fst]. now rewrite LB.
Qed.

(** A segment directory that holds [rows] *)
Record seg_good (x : extern) (g : config) (name : bytes) (rows : list row) (f : kv) : Prop := {
  sg_name : segment_name name;
  sg_rows : Forall (row_ok (g_dim g)) rows;
  sg_manifest : exists text v rows0, kv_get f manifest_name = Some text /\ length rows0 = length rows
                /\ sm_load text = Ok (segment_manifest (g_type g) (g_metric g) (g_dim g) v name rows0);
  sg_ids : kv_get f ids_name = Some (ids_bytes rows);
  sg_vectors : kv_get f vectors_name = Some (vectors_bytes rows);
  sg_size : N.of_nat (length rows) * g_dim g * 4 < 2 ^ 64 /\ N.of_nat (length rows) * 8 < 2 ^ 64;
  sg_vamana : g_type g = Vamana -> g_metric g = L2 /\ N.of_nat (length rows) < 2 ^ 32 /\ exists graph, kv_get f graph_name = Some graph /\ x_graph_loads x graph = true;
}.
Definition seg_at x g d name rows := exists f, dir_get (d_segs d) name = Some f /\ seg_good x g name rows f.
Lemma seg_at_pres x g d d' name rows : pres d d' -> seg_at x g d name rows -> seg_at x g d' name rows.
Proof. intros [_ P] (f & F & G). exists f. split; [|exact G]. apply P; [apply G|exact F]. Qed.
(** Any successful read gives the rows back *)
Lemma open_searcher_inv x t dir env d o env' d' : open_searcher x t dir env d = (o, env', d') -> d' = d.
Proof.
  unfold open_searcher. intros H. iobind H; [|apply read_in_inv in E; apply E..]. apply read_in_inv in E. destruct E as [-> _].
  iobind H; [|apply lift_inv in E; apply E..]. apply lift_inv in E. destruct E as [-> _].
  repeat match type of H with context [if ?b then _ else _] => destruct b; [apply throw_inv in H; apply H|] end.
  iobind H; [|apply read_in_inv in E; apply E..]. apply read_in_inv in E. destruct E as [-> _].
  iobind H; [|apply read_in_inv in E; apply E..]. apply read_in_inv in E. destruct E as [-> _].
  destruct (negb (N.of_nat (length a1) =? _)); [apply throw_inv in H; apply H|]. destruct (negb (N.of_nat (length a2) =? _)); [apply throw_inv in H; apply H|].
  destruct t; try (apply ret_inv in H; apply H). destruct (kv_get (sm_extras a0) (str "x_graph_file")) as [gr|]; [|apply throw_inv in H; apply H].
  destruct (negb (is_valid_basename gr)); [apply throw_inv in H; apply H|].
  iobind H; [|apply read_in_inv in E; apply E..]. apply read_in_inv in E. destruct E as [-> _]. destruct (x_graph_loads x a3); [apply ret_inv in H|apply throw_inv in H]; apply H.
Qed.
(** What a searcher that opened has read *)
Lemma open_searcher_ret x t dir env d s env' d' : open_searcher x t dir env d = (Ret s, env', d') ->
  exists f text m ids vectors, dir_get (d_segs d) dir = Some f /\ kv_get f manifest_name = Some text /\ sm_load text = Ok m
  /\ kv_get f (sm_ids m) = Some ids /\ kv_get f (sm_vectors m) = Some vectors
  /\ sm_count m * sm_dim m * 4 < 2 ^ 64 /\ sm_count m * 8 < 2 ^ 64
  /\ N.of_nat (length ids) = sm_count m * 8 /\ N.of_nat (length vectors) = sm_count m * sm_dim m * 4
  /\ s = {| sr_type := t; sr_rows := rows_of (N.to_nat (sm_count m)) (N.to_nat (sm_dim m)) ids vectors |}
  /\ (t = Vamana -> sm_metric m = L2 /\ sm_count m < 2 ^ 32 /\ exists gn graph, kv_get (sm_extras m) (str "x_graph_file") = Some gn /\ kv_get f gn = Some graph /\ x_graph_loads x graph = true).
Proof.
  unfold open_searcher. intros H. iobind H; [|discriminate..]. apply read_in_inv in E. destruct E as [-> E]. destruct (E _ eq_refl) as (f & F & T). clear E.
  iobind H; [|discriminate..]. apply lift_inv in E. destruct E as (-> & _ & [(m & EM & [= ->])|?]); [|discriminate].
  destruct (negb _) in H; [apply throw_inv in H; destruct H as (_ & _ & ?); discriminate|].
  destruct (N.leb_spec (2 ^ 64) (sm_count m * sm_dim m * 4)) as [|L1]; [apply throw_inv in H; destruct H as (_ & _ & ?); discriminate|].
  destruct (N.leb_spec (2 ^ 64) (sm_count m * 8)) as [|L2']; [apply throw_inv in H; destruct H as (_ & _ & ?); discriminate|].
  destruct (N.leb_spec (2 ^ 32) (sm_dim m)) as [|L3]; [apply throw_inv in H; destruct H as (_ & _ & ?); discriminate|].
  match type of H with context [if ?b then throw else _] => destruct b eqn:EV end; [apply throw_inv in H; destruct H as (_ & _ & ?); discriminate|].
  iobind H; [|discriminate..]. apply read_in_inv in E. destruct E as [-> E]. destruct (E _ eq_refl) as (f1 & F1 & I1). clear E.
  iobind H; [|discriminate..]. apply read_in_inv in E. destruct E as [-> E]. destruct (E _ eq_refl) as (f2 & F2 & V2). clear E.
  assert (f1 = f) by congruence. assert (f2 = f) by congruence. subst f1 f2.
  destruct (N.eqb_spec (N.of_nat (length a0)) (sm_count m * 8)) as [S1|]; cbn [negb] in H; [|apply throw_inv in H; destruct H as (_ & _ & ?); discriminate].
  destruct (N.eqb_spec (N.of_nat (length a1)) (sm_count m * sm_dim m * 4)) as [S2|]; cbn [negb] in H; [|apply throw_inv in H; destruct H as (_ & _ & ?); discriminate].
  exists f, a, m, a0, a1. repeat (split; [assumption|]). destruct t.
  - apply ret_inv in H. destruct H as (_ & _ & [= ->]). split; [reflexivity|discriminate].
  - destruct (kv_get (sm_extras m) (str "x_graph_file")) as [gn|] eqn:EG; [|apply throw_inv in H; destruct H as (_ & _ & ?); discriminate].
    destruct (negb (is_valid_basename gn)); [apply throw_inv in H; destruct H as (_ & _ & ?); discriminate|].
    iobind H; [|discriminate..]. apply read_in_inv in E. destruct E as [-> E]. destruct (E _ eq_refl) as (f3 & F3 & G3). clear E. assert (f3 = f) by congruence. subst f3.
    destruct (x_graph_loads x a2) eqn:GL; [|apply throw_inv in H; destruct H as (_ & _ & ?); discriminate]. apply ret_inv in H. destruct H as (_ & _ & [= ->]).
    split; [reflexivity|]. intros _. apply orb_false_iff in EV. destruct EV as [EV1 EV2]. split; [|split].
    + destruct (sm_metric m); [reflexivity|discriminate..].
    + apply N.leb_gt in EV1. exact EV1.
    + exists gn, a2. repeat split; assumption.
  - apply ret_inv in H. destruct H as (_ & _ & [= ->]). split; [reflexivity|discriminate].
Qed.
Lemma seg_good_open x g name rows f d env s env' d' : seg_good x g name rows f -> dir_get (d_segs d) name = Some f ->
  open_searcher x (g_type g) name env d = (Ret s, env', d') -> s = {| sr_type := g_type g; sr_rows := rows |}.
Proof.
  intros G F H. apply open_searcher_ret in H. destruct H as (f' & text & m & ids & vectors & F' & T & L & I1 & V1 & _ & _ & _ & _ & -> & _).
  assert (f' = f) by congruence. subst f'. destruct (sg_manifest _ _ _ _ _ G) as (text' & v & rows0 & T' & LR & L'). assert (text' = text) by congruence. subst text'.
  rewrite L in L'. injection L' as ->. cbn [segment_manifest sm_ids sm_vectors sm_count sm_dim] in *.
  rewrite (sg_ids _ _ _ _ _ G) in I1. rewrite (sg_vectors _ _ _ _ _ G) in V1. injection I1 as <-. injection V1 as <-. rewrite Nat2N.id, LR. f_equal.
  apply rows_back; [apply G|reflexivity].
Qed.
Lemma load_segment_inv x dir env d o env' d' : load_segment x dir env d = (o, env', d') -> d' = d.
Proof.
  unfold load_segment. intros H. iobind H; [|apply read_in_inv in E; apply E..]. apply read_in_inv in E. destruct E as [-> _].
  iobind H; [|apply lift_inv in E; apply E..]. apply lift_inv in E. destruct E as [-> _]. destruct (sm_type a0); [eapply open_searcher_inv; exact H..|apply throw_inv in H; apply H].
Qed.
Lemma load_segment_good x g name rows d env s env' d' : seg_at x g d name rows -> load_segment x name env d = (Ret s, env', d') -> sr_rows s = rows.
Proof.
  intros (f & F & G) H. unfold load_segment in H. iobind H; [|discriminate..]. apply read_in_inv in E. destruct E as [-> E]. destruct (E _ eq_refl) as (f' & F' & T). assert (f' = f) by congruence. subst f'. clear E.
  iobind H; [|discriminate..]. apply lift_inv in E. destruct E as (-> & -> & [(m & EM & [= ->])|?]); [|discriminate].
  destruct (sg_manifest _ _ _ _ _ G) as (text' & v & rows0 & T' & LR & L'). assert (text' = a) by congruence. subst text'.
  rewrite EM in L'. injection L' as ->. cbn [segment_manifest sm_type] in H. destruct (g_type g) eqn:TY.
  - rewrite <- TY in H. rewrite (seg_good_open _ _ _ _ _ _ _ _ _ _ G F H). reflexivity.
  - rewrite <- TY in H. rewrite (seg_good_open _ _ _ _ _ _ _ _ _ _ G F H). reflexivity.
  - apply throw_inv in H. destruct H as (_ & _ & ?). discriminate.
Qed.
Lemma open_listed_inv x ids : forall env d o env' d', open_listed x ids env d = (o, env', d') -> d' = d.
Proof.
  induction ids as [|i ids IH]; intros env d o env' d' H; cbn [open_listed] in H; [apply ret_inv in H; apply H|].
  iobind H; [|apply load_segment_inv in E; exact E..]. apply load_segment_inv in E. subst.
  iobind H; [|apply IH in E; exact E..]. apply IH in E. subst. apply ret_inv in H. apply H.
Qed.
Lemma open_listed_good x g d ids batches : Forall2 (seg_at x g d) ids batches -> forall env ss env' d', open_listed x ids env d = (Ret ss, env', d') -> map sr_rows ss = batches.
Proof.
  induction 1 as [|i b ids batches S F IH]; intros env ss env' d' H; cbn [open_listed] in H.
  - apply ret_inv in H. destruct H as (_ & _ & [= ->]). reflexivity.
  - iobind H; [|discriminate..]. pose proof E as E2. apply load_segment_inv in E2. subst d0. apply (load_segment_good _ _ _ _ _ _ _ _ _ S) in E.
    iobind H; [|discriminate..]. pose proof E0 as E3. apply open_listed_inv in E3. subst d0. apply IH in E0. apply ret_inv in H. destruct H as (_ & _ & [= ->]). cbn [map]. congruence.
Qed.
(** The labels read for the check *)
Lemma segment_ids_inv dir env d o env' d' : segment_ids dir env d = (o, env', d') -> d' = d.
Proof.
  unfold segment_ids. intros H. iobind H; [|apply read_in_inv in E; apply E..]. apply read_in_inv in E. destruct E as [-> _].
  iobind H; [|apply lift_inv in E; apply E..]. apply lift_inv in E. destruct E as [-> _]. iobind H; [|apply read_in_inv in E; apply E..]. apply read_in_inv in E. destruct E as [-> _].
  destruct (negb _); [apply throw_inv in H|apply ret_inv in H]; apply H.
Qed.
Lemma segment_ids_good x g name rows d env l env' d' : seg_at x g d name rows -> segment_ids name env d = (Ret l, env', d') -> l = labels rows.
Proof.
  intros (f & F & G) H. unfold segment_ids in H. iobind H; [|discriminate..]. apply read_in_inv in E. destruct E as [-> E]. destruct (E _ eq_refl) as (f' & F' & T). assert (f' = f) by congruence. subst f'. clear E.
  iobind H; [|discriminate..]. apply lift_inv in E. destruct E as (-> & -> & [(m & EM & [= ->])|?]); [|discriminate].
  destruct (sg_manifest _ _ _ _ _ G) as (text' & v & rows0 & T' & LR & L'). assert (text' = a) by congruence. subst text'. rewrite EM in L'. injection L' as ->.
  iobind H; [|discriminate..]. apply read_in_inv in E. destruct E as [-> E]. destruct (E _ eq_refl) as (f' & F'' & I1). assert (f' = f) by congruence. subst f'. clear E.
  cbn [segment_manifest sm_ids sm_count] in *. rewrite (sg_ids _ _ _ _ _ G) in I1. injection I1 as <-. destruct (negb _); [apply throw_inv in H; destruct H as (_ & _ & ?); discriminate|].
  apply ret_inv in H. destruct H as (_ & _ & [= ->]). rewrite Nat2N.id, LR. apply ids_back. unfold labels. rewrite Forall_map. eapply Forall_impl; [|apply G]. intros r R. apply R.
Qed.
Lemma no_clash_inv dirs p : forall env d o env' d', no_clash dirs p env d = (o, env', d') -> d' = d.
Proof.
  induction dirs as [|i dirs IH]; intros env d o env' d' H; cbn [no_clash] in H; [apply ret_inv in H; apply H|].
  iobind H; [|apply segment_ids_inv in E; exact E..]. apply segment_ids_inv in E. subst. destruct (existsb _ a); [apply throw_inv in H; apply H|eapply IH; exact H].
Qed.
Lemma no_clash_good x g d dirs batches p : Forall2 (seg_at x g d) dirs batches -> forall env env' d', no_clash dirs p env d = (Ret tt, env', d') ->
  forall n, In n p -> ~ In n (labels (concat batches)).
Proof.
  induction 1 as [|i b dirs batches S F IH]; intros env env' d' H n Hn; cbn [no_clash concat] in *; [intros []|].
  iobind H; [|discriminate..]. pose proof E as E2. apply segment_ids_inv in E2. subst d0. apply (segment_ids_good _ _ _ _ _ _ _ _ _ S) in E. subst a.
  destruct (existsb _ (labels b)) eqn:X; [apply throw_inv in H; destruct H as (_ & _ & ?); discriminate|].
  unfold labels in *. rewrite map_app, in_app_iff. intros [B|B]; [|exact (IH _ _ _ H n Hn B)].
  assert (T : existsb (fun id => existsb (N.eqb id) p) (map fst b) = true); [|congruence].
  apply existsb_exists. exists n. split; [exact B|]. apply existsb_exists. exists n. split; [exact Hn|apply N.eqb_refl].
Qed.
Lemma no_repeats_iff l : no_repeats l = true <-> NoDup l.
Proof.
  induction l as [|a l IH]; cbn [no_repeats]; [split; [constructor|reflexivity]|]. rewrite andb_true_iff, negb_true_iff, IH. split.
  - intros [E N]. constructor; [|exact N]. intros I1. assert (existsb (N.eqb a) l = true) by (apply existsb_exists; exists a; split; [exact I1|apply N.eqb_refl]). congruence.
  - intros N. inversion N as [|? ? NI ND]; subst. split; [|exact ND]. apply not_true_is_false. intros E. apply existsb_exists in E. destruct E as (b & B & EB). apply N.eqb_eq in EB. subst b. contradiction.
Qed.

(** ** Building *)
Lemma put_then_read dir name c f d : dir_get (d_segs (set_segs d (dir_put (d_segs d) dir (kv_put name c f)))) dir = Some (kv_put name c f).
Proof. cbn [d_segs set_segs]. rewrite dir_get_put, bytes_eqb_refl. reflexivity. Qed.
Definition flat_body (x : extern) (m : metric) (dim : N) (v : vparams) (rows : list row) (name tmp : bytes) : io unit :=
  do _ <- write_in tmp ids_name (ids_bytes rows);
  do stored <- lift (stored_rows x m rows);
  do _ <- write_in tmp vectors_name (vectors_bytes stored);
  do text <- lift (sm_save (segment_manifest Flat m dim v name rows));
  do _ <- write_in tmp manifest_name text;
  rename_dir tmp name.
Definition vamana_body (x : extern) (m : metric) (dim : N) (v : vparams) (rows : list row) (name tmp : bytes) : io unit :=
  do _ <- write_in tmp ids_name (ids_bytes rows);
  do _ <- write_in tmp vectors_name (vectors_bytes rows);
  do graph <- lift (x_graph x v rows);
  do _ <- write_in tmp graph_name graph;
  do text <- lift (sm_save (segment_manifest Vamana m dim v name rows));
  do _ <- write_in tmp manifest_name text;
  do _ <- sync_dir;
  rename_dir tmp name.
Ltac io_pres :=
  match goal with
  | E : write_in _ _ _ _ _ = _, NS : ~ segment_name _ |- _ => apply (write_in_pres _ _ _ _ _ _ _ _ NS) in E; io_pres
  | E : rename_dir _ _ _ _ = _, NS : ~ segment_name _ |- _ => apply (rename_dir_pres _ _ _ _ _ _ _ NS) in E; destruct E as [E _]; io_pres
  | E : lift _ _ _ = _ |- _ => apply lift_inv in E; destruct E as (-> & _ & _); io_pres
  | E : sync_dir _ _ = _ |- _ => apply sync_dir_same in E; subst; io_pres
  | E : pres ?a ?b |- pres ?a ?c => apply (pres_trans a b c E); clear E; io_pres
  | |- pres ?a ?a => apply pres_refl
  | _ => idtac
  end.
Lemma flat_body_pres x m dim v rows name tmp env d o env' d' : ~ segment_name tmp -> flat_body x m dim v rows name tmp env d = (o, env', d') -> pres d d'.
Proof.
  intros NS H. unfold flat_body in H. iobind H; [|io_pres..]. iobind H; [|io_pres..]. iobind H; [|io_pres..]. iobind H; [|io_pres..]. iobind H; [|io_pres..]. io_pres.
Qed.
Lemma vamana_body_pres x m dim v rows name tmp env d o env' d' : ~ segment_name tmp -> vamana_body x m dim v rows name tmp env d = (o, env', d') -> pres d d'.
Proof.
  intros NS H. unfold vamana_body in H. iobind H; [|io_pres..]. iobind H; [|io_pres..]. iobind H; [|io_pres..]. iobind H; [|io_pres..]. iobind H; [|io_pres..]. iobind H; [|io_pres..]. iobind H; [|io_pres..]. io_pres.
Qed.
(** The files of a segment that was published *)
Definition written (x : extern) (t : index_type) (m : metric) (dim : N) (v : vparams) (rows : list row) (name : bytes) (d : disk) : Prop :=
  exists stored text f, stored_rows x m rows = Ok stored /\ sm_save (segment_manifest t m dim v name rows) = Ok text /\ dir_get (d_segs d) name = Some f
  /\ kv_get f manifest_name = Some text /\ kv_get f ids_name = Some (ids_bytes rows) /\ kv_get f vectors_name = Some (vectors_bytes stored).
Ltac wr E := destruct (write_in_ret _ _ _ _ _ _ _ E) as (?f & ?F & ->); clear E.
Lemma unit_ret (o : unit) : o = tt. Proof. now destruct o. Qed.
Lemma flat_body_ret x m dim v rows name tmp env d env' d' : ~ segment_name tmp -> segment_name name -> flat_body x m dim v rows name tmp env d = (Ret tt, env', d') -> written x Flat m dim v rows name d'.
Proof.
  intros NS SN H. unfold flat_body in H. iobind H. rewrite (unit_ret a) in E. wr E. iobind H. apply lift_inv in E. destruct E as (-> & _ & [(st & ES & [= ->])|?]); [|discriminate].
  iobind H. rewrite (unit_ret a0) in E. wr E. rewrite put_then_read in F0. injection F0 as <-. iobind H. apply lift_inv in E. destruct E as (-> & _ & [(tx & ET & [= ->])|?]); [|discriminate].
  iobind H. rewrite (unit_ret a1) in E. wr E. rewrite put_then_read in F0. injection F0 as <-.
  apply rename_dir_pres in H; [|exact NS]. destruct H as [_ H]. destruct (H eq_refl) as (f' & F' & _ & ->). rewrite put_then_read in F'. injection F' as <-.
  exists st, tx. eexists. split; [exact ES|]. split; [exact ET|]. split; [cbn [d_segs set_segs]; rewrite dir_get_put, bytes_eqb_refl; reflexivity|]. rewrite !kv_get_put.
  repeat split.
Qed.
Lemma vamana_body_ret x m dim v rows name tmp env d env' d' : m = L2 -> ~ segment_name tmp -> segment_name name -> vamana_body x m dim v rows name tmp env d = (Ret tt, env', d') ->
  written x Vamana m dim v rows name d' /\ exists graph f, x_graph x v rows = Ok graph /\ dir_get (d_segs d') name = Some f /\ kv_get f graph_name = Some graph.
Proof.
  intros -> NS SN H. unfold vamana_body in H. iobind H. rewrite (unit_ret a) in E. wr E. iobind H. rewrite (unit_ret a0) in E. wr E. rewrite put_then_read in F0. injection F0 as <-.
  iobind H. apply lift_inv in E. destruct E as (-> & _ & [(gr & EG & [= ->])|?]); [|discriminate].
  iobind H. rewrite (unit_ret a1) in E. wr E. rewrite put_then_read in F0. injection F0 as <-. iobind H. apply lift_inv in E. destruct E as (-> & _ & [(tx & ET & [= ->])|?]); [|discriminate].
  iobind H. rewrite (unit_ret a2) in E. wr E. rewrite put_then_read in F0. injection F0 as <-. iobind H. apply sync_dir_same in E. subst d0.
  apply rename_dir_pres in H; [|exact NS]. destruct H as [_ H]. destruct (H eq_refl) as (f' & F' & _ & ->). rewrite put_then_read in F'. injection F' as <-.
  split.
  - exists rows, tx. eexists. split; [reflexivity|]. split; [exact ET|]. split; [cbn [d_segs set_segs]; rewrite dir_get_put, bytes_eqb_refl; reflexivity|]. rewrite !kv_get_put.
    repeat split.
  - exists gr. eexists. split; [exact EG|]. split; [cbn [d_segs set_segs]; rewrite dir_get_put, bytes_eqb_refl; reflexivity|]. rewrite !kv_get_put. reflexivity.
Qed.
Ltac thrown H := apply throw_inv in H; destruct H as (-> & _ & ->); split; [apply pres_refl|discriminate].
Lemma dir_exists_inv dir env d o env' d' : dir_exists dir env d = (o, env', d') -> d' = d /\ env' = env /\ o = Ret (match dir_get (d_segs d) dir with Some _ => true | None => false end).
Proof. unfold dir_exists. intros [= <- <- <-]. repeat split. Qed.
Lemma flat_finish_inv x m dim v rows name stamp env d o env' d' : flat_finish x m dim v rows name stamp env d = (o, env', d') ->
  pres d d' /\ (o = Ret tt -> segment_name name /\ rows <> [] /\ written x Flat m dim v rows name d').
Proof.
  intros H. unfold flat_finish in H. destruct (match rows with [] => true | _ => false end) eqn:ER; [thrown H|]. assert (RN : rows <> []) by (intros ->; discriminate ER).
  destruct (is_valid_segment_id name) eqn:EV; cbn [negb] in H; [|thrown H]. apply is_valid_segment_id_iff in EV.
  iobind H; apply dir_exists_inv in E; destruct E as (-> & -> & [= ->]). destruct (dir_get (d_segs d) name) as [?|]; [thrown H|].
  set (tmp := tmp_segment name stamp) in *. assert (NS : ~ segment_name tmp) by (intros SN; exact (tmp_not_segment name stamp tmp SN eq_refl)).
  iobind H; [|apply mk_dir_pres in E; [|exact NS]; split; [exact E|discriminate]..]. apply mk_dir_pres in E; [|exact NS].
  change (do _ <- write_in tmp ids_name (ids_bytes rows); _) with (flat_body x m dim v rows name tmp) in H.
  assert (GP : forall e0 d0 o e d1, flat_body x m dim v rows name tmp e0 d0 = (o, e, d1) -> pres d0 d1) by (intros; eapply flat_body_pres; eassumption).
  iobind H.
  - apply guarded_pres in E0; [|exact NS|apply GP]. destruct E0 as [P R]. destruct (R _ eq_refl) as (e2 & B). rewrite (unit_ret a0) in B. apply flat_body_ret in B; [|exact NS|exact EV].
    apply sync_quietly_same in H. destruct H as [-> _]. split; [eapply pres_trans; eassumption|]. intros _. repeat split; assumption.
  - apply guarded_pres in E0; [|exact NS|apply GP]. split; [eapply pres_trans; [exact E|apply E0]|discriminate].
  - apply guarded_pres in E0; [|exact NS|apply GP]. split; [eapply pres_trans; [exact E|apply E0]|discriminate].
Qed.
Lemma vamana_finish_inv x m dim v rows name stamp env d o env' d' : vamana_finish x m dim v rows name stamp env d = (o, env', d') ->
  pres d d' /\ (o = Ret tt -> segment_name name /\ rows <> [] /\ m = L2 /\ written x Vamana m dim v rows name d'
    /\ exists graph f, x_graph x v rows = Ok graph /\ dir_get (d_segs d') name = Some f /\ kv_get f graph_name = Some graph).
Proof.
  intros H. unfold vamana_finish in H. destruct (match m with L2 => false | _ => true end) eqn:EM; [thrown H|]. assert (ML : m = L2) by (destruct m; [reflexivity|discriminate EM..]).
  destruct (match rows with [] => true | _ => false end) eqn:ER; [thrown H|]. assert (RN : rows <> []) by (intros ->; discriminate ER).
  destruct (is_valid_segment_id name) eqn:EV; cbn [negb] in H; [|thrown H]. apply is_valid_segment_id_iff in EV.
  iobind H; apply dir_exists_inv in E; destruct E as (-> & -> & [= ->]). destruct (dir_get (d_segs d) name) as [?|]; [thrown H|].
  set (tmp := tmp_segment name stamp) in *. assert (NS : ~ segment_name tmp) by (intros SN; exact (tmp_not_segment name stamp tmp SN eq_refl)).
  iobind H; apply dir_exists_inv in E; destruct E as (-> & -> & [= ->]). destruct (dir_get (d_segs d) tmp) as [?|]; [thrown H|].
  iobind H; [|apply mk_dir_pres in E; [|exact NS]; split; [exact E|discriminate]..]. apply mk_dir_pres in E; [|exact NS].
  change (do _ <- write_in tmp ids_name (ids_bytes rows); _) with (vamana_body x m dim v rows name tmp) in H.
  assert (GP : forall e0 d0 o e d1, vamana_body x m dim v rows name tmp e0 d0 = (o, e, d1) -> pres d0 d1) by (intros; eapply vamana_body_pres; eassumption).
  iobind H.
  - apply guarded_pres in E0; [|exact NS|apply GP]. destruct E0 as [P R]. destruct (R _ eq_refl) as (e2 & B). rewrite (unit_ret a0) in B. apply vamana_body_ret in B; [|exact ML|exact NS|exact EV].
    apply sync_quietly_same in H. destruct H as [-> _]. split; [eapply pres_trans; eassumption|]. intros _. destruct B as [B GR]. do 4 (split; [assumption|]). exact GR.
  - apply guarded_pres in E0; [|exact NS|apply GP]. split; [eapply pres_trans; [exact E|apply E0]|discriminate].
  - apply guarded_pres in E0; [|exact NS|apply GP]. split; [eapply pres_trans; [exact E|apply E0]|discriminate].
Qed.

(** ** The manifests are good *)
Lemma kv_ins_In k v db e : In e (kv_ins k v db) -> e = (k, v) \/ In e db.
Proof.
  induction db as [|[k' v'] db IH]; cbn [kv_ins]; [intros [<-|[]]; now left|]. destruct (key_ltb k k').
  - intros [<-|H]; [now left|now right].
  - intros [<-|H]; [right; now left|]. destruct (IH H) as [->|I1]; [now left|right; now right].
Qed.
Lemma kv_put_Forall (P : bytes * bytes -> Prop) k v db : P (k, v) -> Forall P db -> Forall P (kv_put k v db).
Proof.
  intros H F. apply Forall_forall. intros e I1. unfold kv_put in I1. apply kv_ins_In in I1. destruct I1 as [->|I1]; [exact H|]. apply kv_del_In in I1. rewrite Forall_forall in F. apply F, I1.
Qed.
Lemma literal_extension (k : string) v : starts_with (str "x_") (str k) = true -> forallb (fun c => negb (is_ascii_ws c || N.eqb c 61)) (str k) = true -> line_text v -> extension (str k, v).
Proof.
  intros S F L. unfold extension. cbn [fst snd]. split; [apply starts_with_iff in S; exact S|]. split; [|split; [|exact L]].
  - apply clean_text. rewrite forallb_forall in F |- *. intros c C. specialize (F c C). apply negb_true_iff in F. apply orb_false_iff in F. now rewrite (proj1 F).
  - intros I1. rewrite forallb_forall in F. specialize (F 61 I1). rewrite N.eqb_refl, orb_true_r in F. discriminate F.
Qed.
Ltac extensions := repeat (apply kv_put_Forall; [apply literal_extension; [reflexivity|reflexivity|try apply dec_text; apply clean_text; reflexivity]|]); try apply Forall_nil.
Ltac sorted_extras := repeat apply kv_sorted_put; apply SSorted_nil.
Lemma segment_manifest_good t m dim v name rows : segment_name name -> rows <> [] -> N.of_nat (length rows) < 2 ^ 64 -> 0 < dim < 2 ^ 64 -> m <> NONE -> good_segment (segment_manifest t m dim v name rows).
Proof.
  intros SN RN LR D M. constructor; cbn [segment_manifest sm_version sm_id sm_metric sm_dim sm_count sm_ids sm_vectors sm_extras]; try assumption.
  - reflexivity.
  - split; [|exact LR]. destruct rows; [contradiction|cbn [length]; lia].
  - split; [apply is_valid_basename_iff; reflexivity|apply clean_text; reflexivity].
  - right. split; [apply is_valid_basename_iff; reflexivity|apply clean_text; reflexivity].
  - unfold segment_extras. destruct t; (split; [sorted_extras|extensions]).
Qed.
Lemma collection_extras_good t n v : kv_sorted (collection_extras t n v) /\ Forall extension (collection_extras t n v).
Proof. unfold collection_extras. destruct t; (split; [sorted_extras|extensions]). Qed.
Lemma sm_load_short t m : sm_load t = Ok m -> N.of_nat (length t) <= k_max_manifest_bytes.
Proof. unfold sm_load, read_manifest_file. destruct (N.ltb_spec k_max_manifest_bytes (N.of_nat (length t))) as [|L]; cbn [bind]; [discriminate|]. intros _. exact L. Qed.
Lemma sm_save_load m t m' : good_segment m -> sm_save m = Ok t -> sm_load t = Ok m' -> m' = m.
Proof. intros G S L. rewrite (sm_round_trip m t G S (sm_load_short _ _ L)) in L. congruence. Qed.
Lemma cm_load_short t m : cm_load t = Ok m -> N.of_nat (length t) <= k_max_manifest_bytes.
Proof. unfold cm_load, read_manifest_file. destruct (N.ltb_spec k_max_manifest_bytes (N.of_nat (length t))) as [|L]; cbn [bind]; [discriminate|]. intros _. exact L. Qed.
Lemma cm_save_load m t m' : good_collection m -> cm_save m = Ok t -> cm_load t = Ok m' -> m' = m.
Proof. intros G S L. rewrite (cm_round_trip m t G S (cm_load_short _ _ L)) in L. congruence. Qed.

Lemma segment_extras_graph v : kv_get (segment_extras Vamana v) (str "x_graph_file") = Some graph_name.
Proof. unfold segment_extras. rewrite !kv_get_put. reflexivity. Qed.

(** ** Creating a segment *)
Lemma written_good x g v rows name d f env s env' d' : extern_ok x -> Forall (row_ok (g_dim g)) rows -> rows <> [] -> segment_name name -> 0 < g_dim g < 2 ^ 64 ->
  N.of_nat (length rows) < 2 ^ 64 -> written x (g_type g) (g_metric g) (g_dim g) v rows name d -> dir_get (d_segs d) name = Some f ->
  open_searcher x (g_type g) name env d = (Ret s, env', d') ->
  exists stored, Forall2 (stores x g) rows stored /\ seg_good x g name stored f /\ s = {| sr_type := g_type g; sr_rows := stored |}.
Proof.
  intros X R RN SN D LR (stored & text & f' & ST & SV & F' & KM & KI & KV) F H. assert (f' = f) by congruence. subst f'.
  destruct (stored_ok x g rows stored X R ST) as (F2 & RS & LB). exists stored. split; [exact F2|].
  assert (LL : length rows = length stored) by (apply (f_equal (@length N)) in LB; unfold labels in LB; rewrite !map_length in LB; congruence).
  assert (MN : g_metric g <> NONE). { intros E. unfold sm_save in SV. cbn [segment_manifest sm_metric] in SV. rewrite E in SV. discriminate SV. }
  assert (G : seg_good x g name stored f).
  { pose proof (open_searcher_ret _ _ _ _ _ _ _ _ H) as (f1 & text1 & m1 & ids & vectors & F1 & T1 & L1 & I1 & V1 & C1 & C2 & _ & _ & _ & VM).
    assert (f1 = f) by congruence. assert (text1 = text) by congruence. subst f1 text1.
    pose proof (sm_save_load _ _ _ (segment_manifest_good (g_type g) (g_metric g) (g_dim g) v name rows SN RN LR D MN) SV L1) as ->.
    cbn [segment_manifest sm_count sm_dim sm_metric sm_extras] in *. constructor.
    - exact SN.
    - exact RS.
    - exists text, v, rows. split; [exact T1|]. split; [congruence|exact L1].
    - replace (ids_bytes stored) with (ids_bytes rows); [exact KI|]. unfold ids_bytes. rewrite <- !(map_map fst (le_enc 8)). unfold labels in LB. now rewrite LB.
    - exact KV.
    - rewrite <- LL. split; assumption.
    - intros TV. destruct (VM TV) as (ML & C3 & gn & graph & EG & KG & GL). split; [exact ML|]. split; [rewrite <- LL; exact C3|]. exists graph.
      rewrite TV, segment_extras_graph in EG. injection EG as <-. split; assumption. }
  split; [exact G|]. eapply seg_good_open; eassumption.
Qed.
Lemma create_segment_inv x g cm v rows name stamp env d o env' d' : extern_ok x -> Forall (row_ok (g_dim g)) rows -> cm_type cm = g_type g -> cm_metric cm = g_metric g -> cm_dim cm = g_dim g ->
  0 < g_dim g < 2 ^ 64 -> N.of_nat (length rows) < 2 ^ 64 ->
  create_segment x cm v rows name stamp env d = (o, env', d') ->
  pres d d' /\ forall s, o = Ret s -> segment_name name /\ rows <> [] /\ exists stored, Forall2 (stores x g) rows stored /\ seg_at x g d' name stored /\ sr_rows s = stored.
Proof.
  intros X R T M D DP LR H. unfold create_segment in H. rewrite T, M, D in H.
  assert (TH : forall o env d, (@throw searcher) env d = (o, env', d') -> pres d d' /\ forall s, o = Ret s -> segment_name name /\ rows <> [] /\ exists stored, Forall2 (stores x g) rows stored /\ seg_at x g d' name stored /\ sr_rows s = stored).
  { intros o0 env0 d0 H0. apply throw_inv in H0. destruct H0 as (-> & _ & ->). split; [apply pres_refl|discriminate]. }
  destruct (g_type g) eqn:TY; [| |apply TH in H; exact H].
  - destruct (N.leb _ _); [apply TH in H; exact H|]. destruct (negb (all_finite rows)); [apply TH in H; exact H|].
    iobind H.
    + apply flat_finish_inv in E. destruct E as [P R2]. destruct (R2 (f_equal Ret (unit_ret a))) as (SN & RN & W). pose proof H as H2. apply open_searcher_inv in H2. subst d'. split; [exact P|].
      intros s ->. split; [exact SN|]. split; [exact RN|]. destruct W as (st & tx & f & W). assert (F : dir_get (d_segs d0) name = Some f) by apply W.
      rewrite <- TY in H. destruct (written_good x g v rows name d0 f _ _ _ _ X R RN SN DP LR ltac:(rewrite TY; exists st, tx, f; exact W) F H) as (stored & F2 & G & ->).
      exists stored. split; [exact F2|]. split; [exists f; split; assumption|reflexivity].
    + apply flat_finish_inv in E. split; [apply E|discriminate].
    + apply flat_finish_inv in E. split; [apply E|discriminate].
  - destruct (Nat.ltb (length rows) 2); [apply TH in H; exact H|]. destruct (N.leb _ _); [apply TH in H; exact H|]. destruct (negb (all_finite rows)); [apply TH in H; exact H|].
    iobind H.
    + apply vamana_finish_inv in E. destruct E as [P R2]. destruct (R2 (f_equal Ret (unit_ret a))) as (SN & RN & _ & W & _). pose proof H as H2. apply open_searcher_inv in H2. subst d'. split; [exact P|].
      intros s ->. split; [exact SN|]. split; [exact RN|]. destruct W as (st & tx & f & W). assert (F : dir_get (d_segs d0) name = Some f) by apply W.
      rewrite <- TY in H. destruct (written_good x g v rows name d0 f _ _ _ _ X R RN SN DP LR ltac:(rewrite TY; exists st, tx, f; exact W) F H) as (stored & F2 & G & ->).
      exists stored. split; [exact F2|]. split; [exists f; split; assumption|reflexivity].
    + apply vamana_finish_inv in E. split; [apply E|discriminate].
    + apply vamana_finish_inv in E. split; [apply E|discriminate].
Qed.

(** ** The collection *)
Definition pub_tmp (stamp : bytes) : bytes := str ".tmp_collection_manifest_" ++ stamp.
Lemma pub_tmp_neq stamp : pub_tmp stamp <> manifest_file. Proof. discriminate. Qed.
Lemma publish_inv m stamp env d o env' d' : publish m stamp env d = (o, env', d') ->
  d_segs d' = d_segs d /\ ((o <> Ret tt /\ kv_get (d_root d') manifest_file = kv_get (d_root d) manifest_file)
                           \/ (o = Ret tt /\ exists text, cm_save m = Ok text /\ kv_get (d_root d') manifest_file = Some text)).
Proof.
  unfold publish. fold (pub_tmp stamp). intros H. pose proof (pub_tmp_neq stamp) as NE. apply bytes_eqb_neq in NE.
  iobind H; [|apply lift_inv in E; destruct E as (-> & _ & [(? & _ & ?)|_]); [discriminate|split; [reflexivity|left; split; [discriminate|reflexivity]]]..|apply lift_inv in E; destruct E as (_ & _ & [(? & _ & ?)|?]); discriminate].
  apply lift_inv in E. destruct E as (-> & -> & [(text & SV & [= ->])|?]); [|discriminate].
  assert (WR : forall o e d1, write_root (pub_tmp stamp) text env d = (o, e, d1) -> d_segs d1 = d_segs d /\ kv_get (d_root d1) manifest_file = kv_get (d_root d) manifest_file
               /\ (o = Ret tt -> kv_get (d_root d1) (pub_tmp stamp) = Some text)).
  { intros o1 e1 d1 W. unfold write_root in W. apply access_inv in W. destruct W as [W|(cut & -> & R)].
    - injection W as _ <-. cbn [d_root d_segs set_root]. rewrite !kv_get_put, NE, bytes_eqb_refl. auto.
    - cbn [d_root d_segs set_root]. rewrite !kv_get_put, NE. repeat split. intros ->. destruct R; discriminate. }
  iobind H; apply WR in E; destruct E as (S1 & M1 & T1).
  - rewrite (unit_ret a) in T1. specialize (T1 eq_refl). unfold rename_root in H. apply access_inv in H. destruct H as [H|(cut & -> & R)].
    + rewrite T1 in H. injection H as <- <-. cbn [d_root d_segs set_root]. split; [exact S1|]. right. split; [reflexivity|]. exists text. split; [exact SV|]. rewrite kv_get_put, bytes_eqb_refl. reflexivity.
    + split; [exact S1|]. left. split; [destruct R as [->| ->]; discriminate|exact M1].
  - split; [exact S1|]. left. split; [discriminate|exact M1].
  - split; [exact S1|]. left. split; [discriminate|exact M1].
Qed.
Record coll_at (x : extern) (g : config) (d : disk) (M : coll_manifest) (batches : list (list row)) : Prop := {
  ca_text : exists text, kv_get (d_root d) manifest_file = Some text /\ cm_save M = Ok text;
  ca_good : good_collection M;
  ca_dim : cm_dim M = g_dim g;
  ca_metric : cm_metric M = g_metric g;
  ca_type : cm_type M = g_type g;
  ca_extras : cm_extras M = collection_extras (g_type g) (g_max_pending g) (g_vamana g);
  ca_segs : Forall2 (seg_at x g d) (cm_segments M) batches;
  ca_labels : NoDup (labels (concat batches));
}.
Record obj_at (g : config) (M : coll_manifest) (batches : list (list row)) (c : coll) (a : list row) : Prop := {
  oa_manifest : exists n, c_manifest c = set_next M n;
  oa_dirs : c_dirs c = cm_segments M;
  oa_segs : map sr_rows (c_segments c) = batches;
  oa_pending : c_pending c = a;
  oa_rows : Forall (row_ok (g_dim g)) a;
  oa_size : 2 * N.of_nat (length a) * (g_dim g * 4 + 8) < 2 ^ 64;
}.
Definition InvB (x : extern) (g : config) (s : session) (k : contents) (batches : list (list row)) : Prop :=
  exists M, coll_at x g (fst s) M batches /\ kept k = concat batches
  /\ match snd s, added k with Some c, Some a => obj_at g M batches c a | None, None => True | _, _ => False end.
Definition Inv (x : extern) (g : config) (s : session) (k : contents) : Prop := exists batches, InvB x g s k batches.
Lemma coll_at_pres x g d d' M b : pres d d' -> coll_at x g d M b -> coll_at x g d' M b.
Proof.
  intros P C. destruct C as [T G D ME TY EX SG LB]. constructor; try assumption.
  - destruct P as [P _]. destruct T as (text & T & S). exists text. split; [congruence|exact S].
  - clear - SG P. induction SG; constructor; [eapply seg_at_pres; eassumption|assumption].
Qed.
Lemma labels_app a b : labels (a ++ b) = labels a ++ labels b. Proof. apply map_app. Qed.
Lemma stores_labels x g rows stored : Forall2 (stores x g) rows stored -> labels stored = labels rows.
Proof.
  induction 1 as [|r r' rows stored S F IH]; [reflexivity|]. unfold labels in *. cbn [map]. rewrite IH. f_equal. unfold stores in S. destruct (g_metric g); try (now subst); apply S.
Qed.
Lemma nodup_app_disjoint {A} (a b : list A) : NoDup a -> NoDup b -> (forall x, In x b -> ~ In x a) -> NoDup (a ++ b).
Proof. exact (nodup_app2 a b). Qed.
Definition next_manifest (m : coll_manifest) : coll_manifest :=
  {| cm_version := cm_version m; cm_dim := cm_dim m; cm_metric := cm_metric m; cm_type := cm_type m;
     cm_next := cm_next m + 1; cm_segments := cm_segments m ++ [format_segment_id (cm_next m)]; cm_extras := cm_extras m |}.
Lemma flush_inv x g M batches c a s1 s2 env d o env' d' c' : extern_ok x -> g_dim g < 2 ^ 32 -> coll_at x g d M batches -> obj_at g M batches c a ->
  flush x s1 s2 c env d = (o, env', d', c') ->
  (coll_at x g d' M batches /\ (o = Crashed \/ o = Thrown /\ obj_at g M batches c' a \/ o = Ret tt /\ a = [] /\ c' = c /\ d' = d))
  \/ (exists M' stored, cm_next M' = cm_next (c_manifest c) + 1 /\ coll_at x g d' M' (batches ++ [stored]) /\ extended x g (concat batches) a (concat (batches ++ [stored]))
      /\ (o = Crashed \/ o = Ret tt /\ obj_at g M' (batches ++ [stored]) c' [])).
Proof.
  intros X DG C O H. destruct O as [(n & OM) OD OS OP OR OZ]. unfold flush in H. rewrite OP in H. destruct a as [|r0 a'].
  { cbv beta iota zeta in H; injection H as <- <- <- <-. left. split; [exact C|]. right. right. repeat split. }
  set (a := r0 :: a') in *. rewrite OM, OD in H. cbn [set_next cm_next cm_type cm_version cm_dim cm_metric cm_segments cm_extras] in H.
  assert (DP : 0 < g_dim g < 2 ^ 64). { pose proof (gc_dim _ (ca_good _ _ _ _ _ C)) as Q. rewrite (ca_dim _ _ _ _ _ C) in Q. exact Q. }
  assert (LR : N.of_nat (length a) < 2 ^ 64) by nia.
  match type of H with (match ?b with _ => _ end) = _ => destruct b as [[r e1] d1] eqn:B end.
  assert (BI : pres d d1 /\ forall s, r = Ret s -> NoDup (labels a) /\ (forall m, In m (labels a) -> ~ In m (labels (concat batches))) /\ segment_name (format_segment_id n)
               /\ exists stored, Forall2 (stores x g) a stored /\ seg_at x g d1 (format_segment_id n) stored /\ sr_rows s = stored).
  { destruct (no_repeats (map fst a)) eqn:NR; cbn [negb] in B; [|apply throw_inv in B; destruct B as (-> & _ & ->); split; [apply pres_refl|discriminate]].
    apply no_repeats_iff in NR. iobind B; try (apply no_clash_inv in E; subst; split; [apply pres_refl|discriminate]).
    rewrite (unit_ret a0) in E. pose proof E as E2. apply no_clash_inv in E2. subst d0. pose proof (no_clash_good x g d _ _ _ (ca_segs _ _ _ _ _ C) _ _ _ E) as NC.
    match type of B with context [if ?b then throw else _] => destruct b end; [apply throw_inv in B; destruct B as (-> & _ & ->); split; [apply pres_refl|discriminate]|].
    apply (create_segment_inv x g) in B; try assumption; try apply C. destruct B as [P R]. split; [exact P|]. intros s ->. destruct (R s eq_refl) as (SN & _ & st & F2 & SA & SR).
    split; [exact NR|]. split; [exact NC|]. split; [exact SN|]. exists st. repeat split; assumption. }
  destruct BI as [P R]. destruct r as [s| |].
  - destruct (R s eq_refl) as (ND & NC & SN & stored & F2 & SA & SR). clear R.
    match type of H with context [publish ?m ?st ?e ?dd] => set (NM := m) in *; destruct (publish NM st e dd) as [[r2 e2] d2] eqn:PB end.
    pose proof (coll_at_pres _ _ _ _ _ _ P C) as C1. apply publish_inv in PB. destruct PB as [SG PB].
    assert (SS : forall nm rs, seg_at x g d1 nm rs -> seg_at x g d2 nm rs) by (intros nm rs (f & F & Gf); exists f; rewrite SG; split; assumption).
    destruct PB as [[NR MF]|[-> (text & SV & MF)]].
    + (* not published *)
      assert (PD : pres d1 d2) by (split; [exact MF|intros nm f _ F; rewrite SG; exact F]). pose proof (coll_at_pres _ _ _ _ _ _ PD C1) as C2.
      destruct r2 as [u| |]; [rewrite (unit_ret u) in NR; contradiction| |]; cbv beta iota zeta in H; injection H as <- <- <- <-; (left; split; [exact C2|]).
      * right. left. split; [reflexivity|]. constructor; cbn; try assumption; try reflexivity. exists (n + 1). reflexivity.
      * left. reflexivity.
    + (* published *)
      right. exists NM, stored. split; [rewrite OM; reflexivity|]. assert (NB : n < 10 ^ 8). { destruct (N.lt_ge_cases n (10 ^ 8)) as [|G]; [assumption|]. exfalso. exact (segment_id_refuted n G SN). }
      assert (C2 : coll_at x g d2 NM (batches ++ [stored])).
      { destruct C1 as [_ G D ME TY EX SGS LB]. constructor; subst NM; cbn [cm_dim cm_metric cm_type cm_extras cm_segments]; try assumption.
        - exists text. split; assumption.
        - destruct G as [V GD GM GN GS GE]. constructor; cbn [cm_version cm_dim cm_metric cm_next cm_segments cm_extras]; try assumption.
          + assert (10 ^ 8 < 2 ^ 64) by reflexivity. lia.
          + apply Forall_app. split; [exact GS|]. constructor; [exact SN|constructor].
        - apply Forall2_app; [clear - SGS SS; induction SGS; constructor; [apply SS; assumption|assumption]|constructor; [apply SS; exact SA|constructor]].
        - rewrite concat_app, labels_app. cbn [concat]. rewrite app_nil_r. apply nodup_app_disjoint; [exact LB|rewrite (stores_labels _ _ _ _ F2); exact ND|].
          intros m Hm. rewrite (stores_labels _ _ _ _ F2) in Hm. exact (NC m Hm). }
      destruct (sync_quietly e2 d2) as [[o3 e3] d3] eqn:SY. apply sync_quietly_same in SY. destruct SY as [-> SY]. cbv beta iota zeta in H; injection H as <- <- <- <-. split; [exact C2|]. split.
      * exists stored. rewrite concat_app. cbn [concat]. rewrite app_nil_r. split; [reflexivity|]. split; [exact F2|]. split; [discriminate|]. split; [exact ND|exact NC].
      * destruct SY as [->| ->]; [|left; reflexivity]. right. split; [reflexivity|]. constructor; cbn.
        -- exists (n + 1). reflexivity.
        -- reflexivity.
        -- rewrite map_app, OS, <- SR. reflexivity.
        -- reflexivity.
        -- constructor.
        -- lia.
  - cbv beta iota zeta in H; injection H as <- <- <- <-. left. split; [eapply coll_at_pres; eassumption|]. right. left. split; [reflexivity|]. constructor; try assumption. exists n. exact OM.
  - cbv beta iota zeta in H; injection H as <- <- <- <-. left. split; [eapply coll_at_pres; eassumption|]. left. reflexivity.
Qed.
Lemma set_next_same m : m = set_next m (cm_next m). Proof. now destruct m. Qed.
Lemma list_names_inv env d o env' d' : list_names env d = (o, env', d') -> d' = d /\ (o = Crashed \/ exists names, o = Ret names).
Proof. unfold list_names. destruct env as [|[|?|?] r]; intros [= <- <- <-]; (split; [reflexivity|]); eauto. Qed.
Lemma scan_inv m env d o env' d' : scan_orphans m env d = (o, env', d') -> d' = d /\ forall m', o = Ret m' -> exists n, m' = set_next m n.
Proof.
  unfold scan_orphans. intros H. iobind H; apply list_names_inv in E; destruct E as [-> E].
  - apply ret_inv in H. destruct H as (-> & _ & ->). split; [reflexivity|]. intros m' [= <-]. destruct (N.ltb _ _); [eexists; reflexivity|]. exists (cm_next m). apply set_next_same.
  - split; [reflexivity|discriminate].
  - split; [reflexivity|discriminate].
Qed.
Lemma open_inv x env d o env' d' : open_collection x env d = (o, env', d') -> d' = d.
Proof.
  unfold open_collection. intros H. iobind H; [|apply read_root_inv in E; apply E..]. apply read_root_inv in E. destruct E as [-> _].
  iobind H; [|apply lift_inv in E; apply E..]. apply lift_inv in E. destruct E as [-> _].
  destruct (cm_type a0); [| |apply throw_inv in H; apply H].
  - iobind H; [|apply lift_inv in E; apply E..]. apply lift_inv in E. destruct E as [-> _]. iobind H; [|apply lift_inv in E; apply E..]. apply lift_inv in E. destruct E as [-> _].
    iobind H; [|apply open_listed_inv in E; exact E..]. apply open_listed_inv in E. subst. iobind H; [|apply scan_inv in E; apply E..]. apply scan_inv in E. destruct E as [-> _]. apply ret_inv in H. apply H.
  - iobind H; [|apply lift_inv in E; apply E..]. apply lift_inv in E. destruct E as [-> _]. iobind H; [|apply lift_inv in E; apply E..]. apply lift_inv in E. destruct E as [-> _].
    iobind H; [|apply open_listed_inv in E; exact E..]. apply open_listed_inv in E. subst. iobind H; [|apply scan_inv in E; apply E..]. apply scan_inv in E. destruct E as [-> _]. apply ret_inv in H. apply H.
Qed.
Lemma open_good x g d M batches env c env' d' : coll_at x g d M batches -> open_collection x env d = (Ret c, env', d') -> obj_at g M batches c [].
Proof.
  intros C H. destruct C as [(text & T & SV) G D ME TY EX SG LB]. unfold open_collection in H.
  iobind H. apply read_root_inv in E. destruct E as [-> E]. specialize (E _ eq_refl). assert (a = text) by congruence. subst a.
  iobind H. apply lift_inv in E0. destruct E0 as (-> & _ & [(m & L & [= ->])|?]); [|discriminate]. pose proof (cm_save_load _ _ _ G SV L) as ->.
  assert (K : forall t cap v segs env, (do segments <- open_listed x (cm_segments M); do m' <- scan_orphans M;
      ret {| c_manifest := m'; c_segments := segments; c_dirs := cm_segments M; c_pending := []; c_max_pending := cap; c_vamana := v |}) env d = (Ret c, env', d') -> t = segs :> nat -> obj_at g M batches c []).
  { clear H. intros _ cap v _ env1 H _. iobind H. pose proof E0 as E1. apply open_listed_inv in E1. subst d0. apply (open_listed_good _ _ _ _ _ SG) in E0.
    iobind H. apply scan_inv in E1. destruct E1 as [-> E1]. destruct (E1 _ eq_refl) as (n & ->). apply ret_inv in H. destruct H as (_ & _ & [= ->]).
    constructor; cbn; try reflexivity; try assumption; try constructor. exists n. reflexivity. }
  destruct (cm_type M); [| |apply throw_inv in H; destruct H as (_ & _ & ?); discriminate].
  - iobind H. apply lift_inv in E0. destruct E0 as [-> _]. iobind H. apply lift_inv in E0. destruct E0 as [-> _]. exact (K _ _ _ 0%nat _ H eq_refl).
  - iobind H. apply lift_inv in E0. destruct E0 as [-> _]. iobind H. apply lift_inv in E0. destruct E0 as [-> _]. exact (K _ _ _ 0%nat _ H eq_refl).
Qed.
Lemma add_good g M batches c a rows c' : obj_at g M batches c a -> cm_dim M = g_dim g -> Forall (row_ok (g_dim g)) rows -> add_batch c rows = Ok c' -> obj_at g M batches c' (a ++ rows) /\ c' = set_pending c (a ++ rows).
Proof.
  intros [(n & OM) OD OS OP OR OZ] D R H. unfold add_batch in H. rewrite OM in H. cbn [set_next cm_type cm_dim] in H. rewrite D, OP in H.
  assert (EM : set_pending c a = c) by (destruct c; cbn in *; now subst).
  destruct (cm_type M); [| |discriminate].
  1,2: destruct rows as [|r rows]; [injection H as <-; rewrite app_nil_r; split; [constructor; try assumption; exists n; exact OM|now rewrite EM]|];
    cbv zeta in H; destruct (N.leb _ _) in H; [discriminate|]; destruct (N.ltb _ _) in H; [discriminate|];
    destruct (N.leb_spec (2 ^ 64) (2 * (N.of_nat (length a) + N.of_nat (length (r :: rows))) * (g_dim g * 4 + 8))) as [|L]; [discriminate|]; destruct (N.ltb _ _) in H; [discriminate|];
    injection H as <-; (split; [|reflexivity]); constructor; cbn [set_pending c_manifest c_dirs c_segments c_pending]; try assumption;
    [exists n; exact OM|reflexivity|apply Forall_app; split; assumption|rewrite app_length; lia].
Qed.
Lemma add_throws_res c rows : (exists c', add_batch c rows = Ok c') \/ add_batch c rows = Throws.
Proof. unfold add_batch. destruct (cm_type _); [| |now right]. 1,2: destruct rows; [left; eexists; reflexivity|]; cbv zeta; repeat (match goal with |- context [if ?b then _ else _] => destruct b end; [now right|]); left; eexists; reflexivity. Qed.
(** ** One call *)
Lemma step_inv x g s k o env r s' batches : extern_ok x -> g_dim g < 2 ^ 32 -> op_ok (g_dim g) o -> InvB x g s k batches -> step x s o env = (r, s') ->
  exists k' batches', allowed x g k o r k' /\ InvB x g s' k' batches' /\ (batches' = batches \/ exists st s1 s2, batches' = batches ++ [st] /\ o = Flush s1 s2).
Proof.
  intros X DG OK (M & C & K & O) H. destruct s as [d oc]. cbn [fst snd] in *. destruct k as [kp ad]. cbn [kept added] in *. subst kp. destruct o as [rows|s1 s2|].
  - destruct oc as [c|]; destruct ad as [a|]; try contradiction; cbn [step] in H.
    + destruct (add_batch c rows) as [c'| | |] eqn:A.
      * injection H as <- <-. destruct (add_good _ _ _ _ _ _ _ O (ca_dim _ _ _ _ _ C) OK A) as [O' _]. eexists. exists batches. split; [apply add_returns|]. split; [exists M; auto|left; reflexivity].
      * injection H as <- <-. eexists. exists batches. split; [apply add_throws|]. split; [exists M; auto|left; reflexivity].
      * injection H as <- <-. eexists. exists batches. split; [apply add_throws|]. split; [exists M; auto|left; reflexivity].
      * injection H as <- <-. eexists. exists batches. split; [apply add_throws|]. split; [exists M; auto|left; reflexivity].
    + injection H as <- <-. eexists. exists batches. split; [apply not_open; discriminate|]. split; [exists M; auto|left; reflexivity].
  - destruct oc as [c|]; destruct ad as [a|]; try contradiction; cbn [step] in H.
    + destruct (flush x s1 s2 c env d) as [[[o e'] d'] c'] eqn:F. destruct (flush_inv _ _ _ _ _ _ _ _ _ _ _ _ _ _ X DG C O F) as [[C' R]|(M' & st & _ & C' & EX & R)].
      * destruct R as [->|[[-> O']|(-> & -> & -> & ->)]]; injection H as <- <-.
        -- eexists. exists batches. split; [apply flush_dies_before|]. split; [exists M; auto|left; reflexivity].
        -- eexists. exists batches. split; [apply flush_throws|]. split; [exists M; auto|left; reflexivity].
        -- eexists. exists batches. split; [apply flush_nothing|]. split; [exists M; auto|left; reflexivity].
      * destruct R as [->|[-> O']]; injection H as <- <-.
        -- eexists. exists (batches ++ [st]). split; [eapply flush_dies_after; exact EX|]. split; [exists M'; auto|right; exists st, s1, s2; split; reflexivity].
        -- eexists. exists (batches ++ [st]). split; [eapply flush_returns; exact EX|]. split; [exists M'; auto|right; exists st, s1, s2; split; reflexivity].
    + injection H as <- <-. eexists. exists batches. split; [apply not_open; discriminate|]. split; [exists M; auto|left; reflexivity].
  - cbn [step] in H. destruct (open_collection x env d) as [[o e'] d'] eqn:OP. pose proof (open_inv _ _ _ _ _ _ OP) as ->. destruct o as [c| |]; injection H as <- <-.
    + eexists. exists batches. split; [apply reopen_returns|]. split; [|left; reflexivity]. exists M. split; [exact C|]. split; [reflexivity|]. exact (open_good _ _ _ _ _ _ _ _ _ C OP).
    + eexists. exists batches. split; [apply reopen_throws; now left|]. split; [exists M; auto|left; reflexivity].
    + eexists. exists batches. split; [apply reopen_throws; now right|]. split; [exists M; auto|left; reflexivity].
Qed.
Lemma run_inv x g h : extern_ok x -> g_dim g < 2 ^ 32 -> Forall (fun o => op_ok (g_dim g) (fst o)) h -> forall s k rs s', Inv x g s k -> run x s h = (rs, s') -> exists k', history x g k rs k' /\ Inv x g s' k'.
Proof.
  intros X DG. induction 1 as [|[o env] h OK _ IH]; intros s k rs s' I1 H; cbn [run] in H.
  - injection H as <- <-. exists k. split; [constructor|exact I1].
  - destruct (step x s o env) as [r s1] eqn:S. destruct (run x s1 h) as [rs1 s2] eqn:R. injection H as <- <-. destruct I1 as (b1 & I1). destruct (step_inv _ _ _ _ _ _ _ _ _ X DG OK I1 S) as (k1 & b2 & A & I2 & _).
    destruct (IH _ _ _ _ (ex_intro _ b2 I2) R) as (k2 & HH & I3). exists k2. split; [econstructor; eassumption|exact I3].
Qed.
Definition new_disk : disk := {| d_root := []; d_segs := [] |}.
Lemma create_inv x g stamp env c env' d' : config_ok g -> create g stamp env new_disk = (Ret c, env', d') -> Inv x g (d', Some c) {| kept := []; added := Some [] |}.
Proof.
  intros G H. unfold create in H. destruct (N.eqb_spec (g_dim g) 0) as [|D0]; [apply throw_inv in H; destruct H as (_ & _ & ?); discriminate|].
  destruct (match g_metric g with NONE => true | _ => false end) eqn:EM; [apply throw_inv in H; destruct H as (_ & _ & ?); discriminate|].
  destruct (match g_type g with Laser => true | _ => false end); [apply throw_inv in H; destruct H as (_ & _ & ?); discriminate|].
  match type of H with context [if ?b then throw else _] => destruct b eqn:EV end; [apply throw_inv in H; destruct H as (_ & _ & ?); discriminate|].
  cbv zeta in H. iobind H. apply publish_inv in E. destruct E as [SG E]. rewrite (unit_ret a) in E. destruct E as [[NR _]|[_ (text & SV & MF)]]; [contradiction|].
  iobind H. apply sync_quietly_same in E. destruct E as [-> _]. apply ret_inv in H. destruct H as (-> & _ & [= ->]).
  pose proof (go_dim _ G) as GD. assert (MN : g_metric g <> NONE) by (intros E2; rewrite E2 in EM; discriminate EM).
  exists []. eexists. cbn [fst snd kept added concat]. split; [|split; [reflexivity|]].
  - constructor; [exists text; split; [exact MF|exact SV]|..]; cbn [cm_dim cm_metric cm_type cm_extras cm_segments]; try reflexivity; [|constructor|constructor].
    constructor; cbn [cm_version cm_dim cm_metric cm_next cm_segments cm_extras]; try reflexivity; try assumption; [|constructor|apply collection_extras_good].
    split; [lia|]. eapply N.lt_trans; [exact GD|reflexivity].
  - constructor; cbn; try reflexivity; [|constructor]. exists 1. reflexivity.
Qed.
Lemma inv_searched x g d c k : Inv x g (d, Some c) k -> searched c = kept k /\ NoDup (labels (kept k)) /\ exists a, added k = Some a /\ c_pending c = a.
Proof.
  intros (batches & M & C & K & O). cbn [fst snd] in *. destruct (added k) as [a|]; [|contradiction]. unfold searched. rewrite (oa_segs _ _ _ _ _ O), K. split; [reflexivity|].
  split; [apply C|]. exists a. split; [reflexivity|apply O].
Qed.
Lemma inv_kept x g s k : Inv x g s k -> NoDup (labels (kept k)).
Proof. intros (batches & M & C & K & _). rewrite K. apply C. Qed.
