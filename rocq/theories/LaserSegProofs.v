From Coq Require Import String.
From Verif Require Import SegManifestProofs SegManifestProps.
From Verif Require Export LaserSegSpec.
Local Open Scope list_scope.
Local Open Scope N_scope.

(** ** Directories *)
Lemma look_app {A} (a b : list (bytes * A)) k : look (a ++ b) k = match look a k with Some v => Some v | None => look b k end.
Proof. induction a as [|[x v] a IH]; cbn [look app]; [reflexivity|]. now destruct (bytes_eqb x k). Qed.
Lemma look_none {A} (d : list (bytes * A)) k : look d k = None <-> ~ In k (map fst d).
Proof.
  induction d as [|[x v] d IH]; cbn [look map fst In]; [intuition|].
  destruct (bytes_eqb_spec x k) as [->|H]; [intuition discriminate|]. rewrite IH. intuition congruence.
Qed.
Lemma look_wdel n w k : look (wdel n w) k = if bytes_eqb n k then None else look w k.
Proof.
  unfold wdel. induction w as [|[x d] w IH]; cbn [filter look fst]; [now destruct (bytes_eqb n k)|].
  destruct (bytes_eqb_spec x n) as [->|H]; cbn [negb look]; rewrite IH.
  - now destruct (bytes_eqb n k).
  - destruct (bytes_eqb_spec x k) as [->|H']; [|reflexivity]. destruct (bytes_eqb_spec n k); [congruence|reflexivity].
Qed.
Lemma look_wset n d w k : look (wset n d w) k = if bytes_eqb n k then Some d else look w k.
Proof. unfold wset. cbn [look]. destruct (bytes_eqb n k) eqn:E; [reflexivity|]. now rewrite look_wdel, E. Qed.

(** ** The steps *)
Definition tail_steps (files : dir) : list istep := map (fun f => SPut (fst f) (snd f)) files ++ [SSync; SRename].
Lemma run_tail tmp seg st files : tmp <> seg -> forall (d : dir) n (w : world), look w tmp = Some d ->
  let (w', done) := run_steps tmp seg (tail_steps files) n st true w in
  (forall k, k <> tmp -> k <> seg -> look w' k = look w k)
  /\ (if done then look w seg = None /\ look w' seg = Some (d ++ files) /\ look w' tmp = None
      else look w' seg = look w seg /\ (st_cleaned st = true -> look w' tmp = None)).
Proof.
  intros NE.
  assert (GU : forall w : world, (forall k, k <> tmp -> k <> seg -> look (if st_cleaned st then wdel tmp w else wset tmp (st_left st) w) k = look w k)
    /\ look (if st_cleaned st then wdel tmp w else wset tmp (st_left st) w) seg = look w seg
    /\ (st_cleaned st = true -> look (if st_cleaned st then wdel tmp w else wset tmp (st_left st) w) tmp = None)).
  { intros w. assert (X : forall k, k <> tmp -> look (if st_cleaned st then wdel tmp w else wset tmp (st_left st) w) k = look w k).
    { intros k K. destruct (st_cleaned st); [rewrite look_wdel|rewrite look_wset]; destruct (bytes_eqb_spec tmp k); congruence. }
    split; [auto|]. split; [apply X; congruence|]. intros ->. rewrite look_wdel, bytes_eqb_refl. reflexivity. }
  induction files as [|[x c] files IH]; intros d n w L; unfold tail_steps; cbn [map app run_steps fst snd].
  - destruct (GU w) as (G1 & G2 & G3). destruct (Nat.eqb n (st_after st)); [auto|]. cbn [do_step].
    destruct (Nat.eqb (S n) (st_after st)); [auto|]. cbn [do_step]. rewrite L. destruct (look w seg) eqn:S; [rewrite ?S in *; auto|].
    rewrite app_nil_r. split; [|split; [reflexivity|split]].
    + intros k K1 K2. rewrite look_wset, look_wdel. destruct (bytes_eqb_spec seg k); [congruence|]. destruct (bytes_eqb_spec tmp k); congruence.
    + now rewrite look_wset, bytes_eqb_refl.
    + rewrite look_wset, look_wdel, bytes_eqb_refl. destruct (bytes_eqb_spec seg tmp); [congruence|reflexivity].
  - destruct (GU w) as (G1 & G2 & G3). destruct (Nat.eqb n (st_after st)); [auto|]. cbn [do_step]. rewrite L.
    destruct (look d x); [auto|].
    specialize (IH (d ++ [(x, c)]) (S n) (wset tmp (d ++ [(x, c)]) w)). unfold tail_steps in IH.
    rewrite look_wset, bytes_eqb_refl in IH. specialize (IH eq_refl).
    destruct (run_steps tmp seg (map (fun f => SPut (fst f) (snd f)) files ++ [SSync; SRename]) (S n) st true (wset tmp (d ++ [(x, c)]) w)) as [w' done].
    destruct IH as (I1 & I2). rewrite look_wset in I2. destruct (bytes_eqb_spec tmp seg) as [|_]; [congruence|].
    rewrite <- app_assoc in I2. split; [|exact I2].
    intros k K1 K2. rewrite I1 by assumption. rewrite look_wset. destruct (bytes_eqb_spec tmp k); congruence.
Qed.
Lemma run_tail_done tmp seg st files : tmp <> seg -> forall (d : dir) n (w : world), look w tmp = Some d -> look w seg = None ->
  NoDup (map fst (d ++ files)) -> (n + length files + 2 <= st_after st)%nat ->
  snd (run_steps tmp seg (tail_steps files) n st true w) = true.
Proof.
  intros NE. induction files as [|[x c] files IH]; intros d n w L S ND A; unfold tail_steps; cbn [map app run_steps fst snd]; cbn [length] in A.
  - destruct (Nat.eqb_spec n (st_after st)); [lia|]. cbn [do_step]. destruct (Nat.eqb_spec (Datatypes.S n) (st_after st)); [lia|].
    cbn [do_step run_steps]. rewrite S, L. reflexivity.
  - destruct (Nat.eqb_spec n (st_after st)); [lia|]. cbn [do_step]. rewrite L.
    assert (N : look d x = None).
    { apply look_none. rewrite map_app in ND. cbn [map fst] in ND. apply NoDup_remove_2 in ND. rewrite in_app_iff in ND. tauto. }
    rewrite N. apply (IH (d ++ [(x, c)])); [now rewrite look_wset, bytes_eqb_refl| |now rewrite <- app_assoc|lia].
    rewrite look_wset. destruct (bytes_eqb_spec tmp seg); congruence.
Qed.

(** ** Maps of extensions *)
Lemma put_all_get l : forall x k, NoDup (map fst l) -> kv_get (put_all l x) k = match kv_get l k with Some v => Some v | None => kv_get x k end.
Proof.
  unfold put_all. induction l as [|[a v] l IH]; intros x k ND; cbn [fold_left fst snd kv_get]; [reflexivity|].
  cbn [map fst] in ND. apply NoDup_cons_iff in ND as [N ND]. rewrite IH by assumption. rewrite kv_get_put.
  destruct (bytes_eqb_spec a k) as [->|H]; [|reflexivity]. apply kv_get_none in N. now rewrite N.
Qed.
Lemma put_all_sorted l : forall x, kv_sorted x -> kv_sorted (put_all l x).
Proof. unfold put_all. induction l as [|[a v] l IH]; intros x H; cbn [fold_left fst snd]; [assumption|]. apply IH, kv_sorted_put, H. Qed.
Lemma kv_put_in k v x e : In e (kv_put k v x) -> e = (k, v) \/ In e x.
Proof.
  unfold kv_put. assert (H : forall y, In e (kv_ins k v y) -> e = (k, v) \/ In e y).
  { induction y as [|[a b] y IH]; cbn [kv_ins In]; [intuition|]. destruct (key_ltb k a); cbn [In]; intuition. }
  intros I. apply H in I as [->|I]; [now left|]. apply kv_del_In in I. tauto.
Qed.
Lemma put_all_forall (P : bytes * bytes -> Prop) l : forall x, Forall P l -> Forall P x -> Forall P (put_all l x).
Proof.
  unfold put_all. induction l as [|[a v] l IH]; intros x HL HX; cbn [fold_left fst snd]; [assumption|].
  inversion HL; subst. apply IH; [assumption|]. rewrite Forall_forall in *. intros e I. apply kv_put_in in I as [->|I]; auto.
Qed.
Definition lines_length (l : list (bytes * bytes)) : nat := list_sum (map (fun e => length (fst e) + length (snd e) + 2)%nat l).
Lemma extras_text_length x : length (extras_text x) = lines_length x.
Proof.
  unfold extras_text, lines_length. induction x as [|[k v] x IH]; cbn [map concat list_sum fold_right fst snd]; [reflexivity|].
  unfold list_sum in IH. rewrite app_length, IH. unfold line. rewrite !app_length. cbn [length]. lia.
Qed.
Lemma put_length k v x : (lines_length (kv_put k v x) <= length k + length v + 2 + lines_length x)%nat.
Proof.
  unfold lines_length, kv_put, list_sum. assert (H : forall y, fold_right Nat.add 0%nat (map (fun e : bytes * bytes => length (fst e) + length (snd e) + 2)%nat (kv_ins k v y))
    = (length k + length v + 2 + fold_right Nat.add 0%nat (map (fun e : bytes * bytes => length (fst e) + length (snd e) + 2)%nat y))%nat).
  { induction y as [|[a b] y IH]; cbn [kv_ins map fold_right fst snd]; [lia|]. destruct (key_ltb k a); cbn [map fold_right fst snd]; [reflexivity|]. rewrite IH. lia. }
  rewrite H. apply Nat.add_le_mono_l. unfold kv_del. induction x as [|[a b] x IH]; cbn [filter map fold_right fst]; [lia|].
  destruct (negb (bytes_eqb a k)); cbn [map fold_right fst snd]; lia.
Qed.
Lemma put_all_length l : forall x, (lines_length (put_all l x) <= lines_length l + lines_length x)%nat.
Proof.
  unfold put_all. induction l as [|[k v] l IH]; intros x; cbn [fold_left fst snd]; [unfold lines_length; cbn; lia|].
  specialize (IH (kv_put k v x)). pose proof (put_length k v x) as P. unfold lines_length in *. cbn [map list_sum fold_right fst snd]. unfold list_sum in *. lia.
Qed.

(** ** Names *)
Definition tame (s : bytes) : Prop := forallb (fun c => N.ltb 32 c && negb (N.eqb c 47)) s = true.
Lemma tame_app a b : tame a -> tame b -> tame (a ++ b).
Proof. unfold tame. intros A B. rewrite forallb_app, A, B. reflexivity. Qed.
Lemma tame_text s : tame s -> line_text s.
Proof.
  intros T. apply clean_text. unfold tame in T. rewrite forallb_forall in *. intros c I. specialize (T c I).
  apply andb_true_iff in T as [T _]. apply N.ltb_lt in T. unfold is_ascii_ws.
  apply negb_true_iff. rewrite !orb_false_iff, !N.eqb_neq. lia.
Qed.
Lemma tame_dec n : tame (dec n).
Proof.
  unfold tame. apply forallb_forall. intros c I. pose proof (dec_digits n) as D. rewrite Forall_forall in D. specialize (D c I).
  unfold is_digit in D. apply andb_true_iff in D as [D1 D2]. apply N.leb_le in D1, D2.
  apply andb_true_iff. split; [apply N.ltb_lt; lia|apply negb_true_iff, N.eqb_neq; lia].
Qed.
Lemma tame_seg s : segment_name s -> tame s.
Proof.
  intros (ds & -> & _ & F). apply tame_app; [reflexivity|]. unfold tame. apply forallb_forall. intros c I. rewrite Forall_forall in F. specialize (F c I). unfold digit in F.
  apply andb_true_iff. split; [apply N.ltb_lt; lia|apply negb_true_iff, N.eqb_neq; lia].
Qed.
Lemma prefix_cons seg : file_prefix seg = 100 :: (skipn 1 (str "dsqg_") ++ seg).
Proof. reflexivity. Qed.
Lemma tame_plain s : tame (file_prefix s) -> is_valid_basename (file_prefix s) = true.
Proof.
  intros T. apply is_valid_basename_iff. rewrite prefix_cons in *. split; [discriminate|]. unfold tame in T. rewrite forallb_forall in T.
  split; [|split; [|split; discriminate]]; intros I; specialize (T _ I); vm_compute in T; discriminate.
Qed.
Lemma file_prefix_app a b : file_prefix a ++ b = file_prefix (a ++ b).
Proof. unfold file_prefix. now rewrite app_assoc. Qed.
(** All artifacts are named after the prefix. *)
Definition suffixes (r md : N) : list bytes :=
  let i := str "_R" ++ dec r ++ str "_MD" ++ dec md ++ str ".index" in
  [i; i ++ str "_rotator"; i ++ str "_cache_ids"; i ++ str "_cache_nodes"; str "_medoids"; str "_medoids_indices"; str "_pca.bin"].
Lemma names_suffixes seg r md : map snd (required_artifacts seg r md ++ optional_artifacts seg) = map (fun s => file_prefix seg ++ s) (suffixes r md).
Proof. unfold required_artifacts, optional_artifacts, suffixes, index_name. cbn [map snd app]. rewrite <- !app_assoc. reflexivity. Qed.
Lemma suffixes_nodup r md : NoDup (suffixes r md).
Proof.
  unfold suffixes. set (j := dec r ++ str "_MD" ++ dec md ++ str ".index").
  assert (A : forall a b : bytes, a <> b -> (str "_R" ++ j) ++ a <> (str "_R" ++ j) ++ b) by (intros a b H E; apply H; now apply app_inv_head in E).
  assert (B : forall a, a <> [] -> str "_R" ++ j <> (str "_R" ++ j) ++ a).
  { intros a H E. apply H. rewrite <- (app_nil_r (str "_R" ++ j)) in E at 1. now apply app_inv_head in E. }
  repeat constructor; cbn [In]; intros I; repeat (destruct I as [I|I]); try contradiction; try (symmetry in I; revert I);
    try (apply A; vm_compute; discriminate); try (apply B; vm_compute; discriminate); try (cbn; discriminate).
Qed.
Lemma names_nodup seg r md P : NoDup (map snd (required_artifacts seg r md ++ filter P (optional_artifacts seg))).
Proof.
  assert (ND : NoDup (map snd (required_artifacts seg r md ++ optional_artifacts seg))).
  { rewrite names_suffixes. apply FinFun.Injective_map_NoDup; [intros a b; apply app_inv_head|apply suffixes_nodup]. }
  rewrite map_app in *. revert ND. generalize (map snd (required_artifacts seg r md)) as a.
  induction (optional_artifacts seg) as [|x l IH]; intros a ND; cbn [filter map] in *; [assumption|].
  destruct (P x); cbn [map].
  - change (snd x :: map snd (filter P l)) with ([snd x] ++ map snd (filter P l)). rewrite app_assoc. apply IH. now rewrite <- app_assoc.
  - apply IH. apply NoDup_remove_1 in ND. exact ND.
Qed.
Lemma names_prefixed seg r md P n : In n (map snd (required_artifacts seg r md ++ filter P (optional_artifacts seg))) -> exists s, n = file_prefix seg ++ s /\ In s (suffixes r md).
Proof.
  intros I. assert (J : In n (map snd (required_artifacts seg r md ++ optional_artifacts seg))).
  { rewrite in_map_iff in *. destruct I as (x & E & I). exists x. split; [assumption|]. rewrite in_app_iff in *. destruct I as [I|I]; [now left|]. right. now apply filter_In in I. }
  rewrite names_suffixes, in_map_iff in J. destruct J as (s & <- & J). eauto.
Qed.
Lemma suffixes_tame r md s : In s (suffixes r md) -> tame s.
Proof.
  unfold suffixes. cbn [In]. intros I.
  repeat (destruct I as [<-|I]; [repeat apply tame_app; first [apply tame_dec|reflexivity]|]). contradiction.
Qed.

(** ** The manifest *)
Definition present_of (src : dir) (seg : bytes) : list (bytes * bytes) := filter (fun a => exists_in src (snd a)) (optional_artifacts seg).
Lemma keys_nodup dim p seg src : NoDup (map fst (extra_pairs dim p seg (present_of src seg))).
Proof.
  unfold extra_pairs, present_of, required_artifacts, optional_artifacts. cbn [filter snd].
  destruct (exists_in src (file_prefix seg ++ str "_medoids")), (exists_in src (file_prefix seg ++ str "_medoids_indices")),
    (exists_in src (file_prefix seg ++ str "_pca.bin")); cbn [map fst app]; apply distinct_nodup; vm_compute; reflexivity.
Qed.
Lemma extras_get dim p seg src k v : In (k, v) (extra_pairs dim p seg (present_of src seg)) ->
  kv_get (put_all (extra_pairs dim p seg (present_of src seg)) []) k = Some v.
Proof. intros I. rewrite put_all_get by apply keys_nodup. now rewrite (kv_get_first _ k v (keys_nodup dim p seg src) I). Qed.
Lemma key_str_inj a b : str a = str b -> a = b.
Proof.
  unfold str. intros H. rewrite <- (string_of_list_ascii_of_string a), <- (string_of_list_ascii_of_string b). f_equal.
  assert (I : forall x y, map Ascii.N_of_ascii x = map Ascii.N_of_ascii y -> x = y).
  { induction x as [|c x IH]; intros [|e y] E; cbn [map] in E; try discriminate; [reflexivity|]. injection E as E1 E2.
    f_equal; [|now apply IH]. rewrite <- (Ascii.ascii_N_embedding c), <- (Ascii.ascii_N_embedding e). now f_equal. }
  now apply I.
Qed.
Lemma extras_absent dim p seg src a : In a (optional_artifacts seg) -> exists_in src (snd a) = false ->
  kv_get (put_all (extra_pairs dim p seg (present_of src seg)) []) (fst a) = None.
Proof.
  intros I E. rewrite put_all_get by apply keys_nodup. assert (N : ~ In (fst a) (map fst (extra_pairs dim p seg (present_of src seg)))).
  { unfold extra_pairs, present_of, required_artifacts. unfold optional_artifacts in *. cbn [In] in I.
    destruct I as [<-|[<-|[<-|[]]]]; cbn [fst snd] in *; cbn [filter snd]; rewrite E;
      repeat match goal with |- context [if ?b then _ else _] => destruct b end;
      cbn [map fst app In]; intros J; repeat (destruct J as [J|J]; [vm_compute in J; discriminate|]); contradiction. }
  apply kv_get_none in N. now rewrite N.
Qed.
Lemma lit_ext (k : string) v : starts_with (str "x_") (str k) = true -> forallb (fun c => negb (is_ascii_ws c || N.eqb c 61)) (str k) = true -> line_text v -> extension (str k, v).
Proof.
  intros X C V. rewrite forallb_forall in C. split; [|split; [|split; [|exact V]]]; cbn [fst].
  - assert (Q : exists r, str k = str "x_" ++ r); [|exact Q]. revert X. generalize (str k) as s. intros [|a [|b s]] X; try discriminate X.
    + cbn in X. rewrite andb_false_r in X. discriminate.
    + cbn in X. apply andb_true_iff in X as [X1 X2]. rewrite andb_true_r in X2. apply N.eqb_eq in X1, X2. subst. now exists s.
  - apply clean_text, forallb_forall. intros c I. specialize (C c I). now destruct (is_ascii_ws c).
  - intros I. specialize (C _ I). vm_compute in C. discriminate.
Qed.
Lemma manifest_good dim p seg src n : segment_name seg -> typed_params dim p -> importer_ok dim p = true -> 0 < n < 2 ^ 61 ->
  good_segment (laser_manifest dim p seg n (present_of src seg)).
Proof.
  intros SN (T1 & T2 & T3 & T4 & T5 & T6) OK NB. unfold importer_ok in OK. rewrite !andb_true_iff, !negb_true_iff, N.eqb_neq in OK.
  assert (P61 : 2 ^ 61 < 2 ^ 64) by (vm_compute; reflexivity). assert (P32 : 2 ^ 32 < 2 ^ 64) by (vm_compute; reflexivity).
  assert (TP : tame (file_prefix seg)) by (apply tame_app; [reflexivity|now apply tame_seg]).
  constructor; cbn [laser_manifest sm_version sm_id sm_metric sm_dim sm_count sm_ids sm_vectors sm_extras].
  - reflexivity.
  - assumption.
  - discriminate.
  - lia.
  - lia.
  - split; [apply is_valid_basename_iff; reflexivity|apply clean_text; reflexivity].
  - now left.
  - split; [apply put_all_sorted; constructor|]. apply put_all_forall; [|constructor].
    assert (TA : forall s, In s (suffixes (ip_r p) (main_dim_resolved dim p)) -> line_text (file_prefix seg ++ s)).
    { intros s I. apply tame_text, tame_app; [assumption|]. eapply suffixes_tame; eassumption. }
    assert (NM : Forall (fun a => line_text (snd a)) (required_artifacts seg (ip_r p) (main_dim_resolved dim p) ++ present_of src seg)).
    { apply Forall_forall. intros a I. destruct (names_prefixed seg (ip_r p) (main_dim_resolved dim p) (fun a => exists_in src (snd a)) (snd a)) as (s & -> & J); [|now apply TA].
      now apply in_map. }
    assert (KM : Forall (fun a => line_text (snd a) -> extension a) (required_artifacts seg (ip_r p) (main_dim_resolved dim p) ++ present_of src seg)).
    { apply Forall_app. split.
      - unfold required_artifacts. do 4 (apply Forall_cons; [cbn [snd]; intros V; (apply lit_ext; [reflexivity|reflexivity|exact V])|]). apply Forall_nil.
      - apply Forall_forall. intros a I. apply filter_In in I as [I _]. unfold optional_artifacts in I. cbn [In] in I.
        destruct I as [<-|[<-|[<-|[]]]]; cbn [snd]; intros V; (apply lit_ext; [reflexivity|reflexivity|exact V]). }
    assert (AM : Forall extension (required_artifacts seg (ip_r p) (main_dim_resolved dim p) ++ present_of src seg)).
    { rewrite Forall_forall in *. intros a I. auto. }
    unfold extra_pairs. constructor; [apply lit_ext; [reflexivity|reflexivity|now apply tame_text]|].
    rewrite app_assoc. apply Forall_app. split; [exact AM|].
    do 8 (apply Forall_cons; [apply lit_ext; [reflexivity|reflexivity|first [apply dec_text|exact T5|apply clean_text; reflexivity]]|]). apply Forall_nil.
Qed.
Lemma dec_len n k : n < 10 ^ N.of_nat k -> (0 < k)%nat -> (length (dec n) <= k)%nat.
Proof. intros H K. unfold dec. now apply dec_acc_length. Qed.
Lemma seg_length s : segment_name s -> length s = 12%nat.
Proof. intros (ds & -> & L & _). rewrite app_length, L. reflexivity. Qed.
Lemma lines_app a b : lines_length (a ++ b) = (lines_length a + lines_length b)%nat.
Proof. unfold lines_length. now rewrite map_app, list_sum_app. Qed.
Lemma lines_filter P a : (lines_length (filter P a) <= lines_length a)%nat.
Proof. unfold lines_length, list_sum. induction a as [|x a IH]; cbn [filter map fold_right]; [lia|]. destruct (P x); cbn [map fold_right]; lia. Qed.
Ltac lits := repeat match goal with |- context [length (str ?s)] => let v := eval vm_compute in (length (str s)) in change (length (str s)) with v end.
Lemma manifest_length dim p seg src n t : segment_name seg -> typed_params dim p -> importer_ok dim p = true -> n < 2 ^ 61 ->
  sm_save (laser_manifest dim p seg n (present_of src seg)) = Ok t -> N.of_nat (length t) <= k_max_manifest_bytes.
Proof.
  intros SN (T1 & T2 & T3 & T4 & T5 & T6) OK NB.
  assert (MD : main_dim_resolved dim p = dim).
  { unfold importer_ok in OK. rewrite !andb_true_iff, orb_true_iff, !N.eqb_eq in OK. unfold main_dim_resolved. destruct (N.eqb_spec (ip_main_dim p) 0); [reflexivity|]. tauto. }
  assert (L32 : forall x, x < 2 ^ 32 -> (length (dec x) <= 10)%nat).
  { intros x X. apply dec_len; [|lia]. eapply N.lt_trans; [exact X|]. vm_compute. reflexivity. }
  assert (LN : (length (dec n) <= 20)%nat). { apply dec_len; [|lia]. eapply N.lt_trans; [exact NB|]. vm_compute. reflexivity. }
  pose proof (L32 _ T1) as D1. pose proof (L32 _ T2) as D2. pose proof (L32 _ T3) as D3. pose proof (L32 _ T4) as D4. pose proof (seg_length _ SN) as SL.
  unfold sm_save. cbn [laser_manifest sm_version sm_id sm_type sm_metric sm_dim sm_count sm_ids sm_vectors sm_extras metric_to_string bind index_type_to_string].
  intros E. apply (f_equal (fun r => match r with Ok x => length x | _ => 0%nat end)) in E. cbn beta iota in E. rewrite <- E. clear E. unfold k_max_manifest_bytes.
  pose proof (put_all_length (extra_pairs dim p seg (present_of src seg)) []) as X. rewrite <- extras_text_length in X.
  change (lines_length []) with 0%nat in X.
  assert (Y : (lines_length (extra_pairs dim p seg (present_of src seg)) <= 5000)%nat).
  { unfold extra_pairs. change (?a :: ?b) with ([a] ++ b). rewrite !lines_app. pose proof (lines_filter (fun a => exists_in src (snd a)) (optional_artifacts seg)) as F. fold (present_of src seg) in F.
    rewrite MD. unfold required_artifacts, optional_artifacts, index_name, file_prefix, lines_length, list_sum in *. cbn [map fold_right fst snd] in *.
    rewrite !app_length in *. revert F. lits. lia. }
  unfold line. rewrite !app_length. lits. cbn [length]. pose proof (dec_len k_manifest_version 1) as DV.
  assert (length (dec k_manifest_version) = 1)%nat as -> by reflexivity. lia.
Qed.
Lemma copies_look src names : forall d, copies src names = Ok d ->
  map fst d = names /\ forall n, In n names -> exists c, look src n = Some (File c) /\ look d n = Some (File c).
Proof.
  induction names as [|x names IH]; intros d E; cbn [copies] in E; [injection E as <-; split; [reflexivity|intros n []]|].
  destruct (look src x) as [[c|]|] eqn:L; try discriminate. destruct (copies src names) as [d'| | |]; try discriminate. cbn [bind] in E. injection E as <-.
  destruct (IH d' eq_refl) as (M & G). split; [cbn [map fst]; now rewrite M|]. intros n I. cbn [look].
  destruct (bytes_eqb_spec x n) as [->|H]; [eauto|]. destruct I as [->|I]; [congruence|]. auto.
Qed.

(** ** What is imported *)
Record imported (dim : N) (m : metric) (p : import_params) (src : dir) (labels : list N) (seg : bytes) (mf : seg_manifest) (files : dir) : Prop := {
  im_ok : importer_ok dim p = true;
  im_seg : segment_name seg;
  im_n : labels <> [];
  im_metric : m = L2;
  im_required : forall a, In a (required_artifacts seg (ip_r p) dim) -> regular_nonempty src (snd a) = true;
  im_count : read_count src (index_name (file_prefix seg) (ip_r p) dim) = Ok (N.of_nat (length labels));
  im_manifest : mf = laser_manifest dim p seg (N.of_nat (length labels)) (present_of src seg);
  im_files : exists text arts, sm_save mf = Ok text /\ copies src (map snd (required_artifacts seg (ip_r p) dim ++ present_of src seg)) = Ok arts
    /\ files = arts ++ [(str "ids.u64.bin", File (labels_bytes labels)); (str "manifest.txt", File text)];
}.
Lemma main_dim_dim dim p : importer_ok dim p = true -> main_dim_resolved dim p = dim.
Proof.
  intros OK. unfold importer_ok in OK. rewrite !andb_true_iff, orb_true_iff, !N.eqb_eq in OK. unfold main_dim_resolved.
  destruct (N.eqb_spec (ip_main_dim p) 0); [reflexivity|]. tauto.
Qed.
Lemma import_inv dim m p src labels seg mf files : import_files dim m p src labels seg = Ok (mf, files) -> imported dim m p src labels seg mf files.
Proof.
  unfold import_files. destruct (importer_ok dim p) eqn:OK; [|discriminate]. cbn [negb]. rewrite (main_dim_dim _ _ OK).
  destruct (is_valid_segment_id seg) eqn:SN; [|discriminate]. cbn [negb]. apply is_valid_segment_id_iff in SN.
  destruct m; try discriminate. destruct (N.eqb_spec (N.of_nat (length labels)) 0) as [|NZ]; [discriminate|].
  destruct (forallb (fun a => regular_nonempty src (snd a)) (required_artifacts seg (ip_r p) dim)) eqn:RQ; [|discriminate]. cbn [negb].
  destruct (read_count src (index_name (file_prefix seg) (ip_r p) dim)) as [c| | |] eqn:RC; try discriminate. cbn [bind].
  destruct (N.eqb_spec c (N.of_nat (length labels))) as [->|]; [|discriminate]. cbn [negb]. fold (present_of src seg).
  destruct (copies src (map snd (required_artifacts seg (ip_r p) dim ++ present_of src seg))) as [arts| | |] eqn:CP; try discriminate. cbn [bind].
  destruct (sm_save (laser_manifest dim p seg (N.of_nat (length labels)) (present_of src seg))) as [t| | |] eqn:SV; try discriminate. cbn [bind].
  intros E. assert (E1 : laser_manifest dim p seg (N.of_nat (length labels)) (present_of src seg) = mf) by congruence.
  assert (E2 : arts ++ [(str "ids.u64.bin", File (labels_bytes labels)); (str "manifest.txt", File t)] = files) by congruence.
  constructor; auto.
  - intros ->. now apply NZ.
  - rewrite forallb_forall in RQ. exact RQ.
  - exists t, arts. rewrite <- E1. auto.
Qed.

(** Looking up in the imported directory. *)
Lemma files_look dim m p src labels seg mf files : imported dim m p src labels seg mf files ->
  look files (str "ids.u64.bin") = Some (File (labels_bytes labels))
  /\ (exists text, look files (str "manifest.txt") = Some (File text) /\ sm_save mf = Ok text)
  /\ (forall a, In a (required_artifacts seg (ip_r p) dim ++ present_of src seg) -> look files (snd a) = look src (snd a))
  /\ NoDup (map fst files).
Proof.
  intros []. destruct im_files0 as (text & arts & SV & CP & ->). destruct (copies_look _ _ _ CP) as (M & G).
  assert (NP : forall n, In n (map fst arts) -> exists r, n = 100 :: r).
  { intros n I. rewrite M in I. apply names_prefixed in I as (s & -> & _). rewrite prefix_cons. cbn [app]. eauto. }
  assert (N1 : ~ In (str "ids.u64.bin") (map fst arts)) by (intros I; destruct (NP _ I) as (r & E); vm_compute in E; discriminate).
  assert (N2 : ~ In (str "manifest.txt") (map fst arts)) by (intros I; destruct (NP _ I) as (r & E); vm_compute in E; discriminate).
  split; [|split; [|split]].
  - rewrite look_app. pose proof (proj2 (look_none arts _) N1) as Q. rewrite Q. reflexivity.
  - exists text. split; [|assumption]. rewrite look_app. pose proof (proj2 (look_none arts _) N2) as Q. rewrite Q. reflexivity.
  - intros a I. destruct (G (snd a)) as (c & L1 & L2); [now apply in_map|]. rewrite look_app, L2. now symmetry.
  - rewrite map_app, M. apply nodup_app2; [apply names_nodup| |].
    + cbn [map fst]. apply distinct_nodup. reflexivity.
    + cbn [map fst In]. rewrite M in N1, N2. intros x [<-|[<-|[]]]; assumption.
Qed.

Lemma labels_length labels : length (labels_bytes labels) = (8 * length labels)%nat.
Proof. unfold labels_bytes. induction labels as [|l r IH]; cbn [flat_map length]; [reflexivity|]. rewrite app_length, le_enc_length, IH. lia. Qed.

(** ** Opening what was imported *)
Definition can_open (float_ok : bytes -> bool) (loads : N -> N -> N -> N -> bytes -> bool) (dim : N) (p : import_params) (src : dir) (labels : list N) (seg : bytes) : bool :=
  N.ltb (N.of_nat (length labels)) (2 ^ 32) && negb (N.eqb (ip_r p) 0) && forallb (fun a => regular_nonempty src (snd a)) (present_of src seg)
  && (match ip_budget p with [] => true | _ => float_ok (ip_budget p) end) && loads (N.of_nat (length labels)) (ip_r p) dim dim (file_prefix seg).
Lemma forallb_filter {A} (P f : A -> bool) l : forallb f (filter P l) = forallb (fun a => if P a then f a else true) l.
Proof. induction l as [|a l IH]; cbn [filter forallb]; [reflexivity|]. destruct (P a); cbn [forallb]; now rewrite IH. Qed.
Lemma open_imported float_ok loads dim m p src labels seg mf files : imported dim m p src labels seg mf files -> typed_params dim p -> typed_labels labels ->
  laser_open float_ok loads files =
  if can_open float_ok loads dim p src labels seg then Ok {| op_manifest := mf; op_r := ip_r p; op_main_dim := dim; op_ids := labels_bytes labels |} else Throws.
Proof.
  intros IM TP (TL & _). pose proof (files_look _ _ _ _ _ _ _ _ IM) as (LI & (text & LM & SV) & LA & _). destruct IM.
  pose proof (main_dim_dim _ _ im_ok0) as MD.
  assert (NB : 0 < N.of_nat (length labels)) by (destruct labels; [congruence|cbn [length]; lia]).
  unfold laser_open. rewrite LM.
  assert (LD : sm_load text = Ok mf).
  { apply sm_round_trip; [rewrite im_manifest0; apply manifest_good; auto|assumption|]. rewrite im_manifest0 in SV.
    eapply manifest_length; eassumption. }
  rewrite LD. cbn [bind]. subst mf. clear LD SV LM.
  destruct TP as (T1 & T2 & T3 & T4 & T5 & T6).
  assert (D : 128 <= dim). { unfold importer_ok in im_ok0. rewrite !andb_true_iff, !negb_true_iff, N.ltb_ge in im_ok0. tauto. }
  cbn [laser_manifest sm_type sm_metric sm_dim sm_count sm_ids]. rewrite LI.
  assert (F1 : N.eqb dim 0 || N.eqb (N.of_nat (length labels)) 0 = false) by (apply orb_false_iff; rewrite !N.eqb_neq; lia).
  assert (F2 : N.ltb (2 ^ 32 - 1) dim = false) by (apply N.ltb_ge; lia). rewrite F1, F2. clear F1 F2.
  unfold can_open.
  assert (F3 : N.ltb (2 ^ 32 - 1) (N.of_nat (length labels)) = negb (N.ltb (N.of_nat (length labels)) (2 ^ 32))).
  { destruct (N.ltb_spec (N.of_nat (length labels)) (2 ^ 32)); cbn [negb]; [apply N.ltb_ge|apply N.ltb_lt]; lia. }
  rewrite F3. destruct (N.ltb (N.of_nat (length labels)) (2 ^ 32)); cbn [negb andb]; [|reflexivity].
  set (mf := laser_manifest dim p seg (N.of_nat (length labels)) (present_of src seg)).
  assert (GE : forall k v, In (k, v) (extra_pairs dim p seg (present_of src seg)) -> kv_get (sm_extras mf) k = Some v) by (intros; now apply extras_get).
  assert (TPr : tame (file_prefix seg)) by (apply tame_app; [reflexivity|now apply tame_seg]).
  assert (RE : forall k v, In (str k, v) (extra_pairs dim p seg (present_of src seg)) -> v <> [] -> required_extra mf k = Ok v).
  { intros k v I V. unfold required_extra. rewrite (GE _ _ I). now destruct v. }
  assert (AR : forall a, In a (required_artifacts seg (ip_r p) dim ++ present_of src seg) -> In a (extra_pairs dim p seg (present_of src seg))).
  { intros a I. unfold extra_pairs. right. rewrite MD, app_assoc. apply in_or_app. now left. }
  assert (BN : forall a, In a (required_artifacts seg (ip_r p) dim ++ present_of src seg) -> is_valid_basename (snd a) = true).
  { intros a I. destruct (names_prefixed seg (ip_r p) dim (fun a => exists_in src (snd a)) (snd a)) as (s & -> & J); [now apply in_map|].
    rewrite file_prefix_app. apply tame_plain. rewrite <- file_prefix_app. apply tame_app; [assumption|]. eapply suffixes_tame; eassumption. }
  assert (RN : forall a, In a (required_artifacts seg (ip_r p) dim ++ present_of src seg) -> regular_nonempty files (snd a) = regular_nonempty src (snd a)).
  { intros a I. unfold regular_nonempty. now rewrite LA. }
  rewrite (RE _ (file_prefix seg)); [|left; reflexivity|rewrite prefix_cons; discriminate]. cbn [bind].
  rewrite (tame_plain _ TPr). cbn [negb].
  assert (TAIL : forall e, In e [(str "x_R", dec (ip_r p)); (str "x_main_dim", dec dim); (str "x_laser_search_dram_budget_gb", ip_budget p)] -> In e (extra_pairs dim p seg (present_of src seg))).
  { intros e I. unfold extra_pairs. right. rewrite MD, !in_app_iff. right. right. cbn [In] in *. tauto. }
  assert (P64 : 2 ^ 32 < 2 ^ 64) by (vm_compute; reflexivity).
  unfold parse_u32_extra at 1. rewrite (RE _ (dec (ip_r p))); [|apply TAIL; left; reflexivity|apply dec_nonempty]. cbn [bind].
  rewrite parse_uint64_dec by lia. cbn [bind].
  assert (F4 : N.ltb (2 ^ 32 - 1) (ip_r p) = false) by (apply N.ltb_ge; lia). rewrite F4, orb_false_r.
  destruct (N.eqb_spec (ip_r p) 0) as [|R0]; cbn [negb andb bind]; [reflexivity|].
  unfold parse_u32_extra. rewrite (RE _ (dec dim)); [|apply TAIL; right; left; reflexivity|apply dec_nonempty]. cbn [bind].
  rewrite parse_uint64_dec by lia. cbn [bind].
  assert (F5 : N.eqb dim 0 || N.ltb (2 ^ 32 - 1) dim = false) by (apply orb_false_iff; rewrite N.eqb_neq, N.ltb_ge; lia). rewrite F5. cbn [bind].
  assert (I0 : In (str "x_laser_index_file", index_name (file_prefix seg) (ip_r p) dim) (required_artifacts seg (ip_r p) dim ++ present_of src seg)) by (left; reflexivity).
  rewrite (RE _ (index_name (file_prefix seg) (ip_r p) dim)); [|now apply AR|unfold index_name; rewrite prefix_cons; discriminate]. cbn [bind].
  pose proof (BN _ I0) as B0. cbn [snd] in B0. rewrite B0, bytes_eqb_refl. cbn [negb].
  pose proof (LA _ I0) as L0. cbn [snd] in L0.
  assert (RC : read_count files (index_name (file_prefix seg) (ip_r p) dim) = Ok (N.of_nat (length labels))).
  { rewrite <- im_count0. unfold read_count. now rewrite L0. }
  rewrite RC. cbn [bind]. rewrite N.eqb_refl. cbn [negb].
  assert (AO : forall b k v, In (str k, v) (required_artifacts seg (ip_r p) dim ++ present_of src seg) -> artifact_ok mf files b k = regular_nonempty src v).
  { intros b k v I. unfold artifact_ok. rewrite (GE _ _ (AR _ I)). pose proof (BN _ I) as B. pose proof (RN _ I) as R. cbn [snd] in B, R. rewrite B, R. reflexivity. }
  assert (RQ : forallb (artifact_ok mf files true) ["x_laser_index_file"; "x_laser_rotator_file"; "x_laser_cache_ids_file"; "x_laser_cache_nodes_file"]%string = true).
  { assert (R1 : forall k v, In (str k, v) (required_artifacts seg (ip_r p) dim) -> artifact_ok mf files true k = true).
    { intros k v I. rewrite (AO true k v) by (apply in_or_app; now left). exact (im_required0 _ I). }
    unfold required_artifacts in R1. cbn [In] in R1. cbn [forallb]. erewrite !R1 by eauto 8. reflexivity. }
  rewrite RQ. cbn [negb].
  assert (OQ : forallb (artifact_ok mf files false) ["x_laser_medoids_file"; "x_laser_medoids_indices_file"; "x_laser_pca_file"]%string
    = forallb (fun a => regular_nonempty src (snd a)) (present_of src seg)).
  { unfold present_of. rewrite forallb_filter.
    assert (OA : forall k v, In (str k, v) (optional_artifacts seg) -> artifact_ok mf files false k = if exists_in src v then regular_nonempty src v else true).
    { intros k v I. destruct (exists_in src v) eqn:E.
      - apply AO. apply in_or_app. right. apply filter_In. auto.
      - unfold artifact_ok. pose proof (extras_absent dim p seg src _ I E) as Q. cbn [fst] in Q. change (sm_extras mf) with (put_all (extra_pairs dim p seg (present_of src seg)) []). now rewrite Q. }
    unfold optional_artifacts in *. cbn [forallb snd]. unfold optional_artifacts in OA. cbn [In] in OA.
    erewrite !OA by eauto 6. reflexivity. }
  rewrite OQ. destruct (forallb (fun a => regular_nonempty src (snd a)) (present_of src seg)); cbn [negb andb]; [|reflexivity].
  unfold budget_ok. rewrite (GE _ (ip_budget p)) by (apply TAIL; right; right; left; reflexivity).
  destruct (match ip_budget p with [] => true | _ => float_ok (ip_budget p) end); cbn [negb andb]; [|reflexivity].
  destruct (loads (N.of_nat (length labels)) (ip_r p) dim dim (file_prefix seg)); cbn [negb]; [|reflexivity].
  rewrite labels_length. assert (F6 : N.eqb (N.of_nat (8 * length labels)) (8 * N.of_nat (length labels)) = true) by (apply N.eqb_eq; lia).
  rewrite F6. reflexivity.
Qed.

(** ** What can be opened is sound *)
Lemma regular_full d n : regular_nonempty d n = true -> full_file d n.
Proof. unfold regular_nonempty, full_file. destruct (look d n) as [[[|b c]|]|]; try discriminate. intros _. exists (b :: c). split; [reflexivity|discriminate]. Qed.
Lemma required_extra_ok m k v : required_extra m k = Ok v -> kv_get (sm_extras m) (str k) = Some v.
Proof. unfold required_extra. destruct (kv_get (sm_extras m) (str k)) as [[|b c]|]; intros E; try discriminate. congruence. Qed.
Lemma parse_u32_range m k n : parse_u32_extra m k = Ok n -> 0 < n < 2 ^ 32.
Proof.
  unfold parse_u32_extra. destruct (required_extra m k); try discriminate. cbn [bind]. destruct (parse_uint64 a); try discriminate. cbn [bind].
  destruct (N.eqb a0 0 || N.ltb (2 ^ 32 - 1) a0) eqn:E; try discriminate. intros Q. injection Q as <-. apply orb_false_iff in E as [E1 E2]. apply N.eqb_neq in E1. apply N.ltb_ge in E2.
  assert (0 < 2 ^ 32) by (vm_compute; reflexivity). lia.
Qed.
Lemma open_sound float_ok loads d o : laser_open float_ok loads d = Ok o -> sound_segment d o.
Proof.
  unfold laser_open. destruct (look d (str "manifest.txt")) as [[text|]|] eqn:LM; try discriminate.
  destruct (sm_load text) as [m| | |] eqn:LD; try discriminate. cbn [bind].
  destruct (sm_type m) eqn:TY; try discriminate.
  destruct (N.eqb (sm_dim m) 0 || N.eqb (sm_count m) 0) eqn:Z; try discriminate. apply orb_false_iff in Z as [Z1 Z2]. apply N.eqb_neq in Z1, Z2.
  destruct (N.ltb_spec (2 ^ 32 - 1) (sm_dim m)) as [|B1]; try discriminate. destruct (N.ltb_spec (2 ^ 32 - 1) (sm_count m)) as [|B2]; try discriminate.
  destruct (sm_metric m) eqn:ME; try discriminate.
  destruct (required_extra m "x_laser_filename_prefix") as [prefix| | |] eqn:PR; try discriminate. cbn [bind].
  destruct (is_valid_basename prefix); try discriminate. cbn [negb].
  destruct (parse_u32_extra m "x_R") as [r| | |] eqn:ER; try discriminate. cbn [bind].
  destruct (parse_u32_extra m "x_main_dim") as [md| | |] eqn:EM; try discriminate. cbn [bind].
  destruct (required_extra m "x_laser_index_file") as [index| | |] eqn:IX; try discriminate. cbn [bind].
  destruct (is_valid_basename index); try discriminate. cbn [negb].
  destruct (bytes_eqb_spec (index_name prefix r md) index) as [IN|]; try discriminate. cbn [negb].
  destruct (read_count d index) as [c| | |] eqn:RC; try discriminate. cbn [bind].
  destruct (N.eqb_spec c (sm_count m)) as [->|]; try discriminate. cbn [negb].
  destruct (forallb (artifact_ok m d true) _) eqn:FR; try discriminate. cbn [negb].
  destruct (forallb (artifact_ok m d false) _) eqn:FO; try discriminate. cbn [negb].
  destruct (budget_ok float_ok m); try discriminate. cbn [negb].
  destruct (loads (sm_count m) r md (sm_dim m) prefix); try discriminate. cbn [negb].
  destruct (look d (sm_ids m)) as [[ids|]|] eqn:LI; try discriminate.
  destruct (N.eqb_spec (N.of_nat (length ids)) (8 * sm_count m)) as [LL|]; try discriminate. cbn [negb].
  intros E. injection E as <-. unfold sound_segment. cbn [op_manifest op_r op_main_dim op_ids].
  assert (0 < 2 ^ 32) by (vm_compute; reflexivity). apply parse_u32_range in ER, EM. rewrite forallb_forall in FR, FO.
  do 2 (split; [assumption|]). split; [lia|]. split; [lia|]. do 2 (split; [assumption|]). split; [eauto|]. do 2 (split; [assumption|]). split; [|split].
  - unfold read_count in RC. destruct (look d index) as [[c|]|] eqn:L; try discriminate. destruct (Nat.ltb_spec (length c) 8); try discriminate.
    exists prefix, index, c. split; [now apply required_extra_ok|]. split; [now apply required_extra_ok|]. split; [now symmetry|]. split; [assumption|]. split; [assumption|]. congruence.
  - intros k I. specialize (FR k I). unfold artifact_ok in FR. destruct (kv_get (sm_extras m) (str k)) as [name|]; [|discriminate].
    apply andb_true_iff in FR as [F1 F2]. exists name. split; [reflexivity|]. split; [now apply is_valid_basename_iff|now apply regular_full].
  - intros k name I G. specialize (FO k I). unfold artifact_ok in FO. rewrite G in FO.
    apply andb_true_iff in FO as [F1 F2]. split; [now apply is_valid_basename_iff|now apply regular_full].
Qed.

(** ** Searches *)
Lemma hits_ok ids count pids : N.of_nat (length ids) = 8 * count -> Forall (fun p => p < count) pids ->
  exists labels, hits ids count pids = Ok labels /\ Forall2 (fun p l => le_dec (firstn 8 (skipn (8 * N.to_nat p) ids)) = l) pids labels.
Proof.
  intros L F. induction F as [|p r P F IH]; [exists []; split; [reflexivity|constructor]|]. destruct IH as (labels & E & Q). cbn [hits].
  destruct (N.leb_spec count p); [lia|]. unfold label_at. destruct (Nat.ltb_spec (length ids) (8 * N.to_nat p + 8)); [lia|]. cbn [bind]. rewrite E. cbn [bind].
  eexists. split; [reflexivity|]. now constructor.
Qed.
Lemma label_read labels p : Forall (fun l => l < 2 ^ 64) labels -> (p < length labels)%nat -> le_dec (firstn 8 (skipn (8 * p) (labels_bytes labels))) = nth p labels 0.
Proof.
  intros F. revert p. induction F as [|l r L F IH]; intros p P; cbn [length] in P; [lia|]. unfold labels_bytes. cbn [flat_map]. fold (labels_bytes r).
  destruct p as [|p].
  - replace (8 * 0)%nat with 0%nat by lia. cbn [skipn nth]. rewrite firstn_app, le_enc_length, Nat.sub_diag. rewrite firstn_O, app_nil_r.
    rewrite (firstn_all2 (le_enc 8 l)) by (rewrite le_enc_length; lia). apply le_dec_enc. exact L.
  - rewrite skipn_app, le_enc_length. rewrite (skipn_all2 (le_enc 8 l)) by (rewrite le_enc_length; lia). cbn [app nth].
    replace (8 * S p - 8)%nat with (8 * p)%nat by lia. apply IH. lia.
Qed.
Lemma triple_eqb_spec a b : reflect (a = b) (triple_eqb a b).
Proof.
  destruct a as [[a1 a2] a3], b as [[b1 b2] b3]. unfold triple_eqb. cbn [fst snd].
  destruct (N.eqb_spec a1 b1), (N.eqb_spec a2 b2), (N.eqb_spec a3 b3); cbn [andb]; constructor; congruence.
Qed.
(** The parameters of the workspace are those last set. *)
Definition in_force (s : session) : Prop :=
  se_free s = true /\ (se_last s = (0, 0, 0) \/ exists ef beam, se_last s = (ef, 1, beam) /\ se_engine s = Some (ef, beam)).
Lemma search_in_force o q engine pids s : in_force s -> 0 < q_top_k q -> q_beam q < 2 ^ 31 ->
  engine (N.max (q_ef q) (N.min (q_top_k q) (sm_count (op_manifest o)))) (q_beam q) (N.min (q_top_k q) (sm_count (op_manifest o))) = Ends (Ok pids) ->
  let req := requested (sm_count (op_manifest o)) q in
  exists s', seg_search o true engine q s = (s', Ends (hits (op_ids o) (sm_count (op_manifest o)) pids)) /\ in_force s' /\ se_last s' = req
    /\ se_calls s' = se_calls s + (if triple_eqb req (se_last s) then 0 else 1).
Proof.
  intros (F & L) K B E. cbn zeta. unfold seg_search.
  assert (0 < 2 ^ 31) by (vm_compute; reflexivity).
  destruct (N.eqb_spec (q_top_k q) 0); [lia|]. destruct (N.ltb_spec (2 ^ 31 - 1) (q_beam q)); [lia|]. cbn [orb]. rewrite F. cbn [negb].
  unfold with_params. destruct (triple_eqb_spec (requested (sm_count (op_manifest o)) q) (se_last s)) as [Q|Q]; cbn [negb].
  - destruct L as [L|(ef & beam & L & EN)]; rewrite L in Q; unfold requested in Q; [injection Q; intros; discriminate|]. injection Q as Q1 Q2.
    rewrite EN. subst ef beam. rewrite E. eexists. split; [reflexivity|]. split; [split; [assumption|]; right; eauto|]. split; [rewrite L; reflexivity|lia].
  - cbn [se_engine]. unfold requested. cbn [fst snd]. rewrite E. eexists. split; [reflexivity|]. cbn [se_last se_calls]. split; [|split; [reflexivity|lia]].
    split; [reflexivity|]. right. cbn [se_last se_engine]. eauto.
Qed.
From Verif Require Import LaserSearchProofs.
Lemma answer_nodes g width ef knn ids : graph_ok g -> right_answer g width ef knn ids -> Forall (is_node g) ids.
Proof.
  intros G (seen & lost & _ & FR & _ & (best & (_ & rest & PM & _) & _ & ->) & _). apply Forall_app. split.
  - apply Forall_forall. intros x I. apply in_map_iff in I as (y & <- & I).
    assert (J : In y (map (fun x => (x, dist_of g x)) (seen ++ lost))) by (apply (Permutation_in _ (Permutation_sym PM)), in_or_app; now left).
    apply in_map_iff in J as (z & <- & J). rewrite Forall_forall in FR. cbn [fst]. apply reach_node; auto.
  - apply Forall_forall. intros x I. apply repeat_spec in I as ->. destruct G as (E & _). unfold is_node in *. lia.
Qed.
