(** C93: LASER segments hold what was imported, appear whole or not at all,
    and are searched with the parameters asked for. *)
From Coq Require Import String.
From Verif Require Import LaserSegProofs LaserSearchProps.
From Verif Require Export LaserSegSpec.
Local Open Scope list_scope.
Local Open Scope N_scope.

(** ** Importing *)
(** However an import ends (an error or a crash at any step, other processes
    adding directories, the removal of the temporary directory failing), no
    other directory is touched.  The segment appears exactly when the import
    returns, only if the name was free, and then with all its files; what
    others put there in the meantime is kept. *)
Theorem laser_import_whole dim m p src labels seg tmp others st w w' r :
  tmp <> seg -> laser_import dim m p src labels seg tmp others st w = (w', r) ->
  (forall name, name <> tmp -> name <> seg -> look w' name = look (others ++ w) name)
  /\ match r with
     | Ok mf => look w seg = None /\ look others seg = None /\ exists files, import_files dim m p src labels seg = Ok (mf, files) /\ look w' seg = Some files /\ look w' tmp = None
     | _ => look w' seg = look (others ++ w) seg
            /\ (look (others ++ w) tmp = None -> st_cleaned st = true -> look w' tmp = None)
            /\ (forall d, look (others ++ w) tmp = Some d -> look w' tmp = Some d)
     end.
Proof.
  intros NE. unfold laser_import. destruct (look w seg) eqn:S.
  { intros E. injection E as <- <-. auto. }
  destruct (import_files dim m p src labels seg) as [[mf files]| | |] eqn:IF; try (intros E; injection E as <- <-; auto).
  unfold import_steps. cbn [run_steps]. destruct (Nat.eqb 0 (st_after st)); [intros E; injection E as <- <-; auto|].
  cbn [do_step]. destruct (look (others ++ w) tmp) eqn:T; [intros E; injection E as <- <-; split; [auto|]; rewrite T; auto|].
  pose proof (run_tail tmp seg st files NE [] 1%nat (wset tmp [] (others ++ w))) as RT. unfold tail_steps in RT.
  rewrite look_wset, bytes_eqb_refl in RT. specialize (RT eq_refl).
  destruct (run_steps tmp seg _ 1 st true (wset tmp [] (others ++ w))) as [w1 done]. destruct RT as (R1 & R2).
  intros E. injection E as <- <-. rewrite look_wset in R2. destruct (bytes_eqb_spec tmp seg) as [|_]; [contradiction|].
  split.
  - intros k K1 K2. rewrite R1 by assumption. rewrite look_wset. destruct (bytes_eqb_spec tmp k); congruence.
  - destruct done.
    + destruct R2 as (A & B & C). split; [reflexivity|]. split; [|eauto]. rewrite look_app in A. destruct (look others seg); [discriminate|reflexivity].
    + destruct R2 as (A & B). split; [exact A|]. split; [auto|]. discriminate.
Qed.
Print Assumptions laser_import_whole.

(** When no step fails, and the names are free, the import returns. *)
Theorem laser_import_returns dim m p src labels seg tmp others st w mf files :
  tmp <> seg -> import_files dim m p src labels seg = Ok (mf, files) -> look (others ++ w) seg = None -> look (others ++ w) tmp = None ->
  (length files + 3 <= st_after st)%nat ->
  exists w', laser_import dim m p src labels seg tmp others st w = (w', Ok mf).
Proof.
  intros NE IF S T A. unfold laser_import. rewrite look_app in S. destruct (look others seg) eqn:SO; [discriminate|]. rewrite S, IF.
  unfold import_steps. cbn [run_steps]. destruct (Nat.eqb_spec 0 (st_after st)); [lia|]. cbn [do_step]. rewrite T.
  pose proof (run_tail_done tmp seg st files NE [] 1%nat (wset tmp [] (others ++ w))) as RT. unfold tail_steps in RT.
  rewrite !look_wset, bytes_eqb_refl in RT. destruct (bytes_eqb_spec tmp seg) as [|_]; [contradiction|].
  rewrite look_app, SO, S in RT. cbn [app] in RT.
  destruct (run_steps tmp seg _ 1 st true (wset tmp [] (others ++ w))) as [w1 done]. cbn [snd] in RT. rewrite RT; [eauto|reflexivity|reflexivity| |lia].
  apply import_inv in IF. now destruct (files_look _ _ _ _ _ _ _ _ IF) as (_ & _ & _ & ND).
Qed.
Print Assumptions laser_import_returns.

(** What an import that returns has checked: the name of the segment, labels,
    the metric, a dimension that is a power of two from 128 on, and the required
    native files, for an index of as many points as labels. *)
Theorem laser_import_checks dim m p src labels seg tmp others st w w' mf :
  tmp <> seg -> laser_import dim m p src labels seg tmp others st w = (w', Ok mf) ->
  segment_name seg /\ labels <> [] /\ m = L2 /\ 128 <= dim /\ (exists k, dim = 2 ^ k) /\ (ip_main_dim p = 0 \/ ip_main_dim p = dim)
  /\ let index := str "dsqg_" ++ seg ++ str "_R" ++ dec (ip_r p) ++ str "_MD" ++ dec dim ++ str ".index" in
     full_file src index /\ full_file src (index ++ str "_rotator") /\ full_file src (index ++ str "_cache_ids") /\ full_file src (index ++ str "_cache_nodes")
     /\ exists c, look src index = Some (File c) /\ le_dec (firstn 8 c) = N.of_nat (length labels).
Proof.
  intros NE E. destruct (laser_import_whole _ _ _ _ _ _ _ _ _ _ _ _ NE E) as (_ & _ & _ & files & IF & _).
  destruct (import_inv _ _ _ _ _ _ _ _ IF). split; [assumption|]. split; [assumption|]. split; [assumption|].
  unfold importer_ok in im_ok. rewrite !andb_true_iff, !negb_true_iff, orb_true_iff, N.ltb_ge, !N.eqb_eq in im_ok. destruct im_ok as (((Z & PW) & D) & MD).
  split; [assumption|]. split.
  { unfold is_power_of_two in PW. apply andb_true_iff in PW as [_ PW]. apply N.eqb_eq in PW.
    exists (N.log2 dim). pose proof (N.log2_spec dim) as LS. destruct (N.eq_dec dim (2 ^ N.log2 dim)) as [|X]; [assumption|]. exfalso.
    assert (B : 2 ^ N.log2 dim <= dim - 1 < 2 ^ N.succ (N.log2 dim)) by lia.
    assert (L1 : N.log2 (dim - 1) = N.log2 dim) by (apply N.log2_unique; [apply N.le_0_l|exact B]).
    assert (T : N.testbit (N.land dim (dim - 1)) (N.log2 dim) = true).
    { rewrite N.land_spec, N.bit_log2 by lia. rewrite <- L1. rewrite N.bit_log2 by lia. reflexivity. }
    rewrite PW, N.bits_0 in T. discriminate. }
  split; [assumption|]. cbn zeta.
  assert (IX : str "dsqg_" ++ seg ++ str "_R" ++ dec (ip_r p) ++ str "_MD" ++ dec dim ++ str ".index" = index_name (file_prefix seg) (ip_r p) dim)
    by (unfold index_name, file_prefix; now rewrite <- !app_assoc).
  rewrite IX. unfold required_artifacts in im_required. cbn [In] in im_required.
  assert (RF : forall a, In a (required_artifacts seg (ip_r p) dim) -> full_file src (snd a)) by (intros a I; apply regular_full, im_required, I).
  split; [apply (RF (str "x_laser_index_file", _)); left; reflexivity|].
  split; [apply (RF (str "x_laser_rotator_file", _)); right; left; reflexivity|].
  split; [apply (RF (str "x_laser_cache_ids_file", _)); right; right; left; reflexivity|].
  split; [apply (RF (str "x_laser_cache_nodes_file", _)); right; right; right; left; reflexivity|].
  unfold read_count in im_count. destruct (look src (index_name (file_prefix seg) (ip_r p) dim)) as [[c|]|]; try discriminate.
  exists c. split; [reflexivity|]. destruct (Nat.ltb (length c) 8); congruence.
Qed.
Print Assumptions laser_import_checks.

(** ** Opening *)
(** A segment that was imported can be opened, with the manifest returned and
    the labels given.  Missing: a degree of zero, 2^32 points or more, and
    optional files that are empty, refuted below. *)
Theorem laser_import_opens_partial float_ok loads dim m p src labels seg tmp others st w w' mf :
  tmp <> seg -> typed_params dim p -> typed_labels labels ->
  laser_import dim m p src labels seg tmp others st w = (w', Ok mf) ->
  ip_r p <> 0 -> N.of_nat (length labels) < 2 ^ 32 -> (forall name, In name (optional_names seg) -> look src name <> Some (File [])) ->
  (ip_budget p <> [] -> float_ok (ip_budget p) = true) -> (forall count prefix, loads count (ip_r p) dim dim prefix = true) ->
  exists d o, look w' seg = Some d /\ laser_open float_ok loads d = Ok o /\ op_manifest o = mf /\ sm_id mf = seg /\ sm_dim mf = dim /\ holds_labels d o labels.
Proof.
  intros NE TP TL E R0 NB OPT FO LO. destruct (laser_import_whole _ _ _ _ _ _ _ _ _ _ _ _ NE E) as (_ & _ & _ & files & IF & LS & _).
  pose proof (import_inv _ _ _ _ _ _ _ _ IF) as IM. pose proof (open_imported float_ok loads _ _ _ _ _ _ _ _ IM TP TL) as OI.
  destruct (files_look _ _ _ _ _ _ _ _ IM) as (LI & _ & LA & _).
  assert (CO : can_open float_ok loads dim p src labels seg = true).
  { unfold can_open. rewrite !andb_true_iff. repeat split.
    - apply N.ltb_lt, NB.
    - apply negb_true_iff, N.eqb_neq, R0.
    - apply forallb_forall. intros a I. destruct IM. destruct im_files as (text & arts & _ & CP & _). destruct (copies_look _ _ _ CP) as (_ & G).
      destruct (G (snd a)) as (c & L & _); [apply in_map, in_or_app; now right|]. unfold regular_nonempty. rewrite L. destruct c; [|reflexivity]. exfalso.
      apply (OPT (snd a)); [|exact L]. apply filter_In in I as [I _]. unfold optional_artifacts in I. cbn [In] in I.
      unfold optional_names. cbn [map In]. unfold file_prefix in I. rewrite <- !app_assoc in I. destruct I as [<-|[<-|[<-|[]]]]; cbn [snd]; auto.
    - destruct (ip_budget p); [reflexivity|]. apply FO. discriminate.
    - apply LO. }
  rewrite CO in OI. exists files. eexists. split; [exact LS|]. split; [exact OI|]. cbn [op_manifest op_ids]. split; [reflexivity|].
  destruct IM. rewrite im_manifest. cbn [laser_manifest sm_id sm_dim sm_count]. split; [reflexivity|]. split; [reflexivity|].
  unfold holds_labels. cbn [op_manifest op_ids laser_manifest sm_count sm_ids sm_extras]. split; [reflexivity|]. split; [exact LI|].
  split; [unfold labels_bytes; now rewrite flat_map_concat_map|].
  assert (I0 : In (str "x_laser_index_file", index_name (file_prefix seg) (ip_r p) dim) (required_artifacts seg (ip_r p) dim ++ present_of src seg)) by (left; reflexivity).
  pose proof (LA _ I0) as L0. cbn [snd] in L0. unfold read_count in im_count.
  destruct (look src (index_name (file_prefix seg) (ip_r p) dim)) as [[c|]|] eqn:LX; try discriminate.
  destruct (Nat.ltb_spec (length c) 8) as [|L8]; try discriminate.
  exists (index_name (file_prefix seg) (ip_r p) dim), c. split; [exact L0|]. split.
  - apply extras_get. unfold extra_pairs. right. rewrite (main_dim_dim _ _ im_ok). rewrite app_assoc. apply in_or_app. now left.
  - split; [exact L8|]. congruence.
Qed.
Print Assumptions laser_import_opens_partial.

(** Whatever can be opened is sound: the counts of the manifest, of the index
    and of the label file agree, all names are plain names, all files listed
    are there. *)
Theorem laser_open_sound float_ok loads d o : laser_open float_ok loads d = Ok o -> sound_segment d o.
Proof. apply open_sound. Qed.
Print Assumptions laser_open_sound.

(** ** Searching *)
(** Searches through one searcher answer as if each had set its own
    parameters, however they follow one another. *)
Theorem laser_params_in_force o l : N.of_nat (length (op_ids o)) = 8 * sm_count (op_manifest o) ->
  (forall q opens engine, In (q, opens, engine) l -> opens = true /\ 0 < q_top_k q /\ q_beam q < 2 ^ 31
     /\ exists pids, Forall (fun p => p < sm_count (op_manifest o)) pids
          /\ engine (N.max (q_ef q) (N.min (q_top_k q) (sm_count (op_manifest o)))) (q_beam q) (N.min (q_top_k q) (sm_count (op_manifest o))) = Ends (Ok pids)) ->
  Forall2 (fun c a => answers_query (op_ids o) (sm_count (op_manifest o)) (snd c) (fst (fst c)) a) l (snd (searches o l new_session)).
Proof.
  intros L H. assert (IN : in_force new_session) by (split; [reflexivity|now left]). revert IN. generalize new_session as s.
  induction l as [|[[q opens] engine] l IH]; intros s IN; cbn [searches snd]; [constructor|].
  destruct (H q opens engine (or_introl eq_refl)) as (-> & K & B & pids & F & E).
  destruct (search_in_force o q engine pids s IN K B E) as (s' & -> & IN' & _).
  specialize (IH (fun q opens e I => H q opens e (or_intror I)) s' IN').
  destruct (searches o l s') as [s2 b]. cbn [snd] in *. constructor; [|exact IH].
  cbn [fst snd]. destruct (hits_ok (op_ids o) _ pids L F) as (labels & -> & Q). unfold answers_query. exists pids, labels. auto.
Qed.
Print Assumptions laser_params_in_force.

(** The engine is set up again only when the parameters differ from those of
    the search before. *)
Theorem laser_params_calls o l : 
  (forall q opens engine, In (q, opens, engine) l -> opens = true /\ 0 < q_top_k q /\ q_beam q < 2 ^ 31
     /\ exists pids, engine (N.max (q_ef q) (N.min (q_top_k q) (sm_count (op_manifest o)))) (q_beam q) (N.min (q_top_k q) (sm_count (op_manifest o))) = Ends (Ok pids)) ->
  se_calls (fst (searches o l new_session))
  = N.of_nat (param_changes None (map (fun c : query * bool * (N -> N -> N -> out (list N)) => let q := fst (fst c) in (N.max (q_ef q) (N.min (q_top_k q) (sm_count (op_manifest o))), q_beam q)) l)).
Proof.
  intros H. assert (G : forall l s last, in_force s ->
    (forall q opens engine, In (q, opens, engine) l -> opens = true /\ 0 < q_top_k q /\ q_beam q < 2 ^ 31
     /\ exists pids, engine (N.max (q_ef q) (N.min (q_top_k q) (sm_count (op_manifest o)))) (q_beam q) (N.min (q_top_k q) (sm_count (op_manifest o))) = Ends (Ok pids)) ->
    match last with None => se_last s = (0, 0, 0) | Some (e, b) => se_last s = (e, 1, b) end ->
    se_calls (fst (searches o l s)) = se_calls s + N.of_nat (param_changes last (map (fun c : query * bool * (N -> N -> N -> out (list N)) => let q := fst (fst c) in (N.max (q_ef q) (N.min (q_top_k q) (sm_count (op_manifest o))), q_beam q)) l))).
  { clear l H. induction l as [|[[q opens] engine] l IH]; intros s last IN H LA; cbn [searches fst map param_changes]; [lia|].
    destruct (H q opens engine (or_introl eq_refl)) as (-> & K & B & pids & E).
    destruct (search_in_force o q engine pids s IN K B E) as (s' & -> & IN' & L' & C').
    specialize (IH s' (Some (N.max (q_ef q) (N.min (q_top_k q) (sm_count (op_manifest o))), q_beam q)) IN' (fun q opens e I => H q opens e (or_intror I)) L').
    destruct (searches o l s') as [s2 b]. cbn [fst] in *. rewrite IH, C'. unfold requested in *.
    destruct last as [[e b']|]; rewrite LA; unfold triple_eqb; cbn [fst snd].
    - rewrite N.eqb_refl, andb_true_r. destruct (N.eqb (N.max (q_ef q) (N.min (q_top_k q) (sm_count (op_manifest o)))) e && N.eqb (q_beam q) b'); lia.
    - rewrite andb_false_r. cbn [andb]. lia. }
  rewrite (G l new_session None); [reflexivity|split; [reflexivity|now left]|exact H|reflexivity].
Qed.
Print Assumptions laser_params_calls.

(** With the engine of C92: the hits are the labels of the right answer. *)
Theorem laser_segment_answers d o labels g q fuel scratch answers :
  holds_labels d o labels -> typed_labels labels -> graph_ok g -> length (g_nodes g) = length labels ->
  0 < q_top_k q -> 0 < q_beam q <= 1024 -> N.of_nat (length scratch) = 2 * q_beam q -> reads_ok answers ->
  (edges g + 3 <= fuel)%nat -> (length (g_nodes g) <= reports answers)%nat ->
  let k := N.min (q_top_k q) (N.of_nat (length labels)) in
  let ef := N.max (q_ef q) k in
  exists ids, right_answer g (N.to_nat (q_beam q)) (N.to_nat ef) (N.to_nat k) ids
    /\ snd (seg_search o true (fun ef beam k => laser_search fuel g (N.to_nat beam) (N.to_nat ef) (N.to_nat k) scratch answers) q new_session)
       = Ends (Ok (map (fun i => nth (N.to_nat i) labels 0) ids)).
Proof.
  intros (HC & _ & HI & _) (TL & TV) G GL K B SC RO FU RE. cbn zeta.
  assert (NP : 0 < N.of_nat (length labels)) by (destruct G as (E & _); unfold is_node in E; lia).
  destruct (laser_search_right fuel g (N.to_nat (q_beam q)) (N.to_nat (N.max (q_ef q) (N.min (q_top_k q) (N.of_nat (length labels))))) (N.to_nat (N.min (q_top_k q) (N.of_nat (length labels)))) scratch answers)
    as [(_ & X)|(ids & E & A)]; try assumption; try lia.
  exists ids. split; [exact A|].
  assert (IN : in_force new_session) by (split; [reflexivity|now left]).
  destruct (search_in_force o q (fun ef beam k => laser_search fuel g (N.to_nat beam) (N.to_nat ef) (N.to_nat k) scratch answers) ids new_session IN K) as (s' & Q & _).
  { assert (1024 < 2 ^ 31) by (vm_compute; reflexivity). lia. }
  { cbn beta. rewrite HC. exact E. }
  cbn zeta in Q. rewrite Q. cbn [snd]. do 1 f_equal. rewrite HC, HI. rewrite <- flat_map_concat_map. fold (labels_bytes labels).
  pose proof (answer_nodes _ _ _ _ _ G A) as FN. clear -FN GL TV. induction FN as [|x r X F IH]; [reflexivity|]. cbn [hits map].
  unfold is_node in X. destruct (N.leb_spec (N.of_nat (length labels)) x); [lia|]. unfold label_at. rewrite labels_length.
  destruct (Nat.ltb_spec (8 * length labels) (8 * N.to_nat x + 8)); [lia|]. cbn [bind]. rewrite IH. cbn [bind]. rewrite label_read by (auto; lia). reflexivity.
Qed.
Print Assumptions laser_segment_answers.

(** ** Cases *)
Definition seg7 : bytes := str "seg_00000007".
Definition params4 (r : N) : import_params := {| ip_r := r; ip_main_dim := 0; ip_ef := 200; ip_beam := 4; ip_budget := str "0.5" |}.
Definition index7 (r : N) : bytes := str "dsqg_seg_00000007_R" ++ dec r ++ str "_MD128.index".
Definition native (r : N) (medoids : list (bytes * node)) : dir :=
  [(index7 r, File (le_enc 8 2 ++ [9; 9])); (index7 r ++ str "_rotator", File [1]); (index7 r ++ str "_cache_ids", File [2]);
   (index7 r ++ str "_cache_nodes", File [3]); (str "unrelated", Special)] ++ medoids.
Definition medoids7 (content : bytes) : list (bytes * node) := [(str "dsqg_seg_00000007_medoids", File content)].
Definition never : stop := {| st_after := 100; st_cleaned := true; st_left := [] |}.
Definition old_world : world := [(str "seg_00000006", [])].
Definition tmp7 : bytes := str ".tmp_seg_00000007_1_2".
Definition accept (_ : bytes) : bool := true.
Definition load_all (_ _ _ _ : N) (_ : bytes) : bool := true.
(** Opening what an import left under the name of the segment. *)
Definition open7 (r : N) (src : dir) (st : stop) (others : world) : option (res opened) :=
  option_map (laser_open accept load_all) (look (fst (laser_import 128 L2 (params4 r) src [70; 80] seg7 tmp7 others st old_world)) seg7).
Definition labels_of (o : opened) : list (res N) := map (label_at (op_ids o)) [0; 1].

(** Two points imported with medoids: opened, the labels read back, seg_6 still
    there; an import that fails at the seventh step leaves nothing; a crash
    there leaves the temporary directory; a segment created by another process
    in the meantime is kept. *)
Example laser_import_example :
  typed_params 128 (params4 4) /\ typed_labels [70; 80] /\ tmp7 <> seg7
  /\ match open7 4 (native 4 (medoids7 [5])) never [] with Some (Ok o) => labels_of o = [Ok 70; Ok 80] /\ op_r o = 4 | _ => False end
  /\ map fst (fst (laser_import 128 L2 (params4 4) (native 4 []) [70; 80] seg7 tmp7 [] never old_world)) = [seg7; str "seg_00000006"]
  /\ laser_import 128 L2 (params4 4) (native 4 []) [70; 80] seg7 tmp7 [] {| st_after := 7; st_cleaned := true; st_left := [] |} old_world = (old_world, Throws)
  /\ map fst (fst (laser_import 128 L2 (params4 4) (native 4 []) [70; 80] seg7 tmp7 [] {| st_after := 7; st_cleaned := false; st_left := [(index7 4, File [0])] |} old_world)) = [tmp7; str "seg_00000006"]
  /\ look (fst (laser_import 128 L2 (params4 4) (native 4 []) [70; 80] seg7 tmp7 [(seg7, [(str "theirs", Special)])] never old_world)) seg7 = Some [(str "theirs", Special)].
Proof.
  split. { do 4 (split; [vm_compute; reflexivity|]). split; [apply SegManifestProofs.clean_text; reflexivity|]. apply Nat.leb_le. reflexivity. }
  split. { split; [vm_compute; reflexivity|repeat constructor]. }
  split; [vm_compute; discriminate|]. split; [vm_compute; split; reflexivity|]. do 3 (split; [vm_compute; reflexivity|]). vm_compute. reflexivity.
Qed.

(** Three searches with two settings, on an engine that answers with the first
    points: set up twice. *)
Definition first_points (ef beam k : N) : out (list N) := Ends (Ok (map N.of_nat (seq 0 (N.to_nat k)))).
Definition opened7 : opened :=
  {| op_manifest := laser_manifest 128 (params4 4) seg7 2 []; op_r := 4; op_main_dim := 128; op_ids := concat (map (le_enc 8) [70; 80]) |}.
Definition ask (k ef : N) : query := {| q_top_k := k; q_ef := ef; q_beam := 4 |}.
Example laser_session_example :
  searches opened7 [(ask 1 10, true, first_points); (ask 5 10, true, first_points); (ask 2 20, true, first_points)] new_session
  = ({| se_last := (20, 1, 4); se_engine := Some (20, 4); se_calls := 2; se_free := true |}, [Ends (Ok [70]); Ends (Ok [70; 80]); Ends (Ok [70; 80])]).
Proof. vm_compute. reflexivity. Qed.

(** ** What fails *)
(** An import that returned is no guarantee that the segment can be opened:
    with a degree of zero, with 2^32 points or more, or with an empty optional
    file no searcher ever opens it. *)
Theorem laser_import_opens_refuted float_ok loads dim m p src labels seg tmp others st w w' mf :
  tmp <> seg -> typed_params dim p -> typed_labels labels ->
  laser_import dim m p src labels seg tmp others st w = (w', Ok mf) ->
  ip_r p = 0 \/ 2 ^ 32 <= N.of_nat (length labels) \/ (exists name, In name (optional_names seg) /\ look src name = Some (File [])) ->
  exists d, look w' seg = Some d /\ laser_open float_ok loads d = Throws.
Proof.
  intros NE TP TL E H. destruct (laser_import_whole _ _ _ _ _ _ _ _ _ _ _ _ NE E) as (_ & _ & _ & files & IF & LS & _).
  pose proof (import_inv _ _ _ _ _ _ _ _ IF) as IM. exists files. split; [exact LS|].
  rewrite (open_imported float_ok loads _ _ _ _ _ _ _ _ IM TP TL).
  assert (CO : can_open float_ok loads dim p src labels seg = false); [|now rewrite CO].
  unfold can_open. destruct H as [->|[H|(name & I & L)]].
  - cbn [N.eqb negb]. now rewrite andb_false_r.
  - destruct (N.ltb_spec (N.of_nat (length labels)) (2 ^ 32)); [lia|reflexivity].
  - assert (F : forallb (fun a => regular_nonempty src (snd a)) (present_of src seg) = false); [|rewrite F, andb_false_r; reflexivity].
    apply not_true_iff_false. intros F. rewrite forallb_forall in F. unfold optional_names in I. cbn [map In] in I.
    assert (exists k, In (k, name) (optional_artifacts seg)) as (k & J).
    { unfold optional_artifacts, file_prefix. rewrite <- !app_assoc. cbn [In]. destruct I as [<-|[<-|[<-|[]]]]; eauto 6. }
    specialize (F (k, name)). cbn [snd] in F. unfold regular_nonempty in F. rewrite L in F. discriminate F. apply filter_In. split; [assumption|].
    cbn [snd]. unfold exists_in. now rewrite L.
Qed.
Print Assumptions laser_import_opens_refuted.
(** Such imports exist. *)
Example laser_import_opens_cases :
  open7 0 (native 0 []) never [] = Some Throws /\ open7 4 (native 4 (medoids7 [])) never [] = Some Throws
  /\ (exists mf, snd (laser_import 128 L2 (params4 0) (native 0 []) [70; 80] seg7 tmp7 [] never old_world) = Ok mf)
  /\ (exists mf, snd (laser_import 128 L2 (params4 4) (native 4 (medoids7 [])) [70; 80] seg7 tmp7 [] never old_world) = Ok mf).
Proof. do 2 (split; [vm_compute; reflexivity|]). split; eexists; vm_compute; reflexivity. Qed.

(** A loss of power after an import has returned may leave a segment that
    cannot be opened any more: the native files were not synced. *)
Theorem laser_power_loss_refuted dim m p src labels seg tmp others st w w' mf :
  tmp <> seg -> typed_params dim p -> typed_labels labels ->
  laser_import dim m p src labels seg tmp others st w = (w', Ok mf) ->
  exists d d', look w' seg = Some d /\ after_power_loss d d' /\ forall float_ok loads o, laser_open float_ok loads d' <> Ok o.
Proof.
  intros NE TP TL E. destruct (laser_import_whole _ _ _ _ _ _ _ _ _ _ _ _ NE E) as (_ & _ & _ & files & IF & LS & _).
  pose proof (import_inv _ _ _ _ _ _ _ _ IF) as IM. destruct (files_look _ _ _ _ _ _ _ _ IM) as (LI & (text & LM & SV) & LA & _).
  set (lose := fun f : bytes * node => if synced_file (fst f) then f else (fst f, File [])).
  assert (LK : forall (d : dir) name, look (map lose d) name = if synced_file name then look d name else match look d name with Some _ => Some (File []) | None => None end).
  { intros d name. induction d as [|[x c] d IH]; cbn [map look]; [now destruct (synced_file name)|]. unfold lose at 1. cbn [fst].
    destruct (synced_file x) eqn:SX; cbn [look]; destruct (bytes_eqb_spec x name) as [->|H]; try exact IH; rewrite SX; reflexivity. }
  exists files, (map lose files). split; [exact LS|]. split.
  - split.
    + rewrite map_map. apply map_ext. intros [x c]. unfold lose. cbn [fst]. now destruct (synced_file x).
    + intros name. rewrite LK. destruct (synced_file name); [reflexivity|]. destruct (look files name); [left; eauto|now right].
  - intros float_ok loads o Q. apply open_sound in Q. destruct Q as (_ & _ & _ & _ & _ & _ & (t & LT & LD) & _ & _ & (prefix & index & c & _ & IX & _ & LC & L8 & _) & _).
    rewrite LK in LT. change (synced_file (str "manifest.txt")) with true in LT. cbv iota in LT. rewrite LM in LT. injection LT as <-.
    destruct IM. rewrite im_manifest in SV.
    assert (LD' : sm_load text = Ok (laser_manifest dim p seg (N.of_nat (length labels)) (present_of src seg))).
    { apply SegManifestProofs.sm_round_trip; [apply manifest_good; auto|assumption|].
      - destruct TL as (TL & _). split; [destruct labels; [congruence|cbn [length]; lia]|exact TL].
      - destruct TL as (TL & _). eapply manifest_length; eassumption. }
    rewrite LD' in LD. injection LD as LD. rewrite <- LD in IX.
    assert (I0 : In (str "x_laser_index_file", index_name (file_prefix seg) (ip_r p) dim) (extra_pairs dim p seg (present_of src seg))).
    { unfold extra_pairs. right. rewrite (main_dim_dim _ _ im_ok), app_assoc. apply in_or_app. left. left. reflexivity. }
    pose proof (extras_get dim p seg src _ _ I0) as GX. cbn [laser_manifest sm_extras] in IX. rewrite GX in IX. injection IX as <-.
    rewrite LK in LC. destruct (synced_file (index_name (file_prefix seg) (ip_r p) dim)) eqn:SY.
    + unfold synced_file in SY. apply orb_true_iff in SY as [SY|SY]; apply bytes_eqb_eq in SY; unfold index_name in SY; rewrite prefix_cons in SY; vm_compute in SY; discriminate.
    + destruct (look files (index_name (file_prefix seg) (ip_r p) dim)); [|discriminate]. injection LC as <-. cbn [length] in L8. lia.
Qed.
Print Assumptions laser_power_loss_refuted.

(** A query with other parameters that could not be set (the index file could
    not be opened, for lack of descriptors) throws, but the parameters before
    are still taken for those in force: a search with those, however healthy the
    file is by then, waits for ever, and so does every search after it. *)
Theorem laser_stale_params_refuted o q1 q2 q3 engine pids :
  let count := sm_count (op_manifest o) in
  0 < q_top_k q1 -> q_beam q1 < 2 ^ 31 -> 0 < q_top_k q2 -> q_beam q2 < 2 ^ 31 -> 0 < q_top_k q3 -> q_beam q3 < 2 ^ 31 ->
  (N.max (q_ef q1) (N.min (q_top_k q1) count), q_beam q1) <> (N.max (q_ef q2) (N.min (q_top_k q2) count), q_beam q2) ->
  engine (N.max (q_ef q1) (N.min (q_top_k q1) count)) (q_beam q1) (N.min (q_top_k q1) count) = Ends (Ok pids) ->
  exists a, snd (searches o [(q1, true, engine); (q2, false, engine); (q1, true, engine); (q3, true, engine)] new_session) = [a; Ends Throws; Waits; Waits].
Proof.
  intros count K1 B1 K2 B2 K3 B3 NE E. assert (P : 0 < 2 ^ 31) by (vm_compute; reflexivity).
  assert (IN : in_force new_session) by (split; [reflexivity|now left]).
  destruct (search_in_force o q1 engine pids new_session IN K1 B1 E) as (s1 & S1 & (FR & _) & L1 & _). cbn [searches]. rewrite S1.
  unfold seg_search at 1. destruct (N.eqb_spec (q_top_k q2) 0); [lia|]. destruct (N.ltb_spec (2 ^ 31 - 1) (q_beam q2)); [lia|]. cbn [orb]. rewrite FR. cbn [negb].
  unfold with_params at 1. rewrite L1. destruct (triple_eqb_spec (requested (sm_count (op_manifest o)) q2) (requested (sm_count (op_manifest o)) q1)) as [Q|_].
  { exfalso. apply NE. unfold requested in Q. unfold count. congruence. }
  cbn [negb]. unfold seg_search at 1. destruct (N.eqb_spec (q_top_k q1) 0); [lia|]. destruct (N.ltb_spec (2 ^ 31 - 1) (q_beam q1)); [lia|]. cbn [orb se_free negb].
  unfold with_params at 1. cbn [se_last].
  destruct (triple_eqb_spec (requested (sm_count (op_manifest o)) q1) (requested (sm_count (op_manifest o)) q1)) as [_|Q]; [|contradiction]. cbn [negb se_engine].
  unfold seg_search at 1. destruct (N.eqb_spec (q_top_k q3) 0); [lia|]. destruct (N.ltb_spec (2 ^ 31 - 1) (q_beam q3)); [lia|]. cbn [orb se_free negb].
  eexists. reflexivity.
Qed.
Print Assumptions laser_stale_params_refuted.

(** A search that throws keeps its workspace: the next one with the same
    parameters waits for ever. *)
Theorem laser_thrown_search_refuted o q engine engine' :
  let count := sm_count (op_manifest o) in
  0 < q_top_k q -> q_beam q < 2 ^ 31 ->
  engine (N.max (q_ef q) (N.min (q_top_k q) count)) (q_beam q) (N.min (q_top_k q) count) = Ends Throws ->
  snd (searches o [(q, true, engine); (q, true, engine')] new_session) = [Ends Throws; Waits].
Proof.
  intros count K B E. subst count. assert (P : 0 < 2 ^ 31) by (vm_compute; reflexivity).
  assert (A : (N.eqb (q_top_k q) 0 || N.ltb (2 ^ 31 - 1) (q_beam q)) = false) by (apply orb_false_iff; rewrite N.eqb_neq, N.ltb_ge; lia).
  assert (S1 : seg_search o true engine q new_session
    = ({| se_last := requested (sm_count (op_manifest o)) q; se_engine := None; se_calls := 1; se_free := true |}, Ends Throws)).
  { unfold seg_search. rewrite A. cbn [new_session se_free negb]. unfold with_params, new_session. cbn [se_last se_calls].
    destruct (triple_eqb_spec (requested (sm_count (op_manifest o)) q) (0, 0, 0)) as [Q|_]; [unfold requested in Q; injection Q; intros; discriminate|].
    cbn [negb se_engine]. unfold requested. cbn [fst snd]. rewrite E. reflexivity. }
  assert (S2 : exists s', seg_search o true engine' q {| se_last := requested (sm_count (op_manifest o)) q; se_engine := None; se_calls := 1; se_free := true |} = (s', Waits)).
  { unfold seg_search. rewrite A. cbn [se_free negb]. unfold with_params. cbn [se_last].
    destruct (triple_eqb_spec (requested (sm_count (op_manifest o)) q) (requested (sm_count (op_manifest o)) q)) as [_|Q]; [|contradiction]. cbn [negb se_engine]. eauto. }
  destruct S2 as (s' & S2). cbn [searches]. rewrite S1, S2. reflexivity.
Qed.
Print Assumptions laser_thrown_search_refuted.
