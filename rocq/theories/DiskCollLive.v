(** Lemmas about disk collections: calls that return. *)
From Coq Require Import String.
From Verif Require Import SegManifestProofs SegManifestProps.
From Verif Require Export DiskCollProofs.
Local Open Scope N_scope.

(** ** Environments without failures *)
Definition nf (env : list event) : Prop := Forall (fun e => match e with Fails _ => False | _ => True end) env.
Definition tame {A} (m : io A) : Prop := forall env d o env' d', m env d = (o, env', d') -> (nf env -> nf env') /\ (env = [] -> env' = [] /\ o <> Crashed).
Lemma nf_tl e env : nf (e :: env) -> nf env. Proof. intros H. now inversion H. Qed.
Lemma tame_access {A} (w : disk -> out A * disk) b : (forall d, fst (w d) <> Crashed) -> tame (access w b).
Proof.
  intros W env d o env' d' H. specialize (W d). unfold access in H. destruct env as [|[|?|?] r]; try (destruct (w d) as [o1 d1]; cbn [fst] in W); injection H as <- <- <-; split; try discriminate; try apply nf_tl; auto.
Qed.
Lemma tame_ret {A} (a : A) : tame (ret a). Proof. intros env d o env' d' H. apply ret_inv in H. destruct H as (-> & -> & ->). split; [auto|]. intros ->. split; [reflexivity|discriminate]. Qed.
Lemma tame_throw {A} : tame (@throw A). Proof. intros env d o env' d' H. apply throw_inv in H. destruct H as (-> & -> & ->). split; [auto|]. intros ->. split; [reflexivity|discriminate]. Qed.
Lemma tame_lift {A} (r : res A) : tame (lift r). Proof. destruct r; [apply tame_ret|apply tame_throw..]. Qed.
Lemma tame_bind {A B} (m : io A) (k : A -> io B) : tame m -> (forall a, tame (k a)) -> tame (bindio m k).
Proof.
  intros M K env d o env' d' H. iobind H.
  - destruct (M _ _ _ _ _ E) as [M1 M2]. destruct (K _ _ _ _ _ _ H) as [K1 K2]. split; [auto|]. intros EE. apply K2. apply M2. exact EE.
  - destruct (M _ _ _ _ _ E) as [M1 M2]. split; [auto|]. intros EE. split; [apply M2; exact EE|discriminate].
  - destruct (M _ _ _ _ _ E) as [M1 M2]. split; [auto|]. intros EE. destruct (M2 EE) as [_ M3]. contradiction.
Qed.
Lemma tame_sync : tame sync_quietly. Proof. intros env d o env' d' H. unfold sync_quietly in H. destruct env as [|[|?|?] r]; injection H as <- <- <-; split; try discriminate; try apply nf_tl; auto. intros _. split; [reflexivity|discriminate]. Qed.
Lemma tame_remove dir : tame (remove_dir dir). Proof. intros env d o env' d' H. unfold remove_dir in H. destruct env as [|[|?|?] r]; injection H as <- <- <-; split; try discriminate; try apply nf_tl; auto. intros _. split; [reflexivity|discriminate]. Qed.
Lemma tame_names : tame list_names. Proof. intros env d o env' d' H. unfold list_names in H. destruct env as [|[|?|?] r]; injection H as <- <- <-; split; try discriminate; try apply nf_tl; auto. intros _. split; [reflexivity|discriminate]. Qed.
Lemma tame_exists dir : tame (dir_exists dir). Proof. intros env d o env' d' H. apply dir_exists_inv in H. destruct H as (-> & -> & ->). split; [auto|]. intros ->. split; [reflexivity|discriminate]. Qed.
Lemma tame_guarded {A} dir (m : io A) : tame m -> tame (guarded dir m).
Proof.
  intros M env d o env' d' H. unfold guarded in H. destruct (m env d) as [[r e1] d1] eqn:B. destruct (M _ _ _ _ _ B) as [M1 M2]. destruct r as [a| |]; [injection H as <- <- <-; auto| |injection H as <- <- <-; auto].
  destruct (tame_bind (remove_dir dir) (fun _ => @throw A) (tame_remove dir) (fun _ => tame_throw) _ _ _ _ _ H) as [K1 K2]. split; [auto|]. intros EE. apply K2. apply M2. exact EE.
Qed.
Ltac tame_access_tac := apply tame_access; intros ?d; cbn [fst]; repeat (match goal with |- context [match ?e with _ => _ end] => destruct e end; cbn [fst]); discriminate.
Lemma tame_read_in dir name : tame (read_in dir name). Proof. tame_access_tac. Qed.
Lemma tame_read_root name : tame (read_root name). Proof. tame_access_tac. Qed.
Lemma tame_mk_dir dir : tame (mk_dir dir). Proof. tame_access_tac. Qed.
Lemma tame_write_in dir n c : tame (write_in dir n c). Proof. tame_access_tac. Qed.
Lemma tame_write_root n c : tame (write_root n c). Proof. tame_access_tac. Qed.
Lemma tame_rename_dir a b : tame (rename_dir a b). Proof. tame_access_tac. Qed.
Lemma tame_rename_root a b : tame (rename_root a b). Proof. tame_access_tac. Qed.
Lemma tame_sync_dir : tame sync_dir. Proof. tame_access_tac. Qed.
Ltac tame_tac := repeat first
  [apply tame_ret|apply tame_throw|apply tame_lift|apply tame_sync|apply tame_names|apply tame_exists|apply tame_read_in|apply tame_read_root|apply tame_mk_dir|apply tame_write_in|apply tame_write_root
  |apply tame_rename_dir|apply tame_rename_root|apply tame_sync_dir|apply tame_guarded|apply tame_bind; [|intros ?a]|match goal with |- tame (match ?e with _ => _ end) => destruct e end].
Lemma tame_open_searcher x t dir : tame (open_searcher x t dir). Proof. unfold open_searcher. tame_tac. Qed.
Lemma tame_load_segment x dir : tame (load_segment x dir). Proof. unfold load_segment. apply tame_bind; [apply tame_read_in|intros t]. apply tame_bind; [apply tame_lift|intros m]. destruct (sm_type m); [apply tame_open_searcher..|apply tame_throw]. Qed.
Lemma tame_open_listed x l : tame (open_listed x l). Proof. induction l as [|i l IH]; cbn [open_listed]; [apply tame_ret|]. apply tame_bind; [apply tame_load_segment|intros s]. apply tame_bind; [exact IH|intros ss; apply tame_ret]. Qed.
Lemma tame_segment_ids dir : tame (segment_ids dir). Proof. unfold segment_ids. tame_tac. Qed.
Lemma tame_no_clash l p : tame (no_clash l p). Proof. induction l as [|i l IH]; cbn [no_clash]; [apply tame_ret|]. apply tame_bind; [apply tame_segment_ids|intros s]. destruct (existsb _ s); [apply tame_throw|exact IH]. Qed.
Lemma tame_flat_finish x m dim v rows name stamp : tame (flat_finish x m dim v rows name stamp). Proof. unfold flat_finish. cbv zeta. tame_tac. Qed.
Lemma tame_vamana_finish x m dim v rows name stamp : tame (vamana_finish x m dim v rows name stamp). Proof. unfold vamana_finish. cbv zeta. tame_tac. Qed.
Lemma tame_create_segment x cm v rows name stamp : tame (create_segment x cm v rows name stamp).
Proof.
  unfold create_segment. destruct (cm_type cm); [| |apply tame_throw]; repeat match goal with |- tame (if ?e then _ else _) => destruct e; [apply tame_throw|] end; apply tame_bind;
    [apply tame_flat_finish|intros _; apply tame_open_searcher|apply tame_vamana_finish|intros _; apply tame_open_searcher].
Qed.
Lemma tame_publish m stamp : tame (publish m stamp). Proof. unfold publish. cbv zeta. tame_tac. Qed.
Lemma tame_scan m : tame (scan_orphans m). Proof. unfold scan_orphans. cbv zeta. tame_tac. Qed.
Lemma tame_open x : tame (open_collection x).
Proof. unfold open_collection. apply tame_bind; [apply tame_read_root|intros text]. apply tame_bind; [apply tame_lift|intros m]. destruct (cm_type m); [| |apply tame_throw]; (apply tame_bind; [apply tame_lift|intros cap]; apply tame_bind; [apply tame_lift|intros v]; apply tame_bind; [apply tame_open_listed|intros ss]; apply tame_bind; [apply tame_scan|intros m'; apply tame_ret]). Qed.

(** ** Calls that do not throw *)
Lemma read_in_nt dir name f c env d o env' d' : nf env -> dir_get (d_segs d) dir = Some f -> kv_get f name = Some c -> read_in dir name env d = (o, env', d') -> nf env' /\ d' = d /\ (o = Ret c \/ o = Crashed).
Proof.
  intros NF F C H. pose proof (tame_read_in _ _ _ _ _ _ _ H) as [T _]. split; [auto|]. unfold read_in, access, unchanged in H. rewrite F, C in H.
  destruct env as [|[|?|?] r]; injection H as <- <- <-; auto. inversion NF; contradiction.
Qed.
Lemma read_root_nt name c env d o env' d' : nf env -> kv_get (d_root d) name = Some c -> read_root name env d = (o, env', d') -> nf env' /\ d' = d /\ (o = Ret c \/ o = Crashed).
Proof.
  intros NF C H. pose proof (tame_read_root _ _ _ _ _ _ H) as [T _]. split; [auto|]. unfold read_root, access, unchanged in H. rewrite C in H.
  destruct env as [|[|?|?] r]; injection H as <- <- <-; auto. inversion NF; contradiction.
Qed.
Lemma write_in_nt dir name c f env d o env' d' : nf env -> dir_get (d_segs d) dir = Some f -> write_in dir name c env d = (o, env', d') -> nf env' /\ o <> Thrown.
Proof.
  intros NF F H. pose proof (tame_write_in _ _ _ _ _ _ _ _ H) as [T _]. split; [auto|]. unfold write_in, access in H. rewrite F in H.
  destruct env as [|[|?|?] r]; injection H as <- <- <-; try discriminate. inversion NF; contradiction.
Qed.
Lemma open_searcher_nt x g name rows f env d o env' d' : nf env -> g_dim g < 2 ^ 32 -> g_type g <> Laser -> seg_good x g name rows f -> dir_get (d_segs d) name = Some f ->
  open_searcher x (g_type g) name env d = (o, env', d') -> o <> Thrown.
Proof.
  intros NF D NL G F H. destruct (sg_manifest _ _ _ _ _ G) as (text & v & rows0 & T & LR & L). unfold open_searcher in H.
  iobind H; destruct (read_in_nt _ _ _ _ _ _ _ _ _ NF F T E) as (NF1 & -> & R); [|destruct R; discriminate|discriminate]. destruct R as [[= ->]|?]; [|discriminate].
  rewrite L in H. cbn [lift] in H. unfold ret at 1 in H. unfold bindio at 1 in H. cbn [segment_manifest sm_type sm_count sm_dim sm_metric sm_ids sm_vectors sm_extras] in H.
  destruct (sg_size _ _ _ _ _ G) as [S1 S2]. rewrite LR in H.
  replace (negb _) with false in H by (destruct (g_type g); [reflexivity|reflexivity|contradiction]).
  replace (2 ^ 64 <=? N.of_nat (length rows) * g_dim g * 4) with false in H by (symmetry; apply N.leb_gt; exact S1).
  replace (2 ^ 64 <=? N.of_nat (length rows) * 8) with false in H by (symmetry; apply N.leb_gt; exact S2).
  replace (2 ^ 32 <=? g_dim g) with false in H by (symmetry; apply N.leb_gt; exact D).
  match type of H with context [if ?b then throw else _] => replace b with false in H end.
  2:{ destruct (g_type g) eqn:TY; try reflexivity. destruct (sg_vamana _ _ _ _ _ G TY) as (-> & SL & _). rewrite orb_false_r. symmetry. apply N.leb_gt. exact SL. }
  iobind H; destruct (read_in_nt _ _ _ _ _ _ _ _ _ NF1 F (sg_ids _ _ _ _ _ G) E0) as (NF2 & -> & R); [|destruct R; discriminate|discriminate]. destruct R as [[= ->]|?]; [|discriminate].
  iobind H; destruct (read_in_nt _ _ _ _ _ _ _ _ _ NF2 F (sg_vectors _ _ _ _ _ G) E1) as (NF3 & -> & R); [|destruct R; discriminate|discriminate]. destruct R as [[= ->]|?]; [|discriminate].
  rewrite ids_length, (vectors_length (g_dim g)) in H by apply G.
  replace (N.of_nat (8 * length rows) =? N.of_nat (length rows) * 8) with true in H by (symmetry; apply N.eqb_eq; lia).
  replace (N.of_nat (length rows * (4 * N.to_nat (g_dim g))) =? N.of_nat (length rows) * g_dim g * 4) with true in H by (symmetry; apply N.eqb_eq; nia). cbn [negb] in H.
  destruct (g_type g) eqn:TY; [apply ret_inv in H; destruct H as (_ & _ & ->); discriminate| |contradiction].
  destruct (sg_vamana _ _ _ _ _ G TY) as (_ & _ & graph & KG & GL). cbv zeta in H. rewrite segment_extras_graph in H. replace (negb (is_valid_basename graph_name)) with false in H by reflexivity.
  iobind H; destruct (read_in_nt _ _ _ _ _ _ _ _ _ NF3 F KG E2) as (NF4 & -> & R); [|destruct R; discriminate|discriminate]. destruct R as [[= ->]|?]; [|discriminate].
  rewrite GL in H. apply ret_inv in H. destruct H as (_ & _ & ->). discriminate.
Qed.
Lemma load_segment_nt x g name rows env d o env' d' : nf env -> g_dim g < 2 ^ 32 -> g_type g <> Laser -> seg_at x g d name rows -> load_segment x name env d = (o, env', d') -> o <> Thrown.
Proof.
  intros NF D NL (f & F & G) H. destruct (sg_manifest _ _ _ _ _ G) as (text & v & rows0 & T & LR & L). unfold load_segment in H.
  iobind H; destruct (read_in_nt _ _ _ _ _ _ _ _ _ NF F T E) as (NF1 & -> & R); [|destruct R; discriminate|discriminate]. destruct R as [[= ->]|?]; [|discriminate].
  rewrite L in H. cbn [lift] in H. unfold ret at 1 in H. unfold bindio at 1 in H. cbn [segment_manifest sm_type] in H.
  destruct (g_type g) eqn:TY; [| |contradiction]; rewrite <- TY in H; eapply open_searcher_nt; try eassumption; congruence.
Qed.
Lemma open_listed_nt x g d ids batches : g_dim g < 2 ^ 32 -> g_type g <> Laser -> Forall2 (seg_at x g d) ids batches -> forall env o env' d', nf env -> open_listed x ids env d = (o, env', d') -> o <> Thrown.
Proof.
  intros D NL. induction 1 as [|i b ids batches S F IH]; intros env o env' d' NF H; cbn [open_listed] in H; [apply ret_inv in H; destruct H as (_ & _ & ->); discriminate|].
  iobind H.
  - destruct (tame_load_segment _ _ _ _ _ _ _ E) as [T _]. apply load_segment_inv in E. subst d0. iobind H; [|exact (IH _ _ _ _ (T NF) E)|discriminate]. apply ret_inv in H. destruct H as (_ & _ & ->). discriminate.
  - destruct (load_segment_nt _ _ _ _ _ _ _ _ _ NF D NL S E eq_refl).
  - discriminate.
Qed.
Lemma segment_ids_nt x g name rows env d o env' d' : nf env -> seg_at x g d name rows -> segment_ids name env d = (o, env', d') -> o <> Thrown.
Proof.
  intros NF (f & F & G) H. destruct (sg_manifest _ _ _ _ _ G) as (text & v & rows0 & T & LR & L). unfold segment_ids in H.
  iobind H; destruct (read_in_nt _ _ _ _ _ _ _ _ _ NF F T E) as (NF1 & -> & R); [|destruct R; discriminate|discriminate]. destruct R as [[= ->]|?]; [|discriminate].
  rewrite L in H. cbn [lift] in H. unfold ret at 1 in H. unfold bindio at 1 in H. cbn [segment_manifest sm_ids sm_count] in H.
  iobind H; destruct (read_in_nt _ _ _ _ _ _ _ _ _ NF1 F (sg_ids _ _ _ _ _ G) E0) as (NF2 & -> & R); [|destruct R; discriminate|discriminate]. destruct R as [[= ->]|?]; [|discriminate].
  rewrite LR, ids_length, N.mod_small in H by apply G. replace (N.of_nat (8 * length rows) =? N.of_nat (length rows) * 8) with true in H by (symmetry; apply N.eqb_eq; lia).
  apply ret_inv in H. destruct H as (_ & _ & ->). discriminate.
Qed.
Lemma no_clash_nt x g d dirs batches p : Forall2 (seg_at x g d) dirs batches -> (forall n, In n p -> ~ In n (labels (concat batches))) -> forall env o env' d', nf env -> no_clash dirs p env d = (o, env', d') -> o <> Thrown.
Proof.
  induction 1 as [|i b dirs batches S F IH]; intros NC env o env' d' NF H; cbn [no_clash] in H; [apply ret_inv in H; destruct H as (_ & _ & ->); discriminate|].
  iobind H.
  - destruct (tame_segment_ids _ _ _ _ _ _ E) as [T _]. pose proof E as E2. apply segment_ids_inv in E2. subst d0. apply (segment_ids_good _ _ _ _ _ _ _ _ _ S) in E. subst a.
    destruct (existsb _ (labels b)) eqn:X.
    + apply existsb_exists in X. destruct X as (n & I1 & X). apply existsb_exists in X. destruct X as (m & I2 & EM). apply N.eqb_eq in EM. subst m. exfalso. apply (NC n I2). cbn [concat]. rewrite labels_app, in_app_iff. now left.
    + eapply IH; [|exact (T NF)|exact H]. intros n I1 I2. apply (NC n I1). cbn [concat]. rewrite labels_app, in_app_iff. now right.
  - destruct (segment_ids_nt _ _ _ _ _ _ _ _ _ NF S E eq_refl).
  - discriminate.
Qed.
Lemma publish_nt m text stamp env d o env' d' : nf env -> cm_save m = Ok text -> publish m stamp env d = (o, env', d') -> o <> Thrown.
Proof.
  intros NF SV H. unfold publish in H. rewrite SV in H. cbn [lift] in H. unfold ret at 1 in H. unfold bindio at 1 in H. cbv zeta in H. iobind H.
  - unfold write_root, access in E. unfold rename_root, access in H.
    destruct env as [|[|?|?] r]; [| |inversion NF; contradiction|discriminate E]; injection E as <- <- <-; cbn [d_root set_root] in H; rewrite kv_get_put, bytes_eqb_refl in H.
    + injection H as <- <- <-. discriminate.
    + apply nf_tl in NF. destruct r as [|[|?|?] r]; [..|inversion NF; contradiction|]; injection H as <- <- <-; discriminate.
  - unfold write_root, access in E. destruct env as [|[|?|?] r]; try discriminate E. inversion NF; contradiction.
  - discriminate.
Qed.

(** ** The length of the manifests *)
Lemma dec_length n : n < 2 ^ 64 -> (length (dec n) <= 20)%nat.
Proof. intros L. unfold dec. apply dec_acc_length; [|lia]. eapply N.lt_trans; [exact L|reflexivity]. Qed.
Lemma line_length k v : length (line k v) = (length k + length v + 2)%nat.
Proof. unfold line. rewrite !app_length. cbn [length]. lia. Qed.
Lemma extras_ins k v db : length (extras_text (kv_ins k v db)) = (length (line k v) + length (extras_text db))%nat.
Proof.
  induction db as [|[k' v'] db IH]; cbn [kv_ins]; [unfold extras_text; cbn [map concat fst snd]; rewrite app_length; reflexivity|]. destruct (key_ltb k k').
  - unfold extras_text. cbn [map concat fst snd]. rewrite !app_length. lia.
  - unfold extras_text in *. cbn [map concat fst snd]. rewrite !app_length, IH. lia.
Qed.
Lemma extras_del k db : (length (extras_text (kv_del k db)) <= length (extras_text db))%nat.
Proof.
  induction db as [|[k' v'] db IH]; [cbn; lia|]. unfold kv_del in *. cbn [filter fst]. destruct (negb (bytes_eqb k' k)); unfold extras_text in *; cbn [map concat]; rewrite !app_length; lia.
Qed.
Lemma extras_put k v db n : (length k + length v <= n)%nat -> (length (extras_text (kv_put k v db)) <= n + 2 + length (extras_text db))%nat.
Proof. intros L. unfold kv_put. rewrite extras_ins, line_length. pose proof (extras_del k db). lia. Qed.
(** Parameters that fit their types *)
Definition v_fits (v : vparams) : Prop := v_R v < 2 ^ 64 /\ v_L v < 2 ^ 64 /\ v_threads v < 2 ^ 64 /\ v_seed v < 2 ^ 64.
Lemma segment_extras_length t v : v_fits v -> (length (extras_text (segment_extras t v)) <= 200)%nat.
Proof.
  intros (R & L & T & S). apply dec_length in R, L, T, S. unfold segment_extras. destruct t; [cbn; lia| |cbn; lia].
  assert (X1 := extras_put (str "x_graph_file") graph_name [] 40 ltac:(cbn; lia)).
  assert (X2 := extras_put (str "x_R") (dec (v_R v)) (kv_put (str "x_graph_file") graph_name []) 40 ltac:(change (length (str "x_R")) with 3%nat; lia)).
  match type of X2 with (_ <= _ + length (extras_text ?b))%nat => set (b1 := b) in * end.
  assert (X3 := extras_put (str "x_L") (dec (v_L v)) (kv_put (str "x_R") (dec (v_R v)) b1) 40 ltac:(change (length (str "x_L")) with 3%nat; lia)).
  assert (X4 := extras_put (str "x_seed") (dec (v_seed v)) (kv_put (str "x_L") (dec (v_L v)) (kv_put (str "x_R") (dec (v_R v)) b1)) 40 ltac:(change (length (str "x_seed")) with 6%nat; lia)).
  change (length (extras_text [])) with 0%nat in *. lia.
Qed.
Lemma collection_extras_length t n v : n < 2 ^ 64 -> v_fits v -> (length (extras_text (collection_extras t n v)) <= 260)%nat.
Proof.
  intros N0 (R & L & T & S). apply dec_length in N0, R, L, T, S. unfold collection_extras.
  assert (X0 := extras_put (str "x_max_pending_bytes") (dec n) [] 40 ltac:(change (length (str "x_max_pending_bytes")) with 19%nat; lia)). change (length (extras_text [])) with 0%nat in *.
  cbv zeta. set (b0 := kv_put (str "x_max_pending_bytes") (dec n) []) in *. destruct t; [lia| |lia].
  assert (X1 := extras_put (str "x_vamana_R") (dec (v_R v)) b0 40 ltac:(change (length (str "x_vamana_R")) with 10%nat; lia)). set (b1 := kv_put (str "x_vamana_R") _ _) in *.
  assert (X2 := extras_put (str "x_vamana_L") (dec (v_L v)) b1 40 ltac:(change (length (str "x_vamana_L")) with 10%nat; lia)). set (b2 := kv_put (str "x_vamana_L") _ _) in *.
  assert (X3 := extras_put (str "x_vamana_seed") (dec (v_seed v)) b2 40 ltac:(change (length (str "x_vamana_seed")) with 13%nat; lia)). set (b3 := kv_put (str "x_vamana_seed") _ _) in *.
  assert (X4 := extras_put (str "x_vamana_num_threads") (dec (v_threads v)) b3 40 ltac:(change (length (str "x_vamana_num_threads")) with 20%nat; lia)). lia.
Qed.
Lemma metric_length m t : metric_to_string m = Ok t -> (length t <= 3)%nat.
Proof. destruct m; intros [= <-]; cbn; lia. Qed.
Lemma type_length t : (length (index_type_to_string t) <= 11)%nat. Proof. destruct t; cbn; lia. Qed.
Lemma segment_name_length n : segment_name n -> length n = 12%nat.
Proof. intros (ds & -> & L & _). rewrite app_length, L. reflexivity. Qed.
Lemma segment_text_short t m dim v name rows text : segment_name name -> dim < 2 ^ 64 -> N.of_nat (length rows) < 2 ^ 64 -> v_fits v ->
  sm_save (segment_manifest t m dim v name rows) = Ok text -> N.of_nat (length text) <= k_max_manifest_bytes.
Proof.
  intros SN D C V H. unfold sm_save in H. cbn [segment_manifest sm_version sm_id sm_type sm_metric sm_dim sm_count sm_ids sm_vectors sm_extras] in H.
  destruct (metric_to_string m) as [mt| | |] eqn:M; cbn [bind] in H; try discriminate.
  match type of H with Ok ?t = Ok text => assert (ET : text = t) by congruence; clear H; subst text end. apply metric_length in M. pose proof (type_length t). apply segment_name_length in SN. pose proof (segment_extras_length t v V). apply dec_length in D, C.
  rewrite !app_length, !line_length, SN. change (length (str "version")) with 7%nat. change (length (str "segment_id")) with 10%nat. change (length (str "index_type")) with 10%nat. change (length (str "metric")) with 6%nat.
  change (length (str "dim")) with 3%nat. change (length (str "count")) with 5%nat. change (length (str "ids_file")) with 8%nat. change (length (str "vectors_file")) with 12%nat.
  change (length (dec k_manifest_version)) with 1%nat. change (length ids_name) with 11%nat. change (length vectors_name) with 15%nat. unfold k_max_manifest_bytes. lia.
Qed.
Lemma collection_text_short m text t n v : good_collection m -> cm_extras m = collection_extras t n v -> n < 2 ^ 64 -> v_fits v -> N.of_nat (length (cm_segments m)) <= 49900 ->
  cm_save m = Ok text -> N.of_nat (length text) <= k_max_manifest_bytes.
Proof.
  intros G X N0 V LS H. unfold cm_save in H. destruct (metric_to_string (cm_metric m)) as [mt| | |] eqn:M; cbn [bind] in H; try discriminate.
  match type of H with Ok ?t = Ok text => assert (ET : text = t) by congruence; clear H; subst text end.
  destruct G as [GV GD _ GN GS _]. rewrite GV, X. apply metric_length in M. pose proof (type_length (cm_type m)). pose proof (collection_extras_length t n v N0 V) as XL. destruct GD as [_ GD]. apply dec_length in GD, GN.
  rewrite !app_length, !line_length. pose proof (segments_length _ GS) as SL. change (length (str "version")) with 7%nat. change (length (str "dim")) with 3%nat. change (length (str "metric")) with 6%nat.
  change (length (str "index_type")) with 10%nat. change (length (str "next_segment_id")) with 15%nat. change (length (dec 1)) with 1%nat. unfold k_max_manifest_bytes.
  rewrite !Nat2N.inj_add, SL. lia.
Qed.

(** ** What was written can be opened *)
Lemma written_seg_good x g v rows name d f : extern_ok x -> Forall (row_ok (g_dim g)) rows -> rows <> [] -> segment_name name -> 0 < g_dim g < 2 ^ 64 -> v_fits v ->
  N.of_nat (length rows) * g_dim g * 4 < 2 ^ 64 -> N.of_nat (length rows) * 8 < 2 ^ 64 ->
  written x (g_type g) (g_metric g) (g_dim g) v rows name d -> dir_get (d_segs d) name = Some f ->
  (g_type g = Vamana -> g_metric g = L2 /\ N.of_nat (length rows) < 2 ^ 32 /\ exists graph, kv_get f graph_name = Some graph /\ x_graph_loads x graph = true) ->
  exists stored, seg_good x g name stored f.
Proof.
  intros X R RN SN D V Z1 Z2 (stored & text & f' & ST & SV & F' & KM & KI & KV) F VM. assert (f' = f) by congruence. subst f'.
  destruct (stored_ok x g rows stored X R ST) as (F2 & RS & LB). exists stored.
  assert (LL : length rows = length stored) by (apply (f_equal (@length N)) in LB; unfold labels in LB; rewrite !map_length in LB; congruence).
  assert (MN : g_metric g <> NONE). { intros E. unfold sm_save in SV. cbn [segment_manifest sm_metric] in SV. rewrite E in SV. discriminate SV. }
  assert (LR : N.of_nat (length rows) < 2 ^ 64) by lia.
  constructor.
  - exact SN.
  - exact RS.
  - exists text, v, rows. split; [exact KM|]. split; [exact LL|]. apply sm_round_trip; [apply segment_manifest_good; assumption|exact SV|]. exact (segment_text_short _ _ _ _ _ _ _ SN (proj2 D) LR V SV).
  - replace (ids_bytes stored) with (ids_bytes rows); [exact KI|]. unfold ids_bytes. rewrite <- !(map_map fst (le_enc 8)). unfold labels in LB. now rewrite LB.
  - exact KV.
  - rewrite <- LL. split; assumption.
  - intros TV. destruct (VM TV) as (ML & C3 & G). split; [exact ML|]. split; [rewrite <- LL; exact C3|exact G].
Qed.
(** ** Directories that appear *)
Definition grow (P : bytes -> Prop) (d d' : disk) : Prop := forall n f, segment_name n -> dir_get (d_segs d') n = Some f -> dir_get (d_segs d) n <> None \/ P n.
Lemma grow_refl P d : grow P d d. Proof. intros n f _ F. left. congruence. Qed.
Lemma grow_trans (P Q : bytes -> Prop) a b c : grow P a b -> grow Q b c -> (forall n, P n -> Q n) -> grow Q a c.
Proof. intros A B PQ n f SN F. destruct (B n f SN F) as [G|G]; [|now right]. destruct (dir_get (d_segs b) n) as [h|] eqn:E; [|contradiction]. destruct (A n h SN E) as [K|K]; [now left|right; auto]. Qed.
Lemma grow_weak (P Q : bytes -> Prop) d d' : grow P d d' -> (forall n, P n -> Q n) -> grow Q d d'.
Proof. intros G PQ n f SN F. destruct (G n f SN F); [now left|right; auto]. Qed.
Definition none (n : bytes) : Prop := False.
Lemma put_in_grow dir name c d : ~ segment_name dir -> grow none d (put_in dir name c d).
Proof.
  intros NS. unfold put_in. destruct (dir_get (d_segs d) dir) as [h|]; [|apply grow_refl]. intros n f SN F. cbn [d_segs set_segs] in F. rewrite dir_get_put in F.
  destruct (bytes_eqb_spec dir n) as [EN|_]; [subst n; contradiction|]. left. congruence.
Qed.
Lemma write_in_grow dir name c env d o env' d' : ~ segment_name dir -> write_in dir name c env d = (o, env', d') -> grow none d d'.
Proof. intros NS H. unfold write_in in H. apply access_inv in H. destruct H as [H|(cut & -> & _)]; [injection H as _ <-|]; now apply put_in_grow. Qed.
Lemma mk_dir_grow dir env d o env' d' : ~ segment_name dir -> mk_dir dir env d = (o, env', d') -> grow none d d'.
Proof.
  intros NS H. unfold mk_dir in H. apply access_inv in H. destruct H as [H|(cut & -> & _)]; [|apply grow_refl]. injection H as _ <-.
  destruct (dir_get (d_segs d) dir) as [h|]; [apply grow_refl|]. intros n f SN F. cbn [d_segs set_segs] in F. rewrite dir_get_put in F.
  destruct (bytes_eqb_spec dir n) as [EN|_]; [subst n; contradiction|]. left. congruence.
Qed.
Lemma remove_dir_grow dir env d o env' d' : remove_dir dir env d = (o, env', d') -> grow none d d'.
Proof.
  intros H. assert (X : grow none d (set_segs d (dir_del (d_segs d) dir))).
  { intros n f SN F. cbn [d_segs set_segs] in F. rewrite dir_get_del in F. destruct (bytes_eqb dir n); [discriminate|]. left. congruence. }
  unfold remove_dir in H. destruct env as [|[|?|?] r]; injection H as <- <- <-; try exact X; apply grow_refl.
Qed.
Lemma rename_dir_grow from to env d o env' d' : rename_dir from to env d = (o, env', d') -> grow (fun n => o = Ret tt /\ n = to) d d'.
Proof.
  intros H. unfold rename_dir in H. apply access_inv in H. destruct H as [H|(cut & -> & R)]; [|apply grow_refl].
  destruct (dir_get (d_segs d) from) as [h|] eqn:E; [destruct (dir_get (d_segs d) to) eqn:E2|]; injection H as <- <-; try apply grow_refl.
  intros n f SN F. cbn [d_segs set_segs] in F. rewrite dir_get_put, dir_get_del in F. destruct (bytes_eqb_spec to n) as [EN|_]; [right; auto|]. destruct (bytes_eqb from n); [discriminate|]. left. congruence.
Qed.
Ltac io_grow :=
  match goal with
  | E : write_in _ _ _ _ _ = _, NS : ~ segment_name _ |- _ => apply (write_in_grow _ _ _ _ _ _ _ _ NS) in E; io_grow
  | E : rename_dir _ _ _ _ = _ |- _ => apply rename_dir_grow in E; io_grow
  | E : lift _ _ _ = _ |- _ => apply lift_inv in E; destruct E as (-> & _ & _); io_grow
  | E : sync_dir _ _ = _ |- _ => apply sync_dir_same in E; subst; io_grow
  | E : grow none ?a ?b |- grow _ ?a ?c => refine (grow_trans none _ a b c E _ _); [|intros ? []]; clear E; io_grow
  | |- grow _ ?a ?a => apply grow_refl
  | E : grow _ _ _ |- _ => exact E
  | _ => idtac
  end.
Lemma flat_body_grow x m dim v rows name tmp env d o env' d' : ~ segment_name tmp -> flat_body x m dim v rows name tmp env d = (o, env', d') -> grow (fun n => o = Ret tt /\ n = name) d d'.
Proof.
  intros NS H. unfold flat_body in H. iobind H; [|io_grow..]. iobind H; [|io_grow..]. iobind H; [|io_grow..]. iobind H; [|io_grow..]. iobind H; [|io_grow..]. io_grow.
Qed.
Lemma vamana_body_grow x m dim v rows name tmp env d o env' d' : ~ segment_name tmp -> vamana_body x m dim v rows name tmp env d = (o, env', d') -> grow (fun n => o = Ret tt /\ n = name) d d'.
Proof.
  intros NS H. unfold vamana_body in H. iobind H; [|io_grow..]. iobind H; [|io_grow..]. iobind H; [|io_grow..]. iobind H; [|io_grow..]. iobind H; [|io_grow..]. iobind H; [|io_grow..]. iobind H; [|io_grow..]. io_grow.
Qed.
Lemma guarded_grow dir (body : io unit) name env d o env' d' : guarded dir body env d = (o, env', d') ->
  (forall o e d1, body env d = (o, e, d1) -> grow (fun n => o = Ret tt /\ n = name) d d1) -> grow (fun n => o = Ret tt /\ n = name) d d'.
Proof.
  intros H P. unfold guarded in H. destruct (body env d) as [[r e1] d1] eqn:B. specialize (P _ _ _ eq_refl). destruct r as [a| |].
  - injection H as <- <- <-. exact P.
  - assert (P0 : grow none d d1) by (eapply grow_weak; [exact P|]; intros n [? _]; discriminate).
    iobind H; apply remove_dir_grow in E.
    + apply throw_inv in H. destruct H as (-> & _ & ->). eapply grow_trans; [exact P0|eapply grow_weak; [exact E|intros ? []]|intros ? []].
    + eapply grow_trans; [exact P0|eapply grow_weak; [exact E|intros ? []]|intros ? []].
    + eapply grow_trans; [exact P0|eapply grow_weak; [exact E|intros ? []]|intros ? []].
  - injection H as <- <- <-. exact P.
Qed.
Ltac gthrown H := apply throw_inv in H; destruct H as (-> & _ & ->); apply grow_refl.
Lemma flat_finish_grow x m dim v rows name stamp env d o env' d' : flat_finish x m dim v rows name stamp env d = (o, env', d') -> grow (fun n => o <> Thrown /\ n = name) d d'.
Proof.
  intros H. unfold flat_finish in H. destruct (match rows with [] => true | _ => false end); [gthrown H|].
  destruct (negb (is_valid_segment_id name)); [gthrown H|]. iobind H; apply dir_exists_inv in E; destruct E as (-> & -> & [= ->]). destruct (dir_get (d_segs d) name) as [?|]; [gthrown H|].
  cbv zeta in H. set (tmp := tmp_segment name stamp) in *. assert (NS : ~ segment_name tmp) by (intros SN; exact (tmp_not_segment name stamp tmp SN eq_refl)).
  iobind H; apply mk_dir_grow in E; try exact NS; try (eapply grow_weak; [exact E|intros ? []]). refine (grow_trans none _ _ _ _ E _ _); [|intros ? []].
  change (do _ <- write_in tmp ids_name (ids_bytes rows); _) with (flat_body x m dim v rows name tmp) in H.
  iobind H; apply (guarded_grow _ _ name) in E0; try (intros ? ? ? B; eapply flat_body_grow; eassumption).
  - apply sync_quietly_same in H. destruct H as [-> [-> | ->]]; (eapply grow_weak; [exact E0|]; intros n [_ ->]; split; [discriminate|reflexivity]).
  - eapply grow_weak; [exact E0|]. intros n [? _]. discriminate.
  - eapply grow_weak; [exact E0|]. intros n [? _]. discriminate.
Qed.
Lemma vamana_finish_grow x m dim v rows name stamp env d o env' d' : vamana_finish x m dim v rows name stamp env d = (o, env', d') -> grow (fun n => o <> Thrown /\ n = name) d d'.
Proof.
  intros H. unfold vamana_finish in H. destruct (match m with L2 => false | _ => true end); [gthrown H|]. destruct (match rows with [] => true | _ => false end); [gthrown H|].
  destruct (negb (is_valid_segment_id name)); [gthrown H|]. iobind H; apply dir_exists_inv in E; destruct E as (-> & -> & [= ->]). destruct (dir_get (d_segs d) name) as [?|]; [gthrown H|].
  cbv zeta in H. set (tmp := tmp_segment name stamp) in *. assert (NS : ~ segment_name tmp) by (intros SN; exact (tmp_not_segment name stamp tmp SN eq_refl)).
  iobind H; apply dir_exists_inv in E; destruct E as (-> & -> & [= ->]). destruct (dir_get (d_segs d) tmp) as [?|]; [gthrown H|].
  iobind H; apply mk_dir_grow in E; try exact NS; try (eapply grow_weak; [exact E|intros ? []]). refine (grow_trans none _ _ _ _ E _ _); [|intros ? []].
  change (do _ <- write_in tmp ids_name (ids_bytes rows); _) with (vamana_body x m dim v rows name tmp) in H.
  iobind H; apply (guarded_grow _ _ name) in E0; try (intros ? ? ? B; eapply vamana_body_grow; eassumption).
  - apply sync_quietly_same in H. destruct H as [-> [-> | ->]]; (eapply grow_weak; [exact E0|]; intros n [_ ->]; split; [discriminate|reflexivity]).
  - eapply grow_weak; [exact E0|]. intros n [? _]. discriminate.
  - eapply grow_weak; [exact E0|]. intros n [? _]. discriminate.
Qed.

(** ** Building does not throw *)
Lemma mk_dir_nt dir env d o env' d' : nf env -> mk_dir dir env d = (o, env', d') -> nf env' /\ o <> Thrown /\ (o = Ret tt -> dir_get (d_segs d') dir <> None /\ forall n, n <> dir -> dir_get (d_segs d') n = dir_get (d_segs d) n).
Proof.
  intros NF H. destruct (tame_mk_dir _ _ _ _ _ _ H) as [T _]. split; [auto|].
  assert (X : dir_get (d_segs match dir_get (d_segs d) dir with Some _ => d | None => set_segs d (dir_put (d_segs d) dir []) end) dir <> None
              /\ forall n, n <> dir -> dir_get (d_segs match dir_get (d_segs d) dir with Some _ => d | None => set_segs d (dir_put (d_segs d) dir []) end) n = dir_get (d_segs d) n).
  { destruct (dir_get (d_segs d) dir) as [h|] eqn:E; [split; [congruence|reflexivity]|]. cbn [d_segs set_segs]. split; [rewrite dir_get_put, bytes_eqb_refl; discriminate|].
    intros n NE. rewrite dir_get_put. destruct (bytes_eqb_spec dir n); [congruence|reflexivity]. }
  unfold mk_dir, access in H. destruct env as [|[|?|?] r]; [..|inversion NF; contradiction|]; injection H as <- <- <-; (split; [discriminate|]); try discriminate; intros _; exact X.
Qed.
Lemma write_step dir name c env d o env' d' : nf env -> dir_get (d_segs d) dir <> None -> write_in dir name c env d = (o, env', d') ->
  nf env' /\ o <> Thrown /\ (o = Ret tt -> dir_get (d_segs d') dir <> None /\ forall n, n <> dir -> dir_get (d_segs d') n = dir_get (d_segs d) n).
Proof.
  intros NF F H. destruct (dir_get (d_segs d) dir) as [f|] eqn:E; [|contradiction]. destruct (write_in_nt _ _ _ _ _ _ _ _ _ NF E H) as [NF1 NT]. split; [exact NF1|]. split; [exact NT|].
  intros ->. destruct (write_in_ret _ _ _ _ _ _ _ H) as (f1 & _ & ->). cbn [d_segs set_segs]. split; [rewrite dir_get_put, bytes_eqb_refl; discriminate|].
  intros n NE. rewrite dir_get_put. destruct (bytes_eqb_spec dir n); [congruence|reflexivity].
Qed.
Lemma rename_dir_nt from to env d o env' d' : nf env -> dir_get (d_segs d) from <> None -> dir_get (d_segs d) to = None -> rename_dir from to env d = (o, env', d') -> o <> Thrown.
Proof.
  intros NF F T H. unfold rename_dir, access in H. destruct (dir_get (d_segs d) from); [|contradiction]. rewrite T in H.
  destruct env as [|[|?|?] r]; [..|inversion NF; contradiction|]; injection H as <- <- <-; discriminate.
Qed.
Lemma sync_dir_nt env d o env' d' : nf env -> sync_dir env d = (o, env', d') -> nf env' /\ d' = d /\ o <> Thrown.
Proof. intros NF H. destruct (tame_sync_dir _ _ _ _ _ H) as [T _]. split; [auto|]. unfold sync_dir, access, unchanged in H. destruct env as [|[|?|?] r]; [..|inversion NF; contradiction|]; injection H as <- <- <-; split; try reflexivity; discriminate. Qed.
Lemma write_then dir name c (k : io unit) env d o env' d' : nf env -> dir_get (d_segs d) dir <> None ->
  (do _ <- write_in dir name c; k) env d = (o, env', d') ->
  (forall e1 d1, nf e1 -> dir_get (d_segs d1) dir <> None -> (forall n, n <> dir -> dir_get (d_segs d1) n = dir_get (d_segs d) n) -> k e1 d1 = (o, env', d') -> o <> Thrown) -> o <> Thrown.
Proof.
  intros NF F H K. iobind H.
  - destruct (write_step _ _ _ _ _ _ _ _ NF F E) as (NF1 & _ & R). rewrite (unit_ret a) in *. destruct (R eq_refl) as [R1 R2]. exact (K _ _ NF1 R1 R2 H).
  - destruct (write_step _ _ _ _ _ _ _ _ NF F E) as (_ & NT & _). contradiction.
  - discriminate.
Qed.
Lemma lift_ok {A B} (r : res A) a (k : A -> io B) env d : r = Ok a -> (do x <- lift r; k x) env d = k a env d.
Proof. intros ->. reflexivity. Qed.
Lemma flat_body_nt x m dim v rows name tmp env d o env' d' : nf env -> dir_get (d_segs d) tmp <> None -> dir_get (d_segs d) name = None -> name <> tmp -> m <> NONE -> (exists st, stored_rows x m rows = Ok st) ->
  flat_body x m dim v rows name tmp env d = (o, env', d') -> o <> Thrown.
Proof.
  intros NF F T NE MN (st & ST) H. unfold flat_body in H. destruct (metric_to_string_ok m MN) as (mt & MT).
  eapply write_then; [exact NF|exact F|exact H|]. clear NF F H. intros e1 d1 NF F T1 H. rewrite (lift_ok _ _ _ _ _ ST) in H.
  eapply write_then; [exact NF|exact F|exact H|]. clear NF F H. intros e2 d2 NF F T2 H. unfold sm_save in H. cbn [segment_manifest sm_metric] in H. rewrite MT in H. cbn [bind] in H. erewrite lift_ok in H by reflexivity.
  eapply write_then; [exact NF|exact F|exact H|]. clear NF F H. intros e3 d3 NF F T3 H. eapply rename_dir_nt; [exact NF|exact F| |exact H]. rewrite T3, T2, T1 by exact NE. exact T.
Qed.
Lemma vamana_body_nt x m dim v rows name tmp env d o env' d' : nf env -> dir_get (d_segs d) tmp <> None -> dir_get (d_segs d) name = None -> name <> tmp -> m <> NONE -> (exists gr, x_graph x v rows = Ok gr) ->
  vamana_body x m dim v rows name tmp env d = (o, env', d') -> o <> Thrown.
Proof.
  intros NF F T NE MN (st & ST) H. unfold vamana_body in H. destruct (metric_to_string_ok m MN) as (mt & MT).
  eapply write_then; [exact NF|exact F|exact H|]. clear NF F H. intros e1 d1 NF F T1 H.
  eapply write_then; [exact NF|exact F|exact H|]. clear NF F H. intros e2 d2 NF F T2 H. rewrite (lift_ok _ _ _ _ _ ST) in H.
  eapply write_then; [exact NF|exact F|exact H|]. clear NF F H. intros e3 d3 NF F T3 H. unfold sm_save in H. cbn [segment_manifest sm_metric] in H. rewrite MT in H. cbn [bind] in H. erewrite lift_ok in H by reflexivity.
  eapply write_then; [exact NF|exact F|exact H|]. clear NF F H. intros e4 d4 NF F T4 H.
  iobind H; destruct (sync_dir_nt _ _ _ _ _ NF E) as (NF5 & -> & NT); [|contradiction|discriminate].
  eapply rename_dir_nt; [exact NF5|exact F| |exact H]. rewrite T4, T3, T2, T1 by exact NE. exact T.
Qed.
Lemma guarded_nt dir (body : io unit) env d o env' d' : guarded dir body env d = (o, env', d') -> (forall o e d1, body env d = (o, e, d1) -> o <> Thrown) -> o <> Thrown.
Proof. intros H B. unfold guarded in H. destruct (body env d) as [[r e1] d1] eqn:E. specialize (B _ _ _ eq_refl). destruct r; [injection H as <- <- <-; discriminate|contradiction|injection H as <- <- <-; discriminate]. Qed.
Lemma flat_finish_nt x m dim v rows name stamp env d o env' d' : nf env -> segment_name name -> rows <> [] -> dir_get (d_segs d) name = None -> m <> NONE -> (exists st, stored_rows x m rows = Ok st) ->
  flat_finish x m dim v rows name stamp env d = (o, env', d') -> o <> Thrown.
Proof.
  intros NF SN RN T MN ST H. unfold flat_finish in H. destruct rows as [|r0 rows']; [contradiction|]. set (rows := r0 :: rows') in *. rewrite (proj2 (is_valid_segment_id_iff name) SN) in H. cbn [negb] in H.
  iobind H; apply dir_exists_inv in E; destruct E as (-> & -> & [= ->]). rewrite T in H. cbv zeta in H. pose proof (tmp_not_segment name stamp name SN) as NE. set (tmp := tmp_segment name stamp) in *.
  iobind H; destruct (mk_dir_nt _ _ _ _ _ _ NF E) as (NF1 & NT & R); [|contradiction|discriminate]. rewrite (unit_ret a) in R. destruct (R eq_refl) as [F1 T1].
  change (do _ <- write_in tmp ids_name (ids_bytes rows); _) with (flat_body x m dim v rows name tmp) in H.
  match type of H with (do _ <- _; _) ?e0 ?d0 = _ => assert (B : forall o e d1, flat_body x m dim v rows name tmp e0 d0 = (o, e, d1) -> o <> Thrown) end.
  { intros o1 e1 d1 B. eapply flat_body_nt; try eassumption; [|congruence]. rewrite T1 by congruence. exact T. }
  iobind H; [|exact (guarded_nt _ _ _ _ _ _ _ E0 B)|discriminate]. apply sync_quietly_same in H. destruct H as [_ [-> | ->]]; discriminate.
Qed.
Lemma vamana_finish_nt x m dim v rows name stamp env d o env' d' : nf env -> segment_name name -> rows <> [] -> dir_get (d_segs d) name = None -> m = L2 -> dir_get (d_segs d) (tmp_segment name stamp) = None ->
  (exists gr, x_graph x v rows = Ok gr) -> vamana_finish x m dim v rows name stamp env d = (o, env', d') -> o <> Thrown.
Proof.
  intros NF SN RN T MN TT ST H. unfold vamana_finish in H. destruct rows as [|r0 rows']; [contradiction|]. set (rows := r0 :: rows') in *. rewrite (proj2 (is_valid_segment_id_iff name) SN), MN in H. cbn [negb] in H. rewrite <- MN in H.
  iobind H; apply dir_exists_inv in E; destruct E as (-> & -> & [= ->]). rewrite T in H. cbv zeta in H.
  iobind H; apply dir_exists_inv in E; destruct E as (-> & -> & [= ->]). rewrite TT in H. pose proof (tmp_not_segment name stamp name SN) as NE. set (tmp := tmp_segment name stamp) in *.
  iobind H; destruct (mk_dir_nt _ _ _ _ _ _ NF E) as (NF1 & NT & R); [|contradiction|discriminate]. rewrite (unit_ret a) in R. destruct (R eq_refl) as [F1 T1].
  change (do _ <- write_in tmp ids_name (ids_bytes rows); _) with (vamana_body x m dim v rows name tmp) in H.
  match type of H with (do _ <- _; _) ?e0 ?d0 = _ => assert (B : forall o e d1, vamana_body x m dim v rows name tmp e0 d0 = (o, e, d1) -> o <> Thrown) end.
  { intros o1 e1 d1 B. eapply vamana_body_nt; try eassumption; [|congruence..]. rewrite T1 by congruence. exact T. }
  iobind H; [|exact (guarded_nt _ _ _ _ _ _ _ E0 B)|discriminate]. apply sync_quietly_same in H. destruct H as [_ [-> | ->]]; discriminate.
Qed.
(** ** Creating a segment *)
Definition graphs_load (x : extern) : Prop := forall v rows graph, x_graph x v rows = Ok graph -> x_graph_loads x graph = true.
Section Create.
  Variables (x : extern) (g : config) (cm : coll_manifest) (v : vparams) (rows : list row) (name stamp : bytes).
  Hypotheses (X : extern_ok x) (GL : graphs_load x) (R : Forall (row_ok (g_dim g)) rows) (T : cm_type cm = g_type g) (M : cm_metric cm = g_metric g) (D : cm_dim cm = g_dim g)
    (DP : 0 < g_dim g < 2 ^ 32) (SZ : 2 * N.of_nat (length rows) * (g_dim g * 4 + 8) < 2 ^ 64) (VL : g_type g = Vamana -> N.of_nat (length rows) < 2 ^ 32) (VF : v_fits v).
  Lemma create_segment_grow env d o env' d' : create_segment x cm v rows name stamp env d = (o, env', d') -> grow (fun n => n = name) d d' /\ (nf env -> o = Thrown -> grow none d d').
  Proof.
    intros H. unfold create_segment in H. rewrite T, M, D in H.
    assert (TH : forall o env d, (@throw searcher) env d = (o, env', d') -> grow (fun n => n = name) d d' /\ (nf env -> o = Thrown -> grow none d d')).
    { intros o0 env0 d0 H0. apply throw_inv in H0. destruct H0 as (-> & _ & ->). split; [apply grow_refl|]. intros _ _. apply grow_refl. }
    assert (DB : 0 < g_dim g < 2 ^ 64) by (split; [apply DP|]; eapply N.lt_trans; [apply DP|reflexivity]).
    assert (Z1 : N.of_nat (length rows) * g_dim g * 4 < 2 ^ 64) by (clear - SZ; nia). assert (Z2 : N.of_nat (length rows) * 8 < 2 ^ 64) by (clear - SZ; nia).
    assert (OT : forall env d f stored, nf env -> g_type g <> Laser -> seg_good x g name stored f -> dir_get (d_segs d) name = Some f -> open_searcher x (g_type g) name env d = (Thrown, env', d') -> False).
    { intros e1 d1 f st NF NL G F OS. exact (open_searcher_nt _ _ _ _ _ _ _ _ _ _ NF (proj2 DP) NL G F OS eq_refl). }
    destruct (g_type g) eqn:TY; [| |apply TH in H; exact H].
    - destruct (N.leb _ _); [apply TH in H; exact H|]. destruct (negb (all_finite rows)); [apply TH in H; exact H|].
      iobind H.
      + pose proof (flat_finish_grow _ _ _ _ _ _ _ _ _ _ _ _ E) as G. pose proof (open_searcher_inv _ _ _ _ _ _ _ _ H) as ->. split; [eapply grow_weak; [exact G|]; intros n [_ ->]; reflexivity|].
        intros NF ->. exfalso. destruct (tame_flat_finish _ _ _ _ _ _ _ _ _ _ _ _ E) as [TM _]. apply flat_finish_inv in E. destruct E as [_ R2]. destruct (R2 (f_equal Ret (unit_ret a))) as (SN & RN & W).
        pose proof W as (st & tx & f & _ & _ & F & _). destruct (written_seg_good x g v rows name d0 f X R RN SN DB VF Z1 Z2 ltac:(rewrite TY; exact W) F ltac:(rewrite TY; discriminate)) as (stored & SG).
        apply (OT _ _ _ _ (TM NF) ltac:(discriminate) SG F H).
      + apply flat_finish_grow in E. split; [eapply grow_weak; [exact E|]; intros n [_ ->]; reflexivity|]. intros _ _. eapply grow_weak; [exact E|]. intros n [C _]. contradiction.
      + apply flat_finish_grow in E. split; [eapply grow_weak; [exact E|]; intros n [_ ->]; reflexivity|]. discriminate.
    - destruct (Nat.ltb (length rows) 2); [apply TH in H; exact H|]. destruct (N.leb _ _); [apply TH in H; exact H|]. destruct (negb (all_finite rows)); [apply TH in H; exact H|].
      iobind H.
      + pose proof (vamana_finish_grow _ _ _ _ _ _ _ _ _ _ _ _ E) as G. pose proof (open_searcher_inv _ _ _ _ _ _ _ _ H) as ->. split; [eapply grow_weak; [exact G|]; intros n [_ ->]; reflexivity|].
        intros NF ->. exfalso. destruct (tame_vamana_finish _ _ _ _ _ _ _ _ _ _ _ _ E) as [TM _]. apply vamana_finish_inv in E. destruct E as [_ R2]. destruct (R2 (f_equal Ret (unit_ret a))) as (SN & RN & ML & W & gr & f0 & GR & F0 & KG).
        pose proof W as (st & tx & f & _ & _ & F & _). assert (f0 = f) by congruence. subst f0.
        destruct (written_seg_good x g v rows name d0 f X R RN SN DB VF Z1 Z2 ltac:(rewrite TY; exact W) F) as (stored & SG).
        { intros _. split; [exact ML|]. split; [exact (VL eq_refl)|]. exists gr. split; [exact KG|]. exact (GL _ _ _ GR). }
        apply (OT _ _ _ _ (TM NF) ltac:(discriminate) SG F H).
      + apply vamana_finish_grow in E. split; [eapply grow_weak; [exact E|]; intros n [_ ->]; reflexivity|]. intros _ _. eapply grow_weak; [exact E|]. intros n [C _]. contradiction.
      + apply vamana_finish_grow in E. split; [eapply grow_weak; [exact E|]; intros n [_ ->]; reflexivity|]. discriminate.
  Qed.
  Lemma create_segment_nt env d o env' d' : nf env -> g_type g <> Laser -> g_metric g <> NONE -> segment_name name -> rows <> [] -> dir_get (d_segs d) name = None -> (g_type g = Vamana -> dir_get (d_segs d) (tmp_segment name stamp) = None) ->
    all_finite rows = true -> (exists st, stored_rows x (g_metric g) rows = Ok st) -> (g_type g = Vamana -> g_metric g = L2 /\ (2 <= length rows)%nat /\ exists gr, x_graph x v rows = Ok gr) ->
    create_segment x cm v rows name stamp env d = (o, env', d') -> o <> Thrown.
  Proof.
    intros NF NL MN SN RN FN FT AF ST VM H OE. pose proof (create_segment_grow _ _ _ _ _ H) as [_ _]. unfold create_segment in H. rewrite T, M, D in H.
    assert (DB : 0 < g_dim g < 2 ^ 64) by (split; [apply DP|]; eapply N.lt_trans; [apply DP|reflexivity]).
    assert (Z1 : N.of_nat (length rows) * g_dim g * 4 < 2 ^ 64) by (clear - SZ; nia). assert (Z2 : N.of_nat (length rows) * 8 < 2 ^ 64) by (clear - SZ; nia).
    assert (LE : (2 ^ 64 <=? N.of_nat (length rows) * g_dim g) = false) by (apply N.leb_gt; clear - Z1; nia). rewrite AF, LE in H. cbn [negb] in H.
    assert (OT : forall env d f stored, nf env -> g_type g <> Laser -> seg_good x g name stored f -> dir_get (d_segs d) name = Some f -> open_searcher x (g_type g) name env d = (Thrown, env', d') -> False).
    { intros e1 d1 f st NF1 NL1 G F OS. exact (open_searcher_nt _ _ _ _ _ _ _ _ _ _ NF1 (proj2 DP) NL1 G F OS eq_refl). }
    destruct (g_type g) eqn:TY; [| |contradiction].
    - iobind H.
      + destruct (tame_flat_finish _ _ _ _ _ _ _ _ _ _ _ _ E) as [TM _]. apply flat_finish_inv in E. destruct E as [_ R2]. destruct (R2 (f_equal Ret (unit_ret a))) as (_ & _ & W).
        pose proof W as (st & tx & f & _ & _ & F & _). destruct (written_seg_good x g v rows name d0 f X R RN SN DB VF Z1 Z2 ltac:(rewrite TY; exact W) F ltac:(rewrite TY; discriminate)) as (stored & SG).
        rewrite OE in H. apply (OT _ _ _ _ (TM NF) ltac:(discriminate) SG F H).
      + exact (flat_finish_nt _ _ _ _ _ _ _ _ _ _ _ _ NF SN RN FN MN ST E eq_refl).
      + discriminate OE.
    - destruct (VM eq_refl) as (ML & L2R & GR). replace (Nat.ltb (length rows) 2) with false in H by (symmetry; apply Nat.ltb_ge; exact L2R). iobind H.
      + destruct (tame_vamana_finish _ _ _ _ _ _ _ _ _ _ _ _ E) as [TM _]. apply vamana_finish_inv in E. destruct E as [_ R2]. destruct (R2 (f_equal Ret (unit_ret a))) as (_ & _ & _ & W & gr & f0 & GR2 & F0 & KG).
        pose proof W as (st & tx & f & _ & _ & F & _). assert (f0 = f) by congruence. subst f0.
        destruct (written_seg_good x g v rows name d0 f X R RN SN DB VF Z1 Z2 ltac:(rewrite TY; exact W) F) as (stored & SG).
        { intros _. split; [exact ML|]. split; [exact (VL eq_refl)|]. exists gr. split; [exact KG|]. exact (GL _ _ _ GR2). }
        rewrite OE in H. apply (OT _ _ _ _ (TM NF) ltac:(discriminate) SG F H).
      + exact (vamana_finish_nt _ _ _ _ _ _ _ _ _ _ _ _ NF SN RN FN ML (FT eq_refl) GR E eq_refl).
      + discriminate OE.
  Qed.
End Create.

(** ** Opening *)
Lemma stoull_dec n : n < 2 ^ 64 -> stoull (dec n) = Ok n.
Proof.
  intros L. pose proof (dec_digits n) as F. pose proof (parse_digits_dec n) as V. pose proof (dec_nonempty n) as NE. unfold stoull. destruct (dec n) as [|c r]; [contradiction|].
  inversion F as [|? ? DC _]; subst. unfold is_digit in DC. cbn [skip_space].
  replace (is_space c) with false by (symmetry; unfold is_space; lia). replace (N.eqb c 45) with false by (symmetry; lia). replace (N.eqb c 43) with false by (symmetry; lia).
  cbv zeta. rewrite V. apply N.ltb_lt in L. rewrite L. reflexivity.
Qed.
Lemma collection_cap t n v : kv_get (collection_extras t n v) (str "x_max_pending_bytes") = Some (dec n).
Proof. unfold collection_extras. destruct t; rewrite !kv_get_put; reflexivity. Qed.
Lemma collection_R n v : kv_get (collection_extras Vamana n v) (str "x_vamana_R") = Some (dec (v_R v)).
Proof. unfold collection_extras. rewrite !kv_get_put. reflexivity. Qed.
Lemma collection_L n v : kv_get (collection_extras Vamana n v) (str "x_vamana_L") = Some (dec (v_L v)).
Proof. unfold collection_extras. rewrite !kv_get_put. reflexivity. Qed.
Lemma collection_seed n v : kv_get (collection_extras Vamana n v) (str "x_vamana_seed") = Some (dec (v_seed v)).
Proof. unfold collection_extras. rewrite !kv_get_put. reflexivity. Qed.
Lemma collection_threads n v : kv_get (collection_extras Vamana n v) (str "x_vamana_num_threads") = Some (dec (v_threads v)).
Proof. unfold collection_extras. rewrite !kv_get_put. reflexivity. Qed.
Lemma extra_u32_dec M key fb n : kv_get (cm_extras M) (str key) = Some (dec n) -> n < 2 ^ 32 -> extra_u32 M key fb = Ok n.
Proof. intros K L. unfold extra_u32. rewrite K, stoull_dec by (eapply N.lt_trans; [exact L|reflexivity]). cbn [bind]. apply N.ltb_lt in L. now rewrite L. Qed.
Lemma load_vparams_back M n v : cm_extras M = collection_extras Vamana n v -> v_R v < 2 ^ 32 -> v_L v < 2 ^ 32 -> v_seed v < 2 ^ 32 -> v_threads v < 2 ^ 32 -> load_vparams M = Ok v.
Proof.
  intros EX R L S T. unfold load_vparams.
  rewrite (extra_u32_dec M "x_vamana_R" 64 (v_R v)) by (try assumption; rewrite EX; apply collection_R). cbn [bind].
  rewrite (extra_u32_dec M "x_vamana_L" 200 (v_L v)) by (try assumption; rewrite EX; apply collection_L). cbn [bind].
  rewrite (extra_u32_dec M "x_vamana_seed" 1234 (v_seed v)) by (try assumption; rewrite EX; apply collection_seed). cbn [bind].
  rewrite (extra_u32_dec M "x_vamana_num_threads" 0 (v_threads v)) by (try assumption; rewrite EX; apply collection_threads). cbn [bind]. now destruct v.
Qed.
(** What creating a collection has checked *)
Definition accepted (g : config) : Prop := g_type g <> Laser /\ g_metric g <> NONE /\ 0 < g_dim g /\ (g_type g = Vamana -> vparams_ok (g_vamana g) = true).
Lemma create_accepted g stamp env d c env' d' : create g stamp env d = (Ret c, env', d') -> accepted g.
Proof.
  intros H. unfold create in H. destruct (N.eqb_spec (g_dim g) 0) as [|D0]; [apply throw_inv in H; destruct H as (_ & _ & ?); discriminate|].
  destruct (match g_metric g with NONE => true | _ => false end) eqn:EM; [apply throw_inv in H; destruct H as (_ & _ & ?); discriminate|].
  destruct (match g_type g with Laser => true | _ => false end) eqn:ET; [apply throw_inv in H; destruct H as (_ & _ & ?); discriminate|].
  match type of H with context [if ?b then throw else _] => destruct b eqn:EV end; [apply throw_inv in H; destruct H as (_ & _ & ?); discriminate|].
  split; [intros E; rewrite E in ET; discriminate ET|]. split; [intros E; rewrite E in EM; discriminate EM|]. split; [lia|]. intros E. rewrite E in EV. now apply negb_false_iff in EV.
Qed.
Record reopenable (g : config) : Prop := { ro_vamana : g_type g = Vamana -> g_metric g = L2 /\ v_seed (g_vamana g) < 2 ^ 32 }.
Lemma names_get n l : In n (map fst l) <-> dir_get l n <> None.
Proof.
  induction l as [|[k f] l IH]; cbn [map fst dir_get]; [split; [intros []|congruence]|]. destruct (bytes_eqb_spec k n) as [E|NE]; [split; [discriminate|now left]|].
  rewrite <- IH. split; [intros [|]; [contradiction|assumption]|now right].
Qed.
Lemma max_on_disk_ge names : forall m, m <= max_on_disk names m /\ forall n k, In n names -> segment_name n -> segment_number n = Some k -> k <= max_on_disk names m.
Proof.
  induction names as [|a names IH]; intros m; cbn [max_on_disk]; [split; [lia|intros n k []]|].
  destruct (starts_with (str ".tmp_") a) eqn:ST; [|destruct (is_valid_segment_id a) eqn:IV; cbn [negb]].
  - destruct (IH m) as [I1 I2]. split; [exact I1|]. intros n k [->|I3] SN; [|now apply I2]. destruct SN as (ds & -> & _). discriminate ST.
  - match goal with |- context [max_on_disk names ?q] => destruct (IH q) as [I1 I2]; set (Q := q) in * end. split; [subst Q; lia|]. intros n k [->|I3] SN SK; [|now apply (I2 n)].
    subst Q. rewrite SK in *. lia.
  - destruct (IH m) as [I1 I2]. split; [exact I1|]. intros n k [->|I3] SN; [|now apply I2]. apply is_valid_segment_id_iff in SN. congruence.
Qed.
Lemma max_on_disk_le names B : (forall n k, In n names -> segment_name n -> segment_number n = Some k -> k <= B) -> forall m, m <= B -> max_on_disk names m <= B.
Proof.
  induction names as [|a names IH]; intros H m L; cbn [max_on_disk]; [exact L|]. assert (IH' := IH (fun n k I1 => H n k (or_intror I1))).
  destruct (starts_with (str ".tmp_") a); [now apply IH'|]. destruct (is_valid_segment_id a) eqn:IV; cbn [negb]; [|now apply IH']. apply IH'. apply is_valid_segment_id_iff in IV.
  destruct (segment_number a) as [k|] eqn:SK; [|lia]. specialize (H a k (or_introl eq_refl) IV SK). lia.
Qed.
Definition below (d : disk) (B : N) : Prop := forall n f k, segment_name n -> dir_get (d_segs d) n = Some f -> segment_number n = Some k -> k < B.
Lemma scan_next m env d m' env' d' B : scan_orphans m env d = (Ret m', env', d') -> below d B -> cm_next m <= B -> 1 <= B -> cm_next m' <= B /\ cm_next m <= cm_next m' /\ (nf env -> below d (cm_next m')).
Proof.
  intros H BL NB B1. unfold scan_orphans in H. iobind H. apply ret_inv in H. destruct H as (_ & _ & [= ->]).
  assert (SUB : forall n, In n a -> In n (map fst (d_segs d))). { intros n I1. unfold list_names in E. destruct env as [|[|cut|?] r]; try discriminate E; injection E as <- _ _; try exact I1. rewrite <- (firstn_skipn cut (map fst (d_segs d))). apply in_or_app. now left. }
  assert (UP : max_on_disk a 0 <= B - 1). { apply max_on_disk_le; [|lia]. intros n k I1 SN SK. apply SUB, names_get in I1. destruct (dir_get (d_segs d) n) as [f|] eqn:F; [|contradiction]. specialize (BL n f k SN F SK). lia. }
  assert (FR : nf env -> below d (max_on_disk a 0 + 1)). { intros NF n f k SN F SK. assert (EA : a = map fst (d_segs d)). { unfold list_names in E. destruct env as [|[|cut|?] r]; try discriminate E; [| |inversion NF; contradiction]; injection E as <- _ _; reflexivity. }
    subst a. destruct (max_on_disk_ge (map fst (d_segs d)) 0) as [_ G]. assert (k <= max_on_disk (map fst (d_segs d)) 0); [|lia]. apply (G n); [apply names_get; congruence|exact SN|exact SK]. }
  destruct (N.ltb_spec (cm_next m) (max_on_disk a 0 + 1)) as [L|L]; cbn [set_next cm_next].
  - split; [lia|]. split; [lia|exact FR].
  - split; [exact NB|]. split; [lia|]. intros NF n f k SN F SK. specialize (FR NF n f k SN F SK). lia.
Qed.
Lemma v_fits_config g : config_ok g -> v_fits (g_vamana g).
Proof. intros [_ _ R L T S]. assert (2 ^ 32 < 2 ^ 64) by reflexivity. repeat split; lia. Qed.
Lemma extra_u32_fits M key fb n : extra_u32 M key fb = Ok n -> fb < 2 ^ 64 -> n < 2 ^ 64.
Proof.
  unfold extra_u32. intros H F. destruct (kv_get _ _) as [t|]; [|congruence]. destruct (stoull t) as [m| | |]; cbn [bind] in H; try discriminate. destruct (N.ltb_spec m (2 ^ 32)) as [L|]; [|discriminate].
  assert (m = n) by congruence. subst m. eapply N.lt_trans; [exact L|reflexivity].
Qed.
Lemma load_vparams_fits M v : load_vparams M = Ok v -> v_fits v.
Proof.
  unfold load_vparams. intros H. destruct (extra_u32 M "x_vamana_R" 64) as [r| | |] eqn:ER; cbn [bind] in H; try discriminate. destruct (extra_u32 M "x_vamana_L" 200) as [l| | |] eqn:EL; cbn [bind] in H; try discriminate.
  destruct (extra_u32 M "x_vamana_seed" 1234) as [s| | |] eqn:ES; cbn [bind] in H; try discriminate. destruct (extra_u32 M "x_vamana_num_threads" 0) as [t| | |] eqn:ET; cbn [bind] in H; try discriminate.
  injection H as <-. apply extra_u32_fits in ER, EL, ES, ET; try reflexivity. repeat split; assumption.
Qed.
Lemma open_keeps x g d M batches env c env' d' : config_ok g -> coll_at x g d M batches -> open_collection x env d = (Ret c, env', d') ->
  c_max_pending c = g_max_pending g /\ v_fits (c_vamana c) /\ c_pending c = [] /\ forall B, below d B -> cm_next M <= B -> 1 <= B -> cm_next (c_manifest c) <= B /\ (nf env -> below d (cm_next (c_manifest c))).
Proof.
  intros G C H. destruct C as [(text & TX & SV) GM D ME TY EX SG _]. pose proof (go_max _ G) as GX. unfold open_collection in H.
  iobind H. destruct (tame_read_root _ _ _ _ _ _ E) as [TR _]. apply read_root_inv in E. destruct E as [-> E]. specialize (E _ eq_refl). assert (a = text) by congruence. subst a.
  iobind H. apply lift_inv in E0. destruct E0 as (-> & -> & [(m & L & [= ->])|?]); [|discriminate]. pose proof (cm_save_load _ _ _ GM SV L) as ->.
  assert (CP : extra_u64 M "x_max_pending_bytes" default_max_pending = Ok (g_max_pending g)) by (unfold extra_u64; rewrite EX, collection_cap; apply stoull_dec; exact GX).
  assert (K : forall cap v env1, (nf env -> nf env1) -> (do segments <- open_listed x (cm_segments M); do m' <- scan_orphans M;
      ret {| c_manifest := m'; c_segments := segments; c_dirs := cm_segments M; c_pending := []; c_max_pending := cap; c_vamana := v |}) env1 d = (Ret c, env', d') ->
      c_max_pending c = cap /\ c_vamana c = v /\ c_pending c = [] /\ forall B, below d B -> cm_next M <= B -> 1 <= B -> cm_next (c_manifest c) <= B /\ (nf env -> below d (cm_next (c_manifest c)))).
  { clear H. intros cap v env1 NI H2. iobind H2. destruct (tame_open_listed _ _ _ _ _ _ _ E0) as [TM _]. pose proof (open_listed_inv _ _ _ _ _ _ _ E0) as ->. iobind H2.
    apply ret_inv in H2. destruct H2 as (_ & _ & [= ->]). cbn [c_max_pending c_vamana c_pending c_manifest]. do 3 (split; [reflexivity|]). intros B BL NB B1. destruct (scan_next _ _ _ _ _ _ _ E1 BL NB B1) as (S1 & _ & S3). auto. }
  destruct (cm_type M) eqn:TM; [| |apply throw_inv in H; destruct H as (_ & _ & ?); discriminate].
  - rewrite (lift_ok _ _ _ _ _ CP) in H. cbn [lift] in H. unfold ret at 1 in H. unfold bindio at 1 in H. destruct (K _ _ _ TR H) as (K1 & K2 & K3). split; [exact K1|]. split; [rewrite K2; repeat split|exact K3].
  - rewrite (lift_ok _ _ _ _ _ CP) in H. iobind H. apply lift_inv in E0. destruct E0 as (-> & -> & [(v & LV & [= ->])|?]); [|discriminate]. destruct (K _ _ _ TR H) as (K1 & K2 & K3). split; [exact K1|]. split; [|exact K3]. rewrite K2.
    destruct (load_vparams M) as [v'| | |] eqn:LV'; cbn [bind] in LV; try discriminate. destruct (match cm_metric M with L2 => negb (vparams_ok v') | _ => true end); [discriminate|]. injection LV as ->. eapply load_vparams_fits. exact LV'.
Qed.
Lemma open_nt x g d M batches env o env' d' : config_ok g -> accepted g -> reopenable g -> coll_at x g d M batches -> N.of_nat (length batches) <= 49900 -> nf env -> open_collection x env d = (o, env', d') -> o <> Thrown.
Proof.
  intros G (NL & MN & D0 & VO) RO C LB NF H. destruct C as [(text & TX & SV) GM D ME TY EX SG _]. pose proof (go_dim _ G) as DL. pose proof (go_max _ G) as GX.
  assert (LS : length (cm_segments M) = length batches) by (clear - SG; induction SG; cbn; congruence).
  assert (LT : N.of_nat (length text) <= k_max_manifest_bytes). { eapply collection_text_short; try eassumption; [now apply v_fits_config|]. rewrite LS. exact LB. }
  pose proof (cm_round_trip M text GM SV LT) as LD.
  unfold open_collection in H. iobind H; destruct (read_root_nt _ _ _ _ _ _ _ NF TX E) as (NF1 & -> & R); [|destruct R; discriminate|discriminate]. destruct R as [[= ->]|?]; [|discriminate].
  rewrite (lift_ok _ _ _ _ _ LD) in H. rewrite TY in H.
  assert (CP : extra_u64 M "x_max_pending_bytes" default_max_pending = Ok (g_max_pending g)) by (unfold extra_u64; rewrite EX, collection_cap; apply stoull_dec; exact GX).
  assert (K : forall cap v env, nf env -> (do segments <- open_listed x (cm_segments M); do m' <- scan_orphans M;
      ret {| c_manifest := m'; c_segments := segments; c_dirs := cm_segments M; c_pending := []; c_max_pending := cap; c_vamana := v |}) env d = (o, env', d') -> o <> Thrown).
  { clear H. intros cap v env1 NF2 H2. iobind H2.
    - destruct (tame_open_listed _ _ _ _ _ _ _ E0) as [TM _]. pose proof (open_listed_inv _ _ _ _ _ _ _ E0) as ->. iobind H2.
      + apply ret_inv in H2. destruct H2 as (_ & _ & ->). discriminate.
      + unfold scan_orphans in E1. exfalso. apply bind_inv in E1. destruct E1 as [(a1 & e1 & d1 & _ & E1)|[[E1 _]|[_ E1]]]; [apply ret_inv in E1; destruct E1 as (_ & _ & ?); discriminate| |discriminate].
        apply list_names_inv in E1. destruct E1 as [_ [?|(? & ?)]]; discriminate.
      + discriminate.
    - exfalso. exact (open_listed_nt _ _ _ _ _ DL NL SG _ _ _ _ NF2 E0 eq_refl).
    - discriminate. }
  destruct (g_type g) eqn:TG; [| |contradiction].
  - rewrite (lift_ok _ _ _ _ _ CP) in H. cbn [lift] in H. unfold ret at 1 in H. unfold bindio at 1 in H. exact (K _ _ _ NF1 H).
  - rewrite (lift_ok _ _ _ _ _ CP) in H. destruct (ro_vamana _ RO TG) as [ML SL]. rewrite (load_vparams_back M (g_max_pending g) (g_vamana g)) in H; try assumption; try apply G. cbn [bind] in H.
    rewrite ME, ML, (VO eq_refl) in H. cbn [negb lift] in H. unfold ret at 1 in H. unfold bindio at 1 in H. exact (K _ _ _ NF1 H).
Qed.

(** ** Flushing *)
Record obj_more (g : config) (c : coll) : Prop := {
  om_v : v_fits (c_vamana c);
  om_cap : c_max_pending c = g_max_pending g;
  om_pend : 2 * N.of_nat (length (c_pending c)) * (g_dim g * 4 + 8) <= g_max_pending g;
}.
Lemma below_grow (P : bytes -> Prop) d d' B B' : below d B -> grow P d d' -> B <= B' -> (forall n k, P n -> segment_name n -> segment_number n = Some k -> k < B') -> below d' B'.
Proof.
  intros BL G L PN n f k SN F SK. destruct (G n f SN F) as [F0|PP]; [|eapply PN; eassumption]. destruct (dir_get (d_segs d) n) as [f0|] eqn:E; [|contradiction]. specialize (BL n f0 k SN E SK). lia.
Qed.
Lemma format_number n k : segment_name (format_segment_id n) -> segment_number (format_segment_id n) = Some k -> k = n.
Proof. intros SN SK. destruct (N.lt_ge_cases n (10 ^ 8)) as [L|L]; [|destruct (segment_id_refuted n L SN)]. destruct (segment_id_partial n L) as [_ S]. congruence. Qed.
Record sound (x : extern) (g : config) : Prop := {
  so_graphs : graphs_load x;
  so_vamana : g_type g = Vamana -> g_max_pending g <= 2 ^ 36;
}.
Lemma vamana_count dim n cap : 0 < dim -> 2 * n * (dim * 4 + 8) <= cap -> cap <= 2 ^ 36 -> n < 2 ^ 32.
Proof. intros. assert (2 * n * 12 <= cap) by nia. lia. Qed.
Lemma flush_more x g M batches c a s1 s2 env d o env' d' c' B : config_ok g -> extern_ok x -> coll_at x g d M batches -> obj_at g M batches c a -> obj_more g c ->
  below d B -> cm_next (c_manifest c) < B -> flush x s1 s2 c env d = (o, env', d', c') ->
  below d' B /\ obj_more g c' /\ (cm_next (c_manifest c') = cm_next (c_manifest c) \/ cm_next (c_manifest c') = cm_next (c_manifest c) + 1)
  /\ (sound x g -> nf env -> below d (cm_next (c_manifest c)) -> o <> Crashed -> below d' (cm_next (c_manifest c'))).
Proof.
  intros GO X C O OM BL NB H. destruct O as [(n & OMM) OD OS OP OR OZ]. pose proof OM as [OV OC OPD]. unfold flush in H. rewrite OP in *. destruct a as [|r0 a'].
  { injection H as <- <- <- <-. split; [exact BL|]. split; [exact OM|]. split; [now left|]. auto. }
  set (a := r0 :: a') in *. rewrite OD in H. rewrite OMM in *. cbn [set_next cm_next cm_type cm_version cm_dim cm_metric cm_segments cm_extras] in H.
  pose proof (gc_dim _ (ca_good _ _ _ _ _ C)) as DP. rewrite (ca_dim _ _ _ _ _ C) in DP. pose proof (go_dim _ GO) as DL.
  match type of H with (match ?b with _ => _ end) = _ => destruct b as [[r e1] d1] eqn:BE end.
  assert (BI : grow (fun m => m = format_segment_id n) d d1 /\ (nf env -> nf e1) /\ (sound x g -> nf env -> r = Thrown -> grow none d d1)).
  { destruct (no_repeats (map fst a)); cbn [negb] in BE; [|apply throw_inv in BE; destruct BE as (-> & -> & ->); split; [apply grow_refl|]; split; [auto|intros; apply grow_refl]].
    iobind BE; try (destruct (tame_no_clash _ _ _ _ _ _ _ E) as [TN _]; apply no_clash_inv in E; subst; split; [apply grow_refl|]; split; [auto|intros; apply grow_refl]).
    destruct (tame_no_clash _ _ _ _ _ _ _ E) as [TN _]. apply no_clash_inv in E. subst d0.
    match type of BE with context [if ?b then throw else _] => destruct b end; [apply throw_inv in BE; destruct BE as (-> & -> & ->); split; [apply grow_refl|]; split; [auto|intros; apply grow_refl]|].
    destruct (tame_create_segment _ _ _ _ _ _ _ _ _ _ _ BE) as [TC _]. split; [|split; [auto|]].
    - unfold create_segment in BE. cbn [set_next cm_type cm_dim cm_metric] in BE. destruct (cm_type M).
      + cbv beta iota in BE. destruct (N.leb _ _); [apply throw_inv in BE; destruct BE as (-> & _); apply grow_refl|]. destruct (negb (all_finite a)); [apply throw_inv in BE; destruct BE as (-> & _); apply grow_refl|].
        iobind BE; [apply open_searcher_inv in BE; subst|..]; apply flat_finish_grow in E; (eapply grow_weak; [exact E|]; intros m [_ ->]; reflexivity).
      + destruct (Nat.ltb (length a) 2); [apply throw_inv in BE; destruct BE as (-> & _); apply grow_refl|].
        destruct (N.leb _ _); [apply throw_inv in BE; destruct BE as (-> & _); apply grow_refl|]. destruct (negb (all_finite a)); [apply throw_inv in BE; destruct BE as (-> & _); apply grow_refl|].
        iobind BE; [apply open_searcher_inv in BE; subst|..]; apply vamana_finish_grow in E; (eapply grow_weak; [exact E|]; intros m [_ ->]; reflexivity).
      + apply throw_inv in BE; destruct BE as (-> & _); apply grow_refl.
    - intros [SG SV] NF RT. apply (create_segment_grow x g) in BE; try assumption; try apply C; try (split; [apply DP|exact DL]).
      + destruct BE as [_ BE]. apply BE; [apply TN; exact NF|exact RT].
      + intros TV. eapply vamana_count; [apply DP|exact OPD|apply SV; exact TV]. }
  destruct BI as (G & TE & GT). assert (FN : forall m k, m = format_segment_id n -> segment_name m -> segment_number m = Some k -> k = n) by (intros m k ->; apply format_number). destruct r as [s| |].
  - match type of H with context [publish ?m ?st ?e ?dd] => set (NM := m) in *; destruct (publish NM st e dd) as [[r2 e2] d2] eqn:PB end. pose proof (publish_inv _ _ _ _ _ _ _ PB) as [SG _].
    assert (G2 : grow (fun m => m = format_segment_id n) d d2) by (intros m f SN F; rewrite SG in F; eapply G; eassumption).
    assert (B2 : below d2 B). { eapply below_grow; [exact BL|exact G2|lia|]. intros m k EM SN SK. rewrite (FN m k EM SN SK). exact NB. }
    assert (N2 : below d n -> below d2 (n + 1)). { intros Bn. eapply below_grow; [exact Bn|exact G2|lia|]. intros m k EM SN SK. rewrite (FN m k EM SN SK). lia. }
    destruct r2 as [u| |]; [destruct (sync_quietly e2 d2) as [[o3 e3] d3] eqn:SY; apply sync_quietly_same in SY; destruct SY as [-> SY]|..]; cbv beta iota zeta in H; injection H as <- <- <- <-.
    + split; [exact B2|]. split; [constructor; cbn [c_vamana c_max_pending c_pending length]; [exact OV|exact OC|lia]|]. split; [right; reflexivity|]. intros _ _ Bn _. exact (N2 Bn).
    + split; [exact B2|]. split; [constructor; assumption|]. split; [right; reflexivity|]. intros _ _ Bn _. exact (N2 Bn).
    + split; [exact B2|]. split; [constructor; assumption|]. split; [right; reflexivity|]. intros _ _ _ OC2. contradiction.
  - cbv beta iota zeta in H. injection H as <- <- <- <-. split; [|split; [exact OM|split; [left; now rewrite OMM|]]].
    + eapply below_grow; [exact BL|exact G|lia|]. intros m k EM SN SK. rewrite (FN m k EM SN SK). exact NB.
    + intros SO NF Bn _. rewrite OMM. eapply below_grow; [exact Bn|exact (GT SO NF eq_refl)|lia|]. intros m k [].
  - cbv beta iota zeta in H. injection H as <- <- <- <-. split; [|split; [exact OM|split; [left; now rewrite OMM|]]].
    + eapply below_grow; [exact BL|exact G|lia|]. intros m k EM SN SK. rewrite (FN m k EM SN SK). exact NB.
    + intros _ _ _ OC2. contradiction.
Qed.

(** ** Histories *)
Definition is_flush (o : op) : N := match o with Flush _ _ => 1 | _ => 0 end.
Definition Inv2 (x : extern) (g : config) (s : session) (F : N) (calm : bool) : Prop :=
  exists batches M, coll_at x g (fst s) M batches /\ N.of_nat (length batches) <= F /\ cm_next M <= F + 1 /\ below (fst s) (F + 1)
  /\ match snd s with
     | Some c => (exists a, obj_at g M batches c a) /\ obj_more g c /\ cm_next (c_manifest c) <= F + 1 /\ (calm = true -> below (fst s) (cm_next (c_manifest c)))
     | None => True
     end.
Lemma below_le d a b : below d a -> a <= b -> below d b.
Proof. intros H L n f k SN FG SK. specialize (H n f k SN FG SK). lia. Qed.
Lemma add_more g c rows c' M batches a : obj_at g M batches c a -> cm_dim M = g_dim g -> add_batch c rows = Ok c' -> obj_more g c -> obj_more g c' /\ c_manifest c' = c_manifest c.
Proof.
  intros [(n & OM) OD OS OP OR OZ] D H [V CP PD]. unfold add_batch in H. rewrite OM, CP in H. cbn [set_next cm_type cm_dim] in H. rewrite D in H.
  destruct (cm_type M); [| |discriminate].
  1,2: destruct rows as [|r rows]; [injection H as <-; split; [constructor; assumption|reflexivity]|];
    cbv zeta in H; destruct (N.leb _ _) in H; [discriminate|]; destruct (N.ltb _ _) in H; [discriminate|]; destruct (N.leb _ _) in H; [discriminate|];
    destruct (N.ltb_spec (g_max_pending g) (2 * (N.of_nat (length (c_pending c)) + N.of_nat (length (r :: rows))) * (g_dim g * 4 + 8))) as [|L]; [discriminate|];
    injection H as <-; (split; [|reflexivity]); constructor; cbn [set_pending c_vamana c_max_pending c_pending]; try assumption; rewrite app_length, Nat2N.inj_add; exact L.
Qed.
Lemma step_inv2 x g s o env r s' F calm : config_ok g -> extern_ok x -> op_ok (g_dim g) o -> (calm = true -> sound x g /\ nf env) -> Inv2 x g s F calm -> step x s o env = (r, s') -> Inv2 x g s' (F + is_flush o) calm.
Proof.
  intros G X OK CA (batches & M & C & LB & NM & BL & O) H. destruct s as [d oc]. cbn [fst snd] in *. destruct o as [rows|s1 s2|]; cbn [is_flush].
  - rewrite N.add_0_r. destruct oc as [c|]; cbn [step] in H; [|injection H as _ <-; exists batches, M; cbn [fst snd]; auto].
    destruct O as ((a & O) & OM & NC & BC). destruct (add_batch c rows) as [c'| | |] eqn:A; injection H as _ <-.
    + destruct (add_good _ _ _ _ _ _ _ O (ca_dim _ _ _ _ _ C) OK A) as [O' _]. destruct (add_more _ _ _ _ _ _ _ O (ca_dim _ _ _ _ _ C) A OM) as [OM' EM]. exists batches, M. cbn [fst snd]. rewrite EM. repeat (split; [assumption|]). split; [eexists; exact O'|auto].
    + exists batches, M. cbn [fst snd]. repeat (split; [assumption|]). split; [eexists; exact O|auto].
    + exists batches, M. cbn [fst snd]. repeat (split; [assumption|]). split; [eexists; exact O|auto].
    + exists batches, M. cbn [fst snd]. repeat (split; [assumption|]). split; [eexists; exact O|auto].
  - destruct oc as [c|]; cbn [step] in H.
    2:{ injection H as _ <-. exists batches, M. cbn [fst snd]. split; [exact C|]. split; [lia|]. split; [lia|]. split; [eapply below_le; [exact BL|lia]|exact I]. }
    destruct O as ((a & O) & OM & NC & BC). destruct (flush x s1 s2 c env d) as [[[o e'] d'] c'] eqn:FL.
    destruct (flush_more x g M batches c a s1 s2 env d o e' d' c' (F + 2) G X C O OM ltac:(eapply below_le; [exact BL|lia]) ltac:(lia) FL) as (B' & OM' & NX & CB).
    assert (OC : o <> Crashed -> calm = true -> below d' (cm_next (c_manifest c'))) by (intros OC CT; destruct (CA CT) as [SO NF]; apply (CB SO NF (BC CT) OC)).
    replace (F + 2) with (F + 1 + 1) in B' by lia.
    destruct (flush_inv _ _ _ _ _ _ _ _ _ _ _ _ _ _ X (go_dim _ G) C O FL) as [[C' R]|(M' & st & NM' & C' & EX & R)].
    + destruct R as [->|[[-> O']|(-> & -> & -> & ->)]]; cbn [result_of] in H; injection H as _ <-; exists batches, M; cbn [fst snd].
      * split; [exact C'|]. split; [lia|]. split; [lia|]. split; [exact B'|exact I].
      * split; [exact C'|]. split; [lia|]. split; [lia|]. split; [exact B'|]. split; [eexists; exact O'|]. split; [exact OM'|]. split; [destruct NX as [-> | ->]; lia|]. apply OC. discriminate.
      * split; [exact C'|]. split; [lia|]. split; [lia|]. split; [exact B'|]. split; [eexists; exact O|]. split; [exact OM'|]. split; [lia|]. exact BC.
    + destruct R as [->|[-> O']]; cbn [result_of] in H; injection H as _ <-; exists (batches ++ [st]), M'; cbn [fst snd]; rewrite app_length; cbn [length].
      * split; [exact C'|]. split; [lia|]. split; [lia|]. split; [exact B'|exact I].
      * split; [exact C'|]. split; [lia|]. split; [lia|]. split; [exact B'|]. split; [eexists; exact O'|]. split; [exact OM'|]. split; [destruct NX as [-> | ->]; lia|]. apply OC. discriminate.
  - rewrite N.add_0_r. cbn [step] in H. destruct (open_collection x env d) as [[o e'] d'] eqn:OP. pose proof (open_inv _ _ _ _ _ _ OP) as ->. destruct o as [c| |]; injection H as _ <-; exists batches, M; cbn [fst snd].
    + destruct (open_keeps _ _ _ _ _ _ _ _ _ G C OP) as (K1 & K2 & K3 & K4). destruct (K4 (F + 1) BL NM ltac:(lia)) as [K5 K6]. repeat (split; [assumption|]). split; [eexists; exact (open_good _ _ _ _ _ _ _ _ _ C OP)|].
      split; [constructor; [exact K2|exact K1|rewrite K3; cbn [length]; lia]|]. split; [exact K5|]. intros CT. apply K6. apply CA. exact CT.
    + repeat (split; [assumption|]). exact I.
    + repeat (split; [assumption|]). exact I.
Qed.
Lemma run_inv2 x g calm h : config_ok g -> extern_ok x -> Forall (fun o => op_ok (g_dim g) (fst o)) h -> (calm = true -> sound x g /\ no_failure h) ->
  forall s F rs s', Inv2 x g s F calm -> run x s h = (rs, s') -> Inv2 x g s' (F + N.of_nat (flushes h)) calm.
Proof.
  intros G X. induction 1 as [|[o env] h OK _ IH]; intros CA s F rs s' I1 H; cbn [run] in H.
  - injection H as _ <-. cbn. now rewrite N.add_0_r.
  - destruct (step x s o env) as [r s1] eqn:S. destruct (run x s1 h) as [rs1 s2] eqn:R. injection H as _ <-.
    assert (I2 : Inv2 x g s1 (F + is_flush o) calm). { eapply step_inv2; try eassumption. intros CT. destruct (CA CT) as [SO NF]. split; [exact SO|]. inversion NF; assumption. }
    assert (CA2 : calm = true -> sound x g /\ no_failure h). { intros CT. destruct (CA CT) as [SO NF]. split; [exact SO|]. inversion NF; assumption. }
    pose proof (IH CA2 _ _ _ _ I2 R) as I3. unfold flushes in *. cbn [filter fst] in *. destruct o; cbn [is_flush length] in *.
    + rewrite N.add_0_r in I3. exact I3.
    + rewrite Nat2N.inj_succ. rewrite <- N.add_1_l, N.add_assoc. exact I3.
    + rewrite N.add_0_r in I3. exact I3.
Qed.
Lemma create_inv2 x g stamp env c env' d' calm : config_ok g -> create g stamp env new_disk = (Ret c, env', d') -> Inv2 x g (d', Some c) 0 calm.
Proof.
  intros G H. pose proof (create_inv x _ _ _ _ _ _ G H) as (batches & M & C & K & O). cbn [fst snd added kept] in *. unfold create in H.
  repeat match type of H with context [if ?b then throw else _] => destruct b; [apply throw_inv in H; destruct H as (_ & _ & ?); discriminate|] end.
  cbv zeta in H. iobind H. pose proof (publish_inv _ _ _ _ _ _ _ E) as [SG PB]. rewrite (unit_ret a) in PB. destruct PB as [[NR _]|[_ (text & SV & MF)]]; [contradiction|].
  iobind H. apply sync_quietly_same in E0. destruct E0 as [-> _]. apply ret_inv in H. destruct H as (-> & _ & [= ->]).
  assert (LB : batches = []) by (destruct O as [_ _ OS _ _ _]; cbn in OS; congruence). subst batches.
  destruct (ca_text _ _ _ _ _ C) as (text' & T' & SV'). assert (text' = text) by congruence. subst text'.
  match goal with |- Inv2 _ _ (?dd, _) _ _ => assert (BE : forall B, below dd B) end.
  { intros B n f k SN F. rewrite SG in F. discriminate F. }
  destruct O as [(nx & OM) OD OS OP OR OZ]. cbn [c_manifest c_dirs] in OM, OD. assert (nx = 1) by (apply (f_equal cm_next) in OM; cbn in OM; congruence). subst nx.
  exists [], (set_next M 1). cbn [fst snd length]. split; [|split; [lia|split; [cbn; lia|split; [apply BE|]]]].
  - replace (set_next M 1) with {| cm_version := k_manifest_version; cm_dim := g_dim g; cm_metric := g_metric g; cm_type := g_type g; cm_next := 1; cm_segments := []; cm_extras := collection_extras (g_type g) (g_max_pending g) (g_vamana g) |}.
    destruct C as [_ GM D ME TY EX SGS LBS]. constructor; cbn [cm_dim cm_metric cm_type cm_extras cm_segments]; try reflexivity; try constructor; [exists text; split; assumption|..];
      cbn [cm_version cm_dim cm_metric cm_next cm_segments cm_extras]; try reflexivity; try constructor; try (rewrite <- D; apply GM); try (rewrite <- ME; apply GM); apply collection_extras_good.
  - split; [exists []; constructor; cbn; try reflexivity; [exists 1; rewrite OM; reflexivity|assumption|constructor]|].
    split; [constructor; cbn; [now apply v_fits_config|reflexivity|lia]|]. split; [cbn; lia|]. intros _. apply BE.
Qed.

(** ** A flush that returns *)
Lemma finite_test b : finite b -> is_finite_f32 b = true.
Proof.
  intros F. unfold is_finite_f32. apply negb_true_iff, N.eqb_neq. intros E. apply F. rewrite <- N.shiftr_div_pow2, <- N.land_ones.
  change 2139095040 with (N.shiftl (N.ones 8) 23) in E. apply (f_equal (fun n => N.shiftr n 23)) in E. rewrite N.shiftr_land, N.shiftr_shiftl_l in E by lia. rewrite N.sub_diag, N.shiftl_0_r in E. exact E.
Qed.
Lemma all_finite_ok rows : Forall (fun r => Forall finite (snd r)) rows -> all_finite rows = true.
Proof. intros H. apply forallb_forall. intros r I1. rewrite Forall_forall in H. specialize (H r I1). apply forallb_forall. intros b I2. rewrite Forall_forall in H. apply finite_test, H, I2. Qed.
Lemma stored_exists x m rows : (m = COS -> Forall (fun r => exists v, x_normalize x (snd r) = Ok v) rows) -> exists st, stored_rows x m rows = Ok st.
Proof.
  intros H. unfold stored_rows. destruct m; try (eexists; reflexivity). specialize (H eq_refl). induction H as [|[l v] rows (v' & V) _ (st & IH)]; [eexists; reflexivity|]. cbn [normalize_all snd] in *. rewrite V. cbn [bind]. rewrite IH. eexists. reflexivity.
Qed.
Lemma flush_nt x g F d c s1 s2 env o env' d' c' : config_ok g -> extern_ok x -> sound x g -> accepted g -> F + 1 < 10 ^ 8 -> Inv2 x g (d, Some c) F true ->
  batch_ok x g (searched c) (c_pending c) -> (g_type g = Vamana -> forall n, dir_get (d_segs d) (tmp_segment n s1) = None) -> nf env -> flush x s1 s2 c env d = (o, env', d', c') -> o <> Thrown.
Proof.
  intros G X SO (NL & MN & _ & _) FB (batches & M & C & LB & NM & BL & (a & O) & OM & NC & BC) BO TM NF H. cbn [fst snd] in *. specialize (BC eq_refl).
  pose proof (oa_segs _ _ _ _ _ O) as OSG. unfold searched in BO. rewrite OSG in BO. destruct O as [(n & OMM) OD OS OP OR OZ]. rewrite OP in BO. pose proof OM as [OV OC OPD]. unfold flush in H. rewrite OP in *. destruct a as [|r0 a'].
  { injection H as <- <- <- <-. discriminate. }
  set (a := r0 :: a') in *. rewrite OD in H. rewrite OMM in *. cbn [set_next cm_next cm_type cm_version cm_dim cm_metric cm_segments cm_extras] in *.
  pose proof (gc_dim _ (ca_good _ _ _ _ _ C)) as DP. rewrite (ca_dim _ _ _ _ _ C) in DP. pose proof (go_dim _ G) as DL. destruct BO as [B1 B2 B3 B4 B5].
  assert (NB : n < 10 ^ 8) by lia. destruct (segment_id_partial n NB) as [SN SK].
  assert (FN : dir_get (d_segs d) (format_segment_id n) = None). { destruct (dir_get (d_segs d) (format_segment_id n)) as [f|] eqn:E; [|reflexivity]. pose proof (BC _ _ _ SN E SK). lia. }
  match type of H with (match ?b with _ => _ end) = _ => destruct b as [[r e1] d1] eqn:BE end.
  assert (BI : nf e1 /\ r <> Thrown).
  { replace (no_repeats (map fst a)) with true in BE by (symmetry; apply no_repeats_iff; exact B1). cbn [negb] in BE. iobind BE.
    - destruct (tame_no_clash _ _ _ _ _ _ _ E) as [TN _]. pose proof (no_clash_inv _ _ _ _ _ _ _ E) as ->. rewrite (ca_type _ _ _ _ _ C) in BE.
      replace (match g_type g with Vamana => Nat.ltb (length a) 2 | _ => false end) with false in BE by (destruct (g_type g) eqn:TY; try reflexivity; symmetry; apply Nat.ltb_ge; apply B5; reflexivity).
      destruct (tame_create_segment _ _ _ _ _ _ _ _ _ _ _ BE) as [TC _]. split; [auto|]. revert BE. apply (create_segment_nt x g); try assumption; try apply C; try (split; [apply DP|exact DL]); try (apply TN; exact NF).
      + apply SO.
      + intros TY. apply B5. exact TY.
      + discriminate.
      + intros TY. apply TM. exact TY.
      + apply all_finite_ok. exact B3.
      + apply stored_exists. exact B4.
      + intros TY. destruct (B5 TY) as (ML & L2R & _ & GR). split; [exact ML|]. split; [exact L2R|]. destruct (GR (c_vamana c)) as (gr & GR2 & _). exists gr. exact GR2.
    - exfalso. exact (no_clash_nt _ _ _ _ _ _ (ca_segs _ _ _ _ _ C) B2 _ _ _ _ NF E eq_refl).
    - destruct (tame_no_clash _ _ _ _ _ _ _ E) as [TN _]. split; [auto|discriminate]. }
  destruct BI as [NF1 RT]. destruct r as [s| |]; [|contradiction|cbv beta iota zeta in H; injection H as <- <- <- <-; discriminate].
  match type of H with context [publish ?m ?st ?e ?dd] => set (NMM := m) in *; destruct (publish NMM st e dd) as [[r2 e2] d2] eqn:PB end.
  assert (SV : exists t, cm_save NMM = Ok t). { unfold cm_save. subst NMM. cbn [cm_metric]. rewrite (ca_metric _ _ _ _ _ C). destruct (metric_to_string_ok _ MN) as (mt & ->). eexists. reflexivity. }
  destruct SV as (t & SV). pose proof (publish_nt _ _ _ _ _ _ _ _ NF1 SV PB) as PT.
  destruct r2 as [u| |]; [destruct (sync_quietly e2 d2) as [[o3 e3] d3] eqn:SY; apply sync_quietly_same in SY; destruct SY as [-> SY]|contradiction|]; cbv beta iota zeta in H; injection H as <- <- <- <-; [destruct SY as [-> | ->]|]; discriminate.
Qed.
Lemma flush_calm x s1 s2 c d o env' d' c' : flush x s1 s2 c [] d = (o, env', d', c') -> o <> Crashed.
Proof.
  intros H. unfold flush in H. destruct (c_pending c) as [|r0 a']; [injection H as <- <- <- <-; discriminate|]. set (a := r0 :: a') in *.
  match type of H with (match ?b with _ => _ end) = _ => destruct b as [[r e1] d1] eqn:BE end.
  assert (T : e1 = [] /\ r <> Crashed).
  { match type of BE with ?m [] d = _ => assert (TM : tame m) end.
    { destruct (negb _); [apply tame_throw|]. apply tame_bind; [apply tame_no_clash|intros _]. match goal with |- tame (if ?b then _ else _) => destruct b end; [apply tame_throw|apply tame_create_segment]. }
    apply (TM _ _ _ _ _ BE). reflexivity. }
  destruct T as [-> T]. destruct r as [s| |]; [|injection H as <- <- <- <-; discriminate|contradiction].
  match type of H with context [publish ?m ?st ?e ?dd] => set (NMM := m) in *; destruct (publish NMM st e dd) as [[r2 e2] d2] eqn:PB end.
  destruct (tame_publish _ _ _ _ _ _ _ PB) as [_ T2]. destruct (T2 eq_refl) as [-> T3]. destruct r2 as [u| |]; [|injection H as <- <- <- <-; discriminate|contradiction].
  cbn [sync_quietly] in H. cbv beta iota zeta in H. injection H as <- <- <- <-. discriminate.
Qed.
(** ** Rejected rows *)
(** The pending rows repeat a label, or use one that is on disk *)
Definition bad_labels (l rows : list row) : Prop := ~ NoDup (labels rows) \/ exists n, In n (labels rows) /\ In n (labels l).
Lemma bad_more l a rows : bad_labels l a -> bad_labels l (a ++ rows).
Proof.
  intros [N1|(n & I1 & I2)]; [left|right; exists n; split; [rewrite labels_app, in_app_iff; now left|exact I2]]. intros N2. apply N1. rewrite labels_app in N2. clear - N2. revert N2. generalize (labels a) (labels rows). intros p q. induction p as [|n p IH]; intros N2; [constructor|].
  cbn [app] in N2. inversion N2 as [|? ? NI ND]; subst. constructor; [intros I1; apply NI; apply in_or_app; now left|auto].
Qed.
Lemma bad_stays x g k h k' : history x g k h k' -> (forall o, In o (map fst h) -> o <> Reopen) -> (forall a, added k = Some a -> bad_labels (kept k) a) -> Forall (fun e => match fst e with Flush _ _ => snd e <> Returned | _ => True end) h.
Proof.
  induction 1 as [k|k o r k1 h k2 A _ IH]; intros NR B; [constructor|]. assert (NR2 : forall o, In o (map fst h) -> o <> Reopen) by (intros o' I1; apply NR; now right).
  constructor; [|apply IH; [exact NR2|]]; cbn [fst snd] in *.
  - destruct o; try exact I. intros ->. inversion A as [| |? ? ? EK|? ? ? ? ? EX EK| | | | | |]; subst; specialize (B _ eq_refl); cbn [kept] in B.
    + destruct B as [B|(n & [] & _)]. apply B. constructor.
    + destruct EX as (new & _ & _ & _ & ND & NI). destruct B as [B|(n & I1 & I2)]; [contradiction|]. exact (NI n I1 I2).
  - intros a EA. inversion A; subst; cbn [added kept] in *; try discriminate; try (exfalso; apply (NR Reopen); [now left|reflexivity]).
    + injection EA as <-. apply bad_more. apply B. reflexivity.
    + apply B. exact EA.
    + apply B. exact EA.
    + injection EA as <-. specialize (B _ eq_refl). destruct H as (new & _ & _ & _ & ND & NI). destruct B as [B|(n & I1 & I2)]; [contradiction|]. destruct (NI n I1 I2).
    + apply B. exact EA.
Qed.
