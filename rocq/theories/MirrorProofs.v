(** Proofs about the cache of an updatable disk index. *)
From Verif Require Import LayoutProofs GraphFileProofs StoreProofs NodeCacheProofs.
From Verif Require Export MirrorSpec.
Local Open Scope N_scope.

Section Mirror.
Context (dim degree limit : N) (g : geometry).
Context (F : layout_fits dim degree limit) (L32 : limit <= 2 ^ 32) (G : geo dim degree g) (EG : compute dim degree = Ok g).
Notation cinv := (cinv dim degree limit g).
Notation good := (good dim degree).

Definition good_nodes (f : N -> option node) : Prop := forall x e, f x = Some e -> good e /\ x < limit.
(** Cached nodes are the latest; of others the disk has the latest. *)
Definition covers (s : contents) (disk pages : N -> option node) : Prop := forall x, match ct_node s x with Some e => pages x = Some e | None => disk x = pages x end.
Definition files_ok (files : bytes * bytes) (pages : N -> option node) : Prop :=
  exists c1 c s, nc_load nc_new (fst files) (snd files) = Ok c1 /\ configure_geometry c1 dim degree = Ok c /\ cinv c s
    /\ forall x e, ct_node s x = Some e -> pages x = Some e.
Definition minv (clean : bool) (st : mirror) (latest : N -> option node) : Prop :=
  (forall x, mi_pages st x = latest x) /\ good_nodes (mi_pages st)
  /\ (exists s, cinv (mi_cache st) s /\ covers s (mi_disk st) (mi_pages st))
  /\ (clean = true -> (forall x, mi_disk st x = mi_pages st x) /\ files_ok (mi_files st) (mi_pages st)).

Lemma read_ok_latest clean st latest peek x : minv clean st latest -> search_read dim st peek x = Ok (latest x).
Proof.
  intros (HP & HG & (s & CI & CV) & _). unfold search_read. pose proof (cinv_shows dim degree limit g L32 G _ _ CI) as [SH _]. rewrite SH. cbn [bind].
  specialize (CV x). rewrite <- HP. destruct (ct_node s x) as [e|] eqn:E; cbn [option_map].
  - destruct (HG x e CV) as [(H1 & H2 & H3 & H4) _]. destruct F as (_ & DB & _). rewrite view_record_ok by assumption. cbn [bind]. rewrite CV. now destruct e.
  - now destruct peek; [|rewrite CV].
Qed.

Lemma upsert_inv c s id e : cinv c s -> id < limit -> good e -> exists c', upsert_node c id (fst e) (snd e) = Ok c' /\ cinv c' (spec_op s (Upsert id (fst e) (snd e))).
Proof.
  intros CI Hid (H1 & H2 & H3 & H4). apply (step_rep dim degree limit g F L32 G EG c s (Upsert id (fst e) (snd e))); [|exact CI]. now repeat split.
Qed.
Lemma save_ok c s : cinv c s -> exists files, nc_save c = Ok files /\ exists c1 c' , nc_load nc_new (fst files) (snd files) = Ok c1
  /\ configure_geometry c1 dim degree = Ok c' /\ cinv c' (spec_op s Reload).
Proof.
  intros CI. destruct (step_rep dim degree limit g F L32 G EG c s Reload I CI) as (c' & E & CI'). cbn [cache_step] in E.
  destruct (nc_save c) as [[a b]| | |] eqn:ES; cbn [bind] in E; try discriminate. exists (a, b). split; [reflexivity|]. cbn [fst snd].
  destruct (nc_load nc_new a b) as [c1| | |] eqn:EL; cbn [bind] in E; try discriminate. now exists c1, c'.
Qed.

Lemma mirror_step_ok clean st latest o : mop_ok dim degree limit o -> minv clean st latest -> (o = Reopen -> clean = true) ->
  exists st', mirror_step dim degree st o = Ok st'
    /\ minv (match o with Insert _ _ _ | Relink _ _ => false | Flush | Reopen => true | _ => clean end) st' (latest_step latest o).
Proof.
  intros HO (HP & HG & (s & CI & CV) & HC) HR. destruct o as [slot coords nbrs|id nbrs|ids| | |]; cbn [mirror_step mop_ok] in *.
  - destruct HO as (H1 & H2 & H3 & H4 & H5). assert (GE : good (coords, nbrs)) by (now repeat split).
    destruct (upsert_inv _ _ slot (coords, nbrs) CI H1 GE) as (c' & E & CI'). cbn [fst snd] in *. unfold write_inserted_node. rewrite E. cbn [bind].
    eexists. split; [reflexivity|]. split; [|split; [|split]]; cbn [mi_disk mi_pages mi_cache mi_files].
    + intros x. unfold put_node. cbn [latest_step]. now rewrite HP.
    + intros x e. unfold put_node. destruct (N.eqb_spec x slot) as [->|NE]; [intros [= <-]; now split|apply HG].
    + eexists. split; [exact CI'|]. intros x. cbn [spec_op ct_node]. unfold set_node, put_node. destruct (N.eqb x slot); [reflexivity|apply CV].
    + discriminate.
  - destruct HO as (H1 & H4 & H5). unfold relink. destruct (mi_pages st id) as [page|] eqn:EP.
    2: { exists st. split; [reflexivity|]. split; [|split; [exact HG|split; [now exists s|discriminate]]].
         intros x. cbn [latest_step]. destruct (N.eqb_spec x id) as [->|NE]; [|apply HP]. rewrite EP, <- HP, EP. reflexivity. }
    destruct (HG id page EP) as [GP _]. assert (GE : good (fst page, nbrs)) by (destruct GP as (A & B & _); now repeat split).
    assert (EM : mirror_neighbors dim (mi_cache st) page id nbrs = upsert_node (mi_cache st) id (fst page) nbrs).
    { unfold mirror_neighbors. pose proof (cinv_shows dim degree limit g L32 G _ _ CI) as [SH _]. rewrite SH. cbn [bind]. specialize (CV id).
      destruct (ct_node s id) as [e|] eqn:E; cbn [option_map]; [|reflexivity]. rewrite EP in CV. injection CV as <-.
      destruct GP as (L1 & V1 & _). unfold record_bytes. fold (u32s (fst page)). rewrite read_app_l by (rewrite u32s_length; lia).
      rewrite read_ok by (rewrite u32s_length; lia). cbn [bind N.to_nat skipn]. rewrite firstn_all2 by (rewrite u32s_length; lia).
      replace (N.to_nat dim) with (length (fst page)) by lia. rewrite <- (app_nil_r (u32s (fst page))), read_u32s_enc by exact V1. reflexivity. }
    rewrite EM. destruct (upsert_inv _ _ id (fst page, nbrs) CI H1 GE) as (c' & E & CI'). cbn [fst snd] in *. rewrite E. cbn [bind].
    eexists. split; [reflexivity|]. split; [|split; [|split]]; cbn [mi_disk mi_pages mi_cache mi_files].
    + intros x. unfold put_node. cbn [latest_step]. rewrite <- !HP, EP. now destruct page.
    + intros x e. unfold put_node. destruct (N.eqb_spec x id) as [->|NE]; [intros [= <-]; now split|apply HG].
    + eexists. split; [exact CI'|]. intros x. cbn [spec_op ct_node]. unfold set_node, put_node. destruct (N.eqb x id); [reflexivity|apply CV].
    + discriminate.
  - eexists. split; [reflexivity|]. split; [exact HP|]. split; [exact HG|]. cbn [write_back mi_disk mi_pages mi_cache mi_files]. split.
    + exists s. split; [exact CI|]. intros x. specialize (CV x). destruct (ct_node s x); [exact CV|]. now destruct (existsb (N.eqb x) ids).
    + intros C. destruct (HC C) as [HD HF]. split; [|exact HF]. intros x. destruct (existsb (N.eqb x) ids); [reflexivity|apply HD].
  - eexists. split; [reflexivity|]. split; [exact HP|]. split; [exact HG|]. cbn [flush_pages mi_disk mi_pages mi_cache mi_files]. split.
    + destruct (step_rep dim degree limit g F L32 G EG _ s DropDiskBacked I CI) as (c' & [= <-] & CI'). eexists. split; [exact CI'|].
      intros x. cbn [spec_op ct_node]. specialize (CV x). destruct (ct_pinned s x); [|reflexivity]. destruct (ct_node s x); [exact CV|reflexivity].
    + intros C. destruct (HC C) as [_ HF]. now split.
  - destruct (step_rep dim degree limit g F L32 G EG _ s DropDiskBacked I CI) as (c' & [= EC] & CI').
    destruct (save_ok _ _ CI') as (files & ES & c1 & c2 & EL & EC2 & CI2). unfold flush. cbn [flush_pages mi_cache]. rewrite EC, ES. cbn [bind].
    eexists. split; [reflexivity|]. split; [exact HP|]. split; [exact HG|]. cbn [mi_disk mi_pages mi_cache mi_files]. split.
    + exists (spec_op s DropDiskBacked). split; [exact CI'|].
      intros x. cbn [spec_op ct_node]. specialize (CV x). destruct (ct_pinned s x); [|reflexivity]. destruct (ct_node s x); [exact CV|reflexivity].
    + intros _. split; [reflexivity|]. exists c1, c2. eexists. split; [exact EL|]. split; [exact EC2|]. split; [exact CI2|].
      intros x e. cbn [spec_op ct_node]. specialize (CV x). destruct (ct_pinned s x); [|discriminate]. destruct (ct_node s x); [|discriminate]. intros [= <-]. exact CV.
  - destruct (HC (HR eq_refl)) as [HD (c1 & c2 & s2 & EL & EC2 & CI2 & CV2)]. unfold reopen. rewrite EL. cbn [bind]. rewrite EC2. cbn [bind].
    eexists. split; [reflexivity|]. split; [intros x; cbn; now rewrite HD|]. split; [intros x e; cbn; rewrite HD; apply HG|]. cbn [mi_disk mi_pages mi_cache mi_files]. split.
    + exists s2. split; [exact CI2|]. intros x. destruct (ct_node s2 x) eqn:E; [|reflexivity]. rewrite HD. now apply CV2.
    + intros _. split; [reflexivity|]. exists c1, c2, s2. split; [exact EL|]. split; [exact EC2|]. split; [exact CI2|]. intros x e E. rewrite HD. now apply CV2.
Qed.
Lemma mirror_run_ok ops : forall clean st latest, Forall (mop_ok dim degree limit) ops -> closed_clean clean ops -> minv clean st latest ->
  exists st' clean', mirror_run dim degree st ops = Ok st' /\ minv clean' st' (fun x => fold_left latest_step ops latest x).
Proof.
  induction ops as [|o ops IH]; intros clean st latest HO HC HI; [now exists st, clean|]. apply Forall_cons_iff in HO as [H1 H2].
  destruct (mirror_step_ok clean st latest o H1 HI) as (st1 & E1 & I1). { intros ->. apply HC. }
  assert (HC' : closed_clean (match o with Insert _ _ _ | Relink _ _ => false | Flush | Reopen => true | _ => clean end) ops) by (destruct o; cbn in HC |- *; tauto).
  destruct (IH _ st1 _ H2 HC' I1) as (st2 & c2 & E2 & I2). exists st2, c2. cbn [mirror_run fold_left]. rewrite E1. cbn [bind]. now split.
Qed.

Lemma built_ok vs graph medoid want : layout_input vs graph dim degree -> N.of_nat (length graph) <= limit -> medoid < N.of_nat (length graph) ->
  exists st, built_index vs graph medoid dim degree want = Ok st /\ minv true st (built vs graph).
Proof.
  intros I Hn M. assert (EC : cut degree graph = graph).
  { unfold cut. rewrite <- (map_id graph) at 2. apply map_ext_in. intros a Ha. apply firstn_all2. destruct (li_nbrs _ _ _ _ I a Ha). lia. }
  destruct (generate_ok dim degree limit g F L32 G EG vs graph _ ltac:(rewrite EC; exact I) eq_refl Hn medoid want M) as (c & E & CN & CI).
  destruct (save_ok _ _ CI) as (files & ES & c1 & c2 & EL & EC2 & CI2). unfold built_index. rewrite E. cbn [bind]. rewrite ES. cbn [bind].
  assert (CV : forall x e, ct_node (generated degree vs graph (nc_ids c)) x = Some e -> built vs graph x = Some e).
  { intros x e. cbn [generated ct_node]. destruct (existsb (N.eqb x) (nc_ids c)) eqn:X; [|discriminate]. intros [= <-]. apply existsb_in in X.
    assert (Hx : x < N.of_nat (length graph)) by (destruct (cn_reached _ _ _ _ CN x X) as [k H]; destruct H; [exact M|assumption]).
    unfold built. rewrite (nth_error_nth' vs []), (nth_error_nth' graph []), EC by (try rewrite (li_vectors _ _ _ _ I); lia). reflexivity. }
  eexists. split; [reflexivity|]. split; [reflexivity|]. cbn [mi_disk mi_pages mi_cache mi_files]. split; [|split].
  - intros x e. unfold built. destruct (nth_error vs (N.to_nat x)) as [v|] eqn:EV; [|discriminate]. destruct (nth_error graph (N.to_nat x)) as [row|] eqn:ER; [|discriminate].
    intros [= <-]. assert (N.to_nat x < length graph)%nat by (apply nth_error_Some; congruence). split; [|lia]. apply nth_error_In in EV, ER.
    destruct (li_row _ _ _ _ I v EV). destruct (li_nbrs _ _ _ _ I row ER). now repeat split.
  - eexists. split; [exact CI|]. intros x. destruct (ct_node _ x) eqn:X; [now apply CV|reflexivity].
  - intros _. split; [reflexivity|]. exists c1, c2. eexists. split; [exact EL|]. split; [exact EC2|]. split; [exact CI2|]. intros x e. cbn [spec_op ct_node]. apply CV.
Qed.
End Mirror.
