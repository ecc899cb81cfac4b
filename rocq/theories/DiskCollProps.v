(** Disk collections: include/index/disk/disk_collection.hpp *)
From Coq Require Import String.
From Verif Require Import SegManifestProofs SegManifestProps.
From Verif Require Export DiskCollLive.
Local Open Scope N_scope.

(** C47 *)
(** Whatever a user does with a new collection, whatever fails and whenever the
    process dies: a search goes through the rows of the flushes that returned, and
    perhaps those of flushes in which the process died; no label occurs twice. *)
Theorem collection_history x g stamp env c env' d h results s : config_ok g -> extern_ok x -> create g stamp env new_disk = (Ret c, env', d) ->
  Forall (fun o => op_ok (g_dim g) (fst o)) h -> run x (d, Some c) h = (results, s) ->
  exists k, history x g {| kept := []; added := Some [] |} results k /\ NoDup (labels (kept k))
  /\ match snd s with Some c' => searched c' = kept k /\ coll_size c' = N.of_nat (length (kept k)) /\ added k = Some (c_pending c') | None => added k = None end.
Proof.
  intros G X CR OK R. pose proof (create_inv x _ _ _ _ _ _ G CR) as I0. destruct (run_inv x g h X (go_dim _ G) OK _ _ _ _ I0 R) as (k & HH & I1). exists k. split; [exact HH|]. split; [exact (inv_kept _ _ _ _ I1)|].
  destruct s as [d' [c'|]]; cbn [snd].
  - destruct (inv_searched _ _ _ _ _ I1) as (S & _ & a & A & P). split; [exact S|]. split; [|congruence]. rewrite <- S. unfold searched, coll_size. clear. induction (c_segments c') as [|t l IH]; [reflexivity|].
    cbn [map concat fold_right]. rewrite app_length, IH. lia.
  - destruct I1 as (b & M & _ & _ & O). cbn [snd] in O. destruct (added k); [contradiction|reflexivity].
Qed.
Print Assumptions collection_history.
(** After any such history, also one with failures and crashes, the collection can
    be opened again, when it has at most 49900 flushes. *)
Theorem collection_reopens x g stamp env c env' d h results s : config_ok g -> extern_ok x -> can_reopen g -> create g stamp env new_disk = (Ret c, env', d) ->
  Forall (fun o => op_ok (g_dim g) (fst o)) h -> N.of_nat (flushes h) <= 49900 -> run x (d, Some c) h = (results, s) -> exists s', step x s Reopen [] = (Returned, s').
Proof.
  intros G X CR C OK FB R. pose proof (create_inv2 x g stamp env c env' d false G C) as I0. pose proof (run_inv2 x g false h G X OK ltac:(discriminate) _ _ _ _ I0 R) as (batches & M & CA & LB & _).
  destruct s as [d' oc]. cbn [fst] in *. cbn [step]. destruct (open_collection x [] d') as [[o e'] d''] eqn:OP.
  pose proof (open_nt x g d' M batches [] o e' d'' G (create_accepted _ _ _ _ _ _ _ C) {| ro_vamana := CR |} CA ltac:(lia) ltac:(constructor) OP) as NT.
  destruct (tame_open _ _ _ _ _ _ OP) as [_ T]. destruct (T eq_refl) as [_ NC]. destruct o; [eexists; reflexivity|contradiction..].
Qed.
Print Assumptions collection_reopens.
(** After any history in which no access to the file system failed, though the
    process may have died, a flush of rows that make a segment returns. *)
Theorem collection_flushes x g stamp env c env' d h results d' c' s1 s2 : config_ok g -> extern_ok x -> can_flush x g -> create g stamp env new_disk = (Ret c, env', d) ->
  Forall (fun o => op_ok (g_dim g) (fst o)) h -> no_failure h -> N.of_nat (flushes h) + 1 < 10 ^ 8 -> run x (d, Some c) h = (results, (d', Some c')) ->
  batch_ok x g (searched c') (c_pending c') -> unused g d' s1 -> exists s', step x (d', Some c') (Flush s1 s2) [] = (Returned, s').
Proof.
  intros G X [CF1 CF2] C OK NF FB R BO UN. pose proof (create_inv2 x g stamp env c env' d true G C) as I0.
  assert (SO : sound x g) by (constructor; assumption). pose proof (run_inv2 x g true h G X OK ltac:(auto) _ _ _ _ I0 R) as I1. rewrite N.add_0_l in I1.
  cbn [step]. destruct (flush x s1 s2 c' [] d') as [[[o e'] d''] c''] eqn:FL. pose proof (flush_calm _ _ _ _ _ _ _ _ _ FL) as NC.
  pose proof (flush_nt x g _ d' c' s1 s2 [] o e' d'' c'' G X SO (create_accepted _ _ _ _ _ _ _ C) FB I1 BO UN ltac:(constructor) FL) as NT. destruct o; [eexists; reflexivity|contradiction..].
Qed.
Print Assumptions collection_flushes.

(** A run: a crash in the middle of a flush, opening again, a failed flush, a
    flush that returns. *)
Definition ex_extern : extern := {| x_normalize := fun v => Ok v; x_graph := fun _ rows => Ok (ids_bytes rows); x_graph_loads := fun _ => true |}.
Definition ex_flat : config := {| g_dim := 2; g_metric := L2; g_type := Flat; g_max_pending := 1000; g_vamana := default_vparams |}.
Definition ex_vamana (m : metric) (seed : N) : config :=
  {| g_dim := 1; g_metric := m; g_type := Vamana; g_max_pending := 1000; g_vamana := {| v_R := 64; v_L := 200; v_threads := 0; v_seed := seed |} |}.
Definition ex_start (g : config) : disk * option coll := match create g (str "0") [] new_disk with (Ret c, _, d) => (d, Some c) | (_, _, d) => (d, None) end.
Definition ex_run (g : config) (h : list (op * list event)) : list result * option (list row) :=
  let '(rs, (_, oc)) := run ex_extern (ex_start g) h in (map snd rs, match oc with Some c => Some (searched c) | None => None end).
Definition ex_history : list (op * list event) :=
  [(Add [(7, [1065353216; 0]); (8, [0; 0])], []); (Flush (str "1") (str "1"), [Good; Good; Crashes 3]); (Reopen, []);
   (Add [(7, [1065353216; 0])], []); (Flush (str "2") (str "2"), [Good; Good; Good; Good; Good; Good; Good; Good; Good; Good; Fails 5]);
   (Flush (str "3") (str "3"), []); (Add [(9, [0; 1])], []); (Flush (str "4") (str "4"), []); (Reopen, [])].
Example ex_collection : ex_run ex_flat ex_history = ([Returned; Died; Returned; Returned; Threw; Returned; Returned; Returned; Returned], Some [(7, [1065353216; 0]); (9, [0; 1])])
  /\ config_ok ex_flat /\ extern_ok ex_extern /\ can_reopen ex_flat /\ can_flush ex_extern ex_flat /\ Forall (fun o => op_ok (g_dim ex_flat) (fst o)) ex_history.
Proof.
  split; [vm_compute; reflexivity|]. split; [constructor; reflexivity|]. split; [intros v v' F [= <-]; split; [reflexivity|exact F]|]. split; [discriminate|]. split; [split; [reflexivity|discriminate]|].
  unfold ex_history, op_ok, row_ok, ex_flat. repeat (constructor; cbn [fst snd g_dim length]; try reflexivity; try exact I).
Qed.
(** A history without failures after which rows wait that can be flushed *)
Definition ex_calm : list (op * list event) :=
  [(Add [(7, [1065353216; 0]); (8, [0; 0])], []); (Flush (str "1") (str "1"), [Good; Good; Crashes 3]); (Reopen, []); (Add [(7, [1065353216; 0])], []); (Flush (str "2") (str "2"), []); (Add [(9, [0; 1])], [])].
Example ex_flushes : no_failure ex_calm /\ flushes ex_calm = 2%nat
  /\ match run ex_extern (ex_start ex_flat) ex_calm with
     | (_, (d, Some c)) => searched c = [(7, [1065353216; 0])] /\ c_pending c = [(9, [0; 1])] /\ unused ex_flat d (str "3")
     | _ => False
     end /\ batch_ok ex_extern ex_flat [(7, [1065353216; 0])] [(9, [0; 1])].
Proof.
  split; [repeat constructor|]. split; [reflexivity|]. split.
  - destruct (run ex_extern (ex_start ex_flat) ex_calm) as [rs [d oc]] eqn:R. vm_compute in R. injection R as _ <- <-. split; [reflexivity|]. split; [reflexivity|]. discriminate.
  - constructor.
    + repeat constructor. intros [].
    + intros n [<-|[]] [E|[]]. discriminate E.
    + repeat constructor; discriminate.
    + discriminate.
    + discriminate.
Qed.

(** Opening is refused although every call before returned: a seed of more than 32
    bits is written to the manifest and refused when it is read; another metric
    than L2 with disk_vamana is accepted at creation and refused by open. *)
Theorem vamana_reopen_refuted : exists g rows, config_ok g /\ g_metric g = L2
  /\ ex_run g [(Add rows, []); (Flush (str "1") (str "1"), []); (Reopen, [])] = ([Returned; Returned; Threw], None).
Proof. exists (ex_vamana L2 (2 ^ 32)), [(1, [0]); (2, [0])]. split; [constructor; reflexivity|]. split; [reflexivity|]. vm_compute. reflexivity. Qed.
Print Assumptions vamana_reopen_refuted.
Theorem vamana_metric_refuted : exists g, config_ok g /\ g_metric g = IP /\ (exists c, snd (ex_start g) = Some c) /\ ex_run g [(Reopen, [])] = ([Threw], None).
Proof. exists (ex_vamana IP 1234). split; [constructor; reflexivity|]. split; [reflexivity|]. split; [eexists; reflexivity|]. vm_compute. reflexivity. Qed.
Print Assumptions vamana_metric_refuted.
(** One failed read, when the new segment is opened, and every later flush is
    refused although the rows are in order, until the collection is opened again. *)
Theorem flush_after_failure_refuted : exists rows, batch_ok ex_extern ex_flat [] rows
  /\ ex_run ex_flat [(Add rows, []); (Flush (str "1") (str "1"), [Good; Good; Good; Good; Good; Good; Fails 0]); (Flush (str "2") (str "2"), []); (Flush (str "3") (str "3"), []);
                     (Reopen, []); (Add rows, []); (Flush (str "4") (str "4"), [])] = ([Returned; Threw; Threw; Threw; Returned; Returned; Returned], Some rows).
Proof.
  exists [(1, [0; 0])]. split; [|vm_compute; reflexivity]. constructor.
  - repeat constructor. intros [].
  - intros n _ [].
  - repeat constructor; discriminate.
  - discriminate.
  - discriminate.
Qed.
Print Assumptions flush_after_failure_refuted.

(** A collection with 49933 segments cannot be opened. *)
Theorem collection_too_long x g stamp env c env' d h results d' c' ev : config_ok g -> extern_ok x -> create g stamp env new_disk = (Ret c, env', d) ->
  Forall (fun o => op_ok (g_dim g) (fst o)) h -> run x (d, Some c) h = (results, (d', Some c')) -> 49933 <= N.of_nat (length (c_segments c')) -> fst (step x (d', Some c') Reopen ev) <> Returned.
Proof.
  intros G X C OK R L. pose proof (create_inv2 x g stamp env c env' d false G C) as I0. pose proof (run_inv2 x g false h G X OK ltac:(discriminate) _ _ _ _ I0 R) as (batches & M & CA & _ & _ & _ & (a & O) & _).
  cbn [fst snd] in *. destruct CA as [(text & TX & SV) GM D ME TY EX SG _].
  assert (LS : length (cm_segments M) = length batches) by (clear - SG; induction SG; cbn; congruence).
  assert (LB : length (c_segments c') = length batches) by (rewrite <- (oa_segs _ _ _ _ _ O), map_length; reflexivity).
  destruct (collection_size_refuted M GM ltac:(rewrite LS, <- LB; exact L)) as (t & SV' & LD). assert (t = text) by congruence. subst t.
  cbn [step]. destruct (open_collection x ev d') as [[o e'] d''] eqn:OP. destruct o as [cc| |]; cbn [fst result_of]; try discriminate. exfalso. unfold open_collection in OP.
  iobind OP. apply read_root_inv in E. destruct E as [-> E]. specialize (E _ eq_refl). assert (a0 = text) by congruence. subst a0. rewrite LD in OP. discriminate OP.
Qed.
Print Assumptions collection_too_long.
(** And it comes to that: any number of one-row flushes returns. *)
Definition many (n : nat) : list (op * list event) := concat (map (fun i => [(Add [(N.of_nat i, [0; 0])], []); (Flush [] [], [])]) (seq 0 n)).
Lemma many_S n : many (S n) = many n ++ [(Add [(N.of_nat n, [0; 0])], []); (Flush [] [], [])].
Proof. unfold many. rewrite seq_S, map_app, concat_app. cbn [map concat plus]. now rewrite app_nil_r. Qed.
Lemma run_app x s a b : run x s (a ++ b) = let (ra, sa) := run x s a in let (rb, sb) := run x sa b in (ra ++ rb, sb).
Proof.
  revert s. induction a as [|[o env] a IH]; intros s; cbn [app run]; [now destruct (run x s b)|]. destruct (step x s o env) as [r s1]. rewrite IH. destruct (run x s1 a) as [ra sa]. now destruct (run x sa b).
Qed.
Lemma ex_flat_ok : config_ok ex_flat /\ extern_ok ex_extern /\ sound ex_extern ex_flat.
Proof. split; [constructor; reflexivity|]. split; [intros v v' F [= <-]; split; [reflexivity|exact F]|]. constructor; [intros v rows gr _; reflexivity|discriminate]. Qed.
Lemma many_ok n : N.of_nat n <= 10 ^ 7 -> Forall (fun o => op_ok 2 (fst o)) (many n) /\ no_failure (many n) /\ flushes (many n) = n.
Proof.
  induction n as [|n IH]; intros L; [split; [constructor|split; [constructor|reflexivity]]|]. destruct (IH ltac:(lia)) as (A & B & C). rewrite many_S. split; [|split].
  - apply Forall_app. split; [exact A|]. constructor; [|constructor; [exact I|constructor]]. constructor; [|constructor]. split; [cbn [fst]|split; [reflexivity|repeat constructor]]. assert (10 ^ 7 < 2 ^ 64) by reflexivity. lia.
  - apply Forall_app. split; [exact B|]. repeat constructor.
  - unfold flushes in *. rewrite filter_app, app_length, C. cbn. lia.
Qed.
Lemma many_runs n : N.of_nat n <= 10 ^ 7 -> exists rs d c, run ex_extern (ex_start ex_flat) (many n) = (rs, (d, Some c)) /\ Forall (fun r => snd r = Returned) rs /\ length (c_segments c) = n /\ c_pending c = []
  /\ labels (searched c) = map N.of_nat (seq 0 n).
Proof.
  destruct ex_flat_ok as (G & X & SO). induction n as [|n IH]; intros L.
  - unfold many. cbn [seq map concat run]. unfold ex_start. destruct (create ex_flat (str "0") [] new_disk) as [[[c| |] e] d] eqn:CR; vm_compute in CR; try discriminate CR. injection CR as <- <- <-.
    do 3 eexists. split; [reflexivity|]. split; [constructor|]. split; [reflexivity|]. split; reflexivity.
  - destruct (IH ltac:(lia)) as (rs & d & c & R & FR & LS & PE & LB). destruct (many_ok n ltac:(lia)) as (OK & NF & FN).
    assert (I1 : Inv2 ex_extern ex_flat (d, Some c) (N.of_nat n) true).
    { unfold ex_start in R. destruct (create ex_flat (str "0") [] new_disk) as [[[c0| |] e] d0] eqn:CR; [|vm_compute in CR; discriminate CR..]. pose proof (create_inv2 ex_extern ex_flat _ _ _ _ _ true G CR) as I0.
      pose proof (run_inv2 ex_extern ex_flat true (many n) G X OK ltac:(intros _; split; [exact SO|exact NF]) _ _ _ _ I0 R) as I1. rewrite N.add_0_l, FN in I1. exact I1. }
    assert (AC : accepted ex_flat) by (repeat split; discriminate).
    set (row1 := (N.of_nat n, [0; 0]) : row). set (c1 := set_pending c [row1]).
    assert (A : add_batch c [row1] = Ok c1).
    { destruct I1 as (b & M & C & _ & _ & _ & (a & O) & OM & _). cbn [fst snd] in *. destruct O as [(m & OMM) _ _ _ _ _]. unfold add_batch. rewrite OMM. cbn [set_next cm_type cm_dim]. rewrite (ca_type _ _ _ _ _ C), (ca_dim _ _ _ _ _ C), (om_cap _ _ OM), PE. reflexivity. }
    assert (RO : row_ok 2 row1) by (split; [cbn [fst row1]; assert (10 ^ 7 < 2 ^ 64) by reflexivity; lia|split; [reflexivity|repeat constructor]]).
    assert (I2 : Inv2 ex_extern ex_flat (d, Some c1) (N.of_nat n) true).
    { pose proof (step_inv2 ex_extern ex_flat (d, Some c) (Add [row1]) [] Returned (d, Some c1) (N.of_nat n) true G X ltac:(constructor; [exact RO|constructor]) ltac:(intros _; split; [exact SO|constructor]) I1) as I2.
      cbn [step is_flush] in I2. rewrite A, N.add_0_r in I2. exact (I2 eq_refl). }
    assert (BO : batch_ok ex_extern ex_flat (searched c1) (c_pending c1)).
    { constructor.
      - constructor; [intros []|constructor].
      - intros m [<-|[]] I3. change (searched c1) with (searched c) in I3. rewrite LB in I3. apply in_map_iff in I3. destruct I3 as (j & EJ & I3). apply in_seq in I3. cbn [fst row1] in EJ. lia.
      - repeat constructor; discriminate.
      - discriminate.
      - discriminate. }
    destruct (flush ex_extern [] [] c1 [] d) as [[[o e'] d2] c2] eqn:FL. pose proof (flush_calm _ _ _ _ _ _ _ _ _ FL) as NC.
    pose proof (flush_nt ex_extern ex_flat (N.of_nat n) d c1 [] [] [] o e' d2 c2 G X SO AC ltac:(assert (10 ^ 7 + 1 < 10 ^ 8) by reflexivity; lia) I2 BO ltac:(discriminate) ltac:(constructor) FL) as NT.
    destruct o as [u| |]; [|contradiction..]. rewrite (unit_ret u) in FL.
    destruct I2 as (b & M & C & _ & _ & _ & (a & O) & OM & _). cbn [fst snd] in *. pose proof (oa_segs _ _ _ _ _ O) as OS. pose proof (oa_pending _ _ _ _ _ O) as OP. cbn [set_pending c_pending c1] in OP. subst a.
    destruct (flush_inv _ _ _ _ _ _ _ _ _ _ _ _ _ _ X (go_dim _ G) C O FL) as [[_ [?|[[? _]|(_ & ? & _)]]]|(M' & st & _ & C' & EX & [?|[_ O']])]; try discriminate.
    exists (rs ++ [(Add [row1], Returned); (Flush [] [], Returned)]), d2, c2. rewrite many_S, run_app, R. fold row1. cbn [run step]. rewrite A. cbn [run step]. rewrite FL. cbn [result_of].
    split; [reflexivity|]. split; [apply Forall_app; split; [exact FR|repeat constructor]|]. pose proof (oa_segs _ _ _ _ _ O') as OS'.
    assert (LB' : length b = n) by (rewrite <- OS, map_length; exact LS).
    split; [rewrite <- (map_length sr_rows), OS', app_length, LB'; cbn [length]; lia|]. split; [apply O'|].
    unfold searched. rewrite OS'. unfold searched in LB. change (c_segments c1) with (c_segments c) in OS. rewrite OS in LB. rewrite concat_app, labels_app, LB, seq_S, map_app. f_equal. cbn [concat]. rewrite app_nil_r.
    destruct EX as (new & EN & F2 & _). rewrite concat_app in EN. apply app_inv_head in EN. cbn [concat] in EN. rewrite app_nil_r in EN. subst st. now rewrite (stores_labels _ _ _ _ F2).
Qed.
Theorem collection_reopen_refuted : exists h, no_failure h /\ Forall (fun o => op_ok (g_dim ex_flat) (fst o)) h
  /\ let (results, s) := run ex_extern (ex_start ex_flat) h in Forall (fun r => snd r = Returned) results /\ forall ev, fst (step ex_extern s Reopen ev) <> Returned.
Proof.
  destruct ex_flat_ok as (G & X & SO). set (n := N.to_nat 49933). assert (L : N.of_nat n <= 10 ^ 7) by (unfold n; rewrite N2Nat.id; discriminate). destruct (many_ok n L) as (OK & NF & FN). destruct (many_runs n L) as (rs & d & c & R & FR & LS & _ & _).
  exists (many n). split; [exact NF|]. split; [exact OK|]. rewrite R. split; [exact FR|]. intros ev. unfold ex_start in R. destruct (create ex_flat (str "0") [] new_disk) as [[[c0| |] e] d0] eqn:CR; [|vm_compute in CR; discriminate CR..].
  eapply (collection_too_long ex_extern ex_flat); try eassumption. rewrite LS. unfold n. rewrite N2Nat.id. reflexivity.
Qed.
Print Assumptions collection_reopen_refuted.

(** C48 *)
(** A batch that repeats a label blocks every later flush: the rows stay pending. *)
Theorem rejected_batch_refuted : exists bad rows, ~ NoDup (labels bad) /\ batch_ok ex_extern ex_flat [] rows
  /\ ex_run ex_flat [(Add bad, []); (Flush (str "1") (str "1"), []); (Add rows, []); (Flush (str "2") (str "2"), [])] = ([Returned; Threw; Returned; Threw], Some []).
Proof.
  exists [(1, [0; 0]); (1, [0; 0])], [(2, [0; 0])]. split; [intros N1; inversion N1 as [|? ? NI _]; subst; apply NI; now left|]. split; [|vm_compute; reflexivity].
  constructor; [repeat constructor; intros []|intros n _ []|repeat constructor; discriminate|discriminate..].
Qed.
Print Assumptions rejected_batch_refuted.
(** In general: when the pending rows repeat a label or use a label that is on
    disk, no flush returns until the collection is opened again. *)
Theorem rejected_batch_blocks x g stamp env c env' d h results d' c' h2 results2 s : config_ok g -> extern_ok x -> create g stamp env new_disk = (Ret c, env', d) ->
  Forall (fun o => op_ok (g_dim g) (fst o)) (h ++ h2) -> run x (d, Some c) h = (results, (d', Some c')) ->
  ~ NoDup (labels (c_pending c')) \/ (exists n, In n (labels (c_pending c')) /\ In n (labels (searched c'))) ->
  (forall o, In o h2 -> fst o <> Reopen) -> run x (d', Some c') h2 = (results2, s) -> forall s1 s2, ~ In (Flush s1 s2, Returned) results2.
Proof.
  intros G X C OK R BAD NR R2 s1 s2 I1. apply Forall_app in OK. destruct OK as [OK1 OK2]. pose proof (create_inv x _ _ _ _ _ _ G C) as I0. destruct (run_inv x g h X (go_dim _ G) OK1 _ _ _ _ I0 R) as (k & _ & I2).
  destruct (inv_searched _ _ _ _ _ I2) as (S & _ & a & A & P). destruct (run_inv x g h2 X (go_dim _ G) OK2 _ _ _ _ I2 R2) as (k2 & HH & _).
  assert (FH : map fst results2 = map fst h2). { clear - R2. revert R2. generalize (d', Some c') as s0. revert results2 s. induction h2 as [|[o ev] h2 IH]; intros rs s s0 R; cbn [run] in R; [injection R as <- _; reflexivity|].
    destruct (step x s0 o ev) as [r s3]. destruct (run x s3 h2) as [rs3 s4] eqn:E. injection R as <- _. cbn [map fst]. f_equal. eapply IH. exact E. }
  assert (B := bad_stays x g _ _ _ HH). rewrite FH in B. assert (B2 : Forall (fun e => match fst e with Flush _ _ => snd e <> Returned | _ => True end) results2).
  { apply B; [|intros a' EA; rewrite EA in A; injection A as ->; rewrite <- S, <- P; exact BAD]. intros o I3. apply in_map_iff in I3. destruct I3 as (q & <- & I3). now apply NR. }
  rewrite Forall_forall in B2. exact (B2 _ I1 eq_refl).
Qed.
Print Assumptions rejected_batch_blocks.
(** After opening again, rows that make a segment can be added and flushed, whatever
    batches were refused before.  Missing: without opening again. *)
Theorem rejected_batch_partial x g stamp env c env' d h results s : config_ok g -> extern_ok x -> can_flush x g -> can_reopen g -> create g stamp env new_disk = (Ret c, env', d) ->
  Forall (fun o => op_ok (g_dim g) (fst o)) h -> no_failure h -> N.of_nat (flushes h) <= 49900 -> run x (d, Some c) h = (results, s) ->
  exists d1 c1, step x s Reopen [] = (Returned, (d1, Some c1))
  /\ forall rows s1 s2, Forall (row_ok (g_dim g)) rows -> batch_ok x g (searched c1) rows -> 2 * N.of_nat (length rows) * (g_dim g * 4 + 8) <= g_max_pending g -> unused g d1 s1 ->
     exists s' s'', step x (d1, Some c1) (Add rows) [] = (Returned, s') /\ step x s' (Flush s1 s2) [] = (Returned, s'').
Proof.
  intros G X CF CR C OK NF FB R. destruct (collection_reopens x g stamp env c env' d h results s G X CR C OK FB R) as ([d1 oc1] & ST). pose proof (create_accepted _ _ _ _ _ _ _ C) as (NL & _ & _ & _).
  assert (R1 : run x (d, Some c) (h ++ [(Reopen, [])]) = (results ++ [(Reopen, Returned)], (d1, oc1))) by (rewrite run_app, R; cbn [run]; rewrite ST; reflexivity).
  assert (OK1 : Forall (fun o => op_ok (g_dim g) (fst o)) (h ++ [(Reopen, [])])) by (apply Forall_app; split; [exact OK|repeat constructor]).
  pose proof (create_inv2 x g stamp env c env' d false G C) as I0. pose proof (run_inv2 x g false _ G X OK1 ltac:(discriminate) _ _ _ _ I0 R1) as (b & M & CA & _ & _ & _ & OB). cbn [fst snd] in *.
  pose proof (run_inv2 x g false _ G X OK ltac:(discriminate) _ _ _ _ I0 R) as (b0 & M0 & CA0 & _). destruct s as [ds cs]. cbn [fst step] in *.
  destruct (open_collection x [] ds) as [[o e] dd] eqn:OP. destruct o as [c1| |]; cbn [result_of] in ST; [|discriminate ST..]. injection ST as <- <-.
  exists dd, c1. split; [reflexivity|]. intros rows s1 s2 RO BO CP UN. destruct OB as ((a & O) & OM & _). pose proof (oa_manifest _ _ _ _ _ O) as (m & MM).
  pose proof (oa_pending _ _ _ _ _ (open_good _ _ _ _ _ _ _ _ _ CA0 OP)) as PE.
  assert (A : add_batch c1 rows = Ok (set_pending c1 rows)).
  { unfold add_batch. rewrite MM, (om_cap _ _ OM), PE. cbn [set_next cm_type cm_dim]. rewrite (ca_type _ _ _ _ _ CA), (ca_dim _ _ _ _ _ CA).
    pose proof (go_max _ G). set (q := g_dim g * 4 + 8) in *.
    assert (T : forall r l, rows = r :: l -> (let n := N.of_nat (length (r :: l)) in if 2 ^ 64 <=? 2 * n * q then Throws else if g_max_pending g <? 2 * n * q then Throws else
        let total := 2 * (N.of_nat (length (A := row) []) + n) * q in if 2 ^ 64 <=? total then Throws else if g_max_pending g <? total then Throws else Ok (set_pending c1 ([] ++ r :: l))) = Ok (set_pending c1 (r :: l))).
    { intros r l ->. cbv zeta. change (N.of_nat (length (A := row) [])) with 0. rewrite N.add_0_l. set (t := 2 * N.of_nat (length (r :: l)) * q) in *.
      destruct (N.leb_spec (2 ^ 64) t); [lia|]. destruct (N.ltb_spec (g_max_pending g) t); [lia|]. reflexivity. }
    destruct (g_type g) eqn:GT; [| |contradiction NL; reflexivity].
    all: destruct rows as [|r rows]; [f_equal; destruct c1; cbn in PE |- *; rewrite PE; reflexivity|exact (T _ _ eq_refl)]. }
  rewrite A. eexists. pose proof (collection_flushes x g stamp env c env' d ((h ++ [(Reopen, [])]) ++ [(Add rows, [])]) ((results ++ [(Reopen, Returned)]) ++ [(Add rows, Returned)]) dd (set_pending c1 rows) s1 s2) as CFL.
  destruct CFL as (s'' & ST2); try assumption.
  - apply Forall_app. split; [exact OK1|]. repeat constructor. exact RO.
  - apply Forall_app. split; [apply Forall_app; split; [exact NF|repeat constructor]|repeat constructor].
  - unfold flushes in *. rewrite !filter_app, !app_length. cbn [filter fst length]. rewrite !Nat.add_0_r. assert (49900 + 1 < 10 ^ 8) by reflexivity. lia.
  - rewrite run_app, R1. cbn [run step]. rewrite A. reflexivity.
  - exists s''. split; [reflexivity|exact ST2].
Qed.
Print Assumptions rejected_batch_partial.
Definition ex_refused : list (op * list event) := [(Add [(1, [0; 0]); (1, [0; 0])], []); (Flush (str "1") (str "1"), [])].
Example ex_rejected : no_failure ex_refused /\ flushes ex_refused = 1%nat
  /\ ex_run ex_flat (ex_refused ++ [(Reopen, []); (Add [(1, [0; 0])], []); (Flush (str "2") (str "2"), [])]) = ([Returned; Threw; Returned; Returned; Returned], Some [(1, [0; 0])]).
Proof. split; [repeat constructor|]. split; [reflexivity|vm_compute; reflexivity]. Qed.
