(** C91: a collection is a map from item ids to vectors and records. *)
From Coq Require Import Lia String.
From Verif Require Import UpdateModel UpdateSpec UpdateProofs StorageModel StorageSpec ScalarDataSpec ScalarDataProofs StorageProofs StorageQueryProofs ItemsModel ItemsSpec ItemsProofs.
From Verif Require UpdateProps StorageProps.
Import ListNotations.
Local Open Scope list_scope.
Local Open Scope nat_scope.

(** Whatever was inserted, upserted and deleted before, an operation neither
    leaves the allocated memory nor runs forever, and every row of the scalar
    storage is the row of a vector that is not removed. *)
Theorem items_in_step : forall fuel c fields st e, enough c fuel -> after fuel c fields st -> event_ok e ->
  (exists out st', perform fuel c st e = Done (Ok (out, st')))
  /\ forall id r, StorageSpec.live (i_store st) id r -> UpdateSpec.live (i_job st) id.
Proof.
  intros fuel c fields st e F A OK. destruct (after_inv _ _ _ _ F A) as [t I]. split.
  - destruct (perform_spec fuel c st t e F I OK) as (o & s' & t' & E & _). eauto.
  - intros id r L. apply (live_row _ _ (ii_store _ _ _ I)) in L. exact (ii_rows _ _ _ I id r L).
Qed.
Print Assumptions items_in_step.

(** get_by_id gives the record of the item, and only misses items that are not
    there; an item has one vector and one record. *)
Theorem get_exact : forall fuel c fields st item, enough c fuel -> after fuel c fields st ->
  (forall r, get_by_id st item = Ok (Some r) <-> exists v, holds st item v r)
  /\ (get_by_id st item = Ok None <-> forall v r, ~ holds st item v r)
  /\ forall v r v' r', holds st item v r -> holds st item v' r' -> v = v' /\ r = r'.
Proof.
  intros fuel c fields st item F A. destruct (after_inv _ _ _ _ F A) as [t I].
  split; [|split; [|intros v r v' r'; exact (holds_unique c st t item v r v' r' I)]]; unfold get_by_id;
    destruct (find_by_item_id_spec _ _ item (ii_store _ _ _ I)) as [[-> H]|(id & -> & NE & r0 & L & B)].
  - intros r. split; [discriminate|]. intros [v X]. exfalso. destruct H as [->|H]; [now destruct X|]. assert (NE : item <> []) by apply X.
    destruct (proj1 (holds_owns c st t item I NE)) as [i O]; [eauto|]. exact (H i O).
  - destruct (has_vec _ _ _ _ _ I L) as [v0 E0]. assert (H0 : holds st item v0 r0) by (apply (holds_row _ _ _ _ _ _ I); split; [exact NE|]; split; [exact B|]; now exists id).
    rewrite (read_row_some _ _ _ _ _ I L). cbn [bind]. intros r. split; [intros X; injection X as <-; eauto|]. intros [v X]. destruct (holds_unique _ _ _ _ _ _ _ _ I H0 X) as [_ ->]. reflexivity.
  - split; [|reflexivity]. intros _ v r X. destruct H as [->|H]; [now destruct X|]. assert (NE : item <> []) by apply X.
    destruct (proj1 (holds_owns c st t item I NE)) as [i O]; [eauto|]. exact (H i O).
  - destruct (has_vec _ _ _ _ _ I L) as [v0 E0]. assert (H0 : holds st item v0 r0) by (apply (holds_row _ _ _ _ _ _ I); split; [exact NE|]; split; [exact B|]; now exists id).
    rewrite (read_row_some _ _ _ _ _ I L). cbn [bind]. split; [discriminate|]. intros X. exfalso. exact (X _ _ H0).
Qed.
Print Assumptions get_exact.

(** An insertion that returns an id has put the item; one that returns -1 or
    raises has changed nothing, unless the links could not be repaired. *)
Theorem insert_puts : forall fuel c fields st v ef r h broken out st', enough c fuel -> after fuel c fields st -> storable r -> order_ok h ->
  perform fuel c st (EInsert v ef r h broken) = Done (Ok (out, st')) ->
  match out with
  | Inserted _ => put (item_id r) v r st st'
  | Full => st' = st /\ full c st
  | Raised => same st st' \/ put (item_id r) v r st st' /\ exists x, sink (i_job st) x
  | Removed => False
  end.
Proof.
  intros fuel c fields st v ef r h broken out st' F A SR OH E. destruct (after_inv _ _ _ _ F A) as [t I]. destruct (insert_one_spec fuel c h st t v ef r broken I SR OH F) as (o & s' & t' & E' & _ & Ef).
  cbn [perform] in E. rewrite E' in E. injection E as -> ->. destruct out; cbn [insert_effect] in Ef; try tauto.
  destruct Ef as [[-> _]|[[SA _]|(PU & _ & SK)]]; [left; intros a b d; reflexivity|now left|now right].
Qed.
Print Assumptions insert_puts.

(** With a free slot, a new item id, ef at least the degree, a working RocksDB
    and no removed node without recorded neighbours, an insertion succeeds. *)
Theorem insert_new_succeeds : forall fuel c fields st v ef r h, enough c fuel -> after fuel c fields st -> storable r -> order_ok h ->
  size (i_job st) < k_cap c -> (forall v0 r0, ~ holds st (item_id r) v0 r0) -> k_max c <= ef -> no_sink st ->
  exists id st', perform fuel c st (EInsert v ef r h false) = Done (Ok (Inserted id, st')) /\ put (item_id r) v r st st'.
Proof.
  intros fuel c fields st v ef r h F A SR OH RM NH EF NS. destruct (after_inv _ _ _ _ F A) as [t I]. destruct (insert_one_spec fuel c h st t v ef r false I SR OH F) as (o & s' & t' & E' & _ & Ef).
  cbn [perform]. rewrite E'. destruct o; cbn [insert_effect] in Ef.
  - exists id, s'. split; [reflexivity|apply Ef].
  - destruct Ef as [_ FU]. unfold full in FU. lia.
  - destruct Ef.
  - exfalso. destruct Ef as [(_ & [(_ & v0 & r0 & X)|X])|[(_ & X & _)|(_ & _ & x & X)]]; [exact (NH _ _ X)|lia|discriminate|exact (NS x X)].
Qed.
Print Assumptions insert_new_succeeds.

(** Deleting removes the item and touches no other; what is missing is
    reported. *)
Theorem delete_removes : forall fuel c fields st item, enough c fuel -> after fuel c fields st ->
  exists out st', perform fuel c st (EDelete item) = Done (Ok (out, st')) /\ gone item st st' /\ vector_gone item st st'
    /\ (out = Removed /\ (exists v r, holds st item v r) \/ out = Raised /\ st' = st /\ forall v r, ~ holds st item v r).
Proof.
  intros fuel c fields st item F A. destruct (after_inv _ _ _ _ F A) as [t I]. destruct (remove_item_spec c st t item I) as (o & st' & t' & E & _ & G & VG & _ & CA). cbn [perform]. rewrite E.
  exists o, st'. split; [reflexivity|]. split; [exact G|]. split; [exact VG|]. destruct CA as [(-> & -> & _ & NO)|(-> & NE & O)].
  - right. split; [reflexivity|]. split; [reflexivity|]. intros v r X. assert (NE : item <> []) by apply X. destruct (proj1 (holds_owns c st t item I NE)) as [i O]; [eauto|]. exact (NO NE i O).
  - left. split; [reflexivity|]. now apply (holds_owns c st t item I NE).
Qed.
Print Assumptions delete_removes.

(** An upsert that returns an id has put the item and removed the vector it
    had. *)
Theorem upsert_puts : forall fuel c fields st v ef r h h2 broken broken2 id st', enough c fuel -> after fuel c fields st -> storable r -> order_ok h -> order_ok h2 ->
  perform fuel c st (EUpsert v ef r h h2 broken broken2) = Done (Ok (Inserted id, st')) -> put (item_id r) v r st st' /\ vector_gone (item_id r) st st'.
Proof.
  intros fuel c fields st v ef r h h2 broken broken2 id st' F A SR OH OH2 E. destruct (after_inv _ _ _ _ F A) as [t I]. destruct (upsert_spec fuel c h h2 st t v ef r broken broken2 I SR OH OH2 F) as (o & s' & t' & E' & _ & Ef).
  cbn [perform] in E. rewrite E' in E. injection E as -> ->. cbn [upsert_effect] in Ef. tauto.
Qed.
Print Assumptions upsert_puts.

(** Full statement: an upsert puts the item, or raises and leaves the
    collection as it was.  Proved for two free slots, ef at least the degree,
    a rollback that RocksDB accepts, and no removed node without recorded
    neighbours once the old vector is removed; refuted below without them. *)
Theorem upsert_atomic_partial : forall fuel c fields st v ef r h h2 broken, enough c fuel -> after fuel c fields st -> storable r -> order_ok h -> order_ok h2 ->
  size (i_job st) + 2 <= k_cap c -> k_max c <= ef -> (forall out st1, perform fuel c st (EDelete (item_id r)) = Done (Ok (out, st1)) -> no_sink st1) ->
  exists out st', perform fuel c st (EUpsert v ef r h h2 broken false) = Done (Ok (out, st'))
    /\ ((exists id, out = Inserted id) /\ put (item_id r) v r st st' \/ out = Raised /\ same st st' /\ broken = true).
Proof.
  intros fuel c fields st v ef r h h2 broken F A SR OH OH2 RM EF NS. destruct (after_inv _ _ _ _ F A) as [t I]. destruct (upsert_spec fuel c h h2 st t v ef r broken false I SR OH OH2 F) as (o & s' & t' & E' & _ & Ef).
  cbn [perform] in *. rewrite E'. exists o, s'. split; [reflexivity|]. destruct o; cbn [upsert_effect] in Ef.
  - left. split; [eauto|apply Ef].
  - destruct Ef as [FU _]. unfold full in FU. lia.
  - destruct Ef.
  - right. split; [reflexivity|]. destruct Ef as [(SA & [BR|X])|[(_ & o & st1 & x & E1 & SK)|(_ & _ & [X|[X|X]])]]; [auto|lia| |lia|discriminate|lia].
    exfalso. refine (NS o st1 _ x SK). now rewrite E1.
Qed.
Print Assumptions upsert_atomic_partial.

(** Upserting an item of a full collection deletes it, without an exception:
    the slot of the old vector is not reused. *)
Theorem upsert_refuted_full : forall fuel c fields st v ef r h h2 broken broken2 v0 r0, enough c fuel -> after fuel c fields st -> storable r -> order_ok h ->
  full c st -> k_max c <= ef -> holds st (item_id r) v0 r0 ->
  exists st', perform fuel c st (EUpsert v ef r h h2 broken broken2) = Done (Ok (Full, st')) /\ gone (item_id r) st st' /\ ~ same st st'.
Proof.
  intros fuel c fields st v ef r h h2 broken broken2 v0 r0 F A SR OH FU EF HO. destruct (after_inv _ _ _ _ F A) as [t I]. destruct (remove_item_spec c st t (item_id r) I) as (o1 & st1 & t1 & E1 & I1 & G & _ & SZ & CA).
  assert (NE : item_id r <> []) by apply HO. assert (NH1 : forall v1 r1, ~ holds st1 (item_id r) v1 r1) by (intros v1 r1 X; apply G in X; destruct X; congruence).
  exists st1. split; [|split; [exact G|intros X; apply (NH1 v0 r0); now apply X]]. cbn [perform]. unfold upsert.
  destruct (find_by_item_id_spec _ _ (item_id r) (ii_store _ _ _ I)) as [[_ H]|(id & -> & _ & old & L & B)].
  - exfalso. destruct H as [H|H]; [contradiction|]. destruct (proj1 (holds_owns c st t _ I NE)) as [i O]; [eauto|]. exact (H i O).
  - destruct (has_vec _ _ _ _ _ I L) as [ov EV]. rewrite (read_row_some _ _ _ _ _ I L). cbn [bind]. unfold aget. rewrite EV. cbn [bind]. rewrite E1. cbn [bind].
    rewrite (full_fails fuel c h st1 t1 v ef r broken I1 SR OH F); [reflexivity|unfold full in *; congruence|exact EF|auto].
Qed.
Print Assumptions upsert_refuted_full.

(** With ef below the degree every upsert of an existing item deletes it: the
    rollback searches with the same ef.  Collection.upsert always passes 100
    (collection.py:315). *)
Theorem upsert_refuted_narrow : forall fuel c fields st v ef r h h2 broken broken2 v0 r0, enough c fuel -> after fuel c fields st -> storable r ->
  ef < k_max c -> holds st (item_id r) v0 r0 ->
  exists st', perform fuel c st (EUpsert v ef r h h2 broken broken2) = Done (Ok (Raised, st')) /\ gone (item_id r) st st' /\ ~ same st st'.
Proof.
  intros fuel c fields st v ef r h h2 broken broken2 v0 r0 F A SR EF HO. destruct (after_inv _ _ _ _ F A) as [t I]. destruct (remove_item_spec c st t (item_id r) I) as (o1 & st1 & t1 & E1 & I1 & G & _ & SZ & CA).
  assert (NE : item_id r <> []) by apply HO. assert (NH1 : forall v1 r1, ~ holds st1 (item_id r) v1 r1) by (intros v1 r1 X; apply G in X; destruct X; congruence).
  exists st1. split; [|split; [exact G|intros X; apply (NH1 v0 r0); now apply X]]. cbn [perform]. unfold upsert.
  destruct (find_by_item_id_spec _ _ (item_id r) (ii_store _ _ _ I)) as [[_ H]|(id & -> & _ & old & L & B)].
  - exfalso. destruct H as [H|H]; [contradiction|]. destruct (proj1 (holds_owns c st t _ I NE)) as [i O]; [eauto|]. exact (H i O).
  - destruct (has_vec _ _ _ _ _ I L) as [ov EV]. rewrite (read_row_some _ _ _ _ _ I L). cbn [bind]. unfold aget. rewrite EV. cbn [bind]. rewrite E1. cbn [bind].
    rewrite (narrow_raises fuel c h st1 t1 v ef r broken I1 SR EF). rewrite (narrow_raises fuel c h2 st1 t1 ov ef old broken2 I1); [reflexivity| |exact EF]. apply (rp_rows _ _ (ii_store _ _ _ I) _ _ L).
Qed.
Print Assumptions upsert_refuted_narrow.

(** A new item inserted into a full collection is dropped, without an
    exception; Collection.insert ignores the -1 (collection.py:290). *)
Theorem insert_refuted_full : forall fuel c fields st v ef r h broken, enough c fuel -> after fuel c fields st -> storable r -> order_ok h ->
  full c st -> k_max c <= ef -> (forall v0 r0, ~ holds st (item_id r) v0 r0) ->
  perform fuel c st (EInsert v ef r h broken) = Done (Ok (Full, st)).
Proof.
  intros fuel c fields st v ef r h broken F A SR OH FU EF NH. destruct (after_inv _ _ _ _ F A) as [t I]. exact (full_fails fuel c h st t v ef r broken I SR OH F FU EF (fun _ => NH)).
Qed.
Print Assumptions insert_refuted_full.

(** Rebuilding keeps every item with its vector and record and leaves a
    collection as after a first batch, whatever graph is built over the
    vectors; it does nothing when no item is left. *)
Theorem reindex_keeps : forall fuel c fields st c' build, enough c fuel -> after fuel c fields st ->
  (forall vs, vs <> [] -> length vs <= k_cap c -> built c' (build vs) /\ u_vecs (build vs) = vs /\ forall id, N.to_nat id < length vs -> flag (u_live (build vs)) id = true) ->
  reindex fields build st = Ok None /\ (forall item v r, ~ holds st item v r)
  \/ exists st', reindex fields build st = Ok (Some st') /\ good_start c' fields st' /\ same st st' /\ forall id, N.to_nat id < size (i_job st') -> exists r, StorageSpec.live (i_store st') id r.
Proof.
  intros fuel c fields st c' build F A BU. destruct (after_inv _ _ _ _ F A) as [t I]. destruct (reindex_spec c st t c' fields build I BU) as [X|(st' & t' & E & G & I' & SA & AL & _)]; [now left|]. right.
  exists st'. split; [exact E|]. split; [exact G|]. split; [exact SA|]. intros id X. destruct (AL id X) as [r L]. exists r. now apply (live_row _ _ (ii_store _ _ _ I')).
Qed.
Print Assumptions reindex_keeps.

(** Rows without an item id do not survive it. *)
Theorem reindex_refuted_unnamed : forall fuel c fields st c' build st', enough c fuel -> after fuel c fields st ->
  (forall vs, vs <> [] -> length vs <= k_cap c -> built c' (build vs) /\ u_vecs (build vs) = vs /\ forall id, N.to_nat id < length vs -> flag (u_live (build vs)) id = true) ->
  reindex fields build st = Ok (Some st') -> forall id r, StorageSpec.live (i_store st') id r -> item_id r <> [].
Proof.
  intros fuel c fields st c' build st' F A BU E id r L. destruct (after_inv _ _ _ _ F A) as [t I]. destruct (reindex_spec c st t c' fields build I BU) as [[X _]|(s' & t' & E' & _ & I' & _ & _ & NE)]; [congruence|].
  rewrite E in E'. injection E' as <-. apply (NE id r). now apply (live_row _ _ (ii_store _ _ _ I')).
Qed.
Print Assumptions reindex_refuted_unnamed.

(** ** Cases *)
Import UpdateProps StorageProps.
(** Three vectors with the items "a", "b" and none. *)
Definition rec_0 : scalar_data := {| item_id := []; document := str "x"; meta := [] |}.
Definition rec_d : scalar_data := {| item_id := str "d"; document := []; meta := [] |}.
Definition ex_store : storage := Eval vm_compute in match StorageSpec.run (empty_storage []) [BatchInsert 0 [rec_a; rec_b; rec_0]] with Ok (_, s) => s | _ => empty_storage [] end.
Definition ex_items : items := {| i_job := UpdateProps.ex_start; i_store := ex_store |}.
Lemma ex_three cap : 3 <= cap -> (N.of_nat cap <= 2 ^ 31)%N -> good_start (line_conf cap 2) [] ex_items.
Proof.
  intros C W. assert (R : StorageSpec.reached [] [BatchInsert 0 [rec_a; rec_b; rec_0]] ex_store).
  { split; [apply op_okb_ok; vm_compute; reflexivity|]. exists [true]. vm_compute. reflexivity. }
  split; [|split; [exists [BatchInsert 0 [rec_a; rec_b; rec_0]]; exact R|]].
  - apply fresh_built; [lia|cbn [length]; lia|exact C|exact W|reflexivity|reflexivity|reflexivity].
  - intros id r L. destruct (reached_represents _ _ _ R) as [RP _]. apply (live_row _ _ RP) in L. change (snd (spec_run [] [BatchInsert 0 [rec_a; rec_b; rec_0]])) with (set_rows (rows_from 0 [rec_a; rec_b; rec_0]) []) in L. rewrite row_set_rows in L.
    destruct (N.leb_spec 0 id), (N.ltb_spec id (0 + N.of_nat (length [rec_a; rec_b; rec_0]))); cbn [andb] in L; try discriminate L. cbn [length] in *.
    assert (id = 0 \/ id = 1 \/ id = 2)%N as [->|[->| ->]] by lia; split; vm_compute; auto with arith.
Qed.
Lemma ex_storable r : storableb r = true -> storable r.
Proof. apply storableb_ok. Qed.
Fixpoint performs (fuel : nat) (c : conf) (st : items) (es : list event) : option (list outcome * items) :=
  match es with
  | [] => Some ([], st)
  | e :: rest => match perform fuel c st e with
                 | Done (Ok (o, st1)) => match performs fuel c st1 rest with Some (os, s) => Some (o :: os, s) | None => None end
                 | _ => None
                 end
  end.
Lemma performs_after fuel c fields : forall es st os st', after fuel c fields st -> Forall event_ok es -> performs fuel c st es = Some (os, st') -> after fuel c fields st'.
Proof.
  induction es as [|e es IH]; intros st os st' A OK E; cbn [performs] in E; [injection E as _ <-; exact A|]. apply Forall_cons_iff in OK as [O1 O2].
  destruct (perform fuel c st e) as [|[[o st1]| | |]] eqn:P; try discriminate. destruct (performs fuel c st1 es) as [[os1 s]|] eqn:P2; [|discriminate]. injection E as _ <-. apply (IH st1 os1 s); [|exact O2|exact P2].
  exact (after_event _ _ _ _ _ _ _ A O1 P).
Qed.
Definition ex_events : list event :=
  [EInsert [12%Z] 4 rec_d in_order false; EInsert [13%Z] 4 rec_d in_order false; EUpsert [5%Z] 4 rec_c in_order backwards false false; EDelete (str "b");
   EUpsert [6%Z] 4 rec_a in_order backwards true false; EDelete (str "b")].
Lemma ex_events_ok : Forall event_ok ex_events.
Proof.
  assert (A : storable rec_a) by (apply ex_storable; vm_compute; reflexivity). assert (C : storable rec_c) by (apply ex_storable; vm_compute; reflexivity). assert (D : storable rec_d) by (apply ex_storable; vm_compute; reflexivity).
  unfold ex_events. repeat (apply Forall_cons; [cbn [event_ok]; auto using in_order_ok, backwards_ok|]). apply Forall_nil.
Qed.
(** "d" is inserted, not a second time; "a" is replaced; "b" is deleted; the
    next row of "a" is refused and the one before comes back; "b" is missing. *)
Example items_example : exists st, after 20 (line_conf 8 2) [] st
  /\ (performs 20 (line_conf 8 2) ex_items ex_events = Some ([Inserted 3%N; Raised; Inserted 4%N; Removed; Raised; Raised], st))
  /\ map (get_by_id st) [str "a"; str "b"; str "d"] = [Ok (Some rec_c); Ok None; Ok (Some rec_d)]
  /\ size (i_job st) = 7.
Proof.
  destruct (performs 20 (line_conf 8 2) ex_items ex_events) as [[os st]|] eqn:E; [|vm_compute in E; discriminate]. exists st. split.
  - refine (performs_after _ _ _ ex_events ex_items os st _ _ E); [apply after_start, ex_three; [lia|vm_compute; discriminate]|].
    exact ex_events_ok.
  - vm_compute in E. injection E as <- <-. vm_compute. auto.
Qed.
(** The hypotheses of [upsert_atomic_partial] hold before the second upsert. *)
Example upsert_atomic_example : exists st, after 20 (line_conf 8 2) [] st /\ size (i_job st) + 2 <= 8
  /\ (forall out st1, perform 20 (line_conf 8 2) st (EDelete (str "a")) = Done (Ok (out, st1)) -> no_sink st1) /\ get_by_id st (str "a") = Ok (Some rec_c).
Proof.
  destruct (performs 20 (line_conf 8 2) ex_items (firstn 4 ex_events)) as [[os st]|] eqn:E; [|vm_compute in E; discriminate]. exists st. split; [|split; [|split]].
  - refine (performs_after _ _ _ (firstn 4 ex_events) ex_items os st _ _ E); [apply after_start, ex_three; [lia|vm_compute; discriminate]|].
    pose proof ex_events_ok as X. rewrite <- (firstn_skipn 4 ex_events) in X. apply Forall_app in X. exact (proj1 X).
  - vm_compute in E. injection E as <- <-. vm_compute. lia.
  - intros out st1 P. vm_compute in E. injection E as <- <-. vm_compute in P. injection P as _ <-. intros x [X Y]. cbn [i_job u_removed] in X. repeat (destruct X as [<-|X]; [vm_compute in Y; discriminate Y|]). destruct X.
  - vm_compute in E. injection E as <- <-. vm_compute. reflexivity.
Qed.
(** A full collection: "a" is lost by an upsert, "d" is not inserted. *)
Example full_example : exists st1 st2, full (line_conf 3 2) ex_items /\ after 20 (line_conf 3 2) [] ex_items
  /\ get_by_id ex_items (str "a") = Ok (Some rec_a)
  /\ perform 20 (line_conf 3 2) ex_items (EUpsert [5%Z] 100 rec_c in_order backwards false false) = Done (Ok (Full, st1)) /\ get_by_id st1 (str "a") = Ok None
  /\ perform 20 (line_conf 3 2) ex_items (EInsert [5%Z] 100 rec_d in_order false) = Done (Ok (Full, st2)) /\ get_by_id st2 (str "d") = Ok None.
Proof.
  do 2 eexists. split; [reflexivity|]. split; [apply after_start, ex_three; [lia|vm_compute; discriminate]|]. split; [vm_compute; reflexivity|]. split; [vm_compute; reflexivity|]. split; [vm_compute; reflexivity|]. split; [vm_compute; reflexivity|]. vm_compute. reflexivity.
Qed.
(** ef below the degree: "a" is lost with an exception. *)
Example narrow_example : exists st1,
  perform 20 (line_conf 8 2) ex_items (EUpsert [5%Z] 1 rec_c in_order backwards false false) = Done (Ok (Raised, st1)) /\ get_by_id st1 (str "a") = Ok None.
Proof. eexists. split; [vm_compute; reflexivity|]. vm_compute. reflexivity. Qed.
(** A graph without edges for any vectors; rebuilding drops the third row. *)
Definition bare (vs : list vec) : state :=
  {| u_rows := map (fun _ => [kInvalidId; kInvalidId]) vs; u_linked := map (fun _ => true) vs; u_vecs := vs; u_live := map (fun _ => true) vs;
     u_items := N.of_nat (length vs); u_removed := []; u_second := []; u_inserted := [] |}.
Lemma bare_built cap vs : (N.of_nat cap <= 2 ^ 31)%N -> vs <> [] -> length vs <= cap ->
  built (line_conf cap 2) (bare vs) /\ u_vecs (bare vs) = vs /\ forall id, N.to_nat id < length vs -> flag (u_live (bare vs)) id = true.
Proof.
  intros W NE LE. split; [|split; [reflexivity|]].
  - constructor; cbn [line_conf k_max k_cap k_eps k_overlay bare u_linked u_live u_items u_removed u_second u_inserted]; unfold size; cbn [bare u_vecs]; auto.
    + constructor; cbn [graph_of g_rows g_max_nbrs bare u_rows line_conf k_max].
      * rewrite map_length. lia.
      * intros row Hr. apply in_map_iff in Hr as (? & <- & _). cbn. lia.
      * intros x y Hx. unfold leads_to. cbn [graph_of g_rows g_max_nbrs bare u_rows line_conf k_max]. intros (row & Er & Ly). apply ids_in_listed in Ly. apply nth_error_In in Er. apply in_map_iff in Er as (? & <- & _). destruct Ly.
    + apply map_length.
    + apply map_length.
    + intros x [<-|[]]. destruct vs; [contradiction|]. cbn [length]. lia.
  - intros id L. unfold flag. cbn [bare u_live]. rewrite (nth_indep _ false true) by now rewrite map_length. clear. generalize (N.to_nat id). induction vs as [|v vs IH]; intros [|n]; cbn; auto.
Qed.
Example reindex_example : exists st', reindex [] bare ex_items = Ok (Some st') /\ size (i_job ex_items) = 3 /\ size (i_job st') = 2
  /\ get_by_id st' (str "a") = Ok (Some rec_a) /\ read_row (i_store ex_items) 2 = Ok rec_0 /\ good_start (line_conf 8 2) [] st'.
Proof.
  destruct (reindex_keeps 20 (line_conf 8 2) [] ex_items (line_conf 8 2) bare) as [[E _]|(st' & E & G & _)].
  - unfold enough. cbn. lia.
  - apply after_start, ex_three; [lia|vm_compute; discriminate].
  - intros vs NE LE. apply bare_built; [vm_compute; discriminate|exact NE|exact LE].
  - vm_compute in E. discriminate.
  - exists st'. split; [exact E|]. split; [reflexivity|]. split; [|split; [|split; [reflexivity|exact G]]]; clear G; vm_compute in E; injection E as <-; vm_compute; reflexivity.
Qed.
