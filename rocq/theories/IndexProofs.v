(** Lemmas about the updatable disk index. *)
From Coq Require Import Permutation.
From Coq Require FinFun.
From Verif Require Import IndexSpec TombSpec TombProofs LayoutProofs.
Local Open Scope N_scope.

Record index_inv (n0 : N) (ix : index) (h : list slot_event) (db : list entry) (dark : list N) : Prop := {
  iv_slots : slots_inv n0 (ix_alloc ix) h;
  iv_len : N.of_nat (length (ix_labels ix)) = ix_max ix;
  iv_max : ix_max ix = sl_next (ix_alloc ix);
  iv_vis : forall s, status n0 h s = Visible <-> In s (map e_slot db);
  iv_dark : forall s, status n0 h s = Dark <-> In s dark;
  iv_slot_nd : NoDup (map e_slot db);
  iv_label_nd : NoDup (map e_label db);
  iv_dark_nd : NoDup dark;
  iv_entry : forall e, In e db -> nth_error (ix_labels ix) (N.to_nat (e_slot e)) = Some (e_label e) /\ ix_data ix (e_slot e) = e_vec e /\ e_label e <> kNoLabel;
  iv_map : forall l s, ix_map ix l = Some s <-> exists v, In (l, s, v) db;
  iv_live : ix_live ix = N.of_nat (length db) + N.of_nat (length dark);
  iv_small : Forall (fun l => l < 2 ^ 64) (ix_labels ix);
}.

(** ** Small facts *)
Lemma NoDup_map_inj {A B} (f : A -> B) l x y : NoDup (map f l) -> In x l -> In y l -> f x = f y -> x = y.
Proof.
  induction l as [|a l IH]; intros ND Hx Hy E; [destruct Hx|]. cbn in ND. inversion ND as [|? ? N1 N2]; subst.
  destruct Hx as [<-|Hx], Hy as [<-|Hy]; auto.
  - exfalso. apply N1. rewrite E. now apply in_map.
  - exfalso. apply N1. rewrite <- E. now apply in_map.
Qed.
Lemma NoDup_map_filter {A B} (f : A -> B) (p : A -> bool) l : NoDup (map f l) -> NoDup (map f (filter p l)).
Proof.
  induction l as [|a l IH]; intros ND; [constructor|]. cbn in ND. inversion ND as [|? ? N1 N2]; subst. cbn [filter].
  destruct (p a); [|auto]. cbn. constructor; [|auto]. intros H. apply N1. apply in_map_iff in H as (x & E & Hx).
  apply filter_In in Hx as [Hx _]. rewrite <- E. now apply in_map.
Qed.
Lemma entry_in_label (db : list entry) e : In e db -> In (e_label e) (map e_label db). Proof. apply in_map. Qed.
Lemma entry_in_slot (db : list entry) e : In e db -> In (e_slot e) (map e_slot db). Proof. apply in_map. Qed.
Lemma label_entry (db : list entry) l : In l (map e_label db) <-> exists s v, In (l, s, v) db.
Proof.
  rewrite in_map_iff. split.
  - intros ([[l' s] v] & <- & H). cbn. eauto.
  - intros (s & v & H). exists (l, s, v). auto.
Qed.
Lemma slot_entry (db : list entry) s : In s (map e_slot db) <-> exists l v, In (l, s, v) db.
Proof.
  rewrite in_map_iff. split.
  - intros ([[l s'] v] & <- & H). cbn. eauto.
  - intros (l & v & H). exists (l, s, v). auto.
Qed.
Lemma filter_all {A} (p : A -> bool) l : (forall x, In x l -> p x = true) -> filter p l = l.
Proof. induction l as [|a l IH]; intros H; [reflexivity|]. cbn. rewrite (H a) by now left. f_equal. apply IH. intros x Hx. apply H. now right. Qed.
(** Removing the one element with slot [s]. *)
Lemma length_filter_slot (db : list entry) s : NoDup (map e_slot db) -> In s (map e_slot db) ->
  length db = S (length (filter (fun e => negb (N.eqb (e_slot e) s)) db)).
Proof.
  induction db as [|e db IH]; intros ND H; [destruct H|]. cbn in ND. inversion ND as [|? ? N1 N2]; subst. cbn [filter length].
  destruct (N.eqb_spec (e_slot e) s) as [<-|NE]; cbn [negb].
  - f_equal. rewrite filter_all; [reflexivity|]. intros x Hx. destruct (N.eqb_spec (e_slot x) (e_slot e)) as [E|]; [|reflexivity].
    exfalso. apply N1. rewrite <- E. now apply in_map.
  - cbn [length]. f_equal. apply IH; [assumption|]. destruct H as [H|H]; [congruence|assumption].
Qed.
Lemma length_filter_one (l : list N) s : NoDup l -> In s l -> length l = S (length (filter (fun x => negb (N.eqb x s)) l)).
Proof.
  induction l as [|x l IH]; intros ND H; [destruct H|]. inversion ND as [|? ? N1 N2]; subst. cbn [filter length].
  destruct (N.eqb_spec x s) as [->|NE]; cbn [negb].
  - f_equal. rewrite filter_all; [reflexivity|]. intros y Hy. destruct (N.eqb_spec y s) as [->|]; [contradiction|reflexivity].
  - cbn [length]. f_equal. apply IH; [assumption|]. destruct H as [H|H]; [congruence|assumption].
Qed.

Lemma inv_perm n0 ix h db dark db2 dark2 : index_inv n0 ix h db dark -> Permutation db db2 -> Permutation dark dark2 -> index_inv n0 ix h db2 dark2.
Proof.
  intros I P Q. constructor; try apply I.
  - intros s. rewrite (iv_vis _ _ _ _ _ I). split; apply Permutation_in; [|apply Permutation_sym]; now apply Permutation_map.
  - intros s. rewrite (iv_dark _ _ _ _ _ I). split; apply Permutation_in; [|apply Permutation_sym]; assumption.
  - eapply Permutation_NoDup; [apply Permutation_map, P|apply I].
  - eapply Permutation_NoDup; [apply Permutation_map, P|apply I].
  - eapply Permutation_NoDup; [apply Q|apply I].
  - intros e He. apply (iv_entry _ _ _ _ _ I). eapply Permutation_in; [apply Permutation_sym, P|exact He].
  - intros l s. rewrite (iv_map _ _ _ _ _ I). split; intros (v & H); exists v; (eapply Permutation_in; [|exact H]); [|apply Permutation_sym]; assumption.
  - rewrite (iv_live _ _ _ _ _ I), (Permutation_length P), (Permutation_length Q). reflexivity.
Qed.

Lemma nodup_app {A} (l1 l2 : list A) : NoDup l1 -> NoDup l2 -> (forall x, In x l1 -> ~ In x l2) -> NoDup (l1 ++ l2).
Proof.
  induction l1 as [|a l1 IH]; intros N1 N2 D; [exact N2|]. inversion N1; subst. cbn. constructor.
  - rewrite in_app_iff. intros [H|H]; [contradiction|]. apply (D a); [now left|assumption].
  - apply IH; auto. intros x Hx. apply D. now right.
Qed.
(** Slots in use are below the next fresh one, so there are fewer than 2^32. *)
Lemma inv_count n0 ix h db dark : index_inv n0 ix h db dark -> N.of_nat (length db) + N.of_nat (length dark) <= ix_max ix.
Proof.
  intros I. pose proof (NoDup_incl_length (l := map e_slot db ++ dark) (l' := upto (ix_max ix))) as Q.
  rewrite app_length, map_length in Q. unfold upto in Q at 2. rewrite map_length, seq_length in Q.
  assert (length db + length dark <= N.to_nat (ix_max ix))%nat; [|lia]. apply Q.
  - apply nodup_app; try apply I. intros s Hv Hd. apply (iv_vis _ _ _ _ _ I) in Hv. apply (iv_dark _ _ _ _ _ I) in Hd. congruence.
  - intros s Hs. apply upto_in. rewrite (iv_max _ _ _ _ _ I). apply (si_used _ _ _ (iv_slots _ _ _ _ _ I)).
    apply in_app_or in Hs as [Hs|Hs]; [apply (iv_vis _ _ _ _ _ I) in Hs|apply (iv_dark _ _ _ _ _ I) in Hs]; congruence.
Qed.
Lemma inv_max_small n0 ix h db dark : index_inv n0 ix h db dark -> ix_max ix < 2 ^ 32.
Proof. intros I. rewrite (iv_max _ _ _ _ _ I). apply (si_next _ _ _ (iv_slots _ _ _ _ _ I)). Qed.
Lemma inv_used n0 ix h db dark s : index_inv n0 ix h db dark -> status n0 h s <> Unused -> s < ix_max ix.
Proof. intros I H. rewrite (iv_max _ _ _ _ _ I). now apply (si_used _ _ _ (iv_slots _ _ _ _ _ I)). Qed.
Lemma inv_deleted n0 ix h db dark s : index_inv n0 ix h db dark -> sl_is_deleted (ix_alloc ix) s = Ok (hidden (status n0 h s)).
Proof. intros I. exact (tb_is_deleted_ok _ _ s (si_tomb _ _ _ (iv_slots _ _ _ _ _ I))). Qed.

(** ** Setting a label *)
Lemma set_label_ok labels slot label next :
  slot < next -> (N.of_nat (length labels) = next \/ (N.of_nat (length labels) = slot /\ next = slot + 1)) ->
  exists ls, set_label labels slot label = Ok ls /\ N.of_nat (length ls) = next
    /\ nth_error ls (N.to_nat slot) = Some label
    /\ (forall s, s <> slot -> s < N.of_nat (length labels) -> nth_error ls (N.to_nat s) = nth_error labels (N.to_nat s))
    /\ (label < 2 ^ 64 -> Forall (fun l => l < 2 ^ 64) labels -> Forall (fun l => l < 2 ^ 64) ls).
Proof.
  intros Hs C. unfold set_label.
  set (ls := if N.leb _ _ then _ else _).
  assert (Lls : N.of_nat (length ls) = next).
  { subst ls. destruct (N.leb_spec (N.of_nat (length labels)) slot); [|lia]. rewrite app_length, repeat_length. lia. }
  assert (Pre : forall s, s < N.of_nat (length labels) -> nth_error ls (N.to_nat s) = nth_error labels (N.to_nat s)).
  { intros s L. subst ls. destruct (N.leb (N.of_nat (length labels)) slot); [|reflexivity]. apply nth_error_app1. lia. }
  unfold aput. destruct (N.ltb_spec slot (N.of_nat (length ls))); [|lia]. eexists. split; [reflexivity|].
  rewrite upd_length. split; [exact Lls|]. split.
  { rewrite nth_error_upd by lia. now rewrite Nat.eqb_refl. }
  split.
  { intros s NE L. rewrite nth_error_upd by lia. destruct (Nat.eqb_spec (N.to_nat slot) (N.to_nat s)); [lia|]. now apply Pre. }
  intros Hl F. apply Forall_forall. intros x Hx. apply In_nth_error in Hx as (k & Hk).
  rewrite nth_error_upd in Hk by lia. destruct (Nat.eqb (N.to_nat slot) k); [injection Hk as <-; exact Hl|].
  apply nth_error_In in Hk. subst ls. rewrite Forall_forall in F. destruct (N.leb (N.of_nat (length labels)) slot); [|now apply F].
  apply in_app_or in Hk as [Hk|Hk]; [now apply F|]. apply repeat_spec in Hk. subst x. reflexivity.
Qed.

(** ** The steps *)
Lemma allocate_ok n0 ix h db dark label : index_inv n0 ix h db dark -> label < 2 ^ 64 -> ix_max ix < 2 ^ 32 - 1 ->
  exists slot ix', allocate ix label = Ok (slot, ix')
    /\ index_inv n0 ix' (h ++ [EAlloc slot]) db (slot :: dark)
    /\ ~ In slot dark /\ ~ In slot (map e_slot db) /\ ix_max ix' <= ix_max ix + 1
    /\ nth_error (ix_labels ix') (N.to_nat slot) = Some label
    /\ (forall s, s <> slot -> s < ix_max ix -> nth_error (ix_labels ix') (N.to_nat s) = nth_error (ix_labels ix) (N.to_nat s))
    /\ ix_map ix' = ix_map ix /\ ix_data ix' = ix_data ix.
Proof.
  intros I HL HM. pose proof (iv_slots _ _ _ _ _ I) as SI. pose proof (iv_max _ _ _ _ _ I) as EM. pose proof (iv_len _ _ _ _ _ I) as EL.
  destruct (slots_alloc_ok n0 (ix_alloc ix) h SI) as (slot & a & Ea & C & _ & Hs32).
  assert (Nx : slot < sl_next a /\ (N.of_nat (length (ix_labels ix)) = sl_next a \/ (N.of_nat (length (ix_labels ix)) = slot /\ sl_next a = slot + 1))
    /\ ix_max ix <= sl_next a <= ix_max ix + 1 /\ status n0 h slot <> Dark /\ status n0 h slot <> Visible).
  { destruct C as [(Ef & -> & _ & En)|(l & Ef & _ & En)].
    - rewrite N.mod_small in En by lia. assert (status n0 h (sl_next (ix_alloc ix)) = Unused).
      { destruct (status n0 h (sl_next (ix_alloc ix))) eqn:St; try reflexivity;
          (assert (sl_next (ix_alloc ix) < sl_next (ix_alloc ix)) by (apply (si_used _ _ _ SI); congruence); lia). }
      rewrite En. split; [lia|]. split; [right; lia|]. split; [lia|]. split; congruence.
    - assert (status n0 h slot = Freed) by (apply (si_free _ _ _ SI); rewrite Ef; apply in_or_app; right; now left).
      assert (slot < sl_next (ix_alloc ix)) by (apply (si_used _ _ _ SI); congruence).
      rewrite En. split; [lia|]. split; [left; lia|]. split; [lia|]. split; congruence. }
  destruct Nx as (N1 & N2 & N3 & N4 & N5).
  assert (Fit : fits n0 (h ++ [EAlloc slot])).
  { unfold fits. rewrite status_snoc. destruct (N.eqb_spec slot (2 ^ 32 - 1)) as [->|_]; [lia|].
    destruct (status n0 h (2 ^ 32 - 1)) eqn:St; try reflexivity;
      (assert (2 ^ 32 - 1 < sl_next (ix_alloc ix)) by (apply (si_used _ _ _ SI); congruence); lia). }
  pose proof (slots_alloc_inv n0 _ h slot a SI Fit Ea) as SI'.
  destruct (set_label_ok (ix_labels ix) slot label (sl_next a) N1 N2) as (ls & El & LL & LS & LO & LF).
  unfold allocate. rewrite Ea. cbn [bind]. rewrite El. cbn [bind]. eexists _, _. split; [reflexivity|]. cbn [ix_max ix_labels ix_map ix_data].
  assert (ND : ~ In slot dark) by (intros X; apply (iv_dark _ _ _ _ _ I) in X; congruence).
  assert (NV : ~ In slot (map e_slot db)) by (intros X; apply (iv_vis _ _ _ _ _ I) in X; congruence).
  pose proof (inv_count _ _ _ _ _ I) as Cnt.
  split; [|split; [exact ND|split; [exact NV|split; [lia|split; [exact LS|split; [|split; reflexivity]]]]]].
  2:{ intros s NE Ls. apply LO; [exact NE|lia]. }
  constructor; cbn [ix_alloc ix_labels ix_max ix_map ix_live ix_data]; try apply I.
  - exact SI'.
  - lia.
  - lia.
  - intros s. rewrite status_snoc. destruct (N.eqb_spec slot s) as [<-|NE]; [split; [discriminate|contradiction]|apply I].
  - intros s. rewrite status_snoc. destruct (N.eqb_spec slot s) as [<-|NE]; [split; [intros _; now left|reflexivity]|].
    rewrite (iv_dark _ _ _ _ _ I). cbn. intuition congruence.
  - constructor; [exact ND|apply I].
  - intros e He. destruct (iv_entry _ _ _ _ _ I e He) as (E1 & E2 & E3). split; [|auto].
    rewrite LO; [exact E1| |]; [intros X; apply NV; rewrite <- X; now apply in_map|].
    assert (N.to_nat (e_slot e) < length (ix_labels ix))%nat by (apply nth_error_Some; congruence). lia.
  - rewrite (iv_live _ _ _ _ _ I). rewrite N.mod_small by (cbn [length]; lia). cbn [length]. lia.
  - apply LF; [exact HL|apply I].
Qed.

Lemma write_node_inv n0 ix h db dark slot v : index_inv n0 ix h db dark -> In slot dark -> index_inv n0 (write_node ix slot v) h db dark.
Proof.
  intros I H. constructor; cbn [write_node ix_alloc ix_labels ix_max ix_map ix_live ix_data]; try apply I.
  intros e He. destruct (iv_entry _ _ _ _ _ I e He) as (E1 & E2 & E3). split; [exact E1|]. split; [|exact E3].
  destruct (N.eqb_spec (e_slot e) slot) as [E|]; [|exact E2]. exfalso.
  apply (iv_dark _ _ _ _ _ I) in H. apply (in_map e_slot), (iv_vis _ _ _ _ _ I) in He. congruence.
Qed.

Lemma publish_ok n0 ix h db dark slot label v : index_inv n0 ix h db dark -> In slot dark ->
  nth_error (ix_labels ix) (N.to_nat slot) = Some label -> ix_data ix slot = v -> label <> kNoLabel -> ~ In label (map e_label db) ->
  exists ix', publish ix slot = Ok ix'
    /\ index_inv n0 ix' (h ++ [EPublish slot]) ((label, slot, v) :: db) (filter (fun x => negb (N.eqb x slot)) dark)
    /\ ix_labels ix' = ix_labels ix /\ ix_data ix' = ix_data ix /\ ix_max ix' = ix_max ix.
Proof.
  intros I HD HLb HV HK HN. pose proof (iv_slots _ _ _ _ _ I) as SI.
  assert (St : status n0 h slot = Dark) by now apply (iv_dark _ _ _ _ _ I).
  unfold publish. destruct (sl_publish (ix_alloc ix) slot) as [a| | |] eqn:Ea.
  2-4: exfalso; unfold sl_publish in Ea; destruct (tb_clear_ok _ _ slot (si_tomb _ _ _ SI)) as (t & Et & _); rewrite Et in Ea; discriminate.
  pose proof (slots_publish_inv _ _ _ _ _ SI St Ea) as SI'.
  assert (En : sl_next a = sl_next (ix_alloc ix)).
  { unfold sl_publish in Ea. destruct (tb_clear (sl_tomb (ix_alloc ix)) slot); try discriminate. now injection Ea as <-. }
  cbn [bind]. unfold aget. rewrite HLb. cbn [bind]. eexists. split; [reflexivity|]. split; [|now cbn].
  assert (NV : ~ In slot (map e_slot db)) by (intros X; apply (iv_vis _ _ _ _ _ I) in X; congruence).
  constructor; cbn [ix_alloc ix_labels ix_max ix_map ix_live ix_data map e_slot e_label fst snd]; try apply I.
  - exact SI'.
  - rewrite En. apply I.
  - intros s. rewrite status_snoc. destruct (N.eqb_spec slot s) as [<-|NE]; [split; [intros _; now left|reflexivity]|].
    rewrite (iv_vis _ _ _ _ _ I). cbn. intuition congruence.
  - intros s. rewrite status_snoc, filter_In. destruct (N.eqb_spec slot s) as [<-|NE].
    + rewrite N.eqb_refl. split; [discriminate|]. intros [_ X]. discriminate.
    + rewrite (iv_dark _ _ _ _ _ I). destruct (N.eqb_spec s slot); [congruence|]. cbn. tauto.
  - constructor; [exact NV|apply I].
  - constructor; [exact HN|apply I].
  - apply NoDup_filter. apply I.
  - intros e [<-|He]; [cbn; auto|]. now apply (iv_entry _ _ _ _ _ I).
  - intros l s. destruct (N.eqb_spec l label) as [->|NE].
    + split.
      * intros [= <-]. exists v. now left.
      * intros (w & [E|H]); [now injection E as <- <-|]. exfalso. apply HN. apply label_entry. eauto.
    + rewrite (iv_map _ _ _ _ _ I). split; intros (w & H); exists w; [now right|]. destruct H as [E|H]; [|exact H]. injection E as <- _ _. congruence.
  - rewrite (iv_live _ _ _ _ _ I). rewrite (length_filter_one dark slot) by (try exact HD; apply I). cbn [length]. lia.
Qed.

Lemma remove_slot_ok n0 ix h db dark id : index_inv n0 ix h db dark -> In id (map e_slot db) ->
  exists ix', remove_slot ix id = Ok ix'
    /\ index_inv n0 ix' (h ++ [EFree id]) (filter (fun e => negb (N.eqb (e_slot e) id)) db) dark
    /\ ix_labels ix' = ix_labels ix /\ ix_data ix' = ix_data ix /\ ix_max ix' = ix_max ix.
Proof.
  intros I H. pose proof (iv_slots _ _ _ _ _ I) as SI. assert (St : status n0 h id = Visible) by now apply (iv_vis _ _ _ _ _ I).
  pose proof (inv_count _ _ _ _ _ I) as Cnt. pose proof (inv_max_small _ _ _ _ _ I) as MS.
  pose proof H as H2. apply slot_entry in H2 as (l & v & He). destruct (iv_entry _ _ _ _ _ I _ He) as (E1 & E2 & E3). cbn in E1, E2, E3.
  unfold remove_slot, aget. rewrite E1. cbn [bind]. assert (Em : ix_map ix l = Some id) by (apply (iv_map _ _ _ _ _ I); eauto).
  rewrite Em, N.eqb_refl.
  destruct (sl_free_slot (ix_alloc ix) id) as [a| | |] eqn:Ea.
  2-4: exfalso; unfold sl_free_slot in Ea; destruct (tb_set_ok _ _ id (si_tomb _ _ _ SI)) as (t & Et & _);
       [pose proof (inv_used _ _ _ _ _ id I ltac:(congruence)); lia|rewrite Et in Ea; discriminate].
  assert (SI' : slots_inv n0 a (h ++ [EFree id])) by (apply (slots_free_inv _ _ _ _ _ SI); [now rewrite St|exact Ea]).
  assert (En : sl_next a = sl_next (ix_alloc ix)).
  { unfold sl_free_slot in Ea. destruct (tb_set (sl_tomb (ix_alloc ix)) id); try discriminate. now injection Ea as <-. }
  cbn [bind]. eexists. split; [reflexivity|]. split; [|now cbn].
  pose proof (length_filter_slot db id (iv_slot_nd _ _ _ _ _ I) H) as LF.
  constructor; cbn [ix_alloc ix_labels ix_max ix_map ix_live ix_data]; try apply I.
  - exact SI'.
  - rewrite En. apply I.
  - intros s. rewrite status_snoc. rewrite in_map_iff. destruct (N.eqb_spec id s) as [<-|NE].
    + split; [discriminate|]. intros (e & <- & X). apply filter_In in X as [_ X]. rewrite N.eqb_refl in X. discriminate.
    + rewrite (iv_vis _ _ _ _ _ I), in_map_iff. split; intros (e & Es & X); exists e; (split; [exact Es|]).
      * apply filter_In. split; [exact X|]. destruct (N.eqb_spec (e_slot e) id); [congruence|reflexivity].
      * now apply filter_In in X as [X _].
  - intros s. rewrite status_snoc. destruct (N.eqb_spec id s) as [<-|NE]; [|apply I]. split; [discriminate|].
    intros X. apply (iv_dark _ _ _ _ _ I) in X. congruence.
  - apply NoDup_map_filter. apply I.
  - apply NoDup_map_filter. apply I.
  - intros e X. apply filter_In in X as [X _]. now apply (iv_entry _ _ _ _ _ I).
  - intros l' s. destruct (N.eqb_spec l' l) as [->|NE].
    + split; [discriminate|]. intros (w & X). apply filter_In in X as [X Y].
      assert (Eq : (l, s, w) = (l, id, v)) by (apply (NoDup_map_inj e_label db); auto; apply I). injection Eq as -> ->. cbn in Y. rewrite N.eqb_refl in Y. discriminate.
    + rewrite (iv_map _ _ _ _ _ I). split; intros (w & X); exists w.
      * apply filter_In. split; [exact X|]. cbn. destruct (N.eqb_spec s id) as [->|]; [|reflexivity].
        assert (Eq : (l', id, w) = (l, id, v)) by (apply (NoDup_map_inj e_slot db); auto; apply I). injection Eq as -> _. congruence.
      * now apply filter_In in X as [X _].
  - rewrite (iv_live _ _ _ _ _ I), LF. replace (2 ^ 64 + (N.of_nat (S (length (filter (fun e => negb (N.eqb (e_slot e) id)) db))) + N.of_nat (length dark)) - 1)
      with (N.of_nat (length (filter (fun e => negb (N.eqb (e_slot e) id)) db)) + N.of_nat (length dark) + 1 * 2 ^ 64) by lia.
    rewrite N.mod_add by lia. apply N.mod_small. lia.
Qed.

(** ** Batch inserts *)
Definition task_entries (rt : row * task) : list entry := match snd rt with Published s => [(snd (fst rt), s, fst (fst rt))] | _ => [] end.
Definition task_dark (rt : row * task) : list N := match snd rt with Allocated s | Written s | Dead (Some s) => [s] | _ => [] end.
Definition task_ok (ix : index) (rt : row * task) : Prop :=
  match snd rt with
  | Allocated s => nth_error (ix_labels ix) (N.to_nat s) = Some (snd (fst rt))
  | Written s => nth_error (ix_labels ix) (N.to_nat s) = Some (snd (fst rt)) /\ ix_data ix s = fst (fst rt)
  | _ => True
  end.
Definition todo (rt : row * task) : bool := match snd rt with Todo => true | _ => false end.
Definition row_label (rt : row * task) : N := snd (fst rt).
Definition batch_inv (n0 : N) (db0 : list entry) (dark0 : list N) (ix : index) (h : list slot_event) (tasks : list (row * task)) : Prop :=
  index_inv n0 ix h (flat_map task_entries tasks ++ db0) (flat_map task_dark tasks ++ dark0) /\ Forall (task_ok ix) tasks.
Definition rows_ok (db0 : list entry) (labels : list N) : Prop :=
  NoDup labels /\ forall l, In l labels -> l <> kNoLabel /\ l < 2 ^ 64 /\ ~ In l (map e_label db0).

Lemma perm_mid {A} (x : A) l1 l2 l3 : Permutation (x :: (l1 ++ l2) ++ l3) ((l1 ++ x :: l2) ++ l3).
Proof. rewrite app_comm_cons. apply Permutation_app_tail. apply Permutation_middle. Qed.
Lemma filter_mid (x : N) l1 l2 : NoDup (l1 ++ x :: l2) -> filter (fun y => negb (N.eqb y x)) (l1 ++ x :: l2) = l1 ++ l2.
Proof.
  intros ND. assert (~ In x l1 /\ ~ In x l2) as [H1 H2].
  { apply NoDup_remove_2 in ND. split; intros H; apply ND, in_or_app; auto. }
  rewrite filter_app. cbn [filter]. rewrite N.eqb_refl. cbn [negb].
  rewrite !filter_all; [reflexivity| |]; intros y Hy; (destruct (N.eqb_spec y x) as [->|]; [contradiction|reflexivity]).
Qed.
Lemma upd_split {A} (l : list A) i x y : nth_error l i = Some x -> exists l1 l2, l = l1 ++ x :: l2 /\ upd l i y = l1 ++ y :: l2.
Proof.
  revert i. induction l as [|a l IH]; intros [|i] H; cbn in H; try discriminate.
  - injection H as <-. exists [], l. split; reflexivity.
  - destruct (IH i H) as (l1 & l2 & -> & E). exists (a :: l1), l2. cbn. now rewrite E.
Qed.
(** A dark slot of one task is no other task's. *)
Lemma task_ok_other ix ix' rt s : task_ok ix rt -> ~ In s (task_dark rt) ->
  (forall t, In t (task_dark rt) -> nth_error (ix_labels ix') (N.to_nat t) = nth_error (ix_labels ix) (N.to_nat t)) ->
  (forall t, t <> s -> ix_data ix' t = ix_data ix t) -> task_ok ix' rt.
Proof.
  unfold task_ok, task_dark. intros H N L D. destruct (snd rt) as [|t|t|t|[t|]]; try exact I.
  - now rewrite L by now left.
  - rewrite L by now left. rewrite D; [exact H|]. intros ->. apply N. now left.
Qed.

Lemma task_step_ok n0 db0 dark0 ix h l1 l2 r t ok :
  batch_inv n0 db0 dark0 ix h (l1 ++ (r, t) :: l2) -> rows_ok db0 (map row_label (l1 ++ (r, t) :: l2)) ->
  ix_max ix + N.of_nat (length (filter todo (l1 ++ (r, t) :: l2))) < 2 ^ 32 ->
  exists ix' t' h', task_step ix r t ok = Ok (ix', t') /\ batch_inv n0 db0 dark0 ix' h' (l1 ++ (r, t') :: l2)
    /\ ix_max ix' + N.of_nat (length (filter todo (l1 ++ (r, t') :: l2))) <= ix_max ix + N.of_nat (length (filter todo (l1 ++ (r, t) :: l2))).
Proof.
  intros [I T] (ND & RL) B. destruct r as [v l].
  assert (Hl : In l (map row_label (l1 ++ (v, l, t) :: l2))) by (rewrite map_app; apply in_or_app; right; now left).
  destruct (RL l Hl) as (NK & SM & NDB). apply Forall_app in T as [T1 T2]. inversion T2 as [|? ? TX T3]; subst. clear T2.
  destruct t as [|s|s|s|o]; cbn [task_step].
  - destruct ok.
    + rewrite filter_app, app_length in B. cbn [todo snd filter length] in B.
      destruct (allocate_ok _ _ _ _ _ l I SM ltac:(lia)) as (slot & ix' & E & I' & D1 & D2 & MX & LS & LO & EM & ED).
      cbn [snd]. rewrite E. cbn [bind]. exists ix', (Allocated slot), (h ++ [EAlloc slot]). split; [reflexivity|]. split.
      * assert (Oth : forall rt, In rt (l1 ++ (v, l, Todo) :: l2) -> task_ok ix rt -> task_ok ix' rt).
        { intros rt Hrt Ht. apply (task_ok_other ix ix' rt slot Ht).
          - intros X. apply D1. apply in_or_app. left. apply in_flat_map. eauto.
          - intros q Hq. assert (Hd : In q (flat_map task_dark (l1 ++ (v, l, Todo) :: l2) ++ dark0)) by (apply in_or_app; left; apply in_flat_map; eauto).
            apply LO; [intros ->; contradiction|]. apply (iv_dark _ _ _ _ _ I) in Hd. eapply inv_used; [exact I|congruence].
          - intros q _. now rewrite ED. }
        split.
        { eapply inv_perm; [exact I'| |].
          - rewrite !flat_map_app. reflexivity.
          - rewrite !flat_map_app. cbn [flat_map task_dark snd app]. apply perm_mid. }
        apply Forall_app. split; [|constructor].
        { apply Forall_forall. intros rt Hrt. rewrite Forall_forall in T1. apply Oth; [apply in_or_app; now left|auto]. }
        { exact LS. }
        { apply Forall_forall. intros rt Hrt. rewrite Forall_forall in T3. apply Oth; [apply in_or_app; right; now right|auto]. }
      * rewrite !filter_app, !app_length. cbn [filter todo snd length]. lia.
    + exists ix, (Dead None), h. split; [reflexivity|]. split; [split|].
      * eapply inv_perm; [exact I| |]; rewrite !flat_map_app; reflexivity.
      * apply Forall_app. split; [exact T1|]. now constructor.
      * rewrite !filter_app, !app_length. cbn [filter todo snd length]. lia.
  - assert (HD : In s (flat_map task_dark (l1 ++ (v, l, Allocated s) :: l2) ++ dark0)).
    { rewrite flat_map_app. apply in_or_app. left. apply in_or_app. right. now left. }
    destruct ok.
    + exists (write_node ix s v), (Written s), h. split; [reflexivity|]. split; [split|].
      * eapply inv_perm; [apply (write_node_inv _ _ _ _ _ s v I HD)| |]; rewrite !flat_map_app; reflexivity.
      * pose proof (iv_dark_nd _ _ _ _ _ I) as NDD. rewrite flat_map_app in NDD. cbn [flat_map task_dark snd app] in NDD.
        rewrite <- app_assoc in NDD. cbn [app] in NDD. apply NoDup_remove_2 in NDD.
        assert (Oth : forall rt, (In rt l1 \/ In rt l2) -> task_ok ix rt -> task_ok (write_node ix s v) rt).
        { intros rt Hrt Ht. apply (task_ok_other ix _ rt s Ht).
          - intros X. apply NDD. destruct Hrt as [Hrt|Hrt]; apply in_or_app; [left|right; apply in_or_app; left]; apply in_flat_map; eauto.
          - reflexivity.
          - intros q Hq. cbn. destruct (N.eqb_spec q s); [contradiction|reflexivity]. }
        apply Forall_app. split; [|constructor].
        { apply Forall_forall. intros rt Hrt. rewrite Forall_forall in T1. apply Oth; auto. }
        { unfold task_ok in *. cbn in *. rewrite N.eqb_refl. auto. }
        { apply Forall_forall. intros rt Hrt. rewrite Forall_forall in T3. apply Oth; auto. }
      * rewrite !filter_app, !app_length. cbn [filter todo snd length write_node ix_max]. lia.
    + exists ix, (Dead (Some s)), h. split; [reflexivity|]. split; [split|].
      * eapply inv_perm; [exact I| |]; rewrite !flat_map_app; reflexivity.
      * apply Forall_app. split; [exact T1|]. now constructor.
      * rewrite !filter_app, !app_length. cbn [filter todo snd length]. lia.
  - assert (HD : In s (flat_map task_dark (l1 ++ (v, l, Written s) :: l2) ++ dark0)).
    { rewrite flat_map_app. apply in_or_app. left. apply in_or_app. right. now left. }
    destruct TX as [TL TD]. cbn in TL, TD.
    assert (NL : ~ In l (map e_label (flat_map task_entries (l1 ++ (v, l, Written s) :: l2) ++ db0))).
    { rewrite map_app, in_app_iff. intros [X|X]; [|contradiction].
      rewrite in_map_iff in X. destruct X as (e & El & He). rewrite flat_map_app in He. cbn [flat_map task_entries snd app] in He.
      rewrite map_app in ND. cbn [map] in ND. change (row_label (v, l, Written s)) with l in ND. apply NoDup_remove_2 in ND. apply ND.
      assert (G : forall ls, In e (flat_map task_entries ls) -> In l (map row_label ls)).
      { intros ls Q. apply in_flat_map in Q as (rt & Hrt & Q). unfold task_entries in Q. destruct (snd rt) eqn:Er; try contradiction.
        destruct Q as [Q|[]]. subst e. cbn in El. apply in_map_iff. exists rt. auto. }
      apply in_app_or in He as [He|He]; apply in_or_app; [left|right]; now apply G. }
    destruct (publish_ok _ _ _ _ _ s l v I HD TL TD NK NL) as (ix' & E & I' & EL & ED & EM).
    rewrite E. cbn [bind]. exists ix', (Published s), (h ++ [EPublish s]). split; [reflexivity|]. split; [split|].
    + eapply inv_perm; [exact I'| |].
      * rewrite !flat_map_app. cbn [flat_map task_entries snd fst app]. apply perm_mid.
      * pose proof (iv_dark_nd _ _ _ _ _ I) as NDD. rewrite !flat_map_app in *. cbn [flat_map task_dark snd app] in *.
        rewrite <- app_assoc in *. cbn [app] in *. rewrite filter_mid by exact NDD. rewrite app_assoc. reflexivity.
    + assert (Oth : forall rt, task_ok ix rt -> task_ok ix' rt).
      { intros rt. unfold task_ok. now rewrite EL, ED. }
      apply Forall_app. split; [|constructor; [exact Logic.I|]].
      { apply Forall_forall. intros rt Hrt. rewrite Forall_forall in T1. auto. }
      { apply Forall_forall. intros rt Hrt. rewrite Forall_forall in T3. auto. }
    + rewrite EM, !filter_app, !app_length. cbn [filter todo snd length]. lia.
  - exists ix, (Published s), h. split; [reflexivity|]. split; [split; [exact I|apply Forall_app; split; [exact T1|now constructor]]|lia].
  - exists ix, (Dead o), h. split; [reflexivity|]. split; [split; [exact I|apply Forall_app; split; [exact T1|now constructor]]|lia].
Qed.

Lemma run_tasks_ok n0 db0 dark0 : forall sched ix h tasks,
  batch_inv n0 db0 dark0 ix h tasks -> rows_ok db0 (map row_label tasks) -> ix_max ix + N.of_nat (length (filter todo tasks)) < 2 ^ 32 ->
  exists ix' tasks' h', run_tasks ix tasks sched = Ok (ix', tasks') /\ batch_inv n0 db0 dark0 ix' h' tasks'
    /\ map fst tasks' = map fst tasks /\ ix_max ix' + N.of_nat (length (filter todo tasks')) <= ix_max ix + N.of_nat (length (filter todo tasks)).
Proof.
  induction sched as [|[i ok] sched IH]; intros ix h tasks BI RO B; cbn [run_tasks].
  - exists ix, tasks, h. split; [reflexivity|]. split; [exact BI|]. split; [reflexivity|lia].
  - destruct (nth_error tasks i) as [[r t]|] eqn:En; [|now apply IH with (h := h)].
    destruct (nth_error_split tasks i En) as (l1 & l2 & -> & Li).
    destruct (task_step_ok _ _ _ _ _ _ _ _ _ ok BI RO B) as (ix1 & t1 & h1 & E & BI1 & M1). rewrite E. cbn [bind].
    destruct (upd_split _ i (r, t) (r, t1) En) as (a & b & E1 & E2).
    assert (Eu : upd (l1 ++ (r, t) :: l2) i (r, t1) = l1 ++ (r, t1) :: l2).
    { subst i. clear. induction l1 as [|x l1 IH]; cbn; [reflexivity|]. now rewrite IH. }
    rewrite Eu. assert (Em : map fst (l1 ++ (r, t1) :: l2) = map fst (l1 ++ (r, t) :: l2)) by now rewrite !map_app.
    destruct (IH ix1 h1 (l1 ++ (r, t1) :: l2)) as (ix' & ts & h' & E' & BI' & Mf & M').
    + exact BI1.
    + replace (map row_label (l1 ++ (r, t1) :: l2)) with (map row_label (l1 ++ (r, t) :: l2)); [exact RO|]. now rewrite !map_app.
    + lia.
    + exists ix', ts, h'. split; [exact E'|]. split; [exact BI'|]. split; [congruence|lia].
Qed.

(** ** The checks *)
Lemma removable_ok n0 ix h db dark id : index_inv n0 ix h db dark ->
  exists b, removable ix id = Ok b /\ (b = true <-> In id (map e_slot db)).
Proof.
  intros I. unfold removable. destruct (N.leb_spec (ix_max ix) id) as [L|L].
  - eexists. split; [reflexivity|]. split; [discriminate|]. intros H. apply (iv_vis _ _ _ _ _ I) in H.
    pose proof (inv_used _ _ _ _ _ id I ltac:(congruence)). lia.
  - rewrite (inv_deleted _ _ _ _ _ id I). cbn [bind]. eexists. split; [reflexivity|]. rewrite <- (iv_vis _ _ _ _ _ I).
    destruct (status n0 h id) eqn:St; cbn; try (split; [discriminate|intros X; discriminate]); [|tauto].
    exfalso. rewrite (iv_max _ _ _ _ _ I) in L. apply (si_used _ _ _ (iv_slots _ _ _ _ _ I)) in L. congruence.
Qed.
Lemma existsb_eqb x l : existsb (N.eqb x) l = true <-> In x l.
Proof.
  rewrite existsb_exists. split; [intros (y & H & E); apply N.eqb_eq in E; now subst|]. intros H. exists x. split; [exact H|apply N.eqb_refl].
Qed.
Lemma existsb_eqb_false x l : existsb (N.eqb x) l = false <-> ~ In x l.
Proof. rewrite <- existsb_eqb. destruct (existsb (N.eqb x) l); intuition congruence. Qed.
Lemma removable_batch_ok n0 ix h db dark : index_inv n0 ix h db dark -> forall ids seen,
  exists b, removable_batch ix seen ids = Ok b
    /\ (b = true <-> NoDup ids /\ (forall id, In id ids -> ~ In id seen) /\ (forall id, In id ids -> In id (map e_slot db))).
Proof.
  intros I. induction ids as [|id ids IH]; intros seen; cbn [removable_batch].
  - exists true. split; [reflexivity|]. split; [|reflexivity]. intros _. split; [constructor|]. split; intros ? [].
  - destruct (removable_ok _ _ _ _ _ id I) as (b & -> & B). cbn [bind]. destruct b; cbn [negb].
    + destruct (existsb (N.eqb id) seen) eqn:Es.
      * apply existsb_eqb in Es. exists false. split; [reflexivity|]. split; [discriminate|]. intros (_ & H & _). exfalso. apply (H id); [now left|assumption].
      * apply existsb_eqb_false in Es. destruct (IH (id :: seen)) as (b & E & Hb). exists b. split; [exact E|]. rewrite Hb. split.
        { intros (ND & D & P). split; [|split].
          - constructor; [|assumption]. intros X. apply (D id X). now left.
          - intros x [<-|X]; [assumption|]. intros Y. apply (D x X). now right.
          - intros x [<-|X]; [now apply B|auto]. }
        { intros (ND & D & P). inversion ND; subst. split; [assumption|]. split.
          - intros x X [<-|Y]; [contradiction|]. apply (D x); [now right|assumption].
          - intros x X. apply P. now right. }
    + exists false. split; [reflexivity|]. split; [discriminate|]. intros (_ & _ & P). exfalso. assert (In id (map e_slot db)) by (apply P; now left). apply B in H. discriminate.
Qed.
Lemma filter_filter {A} (p q : A -> bool) l : filter p (filter q l) = filter (fun x => q x && p x) l.
Proof. induction l as [|a l IH]; [reflexivity|]. cbn. destruct (q a); cbn; [destruct (p a); now rewrite IH|exact IH]. Qed.
Lemma remove_slots_ok n0 : forall ids ix h db dark, index_inv n0 ix h db dark -> NoDup ids -> (forall id, In id ids -> In id (map e_slot db)) ->
  exists ix' h', remove_slots ix ids = Ok ix' /\ index_inv n0 ix' h' (filter (fun e => negb (existsb (N.eqb (e_slot e)) ids)) db) dark /\ ix_max ix' = ix_max ix
    /\ ix_labels ix' = ix_labels ix /\ ix_data ix' = ix_data ix.
Proof.
  induction ids as [|id ids IH]; intros ix h db dark I ND P; cbn [remove_slots].
  - exists ix, h. split; [reflexivity|]. split; [|now split]. rewrite filter_all; [exact I|reflexivity].
  - inversion ND as [|? ? N1 N2]; subst. destruct (remove_slot_ok _ _ _ _ _ id I (P id (or_introl eq_refl))) as (ix1 & E & I1 & L1 & D1 & M1).
    rewrite E. cbn [bind]. destruct (IH ix1 _ _ _ I1 N2) as (ix' & h' & E' & I' & M' & L' & D').
    + intros x Hx. specialize (P x (or_intror Hx)). apply slot_entry in P as (l & v & He). apply slot_entry. exists l, v. apply filter_In.
      split; [exact He|]. cbn. destruct (N.eqb_spec x id) as [->|]; [contradiction|reflexivity].
    + exists ix', h'. split; [exact E'|]. rewrite filter_filter in I'. split; [|repeat split; congruence].
      erewrite filter_ext; [exact I'|]. intros e. cbn. now rewrite negb_orb.
Qed.
Lemma lookup_all_ok n0 ix h db dark : index_inv n0 ix h db dark -> forall ls seen,
  match lookup_all ix seen ls with
  | Some ids => NoDup ls /\ (forall l, In l ls -> ~ In l seen) /\ Forall2 (fun l s => exists v, In (l, s, v) db) ls ids
  | None => ~ NoDup ls \/ (exists l, In l ls /\ In l seen) \/ exists l, In l ls /\ ~ In l (map e_label db)
  end.
Proof.
  intros I. induction ls as [|l ls IH]; intros seen; cbn [lookup_all].
  - split; [constructor|]. split; [intros ? []|constructor].
  - destruct (existsb (N.eqb l) seen) eqn:Es.
    + apply existsb_eqb in Es. right. left. exists l. split; [now left|exact Es].
    + apply existsb_eqb_false in Es. destruct (ix_map ix l) as [s|] eqn:Em.
      * specialize (IH (l :: seen)). destruct (lookup_all ix (l :: seen) ls) as [ids|].
        { destruct IH as (ND & D & F). split; [|split].
          - constructor; [|exact ND]. intros X. apply (D l X). now left.
          - intros x [<-|X]; [exact Es|]. intros Y. apply (D x X). now right.
          - constructor; [|exact F]. now apply (iv_map _ _ _ _ _ I). }
        { destruct IH as [X|[(x & X & [<-|Y])|(x & X & Y)]].
          - left. intros N. inversion N; contradiction.
          - left. intros N. inversion N; contradiction.
          - right. left. exists x. split; [now right|exact Y].
          - right. right. exists x. split; [now right|exact Y]. }
      * right. right. exists l. split; [now left|]. intros X. apply label_entry in X as (s & v & X).
        assert (ix_map ix l = Some s) by (apply (iv_map _ _ _ _ _ I); eauto). congruence.
Qed.
Lemma insert_label_ok_iff n0 ix h db dark l : index_inv n0 ix h db dark ->
  (insert_label_ok ix l = true <-> l <> kNoLabel /\ ~ In l (map e_label db)).
Proof.
  intros I. unfold insert_label_ok. assert (M : ix_map ix l = None <-> ~ In l (map e_label db)).
  { split.
    - intros E X. apply label_entry in X as (s & v & X). assert (ix_map ix l = Some s) by (apply (iv_map _ _ _ _ _ I); eauto). congruence.
    - intros X. destruct (ix_map ix l) as [s|] eqn:E; [|reflexivity]. exfalso. apply X, label_entry. apply (iv_map _ _ _ _ _ I) in E as (v & E). eauto. }
  rewrite <- M. destruct (N.eqb_spec l kNoLabel); destruct (ix_map ix l); cbn; intuition congruence.
Qed.
Lemma unique_labels_iff : forall ls seen, unique_labels seen ls = true <-> NoDup ls /\ (forall l, In l ls -> ~ In l seen) /\ ~ In kNoLabel ls.
Proof.
  induction ls as [|l ls IH]; intros seen; cbn [unique_labels].
  - split; [|reflexivity]. intros _. split; [constructor|]. split; [intros ? []|intros []].
  - rewrite !andb_true_iff, !negb_true_iff, N.eqb_neq, existsb_eqb_false, IH. split.
    + intros ((K & S) & ND & D & NK). split; [|split].
      * constructor; [|exact ND]. intros X. apply (D l X). now left.
      * intros x [<-|X]; [exact S|]. intros Y. apply (D x X). now right.
      * intros [X|X]; [congruence|contradiction].
    + intros (ND & D & NK). inversion ND; subst. repeat split; auto.
      * intros ->. apply NK. now left.
      * apply D. now left.
      * intros x X [<-|Y]; [contradiction|]. apply (D x); [now right|exact Y].
      * intros X. apply NK. now right.
Qed.
Lemma insert_labels_ok_iff n0 ix h db dark ls : index_inv n0 ix h db dark ->
  (insert_labels_ok ix ls = true <-> NoDup ls /\ forall l, In l ls -> l <> kNoLabel /\ ~ In l (map e_label db)).
Proof.
  intros I. unfold insert_labels_ok. rewrite andb_true_iff, unique_labels_iff, forallb_forall. split.
  - intros ((ND & _ & NK) & M). split; [exact ND|]. intros l Hl. apply (insert_label_ok_iff _ _ _ _ _ l I). unfold insert_label_ok.
    rewrite (M l Hl), andb_true_r. apply negb_true_iff, N.eqb_neq. intros ->. contradiction.
  - intros (ND & P). split; [split; [exact ND|split; [intros ? ? []|]]|].
    + intros X. now destruct (P _ X).
    + intros l Hl. specialize (P l Hl). apply (insert_label_ok_iff _ _ _ _ _ l I) in P. unfold insert_label_ok in P. now apply andb_true_iff in P as [_ P].
Qed.

(** ** The operations, without reopening *)
Definition op_result (n0 : N) (ix : index) (db : list entry) (dark : list N) (o : ix_op) (ix' : index) (out : outcome) : Prop :=
  (out = Unfinished \/ exists h' dark', index_inv n0 ix' h' (after o out db) dark' /\ N.of_nat (length dark') = N.of_nat (length dark) + leaked o out
     /\ ix_max ix' <= ix_max ix + offered o)
  /\ (out = Rejected <-> must_reject db o) /\ (out = Rejected -> ix' = ix).

Lemma insert_ok n0 ix h db dark v l f : index_inv n0 ix h db dark -> l < 2 ^ 64 -> ix_max ix + 1 < 2 ^ 32 ->
  exists ix' out, insert ix v l f = Ok (ix', out) /\ op_result n0 ix db dark (OInsert v l f) ix' out.
Proof.
  intros I SM B. unfold insert. pose proof (insert_label_ok_iff _ _ _ _ _ l I) as V. unfold op_result. cbn [must_reject offered].
  destruct (insert_label_ok ix l); cbn [negb].
  2:{ exists ix, Rejected. split; [reflexivity|]. split; [right; exists h, dark; split; [exact I|cbn [leaked]; destruct f; lia]|]. split; [|reflexivity]. split; [|reflexivity]. intros _.
      destruct (N.eq_dec l kNoLabel) as [->|NK]; [now left|]. right. destruct (in_dec N.eq_dec l (map e_label db)) as [X|X]; [exact X|].
      exfalso. assert (false = true) by (apply V; auto). discriminate. }
  destruct (proj1 V eq_refl) as [NK NL].
  assert (NR : ~ (l = kNoLabel \/ In l (map e_label db))) by intuition.
  assert (Early : exists ix' out, Ok (ix, Failed) = Ok (ix', out) /\ (f = FailEarly -> op_result n0 ix db dark (OInsert v l f) ix' out)).
  { exists ix, Failed. split; [reflexivity|]. intros ->. split; [right; exists h, dark; split; [exact I|cbn; lia]|]. split; [|discriminate]. split; [discriminate|]. cbn. intros; contradiction. }
  destruct f; [|destruct Early as (ix' & out & E & R); exists ix', out; split; [exact E|now apply R]| |];
    destruct (allocate_ok _ _ _ _ _ l I SM ltac:(lia)) as (slot & ix1 & -> & I1 & D1 & D2 & MX & LS & LO & EM & ED); cbn [bind].
  2:{ exists ix1, Failed. split; [reflexivity|]. split; [right; exists (h ++ [EAlloc slot]), (slot :: dark); split; [exact I1|cbn [leaked length]; lia]|].
      split; [|discriminate]. split; [discriminate|intros; contradiction]. }
  all: assert (I2 : index_inv n0 (write_node ix1 slot v) (h ++ [EAlloc slot]) db (slot :: dark)) by (apply write_node_inv; [exact I1|now left]).
  all: destruct (publish_ok _ _ _ _ _ slot l v I2) as (ix2 & -> & I3 & _ & _ & M3); [now left|exact LS|cbn; now rewrite N.eqb_refl|exact NK|exact NL|]; cbn [bind].
  all: assert (Ef : filter (fun x => negb (N.eqb x slot)) (slot :: dark) = dark)
    by (cbn [filter]; rewrite N.eqb_refl; cbn [negb]; apply filter_all; intros x Hx; destruct (N.eqb_spec x slot) as [->|]; [contradiction|reflexivity]).
  all: rewrite Ef in I3; cbn [write_node ix_max] in M3.
  - exists ix2, (Inserted slot). split; [reflexivity|]. split; [right; eexists _, dark; split; [exact I3|cbn [leaked]; lia]|].
    split; [|discriminate]. split; [discriminate|intros; contradiction].
  - exists ix2, (InsertedThenFailed slot). split; [reflexivity|]. split; [right; eexists _, dark; split; [exact I3|cbn [leaked]; lia]|].
    split; [|discriminate]. split; [discriminate|intros; contradiction].
Qed.

Lemma batch_done (tasks : list (row * task)) : forallb (fun rt => ended (snd rt)) tasks = true ->
  flat_map task_entries tasks = batch_entries (map fst tasks) (map (fun rt => task_id (snd rt)) tasks) (map (fun rt => task_fate (snd rt)) tasks)
  /\ length (flat_map task_dark tasks) = length (filter (fun f => match f with Leaked => true | _ => false end) (map (fun rt => task_fate (snd rt)) tasks)).
Proof.
  induction tasks as [|[[v l] t] tasks IH]; intros H; [split; reflexivity|]. cbn [forallb snd] in H. apply andb_true_iff in H as [Ht H].
  destruct (IH H) as [E1 E2]. cbn [flat_map map]. rewrite app_length, E1, E2. destruct t as [| | |s|[s|]]; try discriminate; split; reflexivity.
Qed.
Lemma batch_insert_ok n0 ix h db dark rows sched : index_inv n0 ix h db dark -> Forall (fun r => snd r < 2 ^ 64) rows ->
  ix_max ix + N.of_nat (length rows) < 2 ^ 32 ->
  exists ix' out, batch_insert ix rows sched = Ok (ix', out) /\ op_result n0 ix db dark (OBatchInsert rows sched) ix' out.
Proof.
  intros I SM B. unfold batch_insert. pose proof (insert_labels_ok_iff _ _ _ _ _ (map snd rows) I) as V. unfold op_result. cbn [must_reject offered].
  destruct (insert_labels_ok ix (map snd rows)); cbn [negb].
  2:{ exists ix, Rejected. split; [reflexivity|]. split; [right; exists h, dark; split; [exact I|cbn [leaked]; lia]|]. split; [|reflexivity]. split; [|reflexivity]. intros _.
      destruct (ListDec.NoDup_dec N.eq_dec (map snd rows)) as [ND|ND]; [|now left]. right.
      assert (D : forall l, {l = kNoLabel \/ In l (map e_label db)} + {~ (l = kNoLabel \/ In l (map e_label db))}).
      { intros l. destruct (N.eq_dec l kNoLabel); [left; now left|]. destruct (in_dec N.eq_dec l (map e_label db)); [left; now right|right; tauto]. }
      destruct (Exists_dec (fun l => l = kNoLabel \/ In l (map e_label db)) (map snd rows) D) as [X|X].
      - apply Exists_exists in X as (l & Hl & X). eauto.
      - exfalso. assert (false = true); [|discriminate]. apply V. split; [exact ND|]. intros l Hl. rewrite <- Forall_Exists_neg in X. rewrite Forall_forall in X. specialize (X l Hl). tauto. }
  destruct (proj1 V eq_refl) as [ND NL].
  set (ts := map (fun r : row => (r, Todo)) rows).
  assert (Ef : flat_map task_entries ts = [] /\ flat_map task_dark ts = [] /\ length (filter todo ts) = length rows /\ map fst ts = rows).
  { subst ts. clear. induction rows as [|r rows (A & B & C & D)]; [now repeat split|]. cbn. rewrite A, B, C, D. now repeat split. }
  destruct Ef as (F1 & F2 & F3 & F4).
  destruct (run_tasks_ok n0 db dark sched ix h ts) as (ix' & ts' & h' & E & [I' T'] & Mf & M').
  - split; [rewrite F1, F2; exact I|]. subst ts. apply Forall_forall. intros rt X. apply in_map_iff in X as (r & <- & _). exact Logic.I.
  - assert (Em : map row_label ts = map snd rows) by (subst ts; rewrite map_map; apply map_ext; reflexivity). rewrite Em.
    split; [exact ND|]. intros l Hl. destruct (NL l Hl). split; [assumption|]. split; [|assumption].
    apply in_map_iff in Hl as (r & <- & Hr). rewrite Forall_forall in SM. auto.
  - rewrite F3. exact B.
  - rewrite E. cbn [bind]. destruct (forallb (fun rt => ended (snd rt)) ts') eqn:En.
    + destruct (batch_done ts' En) as [E1 E2]. rewrite Mf, F4 in E1.
      eexists ix', _. split; [reflexivity|]. split.
      { right. exists h', (flat_map task_dark ts' ++ dark). cbn [after leaked]. rewrite <- E1. split; [exact I'|]. split; [rewrite app_length, Nat2N.inj_add, E2, N.add_comm; reflexivity|]. rewrite F3 in M'. etransitivity; [apply N.le_add_r|exact M']. }
      split; [|discriminate]. split; [discriminate|]. intros [X|(l & Hl & X)]; [contradiction|]. destruct (NL l Hl). tauto.
    + exists ix', Unfinished. split; [reflexivity|]. split; [now left|]. split; [|discriminate]. split; [discriminate|].
      intros [X|(l & Hl & X)]; [contradiction|]. destruct (NL l Hl). tauto.
Qed.
Lemma remove_ok n0 ix h db dark id f : index_inv n0 ix h db dark ->
  exists ix' out, remove_id ix id f = Ok (ix', out) /\ op_result n0 ix db dark (ORemove id f) ix' out.
Proof.
  intros I. unfold remove_id. destruct (removable_ok _ _ _ _ _ id I) as (b & -> & Hb). cbn [bind]. unfold op_result. cbn [must_reject offered leaked].
  destruct b; cbn [negb].
  - assert (Hi : In id (map e_slot db)) by now apply Hb. destruct (remove_slot_ok _ _ _ _ _ id I Hi) as (ix1 & E & I1 & _ & _ & M1).
    destruct f; rewrite ?E; cbn [bind];
      [exists ix1, Removed|exists ix, Failed|exists ix1, Removed|exists ix1, RemovedThenFailed];
      (split; [reflexivity|]); (split; [right; eexists _, dark; split; [first [exact I1|exact I]|lia]|]);
      (split; [|discriminate]); (split; [discriminate|intros; contradiction]).
  - exists ix, Rejected. split; [reflexivity|]. split; [right; exists h, dark; split; [exact I|lia]|]. split; [|reflexivity]. split; [|reflexivity].
    intros _ X. apply Hb in X. discriminate.
Qed.
Lemma remove_by_label_ok n0 ix h db dark l f : index_inv n0 ix h db dark ->
  exists ix' out, remove_by_label ix l f = Ok (ix', out) /\ op_result n0 ix db dark (ORemoveLabel l f) ix' out.
Proof.
  intros I. unfold remove_by_label. unfold op_result. cbn [must_reject offered leaked]. destruct (ix_map ix l) as [s|] eqn:Em.
  - apply (iv_map _ _ _ _ _ I) in Em as (v & He).
    destruct (remove_ok n0 ix h db dark s f I) as (ix' & out & E & R & J & K). exists ix', out. split; [exact E|].
    assert (Hs : In s (map e_slot db)) by (apply slot_entry; eauto). assert (Hl : In l (map e_label db)) by (apply label_entry; eauto).
    split; [|split; [split|exact K]].
    + destruct R as [R|(h' & dark' & R1 & R2 & R3)]; [now left|]. right. exists h', dark'. cbn [offered leaked] in *. split; [|split; assumption].
      assert (Ea : after (ORemoveLabel l f) out db = after (ORemove s f) out db).
      { assert (G : filter (fun e => negb (N.eqb (e_label e) l)) db = filter (fun e => negb (N.eqb (e_slot e) s)) db).
        { apply filter_ext_in. intros e He2. f_equal. destruct (N.eqb_spec (e_label e) l) as [El|El]; destruct (N.eqb_spec (e_slot e) s) as [Es|Es]; try reflexivity; exfalso.
          - apply Es. assert (e = (l, s, v)) as -> by (apply (NoDup_map_inj e_label db); auto; apply I). reflexivity.
          - apply El. assert (e = (l, s, v)) as -> by (apply (NoDup_map_inj e_slot db); auto; apply I). reflexivity. }
        destruct out; cbn [after]; try reflexivity; exact G. }
      rewrite Ea. exact R1.
    + intros ->. exfalso. apply (proj1 J eq_refl). exact Hs.
    + intros X. contradiction.
  - exists ix, Rejected. split; [reflexivity|]. split; [right; exists h, dark; split; [exact I|lia]|]. split; [|reflexivity]. split; [|reflexivity].
    intros _ X. apply label_entry in X as (s & v & X). assert (ix_map ix l = Some s) by (apply (iv_map _ _ _ _ _ I); eauto). congruence.
Qed.
Lemma batch_remove_ok n0 ix h db dark ids f : index_inv n0 ix h db dark ->
  exists ix' out, batch_remove ix ids f = Ok (ix', out) /\ op_result n0 ix db dark (OBatchRemove ids f) ix' out.
Proof.
  intros I. unfold batch_remove. destruct (removable_batch_ok _ _ _ _ _ I ids []) as (b & -> & Hb). cbn [bind]. unfold op_result. cbn [must_reject offered leaked].
  destruct b; cbn [negb].
  - destruct (proj1 Hb eq_refl) as (ND & _ & P). destruct (remove_slots_ok n0 ids ix h db dark I ND P) as (ix1 & h1 & E & I1 & M1 & _).
    assert (NR : ~ (~ NoDup ids \/ exists id, In id ids /\ ~ In id (map e_slot db))) by (intros [X|(x & X & Y)]; [contradiction|]; apply Y; auto).
    destruct f; rewrite ?E; cbn [bind];
      [exists ix1, Removed|exists ix, Failed|exists ix1, Removed|exists ix1, RemovedThenFailed];
      (split; [reflexivity|]); (split; [right; eexists _, dark; split; [first [exact I1|exact I]|lia]|]);
      (split; [|discriminate]); (split; [discriminate|intros; contradiction]).
  - exists ix, Rejected. split; [reflexivity|]. split; [right; exists h, dark; split; [exact I|lia]|]. split; [|reflexivity]. split; [|reflexivity].
    intros _. destruct (ListDec.NoDup_dec N.eq_dec ids) as [ND|ND]; [|now left]. right.
    destruct (Exists_dec (fun id => ~ In id (map e_slot db)) ids) as [X|X].
    { intros id. destruct (in_dec N.eq_dec id (map e_slot db)); [right; tauto|now left]. }
    + apply Exists_exists in X. exact X.
    + exfalso. assert (false = true); [|discriminate]. apply Hb. split; [exact ND|]. split; [intros ? ? []|]. intros id Hid.
      rewrite <- Forall_Exists_neg in X. rewrite Forall_forall in X. specialize (X id Hid). destruct (in_dec N.eq_dec id (map e_slot db)); [assumption|contradiction].
Qed.
Lemma forall2_slots (db : list entry) ls ids : NoDup (map e_slot db) -> NoDup ls -> Forall2 (fun l s => exists v, In (l, s, v) db) ls ids -> NoDup ids /\ (forall s, In s ids -> In s (map e_slot db)).
Proof.
  intros ND N2 F. induction F as [|l s ls ids (v & H) F IH]; [split; [constructor|intros ? []]|]. inversion N2; subst. destruct (IH H3) as [A B]. split.
  - constructor; [|exact A]. intros X. assert (Y : exists l' v', In l' ls /\ In (l', s, v') db).
    { clear - X F. induction F as [|l' s' ls ids (v' & H') F IH]; [destruct X|]. destruct X as [->|X]; [exists l', v'; split; [now left|exact H']|].
      destruct (IH X) as (a & b & ? & ?). exists a, b. split; [now right|assumption]. }
    destruct Y as (l' & v' & Hl' & He'). assert (E : (l', s, v') = (l, s, v)) by (apply (NoDup_map_inj e_slot db); auto). injection E as -> _. contradiction.
  - intros x [<-|X]; [apply slot_entry; eauto|auto].
Qed.
Lemma batch_remove_by_labels_ok n0 ix h db dark ls f : index_inv n0 ix h db dark ->
  exists ix' out, batch_remove_by_labels ix ls f = Ok (ix', out) /\ op_result n0 ix db dark (OBatchRemoveLabels ls f) ix' out.
Proof.
  intros I. unfold batch_remove_by_labels. pose proof (lookup_all_ok _ _ _ _ _ I ls []) as L. unfold op_result. cbn [must_reject offered leaked].
  destruct (lookup_all ix [] ls) as [ids|].
  - destruct L as (ND & _ & F). destruct (batch_remove_ok n0 ix h db dark ids f I) as (ix' & out & E & R & J & K). exists ix', out. split; [exact E|].
    destruct (forall2_slots db ls ids (iv_slot_nd _ _ _ _ _ I) ND F) as [NDi Pi].
    assert (Pl : forall l, In l ls -> In l (map e_label db)).
    { clear - F. induction F as [|l s ls ids (v & H) F IH]; [intros ? []|]. intros x [<-|X]; [apply label_entry; eauto|auto]. }
    split; [|split; [split|exact K]].
    + destruct R as [R|(h' & dark' & R1 & R2 & R3)]; [now left|]. right. exists h', dark'. cbn [offered leaked] in *. split; [|split; assumption].
      assert (Ea : after (OBatchRemoveLabels ls f) out db = after (OBatchRemove ids f) out db).
      { assert (G : filter (fun e => negb (existsb (N.eqb (e_label e)) ls)) db = filter (fun e => negb (existsb (N.eqb (e_slot e)) ids)) db).
        { apply filter_ext_in. intros e He. f_equal. apply eq_true_iff_eq. rewrite !existsb_eqb. clear - He F I. induction F as [|l s ls ids (v & H) F IH]; [tauto|].
          cbn [In]. rewrite IH. split; (intros [X|X]; [left|now right]).
          - assert (e = (l, s, v)) as -> by (apply (NoDup_map_inj e_label db); auto; apply I). reflexivity.
          - assert (e = (l, s, v)) as -> by (apply (NoDup_map_inj e_slot db); auto; apply I). reflexivity. }
        destruct out; cbn [after]; try reflexivity; exact G. }
      rewrite Ea. exact R1.
    + intros ->. exfalso. destruct (proj1 J eq_refl) as [X|(id & X & Y)]; [contradiction|]. apply Y. auto.
    + intros [X|(l & X & Y)]; [contradiction|]. exfalso. apply Y. auto.
  - exists ix, Rejected. split; [reflexivity|]. split; [right; exists h, dark; split; [exact I|lia]|]. split; [|reflexivity]. split; [|reflexivity].
    intros _. destruct L as [L|[(l & _ & [])|L]]; [now left|now right].
Qed.

(** ** The files *)
Definition conf_ok (c : conf) : Prop := layout_fits (c_dim c) (c_degree c) 1 /\ c_medoid c < 2 ^ 32.
Lemma conf_geo c : conf_ok c -> exists g, compute (c_dim c) (c_degree c) = Ok g /\ geo (c_dim c) (c_degree c) g
  /\ g_len g < 2 ^ 64 /\ g_per g < 2 ^ 64 /\ c_dim c < 2 ^ 64 /\ c_degree c < 2 ^ 32 /\ c_dim c <> 0.
Proof.
  intros [F M]. destruct (compute_ok _ _ 1 F ltac:(lia)) as (g & E & G). exists g. split; [exact E|]. split; [exact G|].
  pose proof (geo_len _ _ _ G) as GL. pose proof (geo_room _ _ _ G) as RM. pose proof (geo_page _ _ _ G) as PG.
  destruct F as (D & DB & F). unfold kSectorLen in *. rewrite N.mul_1_l in F.
  assert (g_len g < 2 ^ 63 * 2) by lia. split; [lia|]. split; [|lia].
  assert (g_per g <= g_per g * g_len g) by (clear - GL; nia). lia.
Qed.
Lemma read_n_enc n x r : x < 2 ^ (8 * N.of_nat n) -> read_n n (le_enc n x ++ r) = Ok (x, r).
Proof. intros H. unfold read_n. rewrite take_bytes_app by apply le_enc_length. now rewrite le_dec_enc. Qed.
Lemma read_write_meta m : m_points m < 2 ^ 64 -> m_dim m < 2 ^ 64 -> m_degree m < 2 ^ 32 -> m_medoid m < 2 ^ 32 -> m_len m < 2 ^ 64 -> m_per m < 2 ^ 64 ->
  m_max m < 2 ^ 64 -> m_live m < 2 ^ 64 -> m_points m <> 0 -> m_dim m <> 0 -> read_meta (write_meta m) = Ok m.
Proof.
  intros H1 H2 H3 H4 H5 H6 H7 H8 P D. unfold read_meta, write_meta, kMetaVersion.
  rewrite read_n_enc by reflexivity. cbn [bind]. rewrite read_n_enc by reflexivity. cbn [bind]. rewrite read_n_enc by exact H1. cbn [bind]. rewrite read_n_enc by exact H2. cbn [bind].
  rewrite read_n_enc by exact H3. cbn [bind]. rewrite read_n_enc by exact H4. cbn [bind]. rewrite read_n_enc by reflexivity. cbn [bind]. rewrite read_n_enc by reflexivity. cbn [bind].
  rewrite read_n_enc by exact H5. cbn [bind]. rewrite read_n_enc by exact H6. cbn [bind]. rewrite N.eqb_refl. cbn [negb].
  change (N.eqb 2 1) with false. change (N.eqb 2 2) with true. cbv iota.
  rewrite read_n_enc by exact H7. cbn [bind]. rewrite <- (app_nil_r (le_enc 8 (m_live m))). rewrite read_n_enc by exact H8. cbn [bind].
  destruct (N.eqb_spec (m_points m) 0); [contradiction|]. destruct (N.eqb_spec (m_dim m) 0); [contradiction|]. cbn [orb N.eqb negb]. now destruct m.
Qed.
Lemma read_write_ids labels : N.of_nat (length labels) < 2 ^ 64 -> Forall (fun l => l < 2 ^ 64) labels ->
  read_ids (write_ids labels) (N.of_nat (length labels)) = Ok labels.
Proof.
  intros L F. unfold read_ids, write_ids. rewrite read_n_enc by exact L. cbn [bind]. rewrite N.eqb_refl. cbn [negb].
  fold (words_bytes labels). rewrite words_bytes_len. destruct (N.ltb_spec (N.of_nat (8 * length labels)) (N.of_nat (length labels) * 8)); [lia|].
  rewrite Nat2N.id. rewrite <- (app_nil_r (words_bytes labels)). now rewrite bytes_words_enc.
Qed.

(** What the labels and the allocator must satisfy for the label lookup to be
    rebuilt as the given rows. *)
Record lookup_inv (n0 : N) (a : slots) (labels : list N) (h : list slot_event) (db : list entry) : Prop := {
  lk_slots : slots_inv n0 a h;
  lk_len : N.of_nat (length labels) = sl_next a;
  lk_vis : forall s, status n0 h s = Visible <-> In s (map e_slot db);
  lk_nd : NoDup (map e_label db);
  lk_entry : forall e, In e db -> nth_error labels (N.to_nat (e_slot e)) = Some (e_label e) /\ e_label e <> kNoLabel;
}.
Lemma rebuild_ok n0 a labels h db : lookup_inv n0 a labels h db -> forall rest pre m, labels = pre ++ rest ->
  (forall l s, m l = Some s <-> exists v, In (l, s, v) db /\ s < N.of_nat (length pre)) ->
  exists m', rebuild a rest (N.of_nat (length pre)) m = Ok m' /\ forall l s, m' l = Some s <-> exists v, In (l, s, v) db.
Proof.
  intros LK. induction rest as [|l rest IH]; intros pre m E Hm; cbn [rebuild].
  - exists m. split; [reflexivity|]. intros l s. rewrite Hm. split; intros (v & H); exists v; [tauto|]. split; [exact H|].
    destruct (lk_entry _ _ _ _ _ LK _ H) as [H1 _]. cbn in H1. assert (N.to_nat s < length labels)%nat by (apply nth_error_Some; congruence).
    rewrite E, app_nil_r in H0. lia.
  - set (k := N.of_nat (length pre)) in *.
    assert (Enth : nth_error labels (N.to_nat k) = Some l) by (subst k; rewrite Nat2N.id, E, nth_error_app2, Nat.sub_diag by lia; reflexivity).
    assert (Hlen : N.of_nat (length (pre ++ [l])) = k + 1) by (rewrite app_length; cbn [length]; subst k; lia).
    assert (E2 : labels = (pre ++ [l]) ++ rest) by (rewrite <- app_assoc; exact E).
    pose proof (tb_is_deleted_ok _ _ k (si_tomb _ _ _ (lk_slots _ _ _ _ _ LK))) as Dk. unfold sl_is_deleted. rewrite Dk. cbn [bind].
    assert (Used : status n0 h k <> Unused).
    { apply (si_used _ _ _ (lk_slots _ _ _ _ _ LK)). rewrite <- (lk_len _ _ _ _ _ LK). rewrite E, app_length. cbn [length]. subst k. lia. }
    assert (Key : forall x s v, In (x, s, v) db -> s = k -> x = l).
    { intros x s v H ->. destruct (lk_entry _ _ _ _ _ LK _ H) as [H1 _]. cbn in H1. congruence. }
    destruct (hidden (status n0 h k)) eqn:Hk.
    + rewrite <- Hlen. apply IH; [exact E2|]. rewrite Hlen. intros x s. rewrite Hm. split; intros (v & H & L); exists v; (split; [exact H|]); [lia|].
      assert (s <> k); [|lia]. intros ->. assert (V : status n0 h k = Visible) by (apply (lk_vis _ _ _ _ _ LK), slot_entry; eauto). rewrite V in Hk. discriminate.
    + assert (V : status n0 h k = Visible) by (destruct (status n0 h k); cbn in Hk; congruence).
      apply (lk_vis _ _ _ _ _ LK), slot_entry in V as (l' & v & He). assert (l' = l) by (eapply Key; eauto). subst l'.
      destruct (lk_entry _ _ _ _ _ LK _ He) as [_ NK]. cbn in NK. destruct (N.eqb_spec l kNoLabel); [contradiction|].
      destruct (m l) as [s'|] eqn:Ml.
      * exfalso. apply Hm in Ml as (v' & H' & L'). assert (Eq : (l, s', v') = (l, k, v)) by (apply (NoDup_map_inj e_label db); auto; apply LK). injection Eq as -> _. lia.
      * rewrite <- Hlen. apply IH; [exact E2|]. rewrite Hlen. intros x s. destruct (N.eqb_spec x l) as [->|NE].
        { split.
          - intros [= <-]. exists v. split; [exact He|lia].
          - intros (v' & H' & _). assert (Eq : (l, s, v') = (l, k, v)) by (apply (NoDup_map_inj e_label db); auto; apply LK). injection Eq as -> _. reflexivity. }
        { rewrite Hm. split; intros (v' & H' & L'); exists v'; (split; [exact H'|]); [lia|]. assert (s <> k); [|lia]. intros ->. apply NE. eapply Key; eauto. }
Qed.
Lemma load_ok n0 c g a labels h db live data old : conf_ok c -> compute (c_dim c) (c_degree c) = Ok g -> lookup_inv n0 a labels h db ->
  Forall (fun l => l < 2 ^ 64) labels -> labels <> [] -> live < 2 ^ 64 ->
  exists s a' m, sl_save a = Ok s
    /\ load old {| d_meta := write_meta (header_of c g (N.of_nat (length labels)) live); d_ids := write_ids labels; d_slots := Some s; d_data := data |}
       = Ok (c, {| ix_labels := labels; ix_map := m; ix_alloc := a'; ix_max := N.of_nat (length labels); ix_live := live; ix_data := data |})
    /\ lookup_inv n0 a' labels h db /\ sl_free a' = sl_free a /\ sl_next a' = sl_next a
    /\ forall l s, m l = Some s <-> exists v, In (l, s, v) db.
Proof.
  intros C Eg LK FS NE LV. destruct (conf_geo c C) as (g' & Eg' & G & B1 & B2 & B3 & B4 & B5). rewrite Eg in Eg'. injection Eg' as <-.
  destruct (slots_reload n0 a h old (lk_slots _ _ _ _ _ LK)) as (s & a' & E1 & E2 & SI & Ef & En). exists s, a'.
  pose proof (si_next _ _ _ (lk_slots _ _ _ _ _ LK)) as Nx. pose proof (lk_len _ _ _ _ _ LK) as LL.
  assert (LK' : lookup_inv n0 a' labels h db) by (destruct LK; constructor; auto; congruence).
  destruct (rebuild_ok _ _ _ _ _ LK' labels [] (fun _ => None) eq_refl) as (m & Em & Hm).
  { intros l q. split; [discriminate|]. intros (v & _ & X). cbn in X. lia. }
  exists m. split; [exact E1|]. split; [|split; [exact LK'|split; [exact Ef|split; [exact En|exact Hm]]]].
  unfold load. cbn [d_meta d_ids d_slots d_data].
  rewrite read_write_meta by (cbn [header_of m_points m_dim m_degree m_medoid m_len m_per m_max m_live]; first [assumption|apply C|lia|destruct labels; [congruence|cbn [length]; lia]]).
  cbn [bind header_of m_points m_dim m_degree m_medoid m_len m_per m_max m_live]. rewrite Eg. cbn [bind]. rewrite !N.eqb_refl. cbn [negb orb].
  rewrite read_write_ids by (try exact FS; lia). cbn [bind]. rewrite E2. cbn [bind].
  change 0 with (N.of_nat (length (@nil N))) at 1. rewrite Em. cbn [bind]. rewrite N.max_l by lia. now destruct c.
Qed.
Lemma inv_lookup n0 ix h db dark : index_inv n0 ix h db dark -> lookup_inv n0 (ix_alloc ix) (ix_labels ix) h db.
Proof.
  intros I. constructor; try apply I.
  - rewrite (iv_len _ _ _ _ _ I). apply I.
  - intros e He. destruct (iv_entry _ _ _ _ _ I e He) as (E1 & _ & E3). auto.
Qed.
Lemma first_used n0 h id : id < n0 -> status n0 h id <> Unused.
Proof.
  intros H. induction h as [|e h IH] using rev_ind.
  - unfold status. cbn. destruct (N.ltb_spec id n0); [discriminate|lia].
  - rewrite status_snoc. destruct e as [i|i|i]; destruct (N.eqb i id); auto; discriminate.
Qed.
Lemma inv_nonempty n0 ix h db dark : 0 < n0 -> index_inv n0 ix h db dark -> ix_labels ix <> [].
Proof.
  intros H I E. pose proof (iv_len _ _ _ _ _ I) as L. pose proof (inv_used _ _ _ _ _ 0 I (first_used n0 h 0 H)). rewrite E in L. cbn in L. lia.
Qed.
Lemma reload_live n0 c g ix h db dark live old : 0 < n0 -> conf_ok c -> compute (c_dim c) (c_degree c) = Ok g -> index_inv n0 ix h db dark -> live < 2 ^ 64 ->
  exists s ix', sl_save (ix_alloc ix) = Ok s
    /\ load old {| d_meta := write_meta (header_of c g (ix_max ix) live); d_ids := write_ids (ix_labels ix); d_slots := Some s; d_data := ix_data ix |} = Ok (c, ix')
    /\ same_rows ix' ix /\ ix_live ix' = live /\ (live = ix_live ix -> index_inv n0 ix' h db dark).
Proof.
  intros N0 C Eg I LV.
  destruct (load_ok n0 c g (ix_alloc ix) (ix_labels ix) h db live (ix_data ix) old C Eg (inv_lookup _ _ _ _ _ I) (iv_small _ _ _ _ _ I) (inv_nonempty _ _ _ _ _ N0 I) LV)
    as (s & a' & m & E1 & E2 & LK & Ef & En & Hm).
  eexists s, _. split; [exact E1|]. rewrite <- (iv_len _ _ _ _ _ I). split; [exact E2|].
  unfold same_rows. cbn [ix_labels ix_max ix_live ix_data ix_alloc ix_map].
  split.
  { split; [reflexivity|]. split; [apply I|]. split; [reflexivity|]. split; [|split; [|split; assumption]].
    - intros l. destruct (m l) as [q|] eqn:E; symmetry.
      + apply (iv_map _ _ _ _ _ I). now apply Hm.
      + destruct (ix_map ix l) as [q|] eqn:E'; [|reflexivity]. apply (iv_map _ _ _ _ _ I), Hm in E'. congruence.
    - intros q. rewrite (inv_deleted _ _ _ _ _ q I). exact (tb_is_deleted_ok _ _ q (si_tomb _ _ _ (lk_slots _ _ _ _ _ LK))). }
  split; [reflexivity|]. intros EL.
  constructor; cbn [ix_labels ix_max ix_live ix_data ix_alloc ix_map]; try apply I.
  - apply LK.
  - reflexivity.
  - apply LK.
  - exact Hm.
  - rewrite EL. apply I.
Qed.
Lemma inv_live_small n0 ix h db dark : index_inv n0 ix h db dark -> ix_live ix < 2 ^ 64.
Proof. intros I. pose proof (inv_count _ _ _ _ _ I). pose proof (inv_max_small _ _ _ _ _ I). rewrite (iv_live _ _ _ _ _ I). lia. Qed.
Lemma reopen_ok n0 c ix h db dark old : 0 < n0 -> conf_ok c -> index_inv n0 ix h db dark ->
  exists d ix', flush c ix = Ok d /\ load old d = Ok (c, ix') /\ index_inv n0 ix' h db dark /\ same_rows ix' ix /\ ix_live ix' = ix_live ix.
Proof.
  intros N0 C I. destruct (conf_geo c C) as (g & Eg & _).
  destruct (reload_live n0 c g ix h db dark (ix_live ix) old N0 C Eg I (inv_live_small _ _ _ _ _ I)) as (s & ix' & E1 & E2 & SR & EL & I').
  unfold flush. rewrite Eg. cbn [bind]. rewrite E1. cbn [bind]. eexists _, ix'. split; [reflexivity|]. auto.
Qed.

(** ** A built index *)
Lemma built_ok c labels vecs d old : conf_ok c -> Forall (fun l => l < 2 ^ 64) labels -> N.of_nat (length labels) < 2 ^ 32 ->
  build c labels vecs = Ok d -> 0 < N.of_nat (length labels)
  /\ exists ix, load old d = Ok (c, ix) /\ index_inv (N.of_nat (length labels)) ix [] (built_entries labels vecs) [].
Proof.
  intros C FS LN EB. destruct (conf_geo c C) as (g & Eg & G & B1 & B2 & B3 & B4 & B5). unfold build in EB.
  destruct (N.eqb_spec (N.of_nat (length labels)) 0) as [|NZ]; [discriminate|].
  destruct (unique_labels [] labels) eqn:EU; cbn [negb] in EB; [|discriminate]. apply unique_labels_iff in EU as (ND & _ & NK).
  rewrite Eg in EB. cbn [bind] in EB. injection EB as <-. unfold load. cbn [d_meta d_ids d_slots d_data].
  set (n := N.of_nat (length labels)) in *. split; [lia|].
  rewrite read_write_meta by (cbn [header_of m_points m_dim m_degree m_medoid m_len m_per m_max m_live]; first [assumption|apply C|lia]).
  cbn [bind header_of m_points m_dim m_degree m_medoid m_len m_per m_max m_live]. rewrite Eg. cbn [bind]. rewrite !N.eqb_refl. cbn [negb orb].
  rewrite read_write_ids by (try exact FS; subst n; lia). cbn [bind]. rewrite N.mod_small by exact LN.
  destruct (slots_new_ok n LN) as (a & Ea & SI). rewrite Ea. cbn [bind].
  assert (Ens : sl_next a = n).
  { unfold sl_new in Ea. destruct (tb_new n); try discriminate. now injection Ea as <-. }
  assert (Hsl : map e_slot (built_entries labels vecs) = map N.of_nat (seq 0 (length labels))) by (unfold built_entries; rewrite map_map; apply map_ext; reflexivity).
  assert (Hlb : map e_label (built_entries labels vecs) = labels).
  { unfold built_entries. rewrite map_map. cbn [e_label fst]. clear.
    assert (G : forall l pre, map (fun i => nth i (pre ++ l) 0) (seq (length pre) (length l)) = l).
    { induction l as [|x l IH]; intros pre; [reflexivity|]. cbn [length seq map]. f_equal.
      - rewrite app_nth2, Nat.sub_diag by lia. reflexivity.
      - specialize (IH (pre ++ [x])). rewrite <- app_assoc, app_length in IH. cbn [app length] in IH. now rewrite Nat.add_1_r in IH. }
    exact (G labels []). }
  assert (Vis : forall s, status n [] s = Visible <-> In s (map e_slot (built_entries labels vecs))).
  { intros s. unfold status. cbn [fold_left]. rewrite Hsl, in_map_iff. split.
    - destruct (N.ltb_spec s n) as [L|]; [|discriminate]. intros _. exists (N.to_nat s). split; [lia|]. apply in_seq. subst n. lia.
    - intros (i & <- & Hi). apply in_seq in Hi. destruct (N.ltb_spec (N.of_nat i) n); [reflexivity|subst n; lia]. }
  assert (LK : lookup_inv n a labels [] (built_entries labels vecs)).
  { constructor; auto.
    - now rewrite Hlb.
    - intros e He. unfold built_entries in He. apply in_map_iff in He as (i & <- & Hi). apply in_seq in Hi. cbn [e_slot e_label fst snd].
      rewrite Nat2N.id. assert (Ei : nth_error labels i = Some (nth i labels 0)) by (apply nth_error_nth'; lia). split; [exact Ei|].
      intros X. apply NK. rewrite <- X. eapply nth_error_In; exact Ei. }
  destruct (rebuild_ok _ _ _ _ _ LK labels [] (fun _ => None) eq_refl) as (m & Em & Hm).
  { intros l q. split; [discriminate|]. intros (v & _ & X). cbn in X. lia. }
  cbn [length N.of_nat] in Em. rewrite Em. cbn [bind]. eexists. split; [destruct c; reflexivity|].
  constructor; cbn [ix_labels ix_max ix_live ix_data ix_alloc ix_map]; auto.
  - intros s. unfold status. cbn [fold_left]. destruct (N.ltb s n); split; try discriminate; intros [].
  - rewrite Hsl. apply FinFun.Injective_map_NoDup; [|apply seq_NoDup]. intros x y E. lia.
  - now rewrite Hlb.
  - constructor.
  - intros e He. destruct (lk_entry _ _ _ _ _ LK e He) as [E1 E2]. split; [exact E1|]. split; [|exact E2].
    unfold built_entries in He. apply in_map_iff in He as (i & <- & _). reflexivity.
  - unfold built_entries. rewrite map_length, seq_length. cbn [length]. subst n. lia.
Qed.

(** ** Histories *)
Lemma run_op_ok n0 c ix h db dark o : 0 < n0 -> conf_ok c -> index_inv n0 ix h db dark -> op_ok o -> ix_max ix + offered o < 2 ^ 32 ->
  exists ix' out, run_op c ix o = Ok (ix', out) /\ op_result n0 ix db dark o ix' out.
Proof.
  intros N0 C I OK B. destruct o; cbn [run_op op_ok offered] in *.
  - now apply insert_ok with (h := h).
  - now apply batch_insert_ok with (h := h).
  - now apply remove_ok with (h := h).
  - now apply remove_by_label_ok with (h := h).
  - now apply batch_remove_ok with (h := h).
  - now apply batch_remove_by_labels_ok with (h := h).
  - destruct (reopen_ok n0 c ix h db dark (ix_alloc ix) N0 C I) as (d & ix' & -> & E & I' & (_ & M' & _) & _). cbn [bind]. rewrite E. cbn [bind].
    exists ix', Reopened. split; [reflexivity|]. split; [right; exists h, dark; split; [exact I'|cbn; lia]|]. split; [|discriminate]. split; [discriminate|intros []].
Qed.
Lemma run_ok n0 c : 0 < n0 -> conf_ok c -> forall ops ix h db dark, index_inv n0 ix h db dark -> Forall op_ok ops -> ix_max ix + total_offered ops < 2 ^ 32 ->
  forall ix' outs, run c ix ops = Ok (ix', outs) -> ~ In Unfinished outs ->
  exists h' dark', index_inv n0 ix' h' (history db ops outs) dark' /\ N.of_nat (length dark') = N.of_nat (length dark) + leaks ops outs
    /\ ix_max ix' <= ix_max ix + total_offered ops /\ length outs = length ops.
Proof.
  intros N0 C. induction ops as [|o ops IH]; intros ix h db dark I OK B ix' outs E NU; cbn [run] in E.
  - injection E as <- <-. exists h, dark. cbn [history leaks length]. split; [exact I|]. split; [lia|]. split; [cbn; lia|reflexivity].
  - inversion OK as [|? ? O1 O2]; subst. cbn [total_offered fold_right] in B. fold (total_offered ops) in B.
    destruct (run_op_ok n0 c ix h db dark o N0 C I O1 ltac:(lia)) as (ix1 & out & E1 & R & _). rewrite E1 in E. cbn [bind] in E.
    destruct (run c ix1 ops) as [[ix2 outs2]| | |] eqn:E2; try discriminate. cbn [bind] in E. injection E as <- <-.
    destruct R as [R|(h1 & dark1 & I1 & L1 & M1)]; [exfalso; apply NU; now left|].
    destruct (IH ix1 h1 _ dark1 I1 O2 ltac:(lia) ix2 outs2 E2) as (h' & dark' & I' & L' & M' & LL); [intros X; apply NU; now right|].
    exists h', dark'. cbn [history leaks total_offered fold_right length]. fold (total_offered ops). split; [exact I'|]. split; [lia|]. split; [lia|congruence].
Qed.

(** ** Histories without I/O failures *)
Definition well (out : outcome) : Prop :=
  match out with
  | Inserted _ | Removed | Rejected | Unfinished | Reopened => True
  | InsertedAll _ fates => Forall (fun f => f = InPlace) fates
  | _ => False
  end.
Definition alive (rt : row * task) : Prop := match snd rt with Dead _ => False | _ => True end.
Lemma run_tasks_alive sched : Forall (fun e : nat * bool => snd e = true) sched -> forall ix tasks ix' tasks',
  Forall alive tasks -> run_tasks ix tasks sched = Ok (ix', tasks') -> Forall alive tasks'.
Proof.
  induction sched as [|[i ok] sched IH]; intros F ix tasks ix' tasks' A E; cbn [run_tasks] in E; [now injection E as <- <-|].
  inversion F as [|? ? F1 F2]; subst. cbn in F1. subst ok.
  destruct (nth_error tasks i) as [[r t]|] eqn:En; [|eapply IH; eauto].
  destruct (task_step ix r t true) as [[ix1 t1]| | |] eqn:Et; cbn [bind] in E; try discriminate.
  assert (At : alive (r, t)) by (rewrite Forall_forall in A; apply A; eapply nth_error_In; exact En).
  assert (At1 : alive (r, t1)).
  { destruct t; cbn [task_step] in Et.
    - destruct (allocate ix (snd r)) as [[? ?]| | |]; cbn [bind] in Et; try discriminate. now injection Et as <- <-.
    - now injection Et as <- <-.
    - destruct (publish ix slot); cbn [bind] in Et; try discriminate. now injection Et as <- <-.
    - now injection Et as <- <-.
    - destruct At. }
  eapply IH; [exact F2| |exact E]. destruct (upd_split tasks i (r, t) (r, t1) En) as (l1 & l2 & -> & ->).
  apply Forall_app in A as [A1 A2]. inversion A2; subst. apply Forall_app. split; [exact A1|]. now constructor.
Qed.
Lemma faultless_well c ix o ix' out : faultless o -> run_op c ix o = Ok (ix', out) -> well out /\ leaked o out = 0.
Proof.
  assert (Rem : forall ix id ix' out, remove_id ix id NoFault = Ok (ix', out) -> well out).
  { clear. intros ix id ix' out E. unfold remove_id in E. destruct (removable ix id) as [[|]| | |]; cbn [bind negb] in E; try discriminate.
    - destruct (remove_slot ix id); cbn [bind] in E; try discriminate. now injection E as <- <-.
    - now injection E as <- <-. }
  assert (Brem : forall ix ids ix' out, batch_remove ix ids NoFault = Ok (ix', out) -> well out).
  { clear. intros ix id ix' out E. unfold batch_remove in E. destruct (removable_batch ix [] id) as [[|]| | |]; cbn [bind negb] in E; try discriminate.
    - destruct (remove_slots ix id); cbn [bind] in E; try discriminate. now injection E as <- <-.
    - now injection E as <- <-. }
  intros F E. destruct o; cbn [run_op faultless] in E, F.
  - subst f. unfold insert in E. destruct (insert_label_ok ix label); cbn [negb] in E; [|injection E as <- <-; now split].
    destruct (allocate ix label) as [[slot ix1]| | |]; cbn [bind] in E; try discriminate.
    destruct (publish _ _); cbn [bind] in E; try discriminate. injection E as <- <-. now split.
  - unfold batch_insert in E. destruct (insert_labels_ok ix (map snd rows)); cbn [negb] in E; [|injection E as <- <-; now split].
    destruct (run_tasks ix _ sched) as [[ix1 tasks]| | |] eqn:Et; cbn [bind] in E; try discriminate.
    apply run_tasks_alive in Et; [|exact F|apply Forall_forall; intros x Hx; apply in_map_iff in Hx as (r & <- & _); exact I].
    destruct (forallb _ tasks) eqn:Ee; injection E as <- <-; [|now split].
    assert (W : Forall (fun f => f = InPlace) (map (fun rt : row * task => task_fate (snd rt)) tasks)).
    { apply Forall_forall. intros f Hf. apply in_map_iff in Hf as ([r t] & <- & Hx). rewrite forallb_forall in Ee. specialize (Ee _ Hx).
      rewrite Forall_forall in Et. specialize (Et _ Hx). destruct t; cbn in *; try discriminate; [reflexivity|destruct Et]. }
    split; [exact W|]. cbn [leaked]. clear - W. set (fs := map _ tasks) in *. clearbody fs. induction W as [|f fs -> _ IH]; [reflexivity|exact IH].
  - subst f. split; [eapply Rem; exact E|reflexivity].
  - subst f. split; [|reflexivity]. unfold remove_by_label in E. destruct (ix_map ix label); [eapply Rem; exact E|now injection E as <- <-].
  - subst f. split; [eapply Brem; exact E|reflexivity].
  - subst f. split; [|reflexivity]. unfold batch_remove_by_labels in E. destruct (lookup_all ix [] labels); [eapply Brem; exact E|now injection E as <- <-].
  - destruct (flush c ix); cbn [bind] in E; try discriminate. destruct (load _ _) as [[? ?]| | |]; cbn [bind] in E; try discriminate. injection E as <- <-. now split.
Qed.
Lemma faultless_leaks c : forall ops ix ix' outs, Forall faultless ops -> run c ix ops = Ok (ix', outs) -> leaks ops outs = 0 /\ Forall well outs.
Proof.
  induction ops as [|o ops IH]; intros ix ix' outs F E; cbn [run] in E; [injection E as <- <-; now split|].
  inversion F; subst. destruct (run_op c ix o) as [[ix1 out]| | |] eqn:E1; cbn [bind] in E; try discriminate.
  destruct (run c ix1 ops) as [[ix2 outs2]| | |] eqn:E2; cbn [bind] in E; try discriminate. injection E as <- <-.
  destruct (faultless_well _ _ _ _ _ H1 E1) as [W L]. destruct (IH _ _ _ H2 E2) as [L2 W2]. cbn [leaks]. split; [lia|now constructor].
Qed.

(** ** Removals leave the labels and the vectors in place *)
Definition kept (a b : index) : Prop := ix_labels b = ix_labels a /\ ix_data b = ix_data a /\ ix_max b = ix_max a.
Lemma kept_refl a : kept a a. Proof. now split. Qed.
Lemma kept_trans a b d : kept a b -> kept b d -> kept a d.
Proof. intros (A1 & A2 & A3) (B1 & B2 & B3). unfold kept. now rewrite B1, B2, B3. Qed.
Lemma remove_slot_kept ix id ix' : remove_slot ix id = Ok ix' -> kept ix ix'.
Proof.
  unfold remove_slot. destruct (aget (ix_labels ix) id); cbn [bind]; try discriminate. destruct (sl_free_slot (ix_alloc ix) id); cbn [bind]; try discriminate.
  intros [= <-]. now split.
Qed.
Lemma remove_slots_kept ids : forall ix ix', remove_slots ix ids = Ok ix' -> kept ix ix'.
Proof.
  induction ids as [|id ids IH]; intros ix ix' E; cbn [remove_slots] in E; [injection E as <-; apply kept_refl|].
  destruct (remove_slot ix id) eqn:E1; cbn [bind] in E; try discriminate. eapply kept_trans; [eapply remove_slot_kept; exact E1|eapply IH; exact E].
Qed.
Lemma remove_id_kept ix id f ix' out : remove_id ix id f = Ok (ix', out) -> kept ix ix'.
Proof.
  unfold remove_id. destruct (removable ix id) as [[|]| | |]; cbn [bind negb]; try discriminate; [|intros [= <- <-]; apply kept_refl].
  destruct f; try (intros [= <- <-]; apply kept_refl); (destruct (remove_slot ix id) eqn:E; cbn [bind]; try discriminate; intros [= <- <-]; eapply remove_slot_kept; exact E).
Qed.
Lemma batch_remove_kept ix ids f ix' out : batch_remove ix ids f = Ok (ix', out) -> kept ix ix'.
Proof.
  unfold batch_remove. destruct (removable_batch ix [] ids) as [[|]| | |]; cbn [bind negb]; try discriminate; [|intros [= <- <-]; apply kept_refl].
  destruct f; try (intros [= <- <-]; apply kept_refl); (destruct (remove_slots ix ids) eqn:E; cbn [bind]; try discriminate; intros [= <- <-]; eapply remove_slots_kept; exact E).
Qed.
Lemma removals_kept c : forall ops ix ix' outs, Forall removal ops -> run c ix ops = Ok (ix', outs) -> kept ix ix' /\ ~ In Unfinished outs.
Proof.
  assert (Q1 : forall ix id f ix' out, remove_id ix id f = Ok (ix', out) -> out <> Unfinished).
  { clear. intros ix id f ix' out. unfold remove_id. destruct (removable ix id) as [[|]| | |]; cbn [bind negb]; try discriminate; [|now intros [= <- <-]].
    destruct f; try (now intros [= <- <-]); (destruct (remove_slot ix id); cbn [bind]; try discriminate; now intros [= <- <-]). }
  assert (Q2 : forall ix ids f ix' out, batch_remove ix ids f = Ok (ix', out) -> out <> Unfinished).
  { clear. intros ix id f ix' out. unfold batch_remove. destruct (removable_batch ix [] id) as [[|]| | |]; cbn [bind negb]; try discriminate; [|now intros [= <- <-]].
    destruct f; try (now intros [= <- <-]); (destruct (remove_slots ix id); cbn [bind]; try discriminate; now intros [= <- <-]). }
  induction ops as [|o ops IH]; intros ix ix' outs F E; cbn [run] in E; [injection E as <- <-; split; [apply kept_refl|intros []]|].
  inversion F; subst. destruct (run_op c ix o) as [[ix1 out]| | |] eqn:E1; cbn [bind] in E; try discriminate.
  destruct (run c ix1 ops) as [[ix2 outs2]| | |] eqn:E2; cbn [bind] in E; try discriminate. injection E as <- <-.
  destruct (IH _ _ _ H2 E2) as [K U].
  assert (kept ix ix1 /\ out <> Unfinished) as [K1 U1].
  { destruct o; cbn [removal] in H1; try contradiction; cbn [run_op] in E1.
    - split; [eapply remove_id_kept|eapply Q1]; exact E1.
    - unfold remove_by_label in E1. destruct (ix_map ix label); [split; [eapply remove_id_kept|eapply Q1]; exact E1|]. injection E1 as <- <-. split; [apply kept_refl|discriminate].
    - split; [eapply batch_remove_kept|eapply Q2]; exact E1.
    - unfold batch_remove_by_labels in E1. destruct (lookup_all ix [] labels); [split; [eapply batch_remove_kept|eapply Q2]; exact E1|]. injection E1 as <- <-. split; [apply kept_refl|discriminate]. }
  split; [eapply kept_trans; eauto|]. intros [X|X]; [congruence|contradiction].
Qed.
Lemma removals_op_ok ops : Forall removal ops -> Forall op_ok ops /\ total_offered ops = 0.
Proof.
  induction 1 as [|o ops R _ [IH1 IH2]]; [now split|]. split.
  - constructor; [|exact IH1]. destruct o; cbn in *; try contradiction; exact I.
  - cbn [total_offered fold_right]. fold (total_offered ops). rewrite IH2. destruct o; cbn in *; try contradiction; reflexivity.
Qed.

(** ** A search beside the updates *)
Lemma in_flight_dark n0 ix h db dark s : index_inv n0 ix h db dark -> in_flight ix s = true <-> status n0 h s = Dark.
Proof.
  intros I. pose proof (iv_slots _ _ _ _ _ I) as SI. unfold in_flight. rewrite (inv_deleted _ _ _ _ _ s I).
  pose proof (si_free _ _ _ SI s) as Hf. pose proof (si_used _ _ _ SI s) as Hu.
  assert (Ef : existsb (N.eqb s) (sl_free (ix_alloc ix)) = true <-> In s (sl_free (ix_alloc ix))).
  { rewrite existsb_exists. split; [intros (x & Hx & E); apply N.eqb_eq in E; now subst|intros H; exists s; split; [exact H|apply N.eqb_refl]]. }
  destruct (status n0 h s) eqn:St; cbn [hidden].
  - split; discriminate.
  - split; [reflexivity|]. intros _. apply andb_true_iff. split; [|apply N.ltb_lt, Hu; discriminate].
    destruct (existsb (N.eqb s) (sl_free (ix_alloc ix))); [|reflexivity]. exfalso. assert (Dark = Freed) by (apply Hf, Ef; reflexivity). discriminate.
  - split; discriminate.
  - split; [|discriminate]. intros H. apply andb_true_iff in H as [H _]. assert (existsb (N.eqb s) (sl_free (ix_alloc ix)) = true) by (apply Ef, Hf; reflexivity). rewrite H0 in H. discriminate.
Qed.
(** One step keeps the invariant, and the label and the vector of every slot
    that is not in flight afterwards and was in use before. *)
Lemma do_step_ok n0 ix h db dark st ix' : index_inv n0 ix h db dark -> do_step ix st = Some ix' ->
  exists h' db' dark', index_inv n0 ix' h' db' dark'
    /\ forall s, s < ix_max ix -> in_flight ix s = false -> in_flight ix' s = false ->
         nth_error (ix_labels ix') (N.to_nat s) = nth_error (ix_labels ix) (N.to_nat s) /\ ix_data ix' s = ix_data ix s /\ s < ix_max ix'.
Proof.
  intros I E. destruct st as [l|s v|s|s]; cbn [do_step] in E.
  - destruct (N.ltb_spec l (2 ^ 64)) as [B1|]; [|discriminate]. destruct (N.ltb_spec (ix_max ix + 1) (2 ^ 32)) as [B2|]; [|discriminate]. cbn [andb] in E.
    destruct (allocate_ok n0 ix h db dark l I B1 ltac:(lia)) as (slot & ix1 & E1 & I' & D1 & D2 & MX & LS & LO & EM & ED). rewrite E1 in E. injection E as <-.
    exists (h ++ [EAlloc slot]), db, (slot :: dark). split; [exact I'|]. intros s L F1 F2.
    assert (s <> slot).
    { intros ->. assert (X : in_flight ix1 slot = true); [|congruence]. apply (in_flight_dark _ _ _ _ _ _ I'). apply (iv_dark _ _ _ _ _ I'). now left. }
    rewrite LO, ED by assumption. split; [reflexivity|]. split; [reflexivity|]. pose proof (iv_len _ _ _ _ _ I') as L'. pose proof (iv_len _ _ _ _ _ I) as L0.
    assert (X : nth_error (ix_labels ix1) (N.to_nat s) <> None) by (rewrite LO by assumption; apply nth_error_Some; lia). apply nth_error_Some in X. lia.
  - destruct (in_flight ix s) eqn:F; [|discriminate]. injection E as <-. pose proof (proj1 (in_flight_dark _ _ _ _ _ _ I) F) as D.
    exists h, db, dark. split; [apply write_node_inv; [exact I|now apply (iv_dark _ _ _ _ _ I)]|]. intros q L F1 F2. cbn [write_node ix_labels ix_data ix_max].
    destruct (N.eqb_spec q s) as [->|]; [congruence|auto].
  - destruct (in_flight ix s) eqn:F; [|discriminate]. pose proof (proj1 (in_flight_dark _ _ _ _ _ _ I) F) as D.
    destruct (aget (ix_labels ix) s) as [l| | |] eqn:El; try discriminate. destruct (insert_label_ok ix l) eqn:Ok1; [|discriminate].
    apply (insert_label_ok_iff _ _ _ _ _ l I) in Ok1 as [NK NL].
    assert (Hn : nth_error (ix_labels ix) (N.to_nat s) = Some l) by (unfold aget in El; destruct (nth_error (ix_labels ix) (N.to_nat s)); [now injection El as <-|discriminate]).
    destruct (publish_ok n0 ix h db dark s l (ix_data ix s) I ltac:(now apply (iv_dark _ _ _ _ _ I)) Hn eq_refl NK NL) as (ix1 & E1 & I' & K1 & K2 & K3).
    rewrite E1 in E. injection E as <-. eexists _, _, _. split; [exact I'|]. intros q L _ _. rewrite K1, K2, K3. auto.
  - destruct (removable ix s) as [[|]| | |] eqn:R; try discriminate.
    assert (V : In s (map e_slot db)).
    { unfold removable in R. destruct (N.leb_spec (ix_max ix) s) as [|Lt]; [discriminate|]. rewrite (inv_deleted _ _ _ _ _ s I) in R. cbn [bind] in R.
      rewrite (iv_max _ _ _ _ _ I) in Lt. apply (si_used _ _ _ (iv_slots _ _ _ _ _ I)) in Lt.
      apply (iv_vis _ _ _ _ _ I). destruct (status n0 h s); cbn in R; try discriminate; [now destruct Lt|reflexivity]. }
    destruct (remove_slot_ok n0 ix h db dark s I V) as (ix1 & E1 & I' & K1 & K2 & K3). rewrite E1 in E. injection E as <-.
    eexists _, _, _. split; [exact I'|]. intros q L _ _. rewrite K1, K2, K3. auto.
Qed.
Lemma exec_inv n0 : forall sts ix h db dark states, index_inv n0 ix h db dark -> exec ix sts = Some states ->
  forall k a, nth_error states k = Some a -> exists h' db' dark', index_inv n0 a h' db' dark'.
Proof.
  induction sts as [|st sts IH]; intros ix h db dark states I E k a Hk; cbn [exec] in E.
  - injection E as <-. destruct k as [|[|k]]; cbn in Hk; try discriminate. injection Hk as <-. eauto.
  - destruct (do_step ix st) as [ix1|] eqn:E1; [|discriminate]. destruct (exec ix1 sts) as [states1|] eqn:E2; [|discriminate]. injection E as <-.
    destruct k as [|k]; cbn in Hk; [injection Hk as <-; eauto|]. destruct (do_step_ok _ _ _ _ _ _ _ I E1) as (h1 & db1 & dark1 & I1 & _). eapply IH; eauto.
Qed.
Lemma exec_first ix sts states : exec ix sts = Some states -> exists rest, states = ix :: rest.
Proof. destruct sts as [|st sts]; cbn [exec]; [intros [= <-]; eauto|]. destruct (do_step ix st); [|discriminate]. destruct (exec i sts); [|discriminate]. intros [= <-]. eauto. Qed.
Lemma exec_keeps n0 s : forall sts ix h db dark states, index_inv n0 ix h db dark -> exec ix sts = Some states -> s < ix_max ix ->
  forall k a, nth_error states k = Some a -> (forall m x, (m <= k)%nat -> nth_error states m = Some x -> in_flight x s = false) ->
  nth_error (ix_labels a) (N.to_nat s) = nth_error (ix_labels ix) (N.to_nat s) /\ ix_data a s = ix_data ix s.
Proof.
  induction sts as [|st sts IH]; intros ix h db dark states I E L k a Hk F; cbn [exec] in E.
  - injection E as <-. destruct k as [|[|k]]; cbn in Hk; try discriminate. injection Hk as <-. auto.
  - destruct (do_step ix st) as [ix1|] eqn:E1; [|discriminate]. destruct (exec ix1 sts) as [states1|] eqn:E2; [|discriminate]. injection E as <-.
    destruct k as [|k]; cbn in Hk; [injection Hk as <-; auto|]. destruct (do_step_ok _ _ _ _ _ _ _ I E1) as (h1 & db1 & dark1 & I1 & K).
    destruct (exec_first _ _ _ E2) as (rest & ->).
    destruct (K s L) as (K1 & K2 & K3); [apply (F 0%nat); [lia|reflexivity]|apply (F 1%nat); [lia|reflexivity]|].
    destruct (IH _ _ _ _ _ I1 E2 K3 k a Hk) as [H1 H2]; [|split; congruence].
    intros m x Hm Hx. apply (F (S m) x); [lia|exact Hx].
Qed.
Lemma exec_suffix : forall sts ix states k a, exec ix sts = Some states -> nth_error states k = Some a ->
  exists sts', exec a sts' = Some (skipn k states).
Proof.
  induction sts as [|st sts IH]; intros ix states k a E Hk; cbn [exec] in E.
  - injection E as <-. destruct k as [|[|k]]; cbn in Hk; try discriminate. injection Hk as <-. exists []. reflexivity.
  - destruct (do_step ix st) as [ix1|] eqn:E1; [|discriminate]. destruct (exec ix1 sts) as [states1|] eqn:E2; [|discriminate]. injection E as <-.
    destruct k as [|k]; cbn in Hk.
    + injection Hk as <-. exists (st :: sts). cbn [exec skipn]. now rewrite E1, E2.
    + cbn [skipn]. eapply IH; eauto.
Qed.
Lemma run_tasks_length sched : forall ix tasks ix' tasks', run_tasks ix tasks sched = Ok (ix', tasks') -> length tasks' = length tasks.
Proof.
  induction sched as [|[i ok] sched IH]; intros ix tasks ix' tasks' E; cbn [run_tasks] in E; [now injection E as <- <-|].
  destruct (nth_error tasks i) as [[r t]|]; [|eapply IH; exact E]. destruct (task_step ix r t ok) as [[ix1 t1]| | |]; cbn [bind] in E; try discriminate.
  apply IH in E. now rewrite upd_length in E.
Qed.
