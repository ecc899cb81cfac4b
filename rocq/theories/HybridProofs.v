(** Proofs about filtered search. *)
From Verif Require Import ScalarDataSpec ScalarDataProofs FilterProofs StorageProofs StorageQueryProofs MatcherProofs PoolProofs FrontierProofs SearchProofs RankProofs.
From Verif Require EffortProofs.
From Verif Require Export HybridSpec.
From Verif Require Import FilterModel StorageSpec.

Lemma ids_In from upto id : In id (all_ids from upto) <-> (N.of_nat from <= id < N.of_nat upto)%N.
Proof.
  unfold all_ids. rewrite in_map_iff. split.
  - intros (i & <- & Hi). apply in_seq in Hi. lia.
  - intros H. exists (N.to_nat id). split; [lia|]. apply in_seq. lia.
Qed.
Lemma ids_length n : length (all_ids 0 n) = n.
Proof. unfold all_ids. rewrite map_length, seq_length. lia. Qed.
Lemma ids_nodup from upto : NoDup (all_ids from upto).
Proof. unfold all_ids. apply FinFun.Injective_map_NoDup; [intros ? ? ?; lia|apply seq_NoDup]. Qed.

(** ** The order in which the search expands nodes *)
Inductive trace (sp : space) : solo -> list N -> solo -> Prop :=
| trace_end s : has_next (so_pool s) = false -> trace sp s [] s
| trace_step s x s1 E s2 : has_next (so_pool s) = true -> expand sp s = Ok (x, s1) -> trace sp s1 E s2 -> trace sp s (x :: E) s2.

Lemma loop_trace sp : forall fuel s E0 s' E', solo_loop fuel (sp_graph sp) (fun _ => None) (sp_search sp) s E0 = Done (Ok (s', E')) ->
  exists E, E' = E0 ++ E /\ trace sp s E s'.
Proof.
  induction fuel as [|k IH]; intros s E0 s' E' H; cbn [solo_loop] in H.
  - destruct (has_next (so_pool s)) eqn:Hn; [discriminate H|]. injection H as <- <-. exists []. rewrite app_nil_r. split; [reflexivity|]. now constructor.
  - destruct (has_next (so_pool s)) eqn:Hn.
    2:{ injection H as <- <-. exists []. rewrite app_nil_r. split; [reflexivity|]. now constructor. }
    destruct (lp_pop (so_pool s)) as [[e p]| | |] eqn:Ep; cbn [bind] in H; try discriminate H.
    destruct (aget (g_rows (sp_graph sp)) (fst e)) as [row| | |] eqn:Er; cbn [bind] in H; try discriminate H.
    match type of H with context [solo_row ?a ?b ?c ?d ?i] => destruct (solo_row a b c d i) as [s1| | |] eqn:Es; cbn [bind] in H; try discriminate H end.
    apply IH in H as (E & -> & T). exists (fst e :: E). rewrite <- app_assoc. split; [reflexivity|].
    apply trace_step with s1; [assumption| |assumption]. unfold expand. rewrite Ep. cbn [bind]. rewrite Er. cbn [bind]. rewrite Es. reflexivity.
Qed.

Section Iter.
Variables (sp : space) (mask : option (list bool)) (blk : N -> bool).

Lemma prepare_trace s E s' : trace sp s E s' -> (forall x, In x E -> is_blocked mask x = Ok (blk x)) ->
  forall fuel, length E <= fuel ->
  (Forall (fun x => blk x = true) E /\ prepare_loop fuel sp mask s = Done (Ok (None, s')))
  \/ exists E1 x E2 s1, E = E1 ++ x :: E2 /\ Forall (fun x => blk x = true) E1 /\ blk x = false /\ trace sp s1 E2 s'
      /\ prepare_loop fuel sp mask s = Done (Ok (Some (x, sp_exact sp x), s1)).
Proof.
  induction 1 as [s Hn|s x s1 E s2 Hn Ex T IH]; intros B fuel F.
  - left. split; [constructor|]. destruct fuel; cbn [prepare_loop]; now rewrite Hn.
  - destruct fuel as [|k]; cbn [length] in F; [lia|]. cbn [prepare_loop]. rewrite Hn, Ex. cbn [fbind].
    rewrite (B x) by now left. cbn [fbind]. destruct (blk x) eqn:Bx.
    + destruct (IH (fun y Hy => B y (or_intror Hy)) k ltac:(lia)) as [[A ->]|(E1 & y & E2 & s3 & -> & A & By & T' & ->)].
      * left. split; [constructor; assumption|reflexivity].
      * right. exists (x :: E1), y, E2, s3. split; [reflexivity|]. split; [constructor; assumption|]. auto.
    + right. exists [], x, E, s1. auto.
Qed.
Lemma filter_blocked E : Forall (fun x => blk x = true) E -> List.filter (fun x => negb (blk x)) E = [].
Proof. induction 1 as [|x E H _ IH]; cbn; [reflexivity|]. now rewrite H. Qed.

Lemma drain_trace fuel s' : forall rounds s E p, trace sp s E s' -> (forall x, In x E -> is_blocked mask x = Ok (blk x)) ->
  length E <= fuel -> length E < rounds ->
  drain rounds fuel sp mask {| it_solo := s; it_pending := None |} p
  = Done (insert_ids p (sp_exact sp) (List.filter (fun x => negb (blk x)) E)).
Proof.
  induction rounds as [|k IH]; intros s E p T B F1 F2; [lia|]. cbn [drain]. unfold prepare_next at 1. cbn [it_pending it_solo].
  destruct (prepare_trace s E s' T B fuel F1) as [[A ->]|(E1 & x & E2 & s1 & -> & A & Bx & T' & ->)]; cbn [fbind].
  - rewrite (filter_blocked E A). reflexivity.
  - unfold next, prepare_next. cbn [it_pending it_solo fbind].
    rewrite filter_app, (filter_blocked E1 A). cbn [app List.filter]. rewrite Bx. cbn [negb insert_ids].
    rewrite app_length in F1, F2. cbn [length] in F1, F2.
    destruct (sb_insert p x (sp_exact sp x)) as [[b p']| | |]; cbn [fbind bind]; try reflexivity.
    apply IH; [assumption| |lia|lia]. intros y Hy. apply B. apply in_or_app. right. now right.
Qed.
End Iter.

(** The next batch of an iterator without a mask, after has_next. *)
Definition waiting (sp : space) (it : HybridModel.iter) (E : list N) (s' : solo) : Prop :=
  match it_pending it with
  | None => trace sp (it_solo it) E s'
  | Some c => exists x E', E = x :: E' /\ c = (x, sp_exact sp x) /\ trace sp (it_solo it) E' s'
  end.
Lemma next_waiting sp fuel it E s' : waiting sp it E s' -> length E <= fuel ->
  match E with
  | [] => exists it', next fuel sp None it = Done (Ok (None, it')) /\ waiting sp it' [] s'
  | x :: E' => exists it', next fuel sp None it = Done (Ok (Some (x, sp_exact sp x), it')) /\ waiting sp it' E' s'
  end.
Proof.
  unfold waiting at 1. intros W F. unfold next, prepare_next. destruct (it_pending it) as [c|] eqn:Ep.
  - destruct W as (x & E' & -> & -> & T). cbn [fbind]. rewrite Ep. eexists. split; [reflexivity|]. exact T.
  - assert (B : forall x, In x E -> is_blocked None x = Ok false) by reflexivity.
    destruct (prepare_trace sp None (fun _ => false) _ _ _ W B fuel F) as [[A ->]|(E1 & x & E2 & s1 & -> & A & _ & T & ->)]; cbn [fbind it_pending it_solo].
    + destruct E as [|x E]; [|apply Forall_cons_iff in A as [A _]; discriminate A]. eexists. split; [reflexivity|].
      unfold waiting. cbn [it_pending it_solo]. inversion W; subst. assumption.
    + destruct E1 as [|y E1]; [|apply Forall_cons_iff in A as [A _]; discriminate A]. cbn [app]. eexists. split; [reflexivity|]. exact T.
Qed.
Lemma prepare_waiting sp fuel it E s' : waiting sp it E s' -> length E <= fuel ->
  exists it', prepare_next fuel sp None it = Done (Ok (match E with [] => false | _ => true end, it')) /\ waiting sp it' E s'.
Proof.
  unfold waiting at 1. intros W F. unfold prepare_next. destruct (it_pending it) as [c|] eqn:Ep.
  - destruct W as (x & E' & -> & -> & T). exists it. split; [reflexivity|]. unfold waiting. rewrite Ep. eauto.
  - assert (B : forall x, In x E -> is_blocked None x = Ok false) by reflexivity.
    destruct (prepare_trace sp None (fun _ => false) _ _ _ W B fuel F) as [[A ->]|(E1 & x & E2 & s1 & -> & A & _ & T & ->)]; cbn [fbind].
    + destruct E as [|x E]; [|apply Forall_cons_iff in A as [A _]; discriminate A]. eexists. split; [reflexivity|].
      unfold waiting. cbn [it_pending it_solo]. inversion W; subst. assumption.
    + destruct E1 as [|y E1]; [|apply Forall_cons_iff in A as [A _]; discriminate A]. cbn [app]. eexists. split; [reflexivity|].
      unfold waiting. cbn [it_pending it_solo]. eauto.
Qed.
Lemma batch_waiting sp fuel s' : forall left it E, waiting sp it E s' -> length E <= fuel ->
  exists it', next_batch fuel sp None it left = Done (Ok (map (fun x => (x, sp_exact sp x)) (firstn left E), it'))
    /\ waiting sp it' (skipn left E) s'.
Proof.
  induction left as [|l IH]; intros it E W F; cbn [next_batch].
  - exists it. auto.
  - pose proof (next_waiting sp fuel it E s' W F) as Nx. destruct E as [|x E].
    + destruct Nx as (it' & -> & W'). cbn [fbind]. exists it'. split; [reflexivity|assumption].
    + destruct Nx as (it' & -> & W'). cbn [fbind]. cbn [length] in F. destruct (IH it' E W' ltac:(lia)) as (it'' & -> & W''). cbn [fbind].
      exists it''. split; [reflexivity|assumption].
Qed.

(** ** The results of a buffer *)
Lemma buffer_results dist topk found p : 0 < topk -> NoDup found ->
  (forall id, In id found -> (id < 2 ^ 31)%N /\ (dist id <= float_max)%Z) ->
  insert_ids (pool_new topk) dist found = Ok p ->
  p_size p = Nat.min topk (length found) /\ exists hits, pool_ids p topk = map fst hits /\ length hits = Nat.min topk (length found)
    /\ ranked (fun id => In id found) dist topk hits /\ nearest (fun id => In id found) dist topk hits.
Proof.
  intros Hk ND Hf E.
  destruct (insert_ids_spec topk dist found Hk Hf (pool_new topk) [] (pool_new_inv _) (pool_new_unmarked _) (pool_new_closest _))
    as (p' & E' & I & U & K). rewrite E in E'. injection E' as <-. cbn [app] in K.
  pose proof K as (L & rest & P & F & B).
  assert (LK : length (kept p) = Nat.min topk (length found)).
  { apply Permutation_length in P. rewrite map_length, app_length in P. destruct rest; cbn [length] in P; [lia|]. specialize (F ltac:(discriminate)). lia. }
  split.
  { rewrite <- LK. unfold kept. rewrite map_length. symmetry. now apply (content_length topk). }
  exists (kept p). split; [now apply (pool_ids_kept topk)|]. split; [assumption|].
  assert (S : StronglySorted (fun a b => (snd a <= snd b)%Z) (kept p)).
  { pose proof (content_sorted topk p I) as S. unfold kept. clear - S. induction S as [|a l S IH Fa]; cbn [map]; constructor; auto.
    apply Forall_forall. intros b Hb. apply in_map_iff in Hb as (e & <- & He). rewrite Forall_forall in Fa. apply (Fa e He). }
  assert (D : forall c, In c (kept p ++ rest) -> In (fst c) found /\ snd c = dist (fst c)).
  { intros c Hc. apply (Permutation_in c (Permutation_sym P)) in Hc. apply in_map_iff in Hc as (i & <- & Hi). auto. }
  split.
  - constructor; auto.
    + apply (nodup_app_l _ (map fst rest)). rewrite <- map_app. apply (Permutation_map fst) in P. rewrite map_map, map_id in P.
      now apply (Permutation_NoDup P).
    + intros id d H. apply (D (id, d)). apply in_or_app. now left.
  - intros id Hid. assert (H : In (id, dist id) (kept p ++ rest)).
    { apply (Permutation_in _ P). apply in_map_iff. eauto. }
    apply in_app_or in H as [H|H]; [now left|]. right. split; [apply F; intros ->; destruct H|].
    intros y Hy. apply (B y (id, dist id)); assumption.
Qed.

(** ** The graph search *)
Lemma solo_any fuel sp ef : searchable (N.of_nat (sp_n sp)) (sp_graph sp) -> (N.of_nat (sp_n sp) <= 2 ^ 31)%N ->
  0 < ef -> sp_n sp < fuel ->
  exists s1 s E, initialize_search fuel (sp_graph sp) (sp_search sp) (solo_new (N.of_nat (sp_n sp)) ef) = Done (Ok s1)
    /\ trace sp s1 E s
    /\ (forall topk, topk <= ef -> solo_pool fuel (sp_graph sp) (fun _ => None) (N.of_nat (sp_n sp)) (sp_search sp) topk ef = Done (Ok (s, E)))
    /\ NoDup E /\ (forall x, In x E -> (x < N.of_nat (sp_n sp))%N) /\ length E <= sp_n sp
    /\ pool_results (so_pool s) 0 (p_size (so_pool s)) = Ok (map fst (content (so_pool s)))
    /\ ranked (fun x => (x < N.of_nat (sp_n sp))%N) (sp_search sp) ef (map fst (content (so_pool s))).
Proof.
  set (g := sp_graph sp). set (n := N.of_nat (sp_n sp)). set (dist := sp_search sp). intros [G St] Hn Hef F.
  assert (H : exists (start : N -> Prop) s1 I1, (forall x, start x -> (x < n)%N) /\ initialize_search fuel g dist (solo_new n ef) = Done (Ok s1)
     /\ soinv n g (fun _ => None) start dist ef s1 I1 [] [] /\ (forall x, start x -> In x I1)).
  { unfold initialize_search. destruct (g_overlay g) as [o|] eqn:Ov.
    - destruct (nth_error (ov_levels o) (N.to_nat (ov_ep o))) as [lv|] eqn:Elv.
      2:{ apply nth_error_None in Elv. pose proof (oo_levels _ _ St). pose proof (oo_ep _ _ St). lia. }
      destruct (levels_spec n o dist St fuel ltac:(lia) (N.to_nat lv) (ov_ep o)) as (u & LE & Ru & Bu & _).
      { split; [apply St|]. exists lv. split; [assumption|lia]. }
      { now apply reach_start. }
      assert (Hst : forall s, u = s -> (s < n)%N) by now intros ? <-.
      unfold overlay_initialize. unfold aget. rewrite Elv. rewrite LE. cbn [bind].
      destruct (start_solo n g (fun _ => None) (eq u) dist ef G Hn Hst Hef (solo_new n ef) [] [] [] u) as (s1 & I1 & -> & H1 & _ & Ie); auto.
      { now apply solo_new_inv. }
      exists (eq u), s1, I1. split; [assumption|]. split; [reflexivity|]. split; [assumption|]. now intros ? <-.
    - destruct (starts_solo n g (fun _ => None) (fun x => In x (g_eps g)) dist ef G Hn St Hef (g_eps g) (solo_new n ef) [] [] []) as (s1 & I1 & -> & H1 & _ & Ie); auto.
      { now apply solo_new_inv. }
      exists (fun x => In x (g_eps g)), s1, I1. auto. }
  destruct H as (start & s1 & I1 & Hst & E1 & H1 & Ie).
  destruct (solo_results n g (fun _ => None) start dist ef G Hn Hst Hef fuel s1 I1 ef H1 Ie ltac:(lia) (le_n _))
    as (s & I2 & E & L & [V P S] & PR & Len & R & _ & _ & Rc & ND & EI & _).
  pose proof (pi_size _ _ P) as Sz. pose proof (content_length _ _ P) as CL.
  rewrite Nat.min_l in PR by assumption. rewrite firstn_all2 in PR, R by lia.
  assert (BE : forall x, In x E -> (x < n)%N) by (intros x Hx; apply (reach_below n g (fun _ => None) start G Hst); apply Rc; now apply EI).
  destruct (loop_trace sp fuel s1 [] s E L) as (E' & EE & T). cbn [app] in EE. subst E'.
  exists s1, s, E. split; [assumption|]. split; [assumption|]. split.
  { intros topk Hk. unfold solo_pool. destruct (Nat.ltb_spec ef topk); [lia|]. now rewrite E1. }
  split; [assumption|]. split; [assumption|]. split.
  { pose proof (NoDup_incl_length (l := E) (l' := all_ids 0 (sp_n sp)) ND) as B. unfold all_ids in B at 2. rewrite map_length, seq_length in B.
    rewrite Nat.sub_0_r in B. apply B. intros x Hx. rewrite ids_In. specialize (BE x Hx). lia. }
  split; [assumption|]. destruct R as [R1 R2 R3 R4]. constructor; auto. intros id d Hid. destruct (R3 id d Hid) as [A B]. split; [|assumption].
  now apply (reach_below n g (fun _ => None) start G Hst).
Qed.

Lemma count_pad (hits : list (N * Z)) k : (forall c, In c hits -> (fst c < 2 ^ 31)%N) -> count_results (pad_ids k (map fst hits)) = length hits.
Proof.
  unfold pad_ids. rewrite map_length. generalize (k - length hits) as r. intros r H. induction hits as [|c hits IH]; cbn [map app count_results length].
  - destruct r; cbn [repeat count_results]; [reflexivity|]. rewrite N.eqb_refl. reflexivity.
  - specialize (H c (or_introl eq_refl)) as Hc. destruct (N.eqb_spec (fst c) kInvalidId) as [Eq|_]; [exfalso; rewrite Eq in Hc; revert Hc; vm_compute; discriminate|].
    f_equal. apply IH. intros d Hd. apply H. now right.
Qed.
Lemma skipn_repeat' {A} (x : A) : forall a b, skipn a (repeat x b) = repeat x (b - a).
Proof. induction a as [|a IH]; intros [|b]; cbn [skipn repeat Nat.sub]; auto. Qed.
Lemma overwrite_shows k old l : length old <= length l <= k -> overwrite (pad_ids k old) l = pad_ids k l.
Proof.
  intros H. unfold overwrite, pad_ids. rewrite skipn_app, skipn_all2 by lia. cbn [app]. rewrite skipn_repeat'. f_equal. f_equal. lia.
Qed.
Lemma overwrite_fresh k l : length l <= k -> overwrite (repeat kInvalidId k) l = pad_ids k l.
Proof. intros H. unfold overwrite, pad_ids. now rewrite skipn_repeat'. Qed.
Lemma shows_pad k (hits : list (N * Z)) : length hits <= k -> shows k hits (pad_ids k (map fst hits)).
Proof. intros H. split; [assumption|]. unfold pad_ids. now rewrite map_length. Qed.
Lemma nodup_filter_app (g : N -> bool) M E : NoDup (M ++ E) -> NoDup (M ++ List.filter g E).
Proof.
  induction M as [|m M IH]; cbn [app]; intros H; [now apply NoDup_filter|]. inversion H; subst. constructor; [|auto].
  intros X. apply H2. apply in_app_or in X as [X|X]; apply in_or_app; [now left|]. right. now apply filter_In in X.
Qed.
Lemma nodup_app_swap_mid {A} (M a b : list A) : NoDup (M ++ a ++ b) -> NoDup ((M ++ a) ++ b).
Proof. now rewrite app_assoc. Qed.

Section Rows.
Variables (s : storage) (t : table) (f : FilterModel.filter) (sp : space) (x : executor) (topk fuel : nat).
Notation n := (sp_n sp).
Notation dist := (sp_exact sp).
Hypothesis R : represents s t.
Hypothesis Bound : forall id r, row t id = Some r -> (id < N.of_nat n)%N.
Hypothesis Safe : forall c, single_condition f c ->
  cond_values_ok c /\ (In (field c) (indexed_fields s) -> separated (indexed_fields s) /\ index_safe s c).
Hypothesis SO : space_ok sp.
Hypothesis Hk : 0 < topk.
Hypothesis HF : n < fuel.
Hypothesis GX : good s t f n x.
Notation ans := (answer t f).
Notation matched := (List.filter ans (all_ids 0 n)).

Local Lemma small31 : (N.of_nat n <= 2 ^ 31)%N. Proof using SO. apply SO. Qed.
Local Lemma small32' : (N.of_nat n <= 2 ^ 32)%N. Proof. pose proof small31. lia. Qed.
Local Lemma finite id : (id < N.of_nat n)%N -> (id < 2 ^ 31)%N /\ (dist id <= float_max)%Z.
Proof. intros H. pose proof small31. split; [lia|]. now apply SO. Qed.
Lemma matched_In id : In id matched <-> (id < N.of_nat n)%N /\ ans id = true.
Proof. rewrite filter_In, ids_In. intuition lia. Qed.
Lemma matched_nodup : NoDup matched.
Proof. apply NoDup_filter, ids_nodup. Qed.

Lemma brute_good : exists hits, execute_brute_force_filter x dist topk = Ok (map fst hits)
  /\ length hits = Nat.min topk (length matched)
  /\ ranked (fun id => In id matched) dist topk hits /\ nearest (fun id => In id matched) dist topk hits.
Proof.
  unfold execute_brute_force_filter.
  assert (H : exists found, Permutation found matched
    /\ match indexed_ids x with
       | Some ids => insert_ids (pool_new topk) dist ids
       | None => full_scan (S (data_num x)) x dist (pool_new topk) 0
       end = insert_ids (pool_new topk) dist found).
  { pose proof GX as (_ & _ & Dn & Hx). destruct (indexed_ids x) as [ids|].
    - destruct Hx as (ND & NE & I & _). exists ids. split; [|reflexivity]. apply NoDup_Permutation; [assumption|apply matched_nodup|].
      intros id. rewrite I, matched_In. split; [|tauto]. intros H. split; [|assumption]. eapply answer_bound; eauto.
    - exists matched. split; [reflexivity|]. apply (full_scan_good s t f n dist R Bound small31 ltac:(apply SO) x GX). lia. }
  destruct H as (found & PF & ->).
  assert (ND : NoDup found) by (apply (Permutation_NoDup (Permutation_sym PF)), matched_nodup).
  assert (Hf : forall id, In id found -> (id < 2 ^ 31)%N /\ (dist id <= float_max)%Z).
  { intros id Hid. apply finite. apply (Permutation_in id PF), matched_In in Hid. apply Hid. }
  destruct (insert_ids_spec topk dist found Hk Hf (pool_new topk) [] (pool_new_inv _) (pool_new_unmarked _) (pool_new_closest _)) as (p & E & _).
  destruct (buffer_results dist topk found p Hk ND Hf E) as (_ & hits & EH & LH & RK & NR). rewrite E. cbn [bind]. rewrite EH.
  exists hits. split; [reflexivity|]. split; [rewrite LH; now rewrite (Permutation_length PF)|]. split.
  - destruct RK as [A B C D]. constructor; auto. intros id d Hid. destruct (C id d Hid) as [Ci Cd]. split; [|assumption].
    now apply (Permutation_in id PF).
  - intros id Hid. apply NR. now apply (Permutation_in id (Permutation_sym PF)).
Qed.

Lemma blocked_bit y : (y < N.of_nat n)%N -> is_blocked (Some (blocked_of t f (all_ids 0 n))) y = Ok (negb (ans y)).
Proof.
  intros H. cbn [is_blocked]. unfold bit_get, blocked_of, all_ids. rewrite map_map.
  rewrite (map_nth_error (fun i => negb (ans (N.of_nat i))) (N.to_nat y) (seq 0 (n - 0)) (d := N.to_nat y)).
  - now rewrite N2Nat.id.
  - rewrite nth_error_nth' with (d := 0) by (rewrite seq_length; lia). rewrite seq_nth by lia. reflexivity.
Qed.

Lemma masked_good ef : topk <= ef -> exists E hits, expands fuel sp topk ef E /\ NoDup E /\ (forall y, In y E -> (y < N.of_nat n)%N)
  /\ masked_search fuel sp (blocked_of t f (all_ids 0 n)) topk ef = Done (Ok (pad_ids topk (map fst hits)))
  /\ length hits = Nat.min topk (length (List.filter ans E))
  /\ ranked (fun id => In id (List.filter ans E)) dist topk hits /\ nearest (fun id => In id (List.filter ans E)) dist topk hits.
Proof.
  intros He. destruct SO as (SE & _). destruct (solo_any fuel sp ef SE small31 ltac:(lia) HF) as (s1 & so & E & EI & T & SP & ND & BE & LE & _).
  assert (Hf : forall id, In id (List.filter ans E) -> (id < 2 ^ 31)%N /\ (dist id <= float_max)%Z).
  { intros id Hid. apply filter_In in Hid as [Hid _]. apply finite. auto. }
  assert (NF : NoDup (List.filter ans E)) by now apply NoDup_filter.
  destruct (insert_ids_spec topk dist _ Hk Hf (pool_new topk) [] (pool_new_inv _) (pool_new_unmarked _) (pool_new_closest _)) as (p & Ep & _).
  destruct (buffer_results dist topk _ p Hk NF Hf Ep) as (_ & hits & EH & LH & RK & NR).
  exists E, hits. split; [exists so; apply SP; lia|]. split; [assumption|]. split; [assumption|]. split; [|auto].
  unfold masked_search, make_iterator. destruct (Nat.ltb_spec ef topk); [lia|]. rewrite EI. cbn [fbind].
  rewrite (drain_trace sp (Some (blocked_of t f (all_ids 0 n))) (fun y => negb (ans y)) fuel so fuel s1 E (pool_new topk) T) by
    (try lia; intros y Hy; apply blocked_bit; auto).
  rewrite (filter_ext _ ans) by (intros; apply negb_involutive). rewrite Ep. cbn [fbind]. now rewrite EH.
Qed.

Lemma until_good : forall B M p, NoDup (M ++ B) -> (forall y, In y (M ++ B) -> (y < N.of_nat n)%N) -> length M + length B <= topk ->
  insert_ids (pool_new topk) dist M = Ok p ->
  insert_until p (map (fun y => (y, dist y)) B) (map ans B) topk = insert_ids p dist (List.filter ans B).
Proof.
  induction B as [|b B IH]; intros M p ND HB L E; cbn [map insert_until List.filter]; [reflexivity|]. cbn [length] in L.
  destruct (ans b) eqn:Ab.
  - cbn [insert_ids]. assert (ND' : NoDup ((M ++ [b]) ++ B)) by (rewrite <- app_assoc; exact ND).
    assert (HB' : forall y, In y ((M ++ [b]) ++ B) -> (y < N.of_nat n)%N) by (intros y; rewrite <- app_assoc; apply HB).
    assert (Hf : forall id, In id (M ++ [b]) -> (id < 2 ^ 31)%N /\ (dist id <= float_max)%Z).
    { intros id Hid. apply finite, HB'. apply in_or_app. now left. }
    destruct (insert_ids_spec topk dist _ Hk Hf (pool_new topk) [] (pool_new_inv _) (pool_new_unmarked _) (pool_new_closest _)) as (p' & Ep & _).
    pose proof (buffer_results dist topk _ p' Hk (nodup_app_l _ _ ND') Hf Ep) as (Sz & _).
    pose proof Ep as Ep2. rewrite insert_ids_app, E in Ep2. cbn [bind insert_ids] in Ep2.
    destruct (sb_insert p b (dist b)) as [[q p2]| | |]; cbn [bind] in Ep2; try discriminate Ep2. injection Ep2 as ->. cbn [bind].
    rewrite app_length in Sz. cbn [length] in Sz. destruct (Nat.eqb_spec (p_size p') topk).
    + destruct B as [|b' B]; [reflexivity|]. cbn [length] in L. lia.
    + apply (IH (M ++ [b])); auto. rewrite app_length. cbn [length]. lia.
  - apply (IH M); auto.
    + now apply NoDup_remove_1 in ND.
    + intros y Hy. apply HB. apply in_app_or in Hy as [|]; apply in_or_app; [now left|]. right. now right.
    + lia.
Qed.
Lemma firstn_nonempty {A} (E : list A) k : 0 < k -> firstn k E = [] -> E = [].
Proof. destruct k; [lia|]. destruct E; cbn; [reflexivity|discriminate]. Qed.
Lemma iterate_good so : forall rounds it E M p, waiting sp it E so -> length E < rounds -> length E <= fuel ->
  NoDup (M ++ E) -> (forall y, In y (M ++ E) -> (y < N.of_nat n)%N) -> length M <= topk ->
  insert_ids (pool_new topk) dist M = Ok p ->
  exists p' pre post, iterate rounds fuel sp x it p topk = Done (Ok p') /\ E = pre ++ post
    /\ insert_ids (pool_new topk) dist (M ++ List.filter ans pre) = Ok p'
    /\ length (M ++ List.filter ans pre) <= topk /\ (length (M ++ List.filter ans pre) = topk \/ post = []).
Proof.
  induction rounds as [|k IH]; intros it E M p W L F ND HB LM Ep; [lia|]. cbn [iterate].
  assert (Hf : forall id, In id M -> (id < 2 ^ 31)%N /\ (dist id <= float_max)%Z).
  { intros id Hid. apply finite, HB. apply in_or_app. now left. }
  pose proof (buffer_results dist topk M p Hk (nodup_app_l _ _ ND) Hf Ep) as (Sz & _). rewrite Nat.min_r in Sz by assumption. rewrite Sz.
  destruct (Nat.ltb_spec (length M) topk) as [Lt|Ge].
  2:{ exists p, [], E. cbn [List.filter]. rewrite !app_nil_r. split; [reflexivity|]. split; [reflexivity|]. split; [assumption|]. split; [assumption|]. left. lia. }
  destruct (prepare_waiting sp fuel it E so W F) as (it1 & -> & W1). cbn [fbind].
  destruct E as [|e E0].
  { exists p, [], []. cbn [List.filter]. rewrite !app_nil_r. split; [reflexivity|]. auto. }
  set (E := e :: E0) in *. set (b := topk - length M).
  destruct (batch_waiting sp fuel so b it1 E W1 F) as (it2 & -> & W2). cbn [fbind].
  destruct (map (fun y => (y, dist y)) (firstn b E)) as [|c cs] eqn:Ec.
  { apply map_eq_nil, firstn_nonempty in Ec; [discriminate Ec|]. unfold b. lia. }
  rewrite <- Ec. clear c cs Ec. rewrite map_map. cbn [fst]. rewrite map_id. unfold eval_offsets.
  assert (SB : E = firstn b E ++ skipn b E) by (symmetry; apply firstn_skipn).
  rewrite (blocked_for_good s t f n R Bound small32' x (firstn b E) GX).
  2:{ intros id Hid. apply HB. apply in_or_app. right. rewrite SB. apply in_or_app. now left. }
  cbn [bind fbind]. unfold blocked_of. rewrite map_map.
  rewrite (map_ext (fun y => negb (negb (ans y))) ans) by (intros; apply negb_involutive).
  assert (LB : length (firstn b E) <= b) by (rewrite firstn_length; lia).
  rewrite (until_good (firstn b E) M p); [| | |lia|assumption].
  2:{ apply (nodup_app_l _ (skipn b E)). rewrite <- app_assoc, <- SB. exact ND. }
  2:{ intros y Hy. apply HB. apply in_app_or in Hy as [Hy|Hy]; apply in_or_app; [now left|]. right. rewrite SB. apply in_or_app. now left. }
  assert (ND2 : NoDup ((M ++ List.filter ans (firstn b E)) ++ skipn b E)).
  { rewrite <- app_assoc. rewrite SB in ND. clear - ND. revert ND. generalize (firstn b E) (skipn b E). clear. intros a c.
    induction M as [|m M IHM]; cbn [app]; intros H.
    - induction a as [|y a IHa]; cbn [app List.filter] in *; [assumption|]. inversion H; subst. destruct (answer t f y); [|auto]. cbn [app]. constructor; [|auto].
      intros X. apply H2. apply in_app_or in X as [X|X]; apply in_or_app; [left; now apply filter_In in X|now right].
    - inversion H; subst. constructor; [|auto]. intros X. apply H2. apply in_app_or in X as [X|X]; apply in_or_app; [now left|]. right.
      apply in_app_or in X as [X|X]; apply in_or_app; [left; now apply filter_In in X|now right]. }
  assert (HB2 : forall y, In y ((M ++ List.filter ans (firstn b E)) ++ skipn b E) -> (y < N.of_nat n)%N).
  { intros y Hy. apply HB. rewrite <- app_assoc in Hy. apply in_app_or in Hy as [Hy|Hy]; apply in_or_app; [now left|]. right. rewrite SB.
    apply in_app_or in Hy as [Hy|Hy]; apply in_or_app; [left; now apply filter_In in Hy|now right]. }
  assert (L2 : length (M ++ List.filter ans (firstn b E)) <= topk).
  { rewrite app_length. assert (Q : length (List.filter ans (firstn b E)) <= length (firstn b E)).
    { clear. induction (firstn b E) as [|y l IH]; cbn; [lia|]. destruct (answer t f y); cbn; lia. }
    unfold b in *. lia. }
  assert (Hf2 : forall id, In id (M ++ List.filter ans (firstn b E)) -> (id < 2 ^ 31)%N /\ (dist id <= float_max)%Z).
  { intros id Hid. apply finite, HB2. apply in_or_app. now left. }
  destruct (insert_ids_spec topk dist _ Hk Hf2 (pool_new topk) [] (pool_new_inv _) (pool_new_unmarked _) (pool_new_closest _)) as (p2 & Ep2 & _).
  pose proof Ep2 as Ep3. rewrite insert_ids_app, Ep in Ep3. cbn [bind] in Ep3. rewrite Ep3. cbn [fbind].
  assert (LS : length (skipn b E) < length E) by (rewrite skipn_length; unfold b, E; cbn [length]; lia).
  destruct (IH it2 (skipn b E) _ p2 W2 ltac:(lia) ltac:(lia) ND2 HB2 L2 Ep2) as (p' & pre & post & -> & EE & Ep' & L' & D').
  exists p', (firstn b E ++ pre), post. split; [reflexivity|]. split; [rewrite <- app_assoc, <- EE; exact SB|].
  rewrite filter_app, app_assoc. auto.
Qed.

Notation member := (fun id => (id < N.of_nat n)%N /\ ans id = true).
Lemma ranked_ext (A B : N -> Prop) d k hits : (forall id, A id -> B id) -> ranked A d k hits -> ranked B d k hits.
Proof. intros H [X Y Z W]. constructor; auto. intros id e Hid. destruct (Z id e Hid). auto. Qed.
Lemma nearest_ext (A B : N -> Prop) d k hits : (forall id, B id -> A id) -> nearest A d k hits -> nearest B d k hits.
Proof. intros H X id Hid. apply X. auto. Qed.
Lemma ranked_small hits k : ranked (fun id => (id < N.of_nat n)%N) dist k hits -> forall c, In c hits -> (fst c < 2 ^ 31)%N.
Proof. intros H [id d] Hc. destruct (rk_true _ _ _ _ H id d Hc) as [A _]. cbn [fst]. pose proof small31. lia. Qed.

Lemma iterative_good ef : topk <= ef -> exists ids, iterative_filter fuel sp x topk ef (repeat kInvalidId topk) = Done (Ok ids)
  /\ found_on_the_way member sp fuel topk ef ids.
Proof.
  intros He. destruct SO as (SE & _). destruct (solo_any fuel sp ef SE small31 ltac:(lia) HF) as (s1 & so & E & EI & T & SP & ND & BE & LE & _).
  unfold iterative_filter, make_iterator. destruct (Nat.ltb_spec ef topk); [lia|]. rewrite EI. cbn [fbind].
  destruct (iterate_good so fuel {| it_solo := s1; it_pending := None |} E [] (pool_new topk)) as (p & pre & post & -> & EE & Ep & L & D); auto; try (cbn; lia).
  cbn [app fbind] in *. subst E.
  assert (Hf : forall id, In id (List.filter ans pre) -> (id < 2 ^ 31)%N /\ (dist id <= float_max)%Z).
  { intros id Hid. apply filter_In in Hid as [Hid _]. apply finite, BE. apply in_or_app. now left. }
  destruct (buffer_results dist topk _ p Hk (NoDup_filter _ (nodup_app_l _ _ ND)) Hf Ep) as (_ & hits & EH & LH & RK & NR).
  rewrite Nat.min_r in LH by assumption. rewrite EH, overwrite_fresh by (rewrite map_length; lia). eexists. split; [reflexivity|].
  exists hits, pre, post. split; [apply shows_pad; lia|]. split.
  { revert RK. apply ranked_ext. intros id Hid. apply filter_In in Hid as [A B]. split; [|assumption]. apply BE. apply in_or_app. now left. }
  split; [exists so; apply SP; lia|]. split; [|rewrite LH; assumption].
  intros id. split.
  - intros H1. apply in_map_iff in H1 as ([i d] & <- & H1). destruct (rk_true _ _ _ _ RK i d H1) as [A _]. apply filter_In in A as [A B].
    cbn [fst]. split; [split; [|assumption]|assumption]. apply BE. apply in_or_app. now left.
  - intros [[_ A] B].
    assert (I : incl (List.filter ans pre) (map fst hits)).
    { apply NoDup_length_incl; [apply RK|rewrite map_length; lia|]. intros y Hy. apply in_map_iff in Hy as ([i d] & <- & Hy).
      now destruct (rk_true _ _ _ _ RK i d Hy). }
    apply I. apply filter_In. auto.
Qed.

Lemma plain_good lib ef : heap_lib_ok lib -> topk <= ef -> exists ids, plain_search fuel lib sp topk ef = Done (Ok ids)
  /\ plainly_found (fun id => (id < N.of_nat n)%N) sp fuel topk ef ids.
Proof using SO Hk HF.
  clear R Bound Safe GX.
  intros LOK He. destruct SO as (SE & _ & _ & SR). destruct (solo_any fuel sp ef SE small31 ltac:(lia) HF) as (s1 & so & E & EI & T & SP & ND & BE & LE & PR & RK).
  unfold plain_search. rewrite (SP topk He). cbn [fbind]. rewrite PR. cbn [fbind]. set (found := map fst (content (so_pool so))) in *.
  assert (CA : candidates fuel sp ef found).
  { exists E. unfold search_solo. rewrite (SP ef (le_n _)). cbn [bind].
    assert (Sz : p_size (so_pool so) = length found).
    { clear - PR. assert (G : forall c p i l, pool_results p i c = Ok l -> c = length l).
      { induction c as [|c IH]; intros p i l H; cbn [pool_results] in H; [injection H as <-; reflexivity|].
        destruct (lp_id p i) as [a| | |]; cbn [bind] in H; try discriminate H. destruct (lp_dist p i) as [b| | |]; cbn [bind] in H; try discriminate H.
        destruct (pool_results p (i + 1) c) as [r| | |] eqn:Er; cbn [bind] in H; try discriminate H. injection H as <-. cbn [length]. f_equal. eauto. }
      eapply G. exact PR. }
    pose proof (rk_count _ _ _ _ RK). rewrite Nat.min_l by lia. rewrite PR. cbn [bind]. now rewrite Sz. }
  destruct (sp_rerank sp).
  - destruct (rerank_lemma lib LOK (map fst found) dist topk) as (ids & dists & -> & best & rest & P & LB & S & B & -> & _). cbn [fbind].
    eexists. split; [reflexivity|]. exists (map (fun id => (id, dist id)) best), found.
    assert (MB : map fst (map (fun id => (id, dist id)) best) = best) by (rewrite map_map; apply map_id).
    rewrite map_length in LB. split; [|split; [|split; [assumption|]]].
    + unfold shows. rewrite MB, map_length. split; [lia|reflexivity].
    + constructor.
      * rewrite map_length. lia.
      * rewrite MB. apply (nodup_app_l _ rest). apply (Permutation_NoDup P). apply RK.
      * intros id d H1. apply in_map_iff in H1 as (i & Ei & Hi). injection Ei as <- <-. split; [|reflexivity].
        assert (Q : In i (map fst found)) by (apply (Permutation_in i (Permutation_sym P)); apply in_or_app; now left).
        apply in_map_iff in Q as ([j d] & <- & Q). now destruct (rk_true _ _ _ _ RK j d Q).
      * clear - S. induction S as [|a l S IH Fa]; cbn [map]; constructor; auto. apply Forall_forall. intros c Hc.
        apply in_map_iff in Hc as (i & <- & Hi). rewrite Forall_forall in Fa. now apply Fa.
    + intros id Hid. apply (Permutation_in id P) in Hid. apply in_app_or in Hid as [Hid|Hid].
      * left. apply in_map_iff. eauto.
      * right. rewrite map_length. split.
        -- apply Permutation_length in P. rewrite map_length, app_length in P. destruct rest; [destruct Hid|]. cbn [length] in P. lia.
        -- intros y Hy. apply in_map_iff in Hy as (i & <- & Hi). cbn [snd]. auto.
  - specialize (SR eq_refl). rewrite firstn_map. set (hits := firstn topk found).
    assert (SD : forall id d, In (id, d) found -> (id < N.of_nat n)%N /\ d = dist id).
    { intros id d H1. destruct (rk_true _ _ _ _ RK id d H1) as [A ->]. split; [assumption|]. auto. }
    assert (SF : found = hits ++ skipn topk found) by (symmetry; apply firstn_skipn).
    assert (LH : length hits <= topk) by (unfold hits; rewrite firstn_length; lia).
    eexists. split; [reflexivity|]. exists hits, found. split; [now apply shows_pad|]. split; [|split; [assumption|]].
    + constructor.
      * assumption.
      * apply (nodup_app_l _ (map fst (skipn topk found))). rewrite <- map_app, <- SF. apply RK.
      * intros id d H1. apply SD. rewrite SF. apply in_or_app. now left.
      * pose proof (rk_sorted _ _ _ _ RK) as S. rewrite SF in S. clear - S. induction hits as [|a l IH]; [constructor|]. cbn [app] in S.
        inversion S; subst. constructor; [auto|]. apply Forall_app in H2. apply H2.
    + intros id Hid. apply in_map_iff in Hid as ([i d] & <- & Hid). cbn [fst]. destruct (SD i d Hid) as [_ Hd].
      rewrite SF in Hid. apply in_app_or in Hid as [Hid|Hid]; [left; now rewrite <- Hd|]. right. split.
      * destruct (Nat.le_gt_cases (length found) topk) as [Le|Gt]; [rewrite skipn_all2 in Hid by assumption; destruct Hid|].
        unfold hits. rewrite firstn_length. lia.
      * intros y Hy. rewrite <- Hd. pose proof (rk_sorted _ _ _ _ RK) as S. rewrite SF in S. clear - S Hy Hid.
        induction hits as [|a l IH]; [destruct Hy|]. cbn [app] in S. inversion S; subst. destruct Hy as [<-|Hy]; [|auto].
        rewrite Forall_forall in H2. apply (H2 (i, d)). apply in_or_app. now right.
Qed.

Lemma prefilter_good lib i : heap_lib_ok lib -> EffortSpec.given i -> EffortModel.topk i = N.of_nat topk ->
  exists ids, bitset_prefilter fuel lib sp x i (repeat kInvalidId topk) = Done (Ok ids)
  /\ members_found member sp fuel topk (N.to_nat (EffortModel.ef i)) ids.
Proof.
  intros LOK Gi Ti. unfold bitset_prefilter. rewrite (build_blocked_good s t f n R Bound small32' x GX). cbn [fbind].
  rewrite Ti, Nat2N.id. set (m := length matched).
  assert (LM : m <= n).
  { unfold m. pose proof (NoDup_incl_length (l := matched) (l' := all_ids 0 n) matched_nodup) as B. rewrite ids_length in B. apply B. intros y Hy. now apply filter_In in Hy. }
  pose proof small31 as S31.
  destruct (EffortProofs.plan_ok (N.of_nat n) i (N.of_nat m) Gi) as (plan & -> & HP). { split; [lia|]. change (2 ^ 32)%N with 4294967296%N. change (2 ^ 31)%N with 2147483648%N in S31. lia. }
  cbn [fbind]. pose proof Gi as [[_ Hte] _]. rewrite Ti in Hte.
  assert (MI : forall id, member id <-> In id matched) by (intros id; symmetry; apply matched_In).
  destruct plan as [|i'| |i'].
  - eexists. split; [reflexivity|]. apply found_exactly with [].
    + split; [cbn; lia|]. cbn. now rewrite Nat.sub_0_r.
    + constructor; cbn; try lia; try constructor; try (intros ? ? []; fail).
    + intros id Hid. apply MI in Hid. assert (E0 : matched = []) by (destruct matched; [reflexivity|]; cbn in m; lia). rewrite E0 in Hid. destruct Hid.
  - destruct HP as [Em ->]. destruct (plain_good lib (N.to_nat (EffortModel.ef i)) LOK ltac:(lia)) as (ids & -> & hits & found & A & B & C & D).
    eexists. split; [reflexivity|].
    assert (AM : forall id, (id < N.of_nat n)%N -> member id).
    { intros id Hid. apply MI. apply (NoDup_length_incl (l := matched) (l' := all_ids 0 n)).
      - apply matched_nodup.
      - rewrite ids_length. fold m. lia.
      - intros y Hy. now apply filter_In in Hy.
      - apply ids_In. lia. }
    apply found_plainly; [exact AM|]. exists hits, found. split; [assumption|]. split; [|auto]. revert B. now apply ranked_ext.
  - destruct brute_good as (hits & -> & LH & RK & NR). cbn [fbind]. rewrite overwrite_fresh by (rewrite map_length; lia).
    eexists. split; [reflexivity|]. apply found_exactly with hits.
    + apply shows_pad. lia.
    + revert RK. apply ranked_ext. intros id. now rewrite MI.
    + revert NR. apply nearest_ext. intros id. now rewrite MI.
  - destruct HP as (_ & Tk & (F1 & F2) & _).
    destruct (masked_good (N.to_nat (EffortModel.ef i')) ltac:(lia)) as (E & hits & XE & ND & BE & -> & LH & RK & NR).
    cbn [fbind].
    assert (RM : ranked member dist topk hits).
    { revert RK. apply ranked_ext. intros id Hid. apply filter_In in Hid as [A B]. auto. }
    rewrite count_pad.
    2:{ apply (ranked_small hits topk). revert RM. apply ranked_ext. intros id Hid. apply Hid. }
    destruct (Nat.ltb_spec (length hits) (Nat.min topk m)) as [Lt|Ge].
    + destruct brute_good as (hits2 & -> & LH2 & RK2 & NR2). cbn [fbind]. fold m in LH2.
      rewrite overwrite_shows by (rewrite !map_length; lia). eexists. split; [reflexivity|]. apply found_exactly with hits2.
      * apply shows_pad. lia.
      * revert RK2. apply ranked_ext. intros id. now rewrite MI.
      * revert NR2. apply nearest_ext. intros id. now rewrite MI.
    + eexists. split; [reflexivity|]. apply found_in_graph with hits (N.to_nat (EffortModel.ef i')) E; auto.
      * apply shows_pad. lia.
      * lia.
      * revert NR. apply nearest_ext. intros id [[_ A] B]. apply filter_In. auto.
      * destruct (Nat.eq_dec (length hits) topk) as [|Ne]; [now left|]. right.
        assert (I : incl matched (map fst hits)).
        { apply NoDup_length_incl; [apply RM|rewrite map_length; fold m; lia|]. intros y Hy. apply in_map_iff in Hy as ([j d] & <- & Hy).
          apply MI. now destruct (rk_true _ _ _ _ RM j d Hy). }
        intros id Hid. apply I. now apply MI.
Qed.
Lemma hybrid_good lib h i : is_empty f = false -> heap_lib_ok lib -> EffortSpec.given i -> EffortModel.topk i = N.of_nat topk ->
  make_executor f s n = Ok x ->
  exists ids, hybrid_search fuel lib sp s f h i = Done (Ok ids)
  /\ match h with
     | IterativeFilter => found_on_the_way member sp fuel topk (N.to_nat (EffortModel.ef i)) ids
     | _ => members_found member sp fuel topk (N.to_nat (EffortModel.ef i)) ids
     end.
Proof.
  intros NE LOK Gi Ti Ex. unfold hybrid_search. pose proof Gi as [[K0 Hte] _]. unfold EffortModel.validate.
  destruct (N.eqb_spec (EffortModel.topk i) 0) as [Z0|_]; [lia|]. destruct (N.ltb_spec (EffortModel.ef i) (EffortModel.topk i)); [lia|]. cbn [fbind].
  rewrite Ex. cbn [fbind]. unfold search_mode. assert (Ef : exec_filter x = f) by apply GX. rewrite Ef, NE.
  rewrite Ti, Nat2N.id in *.
  destruct h; cbn [fbind].
  - destruct (indexed_ids x) as [l|] eqn:El.
    + assert (LL : length l = length matched).
      { pose proof GX as (_ & _ & _ & Hx). rewrite El in Hx. destruct Hx as (ND & _ & I & _). apply Permutation_length.
        apply NoDup_Permutation; [assumption|apply matched_nodup|].
        intros id. rewrite I, matched_In. split; [|tauto]. intros H1. split; [|assumption]. eapply answer_bound; eauto. }
      assert (LM : length matched <= n).
      { pose proof (NoDup_incl_length (l := matched) (l' := all_ids 0 n) matched_nodup) as B. rewrite ids_length in B. apply B.
        intros y Hy. now apply filter_In in Hy. }
      pose proof small31 as S31.
      destruct (EffortProofs.brute_force_ok (N.of_nat n) i (N.of_nat (length l))) as (b & -> & _).
      { split; [lia|]. change (2 ^ 32)%N with 4294967296%N. change (2 ^ 31)%N with 2147483648%N in S31. lia. }
      cbn [bind fbind]. destruct b; [|now apply prefilter_good].
      destruct brute_good as (hits & -> & LH & RK & NR). cbn [fbind]. rewrite overwrite_fresh by (rewrite map_length; lia).
      eexists. split; [reflexivity|]. apply found_exactly with hits.
      * apply shows_pad. lia.
      * revert RK. apply ranked_ext. intros id. now rewrite matched_In.
      * revert NR. apply nearest_ext. intros id. now rewrite matched_In.
    + cbn [fbind]. now apply prefilter_good.
  - apply iterative_good. lia.
  - now apply prefilter_good.
Qed.
End Rows.
