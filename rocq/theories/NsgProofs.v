From Coq Require Import Sorting.Permutation.
From Verif Require Export NsgSpec.
Import ListNotations.

Definition okp {A} (m : res A) (P : A -> Prop) : Prop := exists a, m = Ok a /\ P a.
Definition fine {A} (m : timed A) (P : A -> Prop) : Prop := m = OutOfFuel \/ exists a, m = Done (Ok a) /\ P a.
Lemma okp_bind {A B} (m : res A) (k : A -> res B) P Q :
  okp m P -> (forall a, P a -> okp (k a) Q) -> okp (bind m k) Q.
Proof. intros (a & -> & Pa) H. exact (H a Pa). Qed.
Lemma fine_bind {A B} (m : timed A) (k : A -> timed B) P Q :
  fine m P -> (forall a, P a -> fine (k a) Q) -> fine (tbind m k) Q.
Proof. intros [ -> | (a & -> & Pa)] H; [left; reflexivity|]. exact (H a Pa). Qed.
Lemma okp_fine {A} (m : res A) P : okp m P -> fine (Done m) P.
Proof. intros (a & -> & Pa). right. exists a. auto. Qed.
Lemma okp_ret {A} (a : A) (P : A -> Prop) : P a -> okp (Ok a) P.
Proof. intros H. exists a. auto. Qed.
Lemma fine_ret {A} (a : A) (P : A -> Prop) : P a -> fine (Done (Ok a)) P.
Proof. intros H. right. exists a. auto. Qed.
Lemma fine_weak {A} (m : timed A) (P Q : A -> Prop) : (forall a, P a -> Q a) -> fine m P -> fine m Q.
Proof. intros H [ -> | (a & -> & Pa)]; [left; reflexivity|right; eauto]. Qed.
Lemma tbind_ok {A B} (m : timed A) (k : A -> timed B) b :
  tbind m k = Done (Ok b) -> exists a, m = Done (Ok a) /\ k a = Done (Ok b).
Proof. destruct m as [|[a| | |]]; cbn; try discriminate. eauto. Qed.
Lemma bind_ok {A B} (m : res A) (k : A -> res B) b :
  bind m k = Ok b -> exists a, m = Ok a /\ k a = Ok b.
Proof. destruct m as [a| | |]; cbn; try discriminate. eauto. Qed.

Lemma aget_okp {A} (l : list A) i (P : A -> Prop) :
  (i < N.of_nat (length l))%N -> (forall x, nth_error l (N.to_nat i) = Some x -> P x) -> okp (aget l i) P.
Proof.
  intros H HP. unfold aget. destruct (nth_error l (N.to_nat i)) as [x|] eqn:E.
  - exists x. auto.
  - apply nth_error_None in E. lia.
Qed.
Lemma aput_okp {A} (l : list A) i x (P : list A -> Prop) :
  (i < N.of_nat (length l))%N -> P (upd l (N.to_nat i) x) -> okp (aput l i x) P.
Proof. intros H HP. rewrite aput_ok by exact H. apply okp_ret. exact HP. Qed.

Lemma Forall_upd {A} (P : A -> Prop) l : forall i x, Forall P l -> P x -> Forall P (upd l i x).
Proof.
  induction l as [|y l IH]; intros [|i] x F H; cbn; auto; apply Forall_cons_iff in F as [F1 F2]; auto.
Qed.
Lemma Forall_nth_error {A} (P : A -> Prop) l i x : Forall P l -> nth_error l i = Some x -> P x.
Proof. intros F E. eapply Forall_forall; [exact F|]. eapply nth_error_In; eauto. Qed.

(** Counting the marks of a visited array. *)
Definition marked (vis : list bool) : nat := length (filter (fun b => b) vis).
Lemma marked_le vis : marked vis <= length vis.
Proof. unfold marked. induction vis as [|[] vis IH]; cbn; lia. Qed.
Lemma marked_upd vis : forall i, nth_error vis i = Some false -> marked (upd vis i true) = S (marked vis).
Proof.
  unfold marked. induction vis as [|b vis IH]; intros [|i] H; cbn in H; try discriminate.
  - inversion H. reflexivity.
  - cbn. destruct b; cbn; rewrite IH by exact H; reflexivity.
Qed.
Lemma marked_none k : marked (repeat false k) = 0.
Proof. unfold marked. induction k; cbn; auto. Qed.

Section Builder.
Context (inp : input).
Let n := in_n inp.
Let R := in_R inp.
Let L := in_L inp.
Let dist := in_dist inp.
Context (OK : input_ok inp).
Let n_pos : (0 < n)%N. Proof. apply OK. Qed.
Let n_small : (n < kEmptyId)%N. Proof. apply OK. Qed.
Let sort_nbr_perm l : Permutation (in_sort_nbr inp l) l. Proof. apply OK. Qed.
Let sort_node_perm l : Permutation (in_sort_node inp l) l. Proof. apply OK. Qed.

Definition vis_ok (vis : list bool) : Prop := length vis = N.to_nat n.
Definition below (ids : list N) : Prop := Forall (fun x => (x < n)%N) ids.
Definition nodes_ok (l : list node) : Prop := Forall (fun p => (fst p < n)%N) l.
Definition pool_ok (l : list nbr) : Prop := length l = L /\ Forall (fun x => (nb_id x < n)%N) l.

Lemma at_okp g K u j (P : N -> Prop) :
  table_ok n K g -> (u < n)%N -> j < K ->
  (forall row x, nth_error g (N.to_nat u) = Some row -> nth_error row j = Some x -> P x) -> okp (at_ g u j) P.
Proof.
  intros [Lg Fg] Hu Hj H. unfold at_.
  apply okp_bind with (P := fun row => nth_error g (N.to_nat u) = Some row).
  - apply aget_okp; [lia|auto].
  - intros row E. assert (Lr : length row = K) by exact (Forall_nth_error _ _ _ _ Fg E).
    apply aget_okp; [lia|]. rewrite Nat2N.id. eauto.
Qed.
Lemma mod_n x : (N.modulo x n < n)%N.
Proof. apply N.mod_lt. pose proof n_pos. lia. Qed.

Lemma seed_fine g K ep js : forall ids vis cnt,
  table_ok n K g -> (ep < n)%N -> Forall (fun j => j < K /\ j < L) js ->
  length ids = L -> below ids -> vis_ok vis ->
  okp (seed inp g ep js ids vis cnt) (fun '(ids', vis', _) => length ids' = L /\ below ids' /\ vis_ok vis').
Proof.
  induction js as [|j js IH]; intros ids vis cnt T He F Li Bi V; cbn [seed]; [apply okp_ret; auto|].
  apply Forall_cons_iff in F as [[F1 F1'] F2].
  apply okp_bind with (P := fun _ => True); [eapply at_okp; eauto|]. intros id _.
  fold n. destruct (N.leb_spec n id) as [H|H]; [apply IH; auto|].
  apply okp_bind with (P := fun ids' => length ids' = L /\ below ids').
  { apply aput_okp; [lia|]. rewrite upd_length. split; [exact Li|]. apply Forall_upd; auto. }
  intros ids' [Li' Bi']. apply okp_bind with (P := vis_ok).
  { apply aput_okp; [unfold vis_ok in V; lia|]. unfold vis_ok. rewrite upd_length. exact V. }
  intros vis' V'. apply IH; auto.
Qed.

Lemma fill_fine fuel : forall p ids vis cnt,
  length ids = L -> below ids -> vis_ok vis ->
  fine (fill inp fuel p ids vis cnt) (fun '(ids', vis') => length ids' = L /\ below ids' /\ vis_ok vis').
Proof.
  induction fuel as [|fuel IH]; intros p ids vis cnt Li Bi V; cbn [fill]; fold L n; cbv zeta;
    destruct (Nat.ltb_spec cnt L) as [H|H]; try (apply fine_ret; auto; fail); [left; reflexivity|].
  pose proof (mod_n (in_gen inp p)) as Hm. set (id := N.modulo (in_gen inp p) n) in *.
  apply fine_bind with (P := fun _ => True); [apply okp_fine, aget_okp; [unfold vis_ok in V; lia|auto]|].
  intros seen _. destruct seen; [apply IH; auto|].
  apply fine_bind with (P := fun ids' => length ids' = L /\ below ids').
  { apply okp_fine, aput_okp; [lia|]. rewrite upd_length. split; [exact Li|]. apply Forall_upd; auto. }
  intros ids' [Li' Bi']. apply fine_bind with (P := vis_ok).
  { apply okp_fine, aput_okp; [unfold vis_ok in V; lia|]. unfold vis_ok. rewrite upd_length. exact V. }
  intros vis' V'. apply IH; auto.
Qed.

Lemma shift_ok pos : forall pool d, pool_ok pool -> pos < L ->
  let '(pool', pos') := shift pool pos d in pool_ok pool' /\ pos' < L.
Proof.
  induction pos as [|p IH]; intros pool d P Hp; cbn [shift]; [auto|].
  destruct (nth_error pool p) as [x|] eqn:E; [|auto].
  destruct (Z.ltb d (nb_dist x)); [|auto]. apply IH; [|lia].
  destruct P as [P1 P2]. split; [rewrite upd_length; exact P1|]. apply Forall_upd; [exact P2|].
  exact (Forall_nth_error _ _ _ _ P2 E).
Qed.
Lemma insert_ok pool x : pool_ok pool -> (nb_id x < n)%N -> pool_ok (fst (insert_into_pool inp pool x)).
Proof.
  intros P Hx. unfold insert_into_pool. fold L.
  destruct (existsb _ (firstn L pool)); [exact P|].
  destruct (nth_error pool (L - 1)) as [last|] eqn:E; [|exact P].
  destruct (Z.leb (nb_dist last) (nb_dist x)); [exact P|].
  assert (L - 1 < length pool) by (apply nth_error_Some; congruence).
  pose proof (shift_ok (L - 1) pool (nb_dist x) P) as S. destruct (shift pool (L - 1) (nb_dist x)) as [pool' pos].
  destruct S as [[S1 S2] S3]; [destruct P; lia|]. cbn [fst]. split; [rewrite upd_length; exact S1|].
  apply Forall_upd; auto.
Qed.

Lemma expand_fine q g K u ms : forall pool full vis upos,
  table_ok n K g -> (u < n)%N -> Forall (fun m => m < K) ms -> 0 < L ->
  pool_ok pool -> nodes_ok full -> vis_ok vis ->
  okp (expand inp q g u ms pool full vis upos)
    (fun '(pool', full', vis', _) => pool_ok pool' /\ nodes_ok full' /\ length full <= length full' /\ vis_ok vis').
Proof.
  induction ms as [|m ms IH]; intros pool full vis upos T Hu F HL P Fu V; cbn [expand]; [apply okp_ret; auto|].
  apply Forall_cons_iff in F as [F1 F2].
  apply okp_bind with (P := fun _ => True); [eapply at_okp; eauto|]. intros id _.
  fold n. destruct (N.leb_spec n id) as [H|H]; [apply IH; auto|].
  apply okp_bind with (P := fun _ => True); [apply aget_okp; [unfold vis_ok in V; lia|auto]|].
  intros seen _. destruct seen; [apply IH; auto|].
  apply okp_bind with (P := vis_ok).
  { apply aput_okp; [unfold vis_ok in V; lia|]. unfold vis_ok. rewrite upd_length. exact V. }
  intros vis' V'. cbv zeta.
  apply okp_bind with (P := fun _ => True).
  { fold L. apply aget_okp; [destruct P; lia|auto]. }
  intros last _.
  assert (Fu' : nodes_ok (full ++ [(id, q id)])) by (apply Forall_app; split; [exact Fu|constructor; auto]).
  assert (Le : length full <= length (full ++ [(id, q id)])) by (rewrite app_length; lia).
  assert (W : forall pool' upos', pool_ok pool' ->
     okp (expand inp q g u ms pool' (full ++ [(id, q id)]) vis' upos')
       (fun '(pool', full', vis', _) => pool_ok pool' /\ nodes_ok full' /\ length full <= length full' /\ vis_ok vis')).
  { intros pool' upos' P'. destruct (IH pool' (full ++ [(id, q id)]) vis' upos' T Hu F2 HL P' Fu' V') as ([[[a b] c] d] & -> & Q).
    apply okp_ret. destruct Q as (Q1 & Q2 & Q3 & Q4). repeat split; auto; try apply Q1. lia. }
  destruct (Z.leb (nb_dist last) (q id)); [apply W; exact P|].
  pose proof (insert_ok pool (Nbr id (q id) true) P H) as I.
  destruct (insert_into_pool inp pool (Nbr id (q id) true)) as [pool' r]. apply W. exact I.
Qed.

Lemma search_loop_fine fuel : forall q g K pool full vis k,
  table_ok n K g -> pool_ok pool -> nodes_ok full -> vis_ok vis ->
  fine (search_loop inp fuel q g K pool full vis k)
    (fun '(pool', full', vis') => pool_ok pool' /\ nodes_ok full' /\ length full <= length full' /\ vis_ok vis').
Proof.
  induction fuel as [|fuel IH]; intros q g K pool full vis k T P Fu V; cbn [search_loop]; fold L;
    destruct (Nat.ltb_spec k L) as [H|H]; try (apply fine_ret; auto; fail); [left; reflexivity|].
  apply fine_bind with (P := fun x => (nb_id x < n)%N).
  { apply okp_fine, aget_okp; [destruct P; lia|]. intros x E. destruct P as [_ P]. exact (Forall_nth_error _ _ _ _ P E). }
  intros x Hx. destruct (nb_flag x); [|apply IH; auto].
  set (pool1 := upd pool k _).
  assert (P1 : pool_ok pool1).
  { destruct P as [P1 P2]. split; [unfold pool1; rewrite upd_length; exact P1|]. apply Forall_upd; auto. }
  apply fine_bind with (P := fun '(pool', full', vis', _) => pool_ok pool' /\ nodes_ok full' /\ length full <= length full' /\ vis_ok vis').
  { apply okp_fine. eapply expand_fine; eauto; [|lia]. apply Forall_forall. intros m Hm. apply in_seq in Hm. lia. }
  intros [[[pool2 full2] vis2] upos] (A1 & A2 & A3 & A4).
  eapply fine_weak; [|apply IH; eauto].
  intros [[a b] c] (B1 & B2 & B3 & B4). repeat split; auto; try apply B1. lia.
Qed.

Lemma search_fine fuel q g K vis ep :
  table_ok n K g -> (ep < n)%N -> vis_ok vis ->
  fine (search_on_graph inp fuel q g K vis ep)
    (fun '(pool, full, vis') => pool_ok pool /\ nodes_ok full /\ L <= length full /\ vis_ok vis').
Proof.
  intros T He V. unfold search_on_graph. fold L.
  apply fine_bind with (P := fun '(ids', vis', _) => length ids' = L /\ below ids' /\ vis_ok vis').
  { apply okp_fine. eapply seed_fine; eauto.
    - apply Forall_forall. intros j Hj. apply in_seq in Hj. lia.
    - apply repeat_length.
    - apply Forall_forall. intros x Hx. apply repeat_spec in Hx. subst x. exact n_pos. }
  intros [[ids0 vis1] cnt] (A1 & A2 & A3).
  apply fine_bind with (P := fun '(ids', vis') => length ids' = L /\ below ids' /\ vis_ok vis').
  { apply fill_fine; auto. }
  intros [ids2 vis2] (B1 & B2 & B3). cbv zeta.
  eapply fine_weak; [|apply search_loop_fine; eauto].
  - intros [[a b] c] (C1 & C2 & C3 & C4). repeat split; auto; try apply C1.
    rewrite map_length in C3. lia.
  - split.
    + rewrite (Permutation_length (sort_nbr_perm _)), map_length. exact B1.
    + eapply Permutation_Forall; [apply Permutation_sym, sort_nbr_perm|].
      apply Forall_map. exact B2.
  - apply Forall_map. exact B2.
Qed.

Lemma init_ep_fine fuel knng K : table_ok n K knng -> 0 < L -> fine (init_ep inp fuel knng K) (fun ep => (ep < n)%N).
Proof.
  intros T HL. unfold init_ep. fold n.
  eapply fine_bind; [apply (search_fine fuel (in_center inp) knng K (repeat false (N.to_nat n)) (N.modulo (in_rng inp 0) n)); auto|].
  - apply mod_n.
  - apply repeat_length.
  - intros [[pool full] vis'] ([P1 P2] & _).
    apply fine_bind with (P := fun x => (nb_id x < n)%N).
    + apply okp_fine, aget_okp; [lia|]. intros x E. exact (Forall_nth_error _ _ _ _ P2 E).
    + intros x Hx. apply fine_ret. exact Hx.
Qed.

(** ** Rows. *)
Definition occ (row : list N) : list N := occupied row.
Lemma occupied_below l : below l -> occupied l = l.
Proof.
  unfold occupied, below. induction l as [|x l IH]; intros F; cbn; auto.
  apply Forall_cons_iff in F as [F1 F2]. destruct (N.eqb_spec x kEmptyId); [lia|]. cbn. rewrite IH by auto. reflexivity.
Qed.
Lemma occupied_empty k : occupied (repeat kEmptyId k) = [].
Proof. unfold occupied. induction k; cbn; auto. Qed.
Lemma occupied_app a b : occupied (a ++ b) = occupied a ++ occupied b.
Proof. unfold occupied. induction a as [|x a IH]; cbn; auto. destruct (N.eqb x kEmptyId); cbn; rewrite IH; auto. Qed.
Lemma pad_eq r l : length l <= r -> pad r l = l ++ repeat kEmptyId (r - length l).
Proof.
  intros H. unfold pad. rewrite firstn_app, firstn_all2 by lia. f_equal.
  assert (E : repeat kEmptyId r = repeat kEmptyId (r - length l) ++ repeat kEmptyId (length l)).
  { rewrite <- repeat_app. f_equal. lia. }
  rewrite E, firstn_app, firstn_all2 by (rewrite repeat_length; lia).
  rewrite repeat_length. replace (r - length l - (r - length l)) with 0 by lia. cbn. apply app_nil_r.
Qed.
Lemma pad_long r l : r <= length l -> pad r l = firstn r l.
Proof. intros H. unfold pad. rewrite firstn_app. replace (r - length l) with 0 by lia. cbn. apply app_nil_r. Qed.
Lemma firstn_below k l : below l -> below (firstn k l).
Proof.
  intros F. apply Forall_forall. intros x Hx. apply (proj1 (Forall_forall _ _) F).
  rewrite <- (firstn_skipn k l). apply in_app_iff. auto.
Qed.
Lemma pad_ok r l : below l -> row_ok n r (pad r l).
Proof.
  intros F. destruct (Nat.le_gt_cases (length l) r) as [H|H].
  - exists l. rewrite pad_eq by exact H. auto.
  - exists (firstn r l). rewrite pad_long by lia.
    assert (E : length (firstn r l) = r) by (rewrite firstn_length; lia). rewrite E, Nat.sub_diag. cbn.
    rewrite app_nil_r. split; [apply firstn_below; exact F|auto].
Qed.
Lemma row_ok_length r row : row_ok n r row -> length row = r.
Proof. intros (l & _ & -> & H). rewrite app_length, repeat_length. lia. Qed.
Lemma row_ok_occupied r row : row_ok n r row -> below (occupied row) /\ row = pad r (occupied row) /\ length (occupied row) <= r.
Proof.
  intros (l & F & -> & H). rewrite occupied_app, occupied_empty, app_nil_r, occupied_below by exact F.
  rewrite pad_eq by exact H. auto.
Qed.
Lemma graph_table r g : graph_ok n r g -> table_ok n r g.
Proof.
  intros [A B]. split; [exact A|]. eapply Forall_impl; [|exact B]. intros row. apply row_ok_length.
Qed.
Lemma graph_ok_upd r g u row : graph_ok n r g -> row_ok n r row -> graph_ok n r (upd g u row).
Proof. intros [A B] C. split; [rewrite upd_length; exact A|]. apply Forall_upd; auto. Qed.
Lemma empty_ok : graph_ok n R (empty_graph inp).
Proof.
  split; [unfold empty_graph; apply repeat_length|]. apply Forall_forall. intros row H. apply repeat_spec in H. subst row.
  exists []. split; [constructor|]. cbn. rewrite Nat.sub_0_r. split; [reflexivity|lia].
Qed.

Lemma select_ok cands : forall result, nodes_ok cands -> nodes_ok result ->
  nodes_ok (select inp cands result).
Proof.
  induction cands as [|p cands IH]; intros result Fc Fr; cbn [select]; auto.
  apply Forall_cons_iff in Fc as [F1 F2]. destruct (Nat.ltb (length result) (in_R inp)); auto.
  apply IH; auto. destruct (occluded inp result p); auto. apply Forall_app. auto.
Qed.
Lemma select_length cands : forall result, 
  length result <= length (select inp cands result) /\ (length result <= R -> length (select inp cands result) <= R).
Proof.
  induction cands as [|p cands IH]; intros result; cbn [select]; [auto|].
  fold R. destruct (Nat.ltb_spec (length result) R) as [H|H]; [|auto].
  specialize (IH (if occluded inp result p then result else result ++ [p])).
  destruct (occluded inp result p); [exact IH|]. rewrite app_length in IH. cbn in IH. lia.
Qed.
Lemma nodes_below l : nodes_ok l -> below (map fst l).
Proof. intros F. apply Forall_map. exact F. Qed.

Lemma knng_cands_fine knng K q vis js : forall pool,
  table_ok n K knng -> (q < n)%N -> Forall (fun j => j < K) js -> vis_ok vis -> nodes_ok pool ->
  okp (knng_cands inp knng q vis js pool) (fun pool' => nodes_ok pool' /\ length pool <= length pool').
Proof.
  induction js as [|j js IH]; intros pool T Hq F V P; cbn [knng_cands]; [apply okp_ret; auto|].
  apply Forall_cons_iff in F as [F1 F2].
  apply okp_bind with (P := fun _ => True); [eapply at_okp; eauto|]. intros id _.
  fold n. destruct (N.leb_spec n id) as [H|H]; [apply IH; auto|].
  apply okp_bind with (P := fun _ => True); [apply aget_okp; [unfold vis_ok in V; lia|auto]|].
  intros seen _. destruct seen; [apply IH; auto|].
  destruct (IH (pool ++ [(id, in_dist inp q id)]) T Hq F2 V) as (a & E & A1 & A2).
  { apply Forall_app. split; [exact P|]. constructor; auto. }
  rewrite E. apply okp_ret. rewrite app_length in A2. cbn in A2. split; [exact A1|lia].
Qed.

Lemma sync_prune_fine q pool vis knng K g :
  table_ok n K knng -> (q < n)%N -> vis_ok vis -> nodes_ok pool -> 2 <= length pool -> graph_ok n R g ->
  okp (sync_prune inp q pool vis knng K g)
    (fun g' => graph_ok n R g' /\ exists l, l <> [] /\ below l /\ g' = upd g (N.to_nat q) (pad R l)).
Proof.
  intros T Hq V P P2 G. unfold sync_prune.
  eapply okp_bind; [eapply (knng_cands_fine knng K q vis (seq 0 K)); eauto|].
  { apply Forall_forall. intros j Hj. apply in_seq in Hj. lia. }
  intros pool1 [A1 A2]. cbv zeta.
  assert (S1 : length (in_sort_node inp pool1) = length pool1) by apply Permutation_length, sort_node_perm.
  assert (S2 : nodes_ok (in_sort_node inp pool1)).
  { eapply Permutation_Forall; [apply Permutation_sym, sort_node_perm|]. exact A1. }
  set (pool2 := in_sort_node inp pool1) in *.
  apply okp_bind with (P := fun _ => True); [apply aget_okp; [lia|auto]|]. intros first _.
  set (start := if N.eqb (fst first) q then 1 else 0).
  assert (Hs : start <= 1) by (unfold start; destruct (N.eqb (fst first) q); lia). clearbody start.
  apply okp_bind with (P := fun p0 => (fst p0 < n)%N).
  { apply aget_okp; [lia|]. intros x E. exact (Forall_nth_error _ _ _ _ S2 E). }
  intros p0 H0. fold R.
  set (cands := firstn (R + 100 - S start) (skipn (S start) pool2)).
  assert (C : nodes_ok cands).
  { apply Forall_forall. intros x Hx. apply (proj1 (Forall_forall _ _) S2).
    rewrite <- (firstn_skipn (S start) pool2). apply in_app_iff. right.
    rewrite <- (firstn_skipn (R + 100 - S start) (skipn (S start) pool2)). apply in_app_iff. left. exact Hx. }
  assert (B : below (map fst (select inp cands [p0]))) by (apply nodes_below, select_ok; [auto|constructor; auto]).
  apply aput_okp; [destruct G; lia|]. split.
  - apply graph_ok_upd; [exact G|]. apply pad_ok. exact B.
  - exists (map fst (select inp cands [p0])). split; [|auto].
    pose proof (proj1 (select_length cands [p0])) as Hl. cbn in Hl. destruct (select inp cands [p0]); [cbn in Hl; lia|discriminate].
Qed.

(** Every row, except those of the vectors still to come, holds an id. *)
Definition pending (g : graph) (qs : list N) : Prop :=
  0 < R -> forall i row, nth_error g i = Some row -> In (N.of_nat i) qs \/ occupied row <> [].
Lemma occupied_pad l : l <> [] -> below l -> 0 < R -> occupied (pad R l) <> [].
Proof.
  intros Hl B HR. unfold pad. destruct l as [|x l]; [congruence|]. destruct R as [|r]; [lia|]. cbn.
  apply Forall_cons_iff in B as [B _]. unfold occupied. cbn [filter]. destruct (N.eqb_spec x kEmptyId); [lia|]. discriminate.
Qed.

Lemma link_prune_fine fuel knng K ep qs : forall g,
  table_ok n K knng -> (ep < n)%N -> 2 <= L -> Forall (fun q => (q < n)%N) qs -> graph_ok n R g -> pending g qs ->
  fine (link_prune inp fuel knng K ep qs g) (fun g' => graph_ok n R g' /\ pending g' []).
Proof.
  induction qs as [|q qs IH]; intros g T He HL F G Pe; cbn [link_prune].
  { apply fine_ret. auto. }
  apply Forall_cons_iff in F as [F1 F2]. fold n dist.
  eapply fine_bind; [apply (search_fine fuel (dist q) knng K (repeat false (N.to_nat n)) ep); auto; apply repeat_length|].
  intros [[pool full] vis] (A1 & A2 & A3 & A4).
  eapply fine_bind; [apply okp_fine, (sync_prune_fine q full vis knng K g); auto; lia|].
  intros g' (G' & l & Hl & Bl & ->). apply IH; auto.
  intros HR i row E. assert (Lq : N.to_nat q < length g) by (destruct G; lia).
  rewrite (nth_error_upd g (N.to_nat q) (pad R l) i Lq) in E.
  destruct (Nat.eqb_spec (N.to_nat q) i) as [Ei|Ei].
  - right. inversion E; subst row. apply occupied_pad; auto.
  - destruct (Pe HR i row E) as [[Hq|Hq]|H]; [lia|left; exact Hq|right; exact H].
Qed.

Lemma below_not_empty l : below l -> Forall (fun x => x <> kEmptyId) l.
Proof. intros B. eapply Forall_impl; [|exact B]. cbn. intros x Hx. lia. Qed.
Lemma put_first_app q l rest : below l -> put_first_empty q (l ++ rest) = l ++ put_first_empty q rest.
Proof.
  intros B. apply below_not_empty in B. induction l as [|x l IH]; cbn; auto. apply Forall_cons_iff in B as [F1 F2].
  destruct (N.eqb_spec x kEmptyId); [congruence|]. rewrite IH by exact F2. reflexivity.
Qed.
Lemma gather_ids q l k : forall acc, below l ->
  gather inp q (l ++ repeat kEmptyId k) acc =
  if existsb (N.eqb q) l then None else Some (acc ++ map (fun x => (x, in_idkey inp 0%N)) l).
Proof.
  induction l as [|x l IH]; intros acc B; cbn [app gather existsb map].
  - rewrite app_nil_r. destruct k; cbn; reflexivity.
  - apply Forall_cons_iff in B as [B1 B2]. destruct (N.eqb_spec x kEmptyId); [lia|].
    destruct (N.eqb q x); cbn [orb]; [reflexivity|]. rewrite IH by exact B2. destruct (existsb (N.eqb q) l); [reflexivity|].
    rewrite <- app_assoc. reflexivity.
Qed.

Lemma reverse_link_fine q des g :
  (q < n)%N -> (des < n)%N -> 0 < R -> graph_ok n R g -> pending g [] ->
  okp (reverse_link inp q des g) (fun g' => graph_ok n R g' /\ pending g' []).
Proof.
  intros Hq Hd HR G Pe. unfold reverse_link. fold R.
  assert (Ld : N.to_nat des < length g) by (destruct G; lia).
  apply okp_bind with (P := fun row => nth_error g (N.to_nat des) = Some row); [apply aget_okp; [lia|auto]|].
  intros row E. destruct G as [G1 G2]. pose proof (Forall_nth_error _ _ _ _ G2 E) as (l & B & Er & Hl).
  assert (GG : graph_ok n R g) by (split; auto).
  subst row. rewrite gather_ids by exact B. destruct (existsb (N.eqb q) l); [apply okp_ret; auto|].
  cbn [app]. set (old := map _ l).
  assert (Lo : length old = length l) by apply map_length.
  assert (W : forall l', l' <> [] -> below l' -> length l' <= R ->
     graph_ok n R (upd g (N.to_nat des) (pad R l')) /\ pending (upd g (N.to_nat des) (pad R l')) []).
  { intros l' N1 B1 L1. split; [apply graph_ok_upd; [exact GG|apply pad_ok; exact B1]|].
    intros _ i row Ei. right. rewrite (nth_error_upd g _ _ i Ld) in Ei.
    destruct (Nat.eqb_spec (N.to_nat des) i).
    - inversion Ei; subst row. apply occupied_pad; auto.
    - destruct (Pe HR i row Ei) as [[]|H]. exact H. }
  destruct (Nat.ltb_spec R (length (old ++ [(q, in_idkey inp des)]))) as [H|H]; rewrite app_length in H; cbn [length] in H.
  - assert (NO : nodes_ok (old ++ [(q, in_idkey inp des)])).
    { apply Forall_app. split; [apply Forall_map; exact B|]. constructor; auto. }
    assert (S2 : nodes_ok (in_sort_node inp (old ++ [(q, in_idkey inp des)]))).
    { eapply Permutation_Forall; [apply Permutation_sym, sort_node_perm|]. exact NO. }
    assert (S1 : length (in_sort_node inp (old ++ [(q, in_idkey inp des)])) = length old + 1).
    { rewrite (Permutation_length (sort_node_perm _)), app_length. reflexivity. }
    destruct (in_sort_node inp (old ++ [(q, in_idkey inp des)])) as [|p0 cands]; [cbn in S1; lia|].
    apply Forall_cons_iff in S2 as [S2 S3].
    destruct (select_length cands [p0]) as [Q1 Q2]. cbn [length] in Q1, Q2. specialize (Q2 HR).
    assert (B' : below (map fst (select inp cands [p0]))) by (apply nodes_below, select_ok; [auto|constructor; auto]).
    set (l' := map fst (select inp cands [p0])) in *.
    assert (Ll' : length l' = length (select inp cands [p0])) by apply map_length.
    assert (Eo : overwrite (l ++ repeat kEmptyId (R - length l)) l' = pad R (l' ++ skipn (length l') l)).
    { unfold overwrite. replace (R - length l) with 0 by lia. cbn [repeat]. rewrite app_nil_r.
      rewrite pad_eq by (rewrite app_length, skipn_length; lia).
      replace (R - length (l' ++ skipn (length l') l)) with 0 by (rewrite app_length, skipn_length; lia).
      cbn. symmetry. apply app_nil_r. }
    rewrite Eo. apply aput_okp; [lia|]. apply W.
    + destruct l'; [cbn in Ll'; lia|discriminate].
    + apply Forall_app. split; [exact B'|].
      apply Forall_forall. intros x Hx. apply (proj1 (Forall_forall _ _) B).
      rewrite <- (firstn_skipn (length l') l). apply in_app_iff. right. exact Hx.
    + rewrite app_length, skipn_length. lia.
  - rewrite put_first_app by exact B.
    assert (Ep : l ++ put_first_empty q (repeat kEmptyId (R - length l)) = pad R (l ++ [q])).
    { rewrite pad_eq by (rewrite app_length; cbn; lia). rewrite app_length. cbn [length].
      replace (R - length l) with (S (R - (length l + 1))) by lia. cbn. rewrite <- app_assoc. reflexivity. }
    rewrite Ep. apply aput_okp; [lia|]. apply W.
    + destruct l; discriminate.
    + apply Forall_app. split; [exact B|constructor; auto].
    + rewrite app_length. cbn. lia.
Qed.
Lemma graph_ok_slot g u j row x : graph_ok n R g -> nth_error g u = Some row -> nth_error row j = Some x -> (x < n)%N \/ x = kEmptyId.
Proof.
  intros [_ G] E1 E2. pose proof (Forall_nth_error _ _ _ _ G E1) as (l & B & -> & _).
  apply nth_error_In, in_app_iff in E2 as [H|H].
  - left. exact (proj1 (Forall_forall _ _) B x H).
  - right. apply repeat_spec in H. exact H.
Qed.
Lemma reverse_links_fine q is : forall g,
  (q < n)%N -> Forall (fun i => i < R) is -> graph_ok n R g -> pending g [] ->
  okp (reverse_links inp q is g) (fun g' => graph_ok n R g' /\ pending g' []).
Proof.
  induction is as [|i is IH]; intros g Hq F G Pe; cbn [reverse_links]; [apply okp_ret; auto|].
  apply Forall_cons_iff in F as [F1 F2].
  apply okp_bind with (P := fun x => (x < n)%N \/ x = kEmptyId).
  { eapply at_okp; [apply graph_table; exact G|exact Hq|exact F1|]. intros row x E1 E2. eapply graph_ok_slot; eauto. }
  intros des Hd. destruct (N.eqb_spec des kEmptyId) as [E|E]; [apply okp_ret; auto|].
  destruct Hd as [Hd|Hd]; [|congruence].
  eapply okp_bind; [apply reverse_link_fine; auto; lia|]. intros g' [G' Pe']. apply IH; auto.
Qed.
Lemma link_reverse_fine qs : forall g, Forall (fun q => (q < n)%N) qs -> graph_ok n R g -> pending g [] ->
  okp (link_reverse inp qs g) (fun g' => graph_ok n R g' /\ pending g' []).
Proof.
  induction qs as [|q qs IH]; intros g F G Pe; cbn [link_reverse]; [apply okp_ret; auto|].
  apply Forall_cons_iff in F as [F1 F2].
  eapply okp_bind; [apply reverse_links_fine; auto|].
  - fold R. apply Forall_forall. intros i Hi. apply in_seq in Hi. lia.
  - intros g' [G' Pe']. apply IH; auto.
Qed.
Lemma ids_below : Forall (fun q => (q < n)%N) (ids inp).
Proof. apply Forall_forall. intros q H. apply in_map_iff in H as (i & <- & H). apply in_seq in H. fold n in H. lia. Qed.
Lemma link_fine fuel knng K ep :
  table_ok n K knng -> (ep < n)%N -> 2 <= L ->
  fine (link inp fuel knng K ep) (fun g => graph_ok n R g /\ pending g []).
Proof.
  intros T He HL. unfold link.
  eapply fine_bind; [apply link_prune_fine; auto; [apply ids_below|apply empty_ok|]|].
  - intros _ i row E. left. apply in_map. apply in_seq. fold n.
    assert (i < length (empty_graph inp)) by (apply nth_error_Some; congruence).
    destruct empty_ok as [Le _]. lia.
  - intros g [G Pe]. apply okp_fine, link_reverse_fine; auto. apply ids_below.
Qed.

(** The degrees kept beside the graph count the occupied slots. *)
Definition degs_ok (g : graph) (degs : list nat) : Prop := degs = degrees_of g.
Lemma compact_ok g : graph_ok n R g -> compact inp g = g.
Proof.
  intros [_ G]. unfold compact. fold R. induction g as [|row g IH]; cbn; auto.
  apply Forall_cons_iff in G as [G1 G2]. rewrite IH by exact G2. apply row_ok_occupied in G1 as (_ & <- & _). reflexivity.
Qed.

(** ** The traversal. *)
Definition marks (vis : list bool) (u : N) : Prop := nth_error vis (N.to_nat u) = Some true.
Lemma marks_upd vis v u : marks vis u -> marks (upd vis (N.to_nat v) true) u.
Proof.
  unfold marks. intros H. destruct (Nat.lt_ge_cases (N.to_nat v) (length vis)) as [Hv|Hv].
  - rewrite nth_error_upd by exact Hv. destruct (Nat.eqb (N.to_nat v) (N.to_nat u)); auto.
  - rewrite upd_out by exact Hv. exact H.
Qed.
Lemma marks_upd_inv vis v u : (v < n)%N -> vis_ok vis -> marks (upd vis (N.to_nat v) true) u -> u = v \/ marks vis u.
Proof.
  unfold marks, vis_ok. intros Hv V H. rewrite nth_error_upd in H by lia.
  destruct (Nat.eqb_spec (N.to_nat v) (N.to_nat u)); [left; lia|right; exact H].
Qed.
Lemma marks_at vis v : (v < n)%N -> vis_ok vis -> marks (upd vis (N.to_nat v) true) v.
Proof. unfold marks, vis_ok. intros Hv V. rewrite nth_error_upd by lia. rewrite Nat.eqb_refl. reflexivity. Qed.
Lemma vis_ok_upd vis i : vis_ok vis -> vis_ok (upd vis i true).
Proof. unfold vis_ok. rewrite upd_length. auto. Qed.

Lemma edge_slot g u v : graph_ok n R g -> (edge g u v <-> exists j row, j < R /\ nth_error g (N.to_nat u) = Some row /\ nth_error row j = Some v /\ v <> kEmptyId).
Proof.
  intros G. split.
  - intros (row & E & H & Nv). apply In_nth_error in H as (j & Ej). exists j, row.
    assert (Lr : length row = R) by (apply row_ok_length; destruct G as [_ G]; exact (Forall_nth_error _ _ _ _ G E)).
    assert (j < length row) by (apply nth_error_Some; congruence). repeat split; auto; lia.
  - intros (j & row & _ & E & Ej & Nv). exists row. repeat split; auto. eapply nth_error_In; eauto.
Qed.
Lemma edge_below g u v : graph_ok n R g -> edge g u v -> (v < n)%N.
Proof.
  intros G H. apply (edge_slot g u v G) in H as (j & row & _ & E & Ej & Nv).
  destruct (graph_ok_slot g (N.to_nat u) j row v G E Ej); [auto|congruence].
Qed.

Lemma next_unvisited_fine g u vis js : 
  graph_ok n R g -> (u < n)%N -> vis_ok vis -> Forall (fun j => j < R) js ->
  okp (next_unvisited g u js vis) (fun r =>
    match r with
    | None => forall j row x, In j js -> nth_error g (N.to_nat u) = Some row -> nth_error row j = Some x -> x <> kEmptyId -> marks vis x
    | Some v => (v < n)%N /\ nth_error vis (N.to_nat v) = Some false /\ edge g u v
    end).
Proof.
  intros G Hu V. induction js as [|j js IH]; intros F; cbn [next_unvisited].
  { apply okp_ret. intros j row x []. }
  apply Forall_cons_iff in F as [F1 F2]. specialize (IH F2).
  apply okp_bind with (P := fun id => exists row, nth_error g (N.to_nat u) = Some row /\ nth_error row j = Some id).
  { eapply at_okp; [apply graph_table; exact G|exact Hu|exact F1|]. intros row x E1 E2. eauto. }
  intros id (row & E1 & E2).
  assert (C : (id = kEmptyId \/ marks vis id) -> okp (next_unvisited g u js vis) (fun r =>
    match r with
    | None => forall j0 row x, In j0 (j :: js) -> nth_error g (N.to_nat u) = Some row -> nth_error row j0 = Some x -> x <> kEmptyId -> marks vis x
    | Some v => (v < n)%N /\ nth_error vis (N.to_nat v) = Some false /\ edge g u v
    end)).
  { intros D. destruct IH as (r & E & H). exists r. split; [exact E|]. destruct r as [v|]; [exact H|].
    intros j0 row0 x [ -> |Hj] Er Ex Nx; [|eapply H; eauto].
    rewrite E1 in Er. inversion Er; subst row0. rewrite E2 in Ex. inversion Ex; subst x. destruct D; [congruence|assumption]. }
  destruct (N.eqb_spec id kEmptyId) as [Ei|Ei]; [apply C; auto|].
  destruct (graph_ok_slot g (N.to_nat u) j row id G E1 E2) as [Hid|Hid]; [|congruence].
  apply okp_bind with (P := fun b => nth_error vis (N.to_nat id) = Some b).
  { apply aget_okp; [unfold vis_ok in V; lia|auto]. }
  intros seen Es. destruct seen; [apply C; right; exact Es|].
  apply okp_ret. split; [exact Hid|]. split; [exact Es|]. exists row. repeat split; auto. eapply nth_error_In; eauto.
Qed.

Definition closed (g : graph) (vis : list bool) (u : N) : Prop := forall v, edge g u v -> marks vis v.
Lemma dfs_loop_fine fuel : forall g stack vis cnt,
  graph_ok n R g -> Forall (fun u => (u < n)%N) stack -> vis_ok vis ->
  fine (dfs_loop inp fuel g stack vis cnt) (fun '(vis', cnt') =>
    vis_ok vis' /\ (forall u, marks vis u -> marks vis' u) /\ cnt' + marked vis = cnt + marked vis' /\
    ((forall u, marks vis u -> In u stack \/ closed g vis u) -> forall u, marks vis' u -> closed g vis' u)).
Proof.
  induction fuel as [|fuel IH]; intros g stack vis cnt G F V; cbn [dfs_loop];
    (destruct stack as [|u stack]; [apply fine_ret; split; [exact V|]; split; [auto|]; split; [lia|]; intros H w Hw; destruct (H w Hw) as [[]|]; assumption|]).
  - left. reflexivity.
  - apply Forall_cons_iff in F as [F1 F2].
    eapply fine_bind; [apply okp_fine, (next_unvisited_fine g u vis (seq 0 R) G F1 V)|].
    { apply Forall_forall. intros j Hj. apply in_seq in Hj. lia. }
    intros [v|] Hn.
    + destruct Hn as (Hv & Ev & Ed).
      apply fine_bind with (P := fun vis' => vis' = upd vis (N.to_nat v) true).
      { apply okp_fine, aput_okp; [unfold vis_ok in V; lia|reflexivity]. }
      intros vis1 ->. eapply fine_weak; [|apply IH; auto; apply vis_ok_upd; exact V].
      intros [vis' cnt'] (A1 & A2 & A3 & A4). split; [exact A1|]. split; [intros w Hw; apply A2, marks_upd, Hw|].
      split; [rewrite (marked_upd vis _ Ev) in A3; lia|].
      intros H. apply A4. intros w Hw. apply marks_upd_inv in Hw as [ -> |Hw]; auto; [left; left; reflexivity|].
      destruct (H w Hw) as [Hi|Hc]; [left; right; exact Hi|right]. intros x Hx. apply marks_upd, Hc, Hx.
    + eapply fine_weak; [|apply IH; auto].
      intros [vis' cnt'] (A1 & A2 & A3 & A4). split; [exact A1|]. split; [exact A2|]. split; [exact A3|].
      intros H. apply A4. intros w Hw. destruct (H w Hw) as [[ <- |Hi]|Hc]; [right|left; exact Hi|right; exact Hc].
      intros x Hx. apply (edge_slot g u x G) in Hx as (j & row & Hj & E1 & E2 & Nx). eapply Hn; eauto. apply in_seq. lia.
Qed.

Lemma dfs_fine fuel g vis root cnt :
  graph_ok n R g -> (root < n)%N -> vis_ok vis ->
  fine (dfs inp fuel g vis root cnt) (fun '(vis', cnt') =>
    vis_ok vis' /\ (forall u, marks vis u -> marks vis' u) /\ marks vis' root /\
    (vis = repeat false (N.to_nat n) -> cnt' + 1 = cnt + marked vis' /\ forall v, reach g root v -> marks vis' v)).
Proof.
  intros G Hr V. unfold dfs.
  apply fine_bind with (P := fun b => nth_error vis (N.to_nat root) = Some b).
  { apply okp_fine, aget_okp; [unfold vis_ok in V; lia|auto]. }
  intros seen Es.
  apply fine_bind with (P := fun vis' => vis' = upd vis (N.to_nat root) true).
  { apply okp_fine, aput_okp; [unfold vis_ok in V; lia|reflexivity]. }
  intros vis1 ->. eapply fine_weak; [|apply (dfs_loop_fine fuel g [root] (upd vis (N.to_nat root) true)); [exact G|constructor; auto|apply vis_ok_upd; exact V]].
  intros [vis' cnt'] (A1 & A2 & A3 & A4). split; [exact A1|]. split; [intros w Hw; apply A2, marks_upd, Hw|].
  split; [apply A2, marks_at; auto|]. intros E.
  assert (seen = false). { apply nth_error_In in Es. rewrite E in Es. apply repeat_spec in Es. exact Es. }
  subst seen. rewrite (marked_upd vis _ Es) in A3.
  assert (M0 : marked vis = 0) by (rewrite E; apply marked_none). rewrite M0 in A3.
  split; [lia|]. intros v Hv.
  assert (C : forall u, marks vis' u -> closed g vis' u).
  { apply A4. intros u Hu. apply marks_upd_inv in Hu as [ -> |Hu]; auto; [left; left; reflexivity|].
    exfalso. unfold marks in Hu. apply nth_error_In in Hu. rewrite E in Hu. apply repeat_spec in Hu. discriminate Hu. }
  induction Hv as [|a b _ IHa Eab]; [apply A2, marks_at; auto|]. exact (C a IHa b Eab).
Qed.

Lemma first_visited_spec vis : forall i,
  match first_visited vis i with
  | Some u => (i <= u)%N /\ nth_error vis (N.to_nat (u - i)) = Some true /\ forall k, k < N.to_nat (u - i) -> nth_error vis k = Some false
  | None => Forall (fun b => b = false) vis
  end.
Proof.
  induction vis as [|b vis IH]; intros i; cbn [first_visited]; [constructor|].
  destruct b.
  - rewrite N.sub_diag. split; [lia|]. split; [reflexivity|]. cbn. intros k Hk. lia.
  - specialize (IH (i + 1)%N). destruct (first_visited vis (i + 1)) as [u|].
    + destruct IH as (H1 & H2 & H3). replace (N.to_nat (u - i)) with (S (N.to_nat (u - (i + 1)))) by lia.
      split; [lia|]. split; [exact H2|]. intros [|k] Hk; [reflexivity|]. cbn. apply H3. lia.
    + constructor; auto.
Qed.

Lemma with_room_fine degs id pool : length degs = N.to_nat n -> nodes_ok pool ->
  okp (with_room inp degs id pool) (fun r => match r with
    | Some v => (v < n)%N /\ (exists d, nth_error degs (N.to_nat v) = Some d /\ d < R) /\ v <> id
    | None => True end).
Proof.
  intros Ld. induction pool as [|p pool IH]; intros F; cbn [with_room]; [apply okp_ret; exact Logic.I|].
  apply Forall_cons_iff in F as [F1 F2].
  apply okp_bind with (P := fun d => nth_error degs (N.to_nat (fst p)) = Some d).
  { apply aget_okp; [lia|auto]. }
  intros d Ed. fold R. destruct (Nat.ltb_spec d R); cbn [andb]; [|apply IH; exact F2].
  destruct (N.eqb_spec (fst p) id); cbn [negb]; [apply IH; exact F2|]. apply okp_ret. eauto 6.
Qed.
Lemma draw_node_fine fuel degs id vis : forall pos, length degs = N.to_nat n -> vis_ok vis ->
  fine (draw_node inp fuel pos vis degs id) (fun '(v, _) =>
    (v < n)%N /\ (exists d, nth_error degs (N.to_nat v) = Some d /\ d < R) /\ v <> id).
Proof.
  intros pos Ld V. revert pos. induction fuel as [|fuel IH]; intros pos; cbn [draw_node]; [left; reflexivity|].
  fold n. cbv zeta. pose proof (mod_n (in_rng inp pos)) as Hm. set (v := N.modulo (in_rng inp pos) n) in *.
  apply fine_bind with (P := fun _ => True); [apply okp_fine, aget_okp; [unfold vis_ok in V; lia|auto]|]. intros seen _.
  apply fine_bind with (P := fun d => nth_error degs (N.to_nat v) = Some d); [apply okp_fine, aget_okp; [lia|auto]|].
  intros d Ed. fold R. destruct seen; cbn [negb andb]; [apply IH|].
  destruct (Nat.ltb_spec d R); cbn [andb]; [|apply IH].
  destruct (N.eqb_spec v id); cbn [negb]; [apply IH|]. apply fine_ret. eauto 6.
Qed.

Lemma map_upd {A B} (f : A -> B) l : forall i x, map f (upd l i x) = upd (map f l) i (f x).
Proof. induction l as [|y l IH]; intros [|i] x; cbn; auto. f_equal. apply IH. Qed.
Lemma upd_app_r {A} (a b : list A) x : upd (a ++ b) (length a) x = a ++ upd b 0 x.
Proof. induction a as [|y a IH]; cbn; [destruct b; reflexivity|]. f_equal. exact IH. Qed.

(** An id written into the first free slot of a row adds exactly one edge. *)
Lemma set_at_fine g v d id : graph_ok n R g -> (v < n)%N -> (id < n)%N ->
  nth_error (degrees_of g) (N.to_nat v) = Some d -> d < R ->
  okp (set_at g v d id) (fun g' => graph_ok n R g' /\ degrees_of g' = upd (degrees_of g) (N.to_nat v) (S d) /\
    forall a b, edge g' a b <-> edge g a b \/ a = v /\ b = id).
Proof.
  intros G Hv Hid Ed Hd. unfold set_at.
  apply okp_bind with (P := fun row => nth_error g (N.to_nat v) = Some row).
  { apply aget_okp; [destruct G; lia|auto]. }
  intros row E. destruct G as [G1 G2]. assert (G : graph_ok n R g) by (split; auto).
  pose proof (Forall_nth_error _ _ _ _ G2 E) as (l & B & Er & Hl).
  assert (El : d = length l).
  { unfold degrees_of in Ed. rewrite nth_error_map, E in Ed. cbn in Ed. inversion Ed.
    rewrite Er, occupied_app, occupied_empty, app_nil_r, (occupied_below l B). reflexivity. }
  assert (Lr : length row = R) by (rewrite Er, app_length, repeat_length; lia).
  apply okp_bind with (P := fun row' => row' = pad R (l ++ [id])).
  { apply aput_okp; [lia|]. rewrite Nat2N.id, El, Er, upd_app_r.
    rewrite pad_eq by (rewrite app_length; cbn; lia). rewrite app_length. cbn [length].
    replace (R - length l) with (S (R - (length l + 1))) by lia. cbn. rewrite <- app_assoc. reflexivity. }
  intros row' ->.
  assert (B' : below (l ++ [id])) by (apply Forall_app; split; [exact B|constructor; auto]).
  assert (Lv : N.to_nat v < length g) by lia.
  assert (Ep : pad R (l ++ [id]) = (l ++ [id]) ++ repeat kEmptyId (R - (length l + 1))).
  { rewrite pad_eq by (rewrite app_length; cbn; lia). rewrite app_length. reflexivity. }
  apply aput_okp; [lia|]. split; [|split].
  - apply graph_ok_upd; [exact G|]. apply pad_ok. exact B'.
  - unfold degrees_of. rewrite map_upd. f_equal.
    rewrite Ep, occupied_app, occupied_empty, app_nil_r, (occupied_below _ B'), app_length. cbn. lia.
  - intros a b. unfold edge. rewrite (nth_error_upd g _ _ (N.to_nat a) Lv).
    destruct (Nat.eqb_spec (N.to_nat v) (N.to_nat a)) as [Ea|Ea].
    + assert (a = v) by lia. subst a. rewrite E, Ep, Er. split.
      * intros (r & Hr & Hin & Nb). inversion Hr; subst r. clear Hr.
        rewrite !in_app_iff in Hin. destruct Hin as [[Hin|[Hin|[]]]|Hin].
        -- left. exists (l ++ repeat kEmptyId (R - length l)). split; [reflexivity|]. split; [apply in_app_iff; auto|exact Nb].
        -- right. auto.
        -- apply repeat_spec in Hin. congruence.
      * intros [(r & Hr & Hin & Nb)|[_ ->]].
        -- inversion Hr; subst r. clear Hr. eexists. split; [reflexivity|]. split; [|exact Nb].
           rewrite !in_app_iff in *. destruct Hin as [Hin|Hin]; [auto|]. apply repeat_spec in Hin. congruence.
        -- eexists. split; [reflexivity|]. split; [rewrite !in_app_iff; left; right; left; reflexivity|lia].
    + split; [intros H; left; exact H|]. intros [H|[Hav _]]; [exact H|]. subst a. congruence.
Qed.

Lemma attach_fine fuel pos ep g vis degs :
  graph_ok n R g -> degs_ok g degs -> (ep < n)%N -> vis_ok vis -> (exists u, marks vis u) ->
  fine (attach_unlinked inp fuel pos ep g vis degs) (fun '(v, g', degs', _) =>
    (v < n)%N /\ graph_ok n R g' /\ degs_ok g' degs' /\
    exists id, marks vis id /\ (forall u, marks vis u -> (id <= u)%N) /\ forall a b, edge g' a b <-> edge g a b \/ a = v /\ b = id).
Proof.
  intros G D He V (u0 & Hu0). unfold attach_unlinked.
  pose proof (first_visited_spec vis 0%N) as FV. destruct (first_visited vis 0%N) as [id|].
  2:{ exfalso. unfold marks in Hu0. pose proof (Forall_nth_error _ _ _ _ FV Hu0) as H. discriminate H. }
  rewrite N.sub_0_r in FV. destruct FV as (_ & Mid & First).
  assert (Hid : (id < n)%N).
  { assert (N.to_nat id < length vis) by (apply nth_error_Some; congruence). unfold vis_ok in V. lia. }
  assert (Ld : length degs = N.to_nat n) by (rewrite D; unfold degrees_of; rewrite map_length; apply G).
  fold n dist R.
  eapply fine_bind; [apply (search_fine fuel (dist id) g R (repeat false (N.to_nat n)) ep); auto; [apply graph_table; exact G|apply repeat_length]|].
  intros [[pool full] vis2] (_ & A2 & _ & _).
  assert (S2 : nodes_ok (in_sort_node inp full)).
  { eapply Permutation_Forall; [apply Permutation_sym, sort_node_perm|]. exact A2. }
  eapply fine_bind; [apply okp_fine, (with_room_fine degs id _ Ld S2)|].
  intros room Hroom.
  apply fine_bind with (P := fun '(v, _) => (v < n)%N /\ (exists d, nth_error degs (N.to_nat v) = Some d /\ d < R) /\ v <> id).
  { destruct room as [v|]; [apply fine_ret; exact Hroom|apply draw_node_fine; auto]. }
  intros [v pos'] (Hv & (d & Ed & Hd) & Nv).
  apply fine_bind with (P := fun d' => d' = d).
  { apply okp_fine, aget_okp; [lia|]. intros x Ex. congruence. }
  intros d' ->. assert (Ed' : nth_error (degrees_of g) (N.to_nat v) = Some d) by (rewrite <- D; exact Ed).
  eapply fine_bind; [apply okp_fine, (set_at_fine g v d id G Hv Hid Ed' Hd)|].
  intros g' (G' & Dg & Eg).
  apply fine_bind with (P := fun degs' => degs_ok g' degs').
  { apply okp_fine, aput_okp; [lia|]. unfold degs_ok. rewrite Dg, D. reflexivity. }
  intros degs' D'. apply fine_ret. split; [exact Hv|]. split; [exact G'|]. split; [exact D'|].
  exists id. split; [exact Mid|]. split; [|exact Eg].
  intros u Hu. destruct (N.le_gt_cases id u) as [H|H]; [exact H|]. exfalso.
  unfold marks in Hu. rewrite First in Hu by lia. discriminate Hu.
Qed.

Lemma grow_fine fuel : forall pos ep root g vis degs cnt,
  graph_ok n R g -> degs_ok g degs -> (ep < n)%N -> (root < n)%N -> vis_ok vis ->
  fine (grow_loop inp fuel pos ep root g vis degs cnt) (fun g' =>
    graph_ok n R g' /\ (forall a b, edge g a b -> edge g' a b) /\
    ((forall f c vis' c', dfs inp f g vis root c = Done (Ok (vis', c')) -> marks vis' 0%N) ->
     forall a b, edge g' a b -> edge g a b \/ b = 0%N)).
Proof.
  induction fuel as [|fuel IH]; intros pos ep root g vis degs cnt G D He Hr V; cbn [grow_loop]; [left; reflexivity|].
  apply fine_bind with (P := fun '(vis', cnt') => (vis_ok vis' /\ marks vis' root) /\
     ((forall f c vis' c', dfs inp f g vis root c = Done (Ok (vis', c')) -> marks vis' 0%N) -> marks vis' 0%N)).
  { destruct (dfs_fine (S fuel) g vis root cnt G Hr V) as [E|([vis' cnt'] & E & A1 & A2 & A3 & _)]; [left; exact E|].
    right. exists (vis', cnt'). split; [exact E|]. split; [auto|]. intros H. exact (H _ _ _ _ E). }
  intros [vis' cnt'] [[V' Mr] M0]. destruct (N.leb (in_n inp) (N.of_nat cnt')).
  { apply fine_ret. split; [exact G|]. split; [auto|]. intros _ a b H. left. exact H. }
  eapply fine_bind; [apply (attach_fine (S fuel) pos ep g vis' degs); eauto|].
  intros [[[root' g'] degs'] pos'] (Hr' & G' & D' & id & Mid & First & Eg).
  eapply fine_weak; [|apply IH; eauto].
  intros g'' (G'' & Keep & Only). split; [exact G''|]. split; [intros a b H; apply Keep, Eg; auto|].
  intros H a b Hab. assert (Z0 : marks vis' 0%N) by exact (M0 H).
  assert (id = 0%N) by (specialize (First 0%N Z0); lia). subst id.
  destruct (Only) with (a := a) (b := b) as [Hab'| ->]; [|exact Hab| |right; reflexivity].
  - intros f c vis'' c' E. pose proof (dfs_fine f g' vis' root' c G' Hr' V') as [E'|([x y] & E' & _ & Mono & _)];
      rewrite E in E'; [discriminate E'|]. inversion E'; subst x y. apply Mono. exact Z0.
  - apply Eg in Hab' as [Hab'|[_ ->]]; auto.
Qed.

(** ** Loops that never end. *)
Lemma fill_endless fuel : forall p ids vis cnt,
  length ids = L -> vis_ok vis -> cnt = marked vis -> N.to_nat n < L -> fill inp fuel p ids vis cnt = OutOfFuel.
Proof.
  induction fuel as [|fuel IH]; intros p ids vis cnt Li V Hc HL; cbn [fill]; fold L n; cbv zeta;
    pose proof (marked_le vis) as Ml; unfold vis_ok in V; (destruct (Nat.ltb_spec cnt L) as [H|H]; [|lia]); [reflexivity|].
  pose proof (mod_n (in_gen inp p)) as Hm. set (id := N.modulo (in_gen inp p) n) in *.
  unfold aget. destruct (nth_error vis (N.to_nat id)) as [seen|] eqn:Es; [|apply nth_error_None in Es; lia].
  cbn [tbind]. destruct seen; [apply IH; auto|].
  rewrite aput_ok by lia. cbn [tbind]. rewrite aput_ok by lia. cbn [tbind]. apply IH; auto.
  - rewrite upd_length. exact Li.
  - unfold vis_ok. rewrite upd_length. exact V.
  - rewrite marked_upd by exact Es. lia.
Qed.
Lemma seed_counts g K ep row js : forall ids vis cnt,
  table_ok n K g -> (ep < n)%N -> nth_error g (N.to_nat ep) = Some row ->
  Forall (fun j => j < K /\ j < L) js -> NoDup js ->
  (forall i j x, In i js -> In j js -> nth_error row i = Some x -> nth_error row j = Some x -> (x < n)%N -> i = j) ->
  (forall j x, In j js -> nth_error row j = Some x -> (x < n)%N -> nth_error vis (N.to_nat x) = Some false) ->
  length ids = L -> vis_ok vis -> cnt = marked vis ->
  okp (seed inp g ep js ids vis cnt) (fun '(ids', vis', cnt') => length ids' = L /\ vis_ok vis' /\ cnt' = marked vis').
Proof.
  induction js as [|j js IH]; intros ids vis cnt T He Er F ND Inj Un Li V Hc; cbn [seed]; [apply okp_ret; auto|].
  apply Forall_cons_iff in F as [[F1 F1'] F2]. apply NoDup_cons_iff in ND as [Nj ND].
  apply okp_bind with (P := fun id => nth_error row j = Some id).
  { eapply at_okp; eauto. intros r x E1 E2. rewrite Er in E1. inversion E1; subst r. exact E2. }
  intros id Ej. fold n.
  assert (Inj' : forall i j x, In i js -> In j js -> nth_error row i = Some x -> nth_error row j = Some x -> (x < n)%N -> i = j).
  { intros a b x Ha Hb. apply Inj; right; assumption. }
  destruct (N.leb_spec n id) as [H|H].
  { apply IH; auto. intros i x Hi. apply Un. right. exact Hi. }
  pose proof (Un j id (or_introl eq_refl) Ej H) as Us.
  unfold vis_ok in V. rewrite aput_ok by lia. cbn [bind]. rewrite aput_ok by lia. cbn [bind].
  apply IH; auto.
  - intros i x Hi Ei Hx. rewrite nth_error_upd by lia. destruct (Nat.eqb_spec (N.to_nat id) (N.to_nat x)) as [E|E].
    + exfalso. assert (x = id) by lia. subst x. assert (i = j); [|congruence].
      apply (Inj i j id); auto; [right; exact Hi|left; reflexivity].
    + apply (Un i x); auto. right. exact Hi.
  - rewrite upd_length. exact Li.
  - unfold vis_ok. rewrite upd_length. exact V.
  - rewrite marked_upd by exact Us. lia.
Qed.
Lemma nodup_filter_inj (row : list N) : NoDup (filter (fun x => N.ltb x n) row) ->
  forall i j x, nth_error row i = Some x -> nth_error row j = Some x -> (x < n)%N -> i = j.
Proof.
  induction row as [|y row IH]; intros ND i j x Ei Ej Hx; [destruct i; discriminate Ei|].
  cbn [filter] in ND.
  assert (Hin : forall k, nth_error row k = Some y -> (y < n)%N -> False).
  { intros k Ek Hy. destruct (N.ltb_spec y n); [|lia]. apply NoDup_cons_iff in ND as [Ny _]. apply Ny.
    apply filter_In. split; [eapply nth_error_In; eauto|]. destruct (N.ltb_spec y n); [reflexivity|lia]. }
  destruct i as [|i], j as [|j]; cbn in Ei, Ej; auto.
  - inversion Ei; subst y. exfalso. eauto.
  - inversion Ej; subst y. exfalso. eauto.
  - f_equal. apply (IH) with (x := x); auto. destruct (N.ltb y n); [apply NoDup_cons_iff in ND; apply ND|exact ND].
Qed.
Lemma search_endless fuel q g K ep :
  table_ok n K g -> no_repeats n g -> (ep < n)%N -> N.to_nat n < L ->
  search_on_graph inp fuel q g K (repeat false (N.to_nat n)) ep = OutOfFuel.
Proof.
  intros T NR He HL. unfold search_on_graph. fold L.
  destruct (nth_error g (N.to_nat ep)) as [row|] eqn:Er; [|apply nth_error_None in Er; destruct T; lia].
  pose proof (nodup_filter_inj row (Forall_nth_error _ _ _ _ NR Er)) as Inj.
  destruct (seed_counts g K ep row (seq 0 (Nat.min L K)) (repeat 0%N L) (repeat false (N.to_nat n)) 0) as ([[ids' vis'] cnt'] & E & A1 & A2 & A3); auto.
  - apply Forall_forall. intros j Hj. apply in_seq in Hj. lia.
  - apply seq_NoDup.
  - intros i j x _ _. apply Inj.
  - intros j x _ _ Hx. apply nth_error_repeat. lia.
  - apply repeat_length.
  - apply repeat_length.
  - symmetry. apply marked_none.
  - rewrite E. cbn [tbind]. rewrite fill_endless; auto.
Qed.

Lemma with_room_none degs id pool : length degs = N.to_nat n -> Forall (fun d => d = R) degs -> nodes_ok pool ->
  with_room inp degs id pool = Ok None.
Proof.
  intros Ld F. induction pool as [|p pool IH]; intros P; cbn [with_room]; [reflexivity|].
  apply Forall_cons_iff in P as [P1 P2]. unfold aget.
  destruct (nth_error degs (N.to_nat (fst p))) as [d|] eqn:E; [|apply nth_error_None in E; lia].
  cbn [bind]. rewrite (Forall_nth_error _ _ _ _ F E). fold R. rewrite Nat.ltb_irrefl. cbn [andb]. apply IH. exact P2.
Qed.
Lemma draw_node_endless fuel degs id vis : length degs = N.to_nat n -> vis_ok vis -> Forall (fun d => d = R) degs ->
  forall pos, draw_node inp fuel pos vis degs id = OutOfFuel.
Proof.
  intros Ld V F. induction fuel as [|fuel IH]; intros pos; cbn [draw_node]; [reflexivity|].
  fold n. cbv zeta. pose proof (mod_n (in_rng inp pos)) as Hm. set (v := N.modulo (in_rng inp pos) n) in *.
  unfold aget. unfold vis_ok in V.
  destruct (nth_error vis (N.to_nat v)) as [seen|] eqn:Es; [|apply nth_error_None in Es; lia].
  destruct (nth_error degs (N.to_nat v)) as [d|] eqn:E; [|apply nth_error_None in E; lia].
  cbn [tbind]. rewrite (Forall_nth_error _ _ _ _ F E). fold R. rewrite Nat.ltb_irrefl. cbn [andb].
  rewrite andb_false_r. apply IH.
Qed.
Lemma grow_full_endless fuel ep g : graph_ok n R g -> (ep < n)%N -> Forall (fun d => d = R) (degrees_of g) ->
  tree_grow inp fuel ep g (degrees_of g) = OutOfFuel.
Proof.
  intros G He F. unfold tree_grow. fold n. destruct fuel as [|fuel]; [reflexivity|]. cbn [grow_loop].
  assert (V : vis_ok (repeat false (N.to_nat n))) by apply repeat_length.
  destruct (dfs_fine (S fuel) g _ ep 0 G He V) as [E|([vis' cnt'] & E & A1 & A2 & A3 & A4)]; rewrite E; [reflexivity|].
  cbn [tbind]. destruct (A4 eq_refl) as [C _]. pose proof (marked_le vis') as Ml. fold n.
  unfold vis_ok in A1. destruct (N.leb_spec n (N.of_nat cnt')) as [H|H]; [lia|].
  unfold attach_unlinked. pose proof (first_visited_spec vis' 0%N) as FV. destruct (first_visited vis' 0%N) as [id|].
  2:{ exfalso. unfold marks in A3. pose proof (Forall_nth_error _ _ _ _ FV A3) as H'. discriminate H'. }
  fold n dist R.
  assert (Ld : length (degrees_of g) = N.to_nat n) by (unfold degrees_of; rewrite map_length; apply G).
  destruct (search_fine (S fuel) (dist id) g R (repeat false (N.to_nat n)) ep (graph_table _ _ G) He V) as [Es|([[pool full] vis2] & Es & _ & A & _)];
    rewrite Es; [reflexivity|]. cbn [tbind].
  rewrite with_room_none; auto.
  2:{ eapply Permutation_Forall; [apply Permutation_sym, sort_node_perm|]. exact A. }
  cbn [tbind]. rewrite draw_node_endless; auto.
Qed.
End Builder.
