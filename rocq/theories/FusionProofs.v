(** Lemmas about fusing two graphs. *)
From Verif Require Export FusionSpec.
From Verif Require Import NsgProofs.
Import ListNotations.

Lemma nbrs_in row v : In v (nbrs row) <-> exists pre post, row = pre ++ v :: post /\ ~ In kEmptyId (pre ++ [v]).
Proof.
  induction row as [|x row IH]; cbn [nbrs].
  - split; [intros []|]. intros (pre & post & E & _). destruct pre; discriminate E.
  - destruct (N.eqb_spec x kEmptyId) as [ -> |D].
    + split; [intros []|]. intros (pre & post & E & H). exfalso. apply H.
      destruct pre as [|a pre]; cbn in E; inversion E; subst; left; reflexivity.
    + cbn [In]. rewrite IH. split.
      * intros [ <- |(pre & post & E & H)].
        -- exists [], row. split; [reflexivity|]. cbn. tauto.
        -- exists (x :: pre), post. split; [rewrite E; reflexivity|]. cbn. tauto.
      * intros (pre & post & E & H). destruct pre as [|a pre]; cbn in E; inversion E; subst.
        -- left. reflexivity.
        -- right. exists pre, post. split; [reflexivity|]. intro K. apply H. right. exact K.
Qed.
Lemma adj_nbrs g u v : adj g u v <-> exists row, nth_error g (N.to_nat u) = Some row /\ In v (nbrs row).
Proof.
  unfold adj. split.
  - intros (row & pre & post & E & H). exists row. split; [exact E|]. apply nbrs_in. eauto.
  - intros (row & E & H). apply nbrs_in in H. destruct H as (pre & post & H). exists row, pre, post. tauto.
Qed.
Lemma nbrs_length row : length (nbrs row) <= length row.
Proof. induction row as [|x row IH]; cbn; [lia|]. destruct (N.eqb x kEmptyId); cbn; lia. Qed.
Lemma nbrs_not_empty row v : In v (nbrs row) -> v <> kEmptyId.
Proof.
  induction row as [|x row IH]; cbn [nbrs]; [intros []|].
  destruct (N.eqb_spec x kEmptyId); [intros []|]. intros [ <- |H]; auto.
Qed.
Lemma nbrs_pad l r : ~ In kEmptyId l -> length l <= r -> nbrs (pad r l) = l.
Proof.
  revert r. induction l as [|x l IH]; intros r NI L; unfold pad; cbn [app].
  - destruct r; reflexivity.
  - destruct r as [|r]; cbn in L; [lia|]. cbn [firstn nbrs].
    destruct (N.eqb_spec x kEmptyId) as [ -> |_]; [exfalso; apply NI; left; reflexivity|]. f_equal.
    rewrite <- (IH r) at 2; [|intro K; apply NI; right; exact K|lia]. unfold pad. f_equal.
    rewrite !firstn_app. f_equal. cbn [repeat].
    change (kEmptyId :: repeat kEmptyId r) with (repeat kEmptyId (S r)).
    assert (G : forall a b, a <= b -> firstn a (repeat kEmptyId b) = repeat kEmptyId a).
    { clear. induction a as [|a IH]; intros b H; [reflexivity|]. destruct b; [lia|]. cbn. f_equal. apply IH. lia. }
    rewrite !G by lia. reflexivity.
Qed.

(** ** One row *)
(** What line 74-88 adds to a row. *)
Fixpoint extras (row l : list N) : list N :=
  match l with
  | [] => row
  | x :: l' => extras (if existsb (N.eqb x) row then row else row ++ [x]) l'
  end.
Lemma at_row g i row j : nth_error g (N.to_nat i) = Some row -> at_ g i j = aget row (N.of_nat j).
Proof. intros E. unfold at_, aget. rewrite E. reflexivity. Qed.
Lemma aget_mid {A} (pre : list A) x post : aget (pre ++ x :: post) (N.of_nat (length pre)) = Ok x.
Proof. unfold aget. rewrite Nnat.Nat2N.id, nth_error_app2, Nat.sub_diag by lia. reflexivity. Qed.
Lemma add_primary_eq g i row : nth_error g (N.to_nat i) = Some row ->
  forall post pre acc, row = pre ++ post ->
  add_primary g i (seq (length pre) (length post)) acc = Ok (acc ++ nbrs post).
Proof.
  intros E. induction post as [|x post IH]; intros pre acc H; cbn [length seq add_primary].
  - cbn. rewrite app_nil_r. reflexivity.
  - rewrite (at_row g i row _ E), H, aget_mid. cbn [bind nbrs].
    destruct (N.eqb x kEmptyId); [rewrite app_nil_r; reflexivity|].
    replace (S (length pre)) with (length (pre ++ [x])) by (rewrite app_length; cbn; lia).
    rewrite IH; [|rewrite <- app_assoc; exact H]. rewrite <- app_assoc. reflexivity.
Qed.
Lemma add_secondary_eq g i row : nth_error g (N.to_nat i) = Some row ->
  forall post pre acc, row = pre ++ post ->
  add_secondary g i (seq (length pre) (length post)) acc = Ok (extras acc (nbrs post)).
Proof.
  intros E. induction post as [|x post IH]; intros pre acc H; cbn [length seq add_secondary].
  - reflexivity.
  - rewrite (at_row g i row _ E), H, aget_mid. cbn [bind nbrs].
    destruct (N.eqb x kEmptyId); [reflexivity|]. cbn [extras].
    replace (S (length pre)) with (length (pre ++ [x])) by (rewrite app_length; cbn; lia).
    destruct (existsb (N.eqb x) acc); (rewrite IH; [reflexivity|rewrite <- app_assoc; exact H]).
Qed.
Lemma existsb_In x l : existsb (N.eqb x) l = true <-> In x l.
Proof.
  rewrite existsb_exists. split.
  - intros (y & H & E). apply N.eqb_eq in E. subst. exact H.
  - intros H. exists x. rewrite N.eqb_refl. auto.
Qed.
Lemma extras_in v : forall l row, In v (extras row l) <-> In v row \/ In v l.
Proof.
  induction l as [|x l IH]; intros row; cbn [extras]; [cbn; tauto|]. rewrite IH. cbn [In].
  destruct (existsb (N.eqb x) row) eqn:E.
  - apply existsb_In in E. split; [tauto|]. intros [H|[ <- |H]]; auto.
  - rewrite in_app_iff. cbn [In]. tauto.
Qed.
Lemma extras_prefix : forall l row, exists more, extras row l = row ++ more /\ length more <= length l.
Proof.
  induction l as [|x l IH]; intros row; cbn [extras].
  - exists []. rewrite app_nil_r. auto.
  - destruct (existsb (N.eqb x) row).
    + destruct (IH row) as (m & E & L). exists m. cbn. split; [exact E|lia].
    + destruct (IH (row ++ [x])) as (m & E & L). exists (x :: m). rewrite E, <- app_assoc. cbn. split; [reflexivity|lia].
Qed.
Lemma NoDup_snoc {A} (l : list A) x : NoDup l -> ~ In x l -> NoDup (l ++ [x]).
Proof.
  intros H K. induction H as [|y l Hy Hl IH]; cbn; [constructor; [tauto|constructor]|].
  constructor; [|apply IH; intro; apply K; right; assumption].
  rewrite in_app_iff. cbn. intros [|[ -> |[]]]; [tauto|]. apply K. left. reflexivity.
Qed.
Lemma extras_nodup : forall l row, NoDup row -> NoDup (extras row l).
Proof.
  induction l as [|x l IH]; intros row H; cbn [extras]; [exact H|]. apply IH.
  destruct (existsb (N.eqb x) row) eqn:E; [exact H|]. apply NoDup_snoc; [exact H|].
  intro K. apply existsb_In in K. congruence.
Qed.

Definition fused (r1 r2 : list N) : list N := extras (nbrs r1) (nbrs r2).
Lemma fuse_row_eq R g1 g2 i r1 r2 :
  nth_error g1 (N.to_nat i) = Some r1 -> nth_error g2 (N.to_nat i) = Some r2 ->
  length r1 = R -> length r2 = R -> fuse_row R g1 g2 i = Ok (fused r1 r2) /\ length (fused r1 r2) <= 2 * R.
Proof.
  intros E1 E2 L1 L2.
  assert (L : length (fused r1 r2) <= 2 * R).
  { unfold fused. destruct (extras_prefix (nbrs r2) (nbrs r1)) as (m & -> & Lm). rewrite app_length.
    pose proof (nbrs_length r1). pose proof (nbrs_length r2). lia. }
  split; [|exact L]. unfold fuse_row.
  pose proof (add_primary_eq g1 i r1 E1 r1 [] [] eq_refl) as H1. cbn [length app] in H1. rewrite L1 in H1. rewrite H1. cbn [bind].
  pose proof (add_secondary_eq g2 i r2 E2 r2 [] (nbrs r1) eq_refl) as H2. cbn [length] in H2. rewrite L2 in H2. rewrite H2. cbn [bind].
  fold (fused r1 r2). destruct (Nat.leb_spec (length (fused r1 r2)) (2 * R)); [reflexivity|lia].
Qed.
Definition fused_rows (g1 g2 : graph) : list (list N) := map (fun p => fused (fst p) (snd p)) (combine g1 g2).
Lemma fuse_rows_eq R g1 g2 : Forall (fun row => length row = R) g1 -> Forall (fun row => length row = R) g2 -> length g1 = length g2 ->
  fuse_rows R g1 g2 (map N.of_nat (seq 0 (length g1))) = Ok (fused_rows g1 g2).
Proof.
  intros F1 F2 L.
  assert (G : forall t1 t2 p1 p2, g1 = p1 ++ t1 -> g2 = p2 ++ t2 -> length p1 = length p2 -> length t1 = length t2 ->
    fuse_rows R g1 g2 (map N.of_nat (seq (length p1) (length t1))) = Ok (fused_rows t1 t2)).
  { induction t1 as [|a t1 IH]; intros t2 p1 p2 H1 H2 LP LT; [reflexivity|].
    destruct t2 as [|b t2]; [discriminate LT|]. cbn [length seq map fuse_rows].
    assert (A : nth_error g1 (N.to_nat (N.of_nat (length p1))) = Some a).
    { rewrite Nnat.Nat2N.id, H1, nth_error_app2, Nat.sub_diag by lia. reflexivity. }
    assert (B : nth_error g2 (N.to_nat (N.of_nat (length p1))) = Some b).
    { rewrite Nnat.Nat2N.id, H2, nth_error_app2, LP, Nat.sub_diag by lia. reflexivity. }
    destruct (fuse_row_eq R g1 g2 _ a b A B) as (Er & _).
    { apply (proj1 (Forall_forall _ _) F1). eapply nth_error_In; eauto. }
    { apply (proj1 (Forall_forall _ _) F2). eapply nth_error_In; eauto. }
    rewrite Er. cbn [bind].
    replace (S (length p1)) with (length (p1 ++ [a])) by (rewrite app_length; cbn; lia).
    rewrite (IH t2 (p1 ++ [a]) (p2 ++ [b])); [reflexivity| | | |].
    - rewrite <- app_assoc. exact H1.
    - rewrite <- app_assoc. exact H2.
    - rewrite !app_length. cbn. lia.
    - cbn in LT. lia. }
  apply (G g1 g2 [] []); auto.
Qed.
Lemma fold_max_ge l : forall a x, (x = a \/ In x l) -> x <= fold_left Nat.max l a.
Proof.
  induction l as [|y l IH]; intros a x H; cbn [fold_left].
  - destruct H as [ -> |[]]. lia.
  - destruct H as [ -> |[ <- |H]].
    + etransitivity; [|apply IH; left; reflexivity]. lia.
    + etransitivity; [|apply IH; left; reflexivity]. lia.
    + apply IH. right. exact H.
Qed.
Lemma fold_max_in l : forall a, fold_left Nat.max l a = a \/ In (fold_left Nat.max l a) l.
Proof.
  induction l as [|y l IH]; intros a; cbn [fold_left]; [auto|].
  destruct (IH (Nat.max a y)) as [ -> |H]; [|right; right; exact H].
  destruct (Nat.max_dec a y) as [ -> | -> ]; cbn; auto.
Qed.
Lemma max_edge_ge rows row : In row rows -> length row <= max_edge rows.
Proof. intros H. apply fold_max_ge. right. apply in_map. exact H. Qed.
Lemma fuse_eq R n g1 g2 : table n R g1 -> table n R g2 ->
  fuse R n g1 g2 = Ok (max_edge (fused_rows g1 g2), map (pad (max_edge (fused_rows g1 g2))) (fused_rows g1 g2)).
Proof.
  intros (L1 & F1) (L2 & F2). unfold fuse. rewrite <- L1, (fuse_rows_eq R g1 g2 F1 F2) by congruence. reflexivity.
Qed.
Lemma fused_rows_nth g1 g2 i r1 r2 : nth_error g1 i = Some r1 -> nth_error g2 i = Some r2 ->
  nth_error (fused_rows g1 g2) i = Some (fused r1 r2).
Proof.
  revert g2 i. induction g1 as [|a g1 IH]; intros g2 i E1 E2; [destruct i; discriminate E1|].
  destruct g2 as [|b g2]; [destruct i; discriminate E2|]. destruct i as [|i]; cbn in *.
  - inversion E1; inversion E2; subst. reflexivity.
  - apply IH; assumption.
Qed.
Lemma fused_no_empty r1 r2 : ~ In kEmptyId (fused r1 r2).
Proof. unfold fused. rewrite extras_in. intros [H|H]; exact (nbrs_not_empty _ _ H eq_refl). Qed.
Lemma fused_row_final R n g1 g2 w g i r1 r2 : table n R g1 -> table n R g2 -> fuse R n g1 g2 = Ok (w, g) ->
  nth_error g1 i = Some r1 -> nth_error g2 i = Some r2 ->
  exists row, nth_error g i = Some row /\ nbrs row = fused r1 r2 /\ row = pad w (fused r1 r2) /\ length (fused r1 r2) <= w.
Proof.
  intros T1 T2 E E1 E2. rewrite (fuse_eq R n g1 g2 T1 T2) in E. inversion E; subst w g. clear E.
  pose proof (fused_rows_nth g1 g2 i r1 r2 E1 E2) as H.
  pose proof (max_edge_ge (fused_rows g1 g2) _ (nth_error_In _ _ H)) as Lw.
  eexists. split; [erewrite map_nth_error; [reflexivity|exact H]|].
  split; [|split; [reflexivity|exact Lw]]. apply nbrs_pad; [apply fused_no_empty|exact Lw].
Qed.
Lemma table_rows n R g1 g2 i : table n R g1 -> table n R g2 ->
  (exists r1 r2, nth_error g1 i = Some r1 /\ nth_error g2 i = Some r2 /\ length r1 = R /\ length r2 = R)
  \/ (nth_error g1 i = None /\ nth_error g2 i = None).
Proof.
  intros (L1 & F1) (L2 & F2). destruct (nth_error g1 i) as [r1|] eqn:E1.
  - left. assert (i < length g2) by (rewrite L2, <- L1; apply nth_error_Some; congruence).
    destruct (nth_error g2 i) as [r2|] eqn:E2; [|apply nth_error_None in E2; lia].
    exists r1, r2. repeat split.
    + apply (proj1 (Forall_forall _ _) F1). eapply nth_error_In; eauto.
    + apply (proj1 (Forall_forall _ _) F2). eapply nth_error_In; eauto.
  - right. split; [reflexivity|]. apply nth_error_None in E1. apply nth_error_None. lia.
Qed.
