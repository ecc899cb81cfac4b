From Coq Require Import Lqa.
From Verif Require Import KmeansSpec PqTrainProofs KmeansProofs.
Import ListNotations.
Local Open Scope nat_scope.

Lemma least_positive l : (forall x, In x l -> (0 <= x)%Q) -> exists tiny, (0 < tiny)%Q /\ forall x, In x l -> (x == 0)%Q \/ (tiny <= x)%Q.
Proof.
  induction l as [|y l IH]; intros H; [exists 1%Q; split; [lra|intros ? []]|]. destruct IH as (t & T & F); [intros x I; apply H; now right|].
  destruct (Qlt_le_dec 0 y) as [P|P].
  - destruct (Qlt_le_dec y t) as [Q|Q]; [exists y|exists t]; (split; [assumption|]); intros x [<-|I]; try (right; lra); destruct (F x I); auto; right; lra.
  - exists t. split; [exact T|]. intros x [<-|I]; [|auto]. left. pose proof (H y (or_introl eq_refl)). lra.
Qed.
Lemma unrounded_ok tiny : (0 < tiny)%Q -> rounds tiny unrounded.
Proof. intros T. split; cbn [unrounded r_add r_mul]; intros; try lra; nra. Qed.
Lemma exact_distances data : exists tiny, (0 < tiny)%Q /\ distances tiny (length data) (exact_dist data) (fun i j => Ql2 (nth i data []) (nth j data [])).
Proof.
  destruct (least_positive (map (fun p => Ql2 (fst p) (snd p)) (list_prod data data))) as (t & T & F).
  { intros x I. apply in_map_iff in I as (p & <- & _). apply Ql2_nonneg. }
  exists t. split; [exact T|]. split.
  - reflexivity.
  - intros i j Hi Hj. apply F. apply in_map_iff. exists (nth i data [], nth j data []). split; [reflexivity|]. apply in_prod; now apply nth_In.
  - intros i _. apply Ql2_refl.
Qed.
Lemma same_length v w : same v w -> length v = length w.
Proof. intros H. induction H; cbn; congruence. Qed.
Lemma same_nth v : forall w, length v = length w -> (forall j, (nth j v 0 == nth j w 0)%Q) -> same v w.
Proof.
  induction v as [|x v IH]; intros [|y w] L H; try discriminate; constructor; [exact (H 0)|]. apply IH; [now injection L|]. intros j. exact (H (S j)).
Qed.
Lemma same_zero v w : same v w -> (Ql2 v w == 0)%Q.
Proof. intros H. induction H as [|x y v w E H IH]; [reflexivity|]. cbn [Ql2]. rewrite IH, E. ring. Qed.
Lemma zero_same v w : length v = length w -> (Ql2 v w == 0)%Q -> same v w.
Proof. intros L Z. apply same_nth; [exact L|]. apply Ql2_zero; [exact L|lra]. Qed.

(** Centres stay bounded *)
Section Bounds.
Context (big B : Q) (dim : nat) (data : list (list Q)) (HM : matrix dim data) (HB : bounded B data) (B0 : (0 <= B)%Q).
Lemma centre_bounded ms : (forall x, In x ms -> In x data) -> Forall (fun x => - B <= x <= B)%Q (centre dim ms).
Proof.
  intros H. destruct ms as [|m ms]; [cbn [centre]; apply Forall_forall; intros x I; apply repeat_spec in I; subst; lra|].
  rewrite centre_mean by discriminate. apply mean_of_bounded; [| |discriminate]; apply Forall_forall; intros x I; apply H in I; [exact (proj1 (Forall_forall _ _) HB x I)|now apply HM].
Qed.
Lemma iter_bounded cents : bounded B (fst (lloyds_iter big dim data cents)).
Proof.
  cbn [lloyds_iter fst]. apply Forall_forall. intros v I. apply in_map_iff in I as (c & <- & _). apply centre_bounded. intros x I. unfold inverted in I.
  apply in_map_iff in I as ([? ?] & <- & I). apply filter_In in I as [I _]. now apply in_combine_r in I.
Qed.
Lemma bounded_reach cents : bounded B cents -> (inject_Z (Z.of_nat dim) * (4 * (B * B)) < big)%Q -> in_reach big data cents.
Proof.
  intros BC S x c Ix Ic. eapply Qle_lt_trans; [|exact S]. rewrite <- (HM x Ix). apply Ql2_bound; [exact (proj1 (Forall_forall _ _) HB x Ix)|exact (proj1 (Forall_forall _ _) BC c Ic)].
Qed.
Lemma after_bounded cents r : bounded B cents -> bounded B (after big dim data cents r).
Proof. intros H. destruct r; [exact H|]. cbn [after]. apply iter_bounded. Qed.
Context (S : (inject_Z (Z.of_nat dim) * (4 * (B * B)) < big)%Q) (cents : list (list Q)) (NE : cents <> []) (MC : matrix dim cents) (BC : bounded B cents).
Lemma reach_after r : in_reach big data (after big dim data cents r).
Proof. apply bounded_reach; [apply after_bounded; exact BC|exact S]. Qed.
Lemma step_chain r : (total_dist data (after big dim data cents (Datatypes.S r)) <= reported big dim data cents r)%Q /\ (reported big dim data cents r <= total_dist data (after big dim data cents r))%Q.
Proof.
  destruct (after_ok big dim data cents r NE MC) as (A & M & _). split; [now apply reported_above|]. apply reported_below; [exact HM|exact A|exact M|apply reach_after].
Qed.
Lemma after_total r t : (total_dist data (after big dim data cents (r + t)) <= total_dist data (after big dim data cents r))%Q.
Proof.
  induction t as [|t IH]; [rewrite Nat.add_0_r; lra|]. replace (r + Datatypes.S t) with (Datatypes.S (r + t)) by lia. destruct (step_chain (r + t)). lra.
Qed.
End Bounds.

(** Equal vectors *)
Lemma scan_first row : forall j best id, (forall x, In x row -> (best <= x)%Q) -> scan_min row j best id = id.
Proof.
  induction row as [|x row IH]; intros j best id H; [reflexivity|]. cbn [scan_min]. rewrite (proj2 (qlt_false x best)) by (apply H; now left). apply IH. intros y I. apply H. now right.
Qed.
Lemma closest_equal big v k : (0 < big)%Q -> 0 < k -> closest_centre big (repeat v k) v = 0.
Proof.
  intros HB Hk. destruct k as [|k]; [lia|]. unfold closest_centre. cbn [repeat map scan_min]. pose proof (Ql2_refl v) as Z. rewrite (proj2 (qlt_true (Ql2 v v) big)) by lra.
  apply scan_first. intros x I. apply in_map_iff in I as (w & <- & I). apply repeat_spec in I. subst w. lra.
Qed.
Lemma map_repeat {A C} (f : A -> C) x n : map f (repeat x n) = repeat (f x) n.
Proof. induction n as [|n IH]; [reflexivity|]. cbn [repeat map]. now rewrite IH. Qed.
Lemma inverted_equal (v : list Q) n c : inverted (repeat 0 n) (repeat v n) c = if Nat.eqb c 0 then repeat v n else [].
Proof.
  unfold inverted. induction n as [|n IH]; [now destruct (Nat.eqb c 0)|]. cbn [repeat combine List.filter fst]. rewrite (Nat.eqb_sym 0 c). destruct (Nat.eqb c 0) eqn:E; cbn [map snd].
  - rewrite IH. reflexivity.
  - exact IH.
Qed.
Lemma sum_repeat x n : (fold_right Qplus 0 (repeat x n) == inject_Z (Z.of_nat n) * x)%Q.
Proof. induction n as [|n IH]; cbn [repeat fold_right]; [ring|]. rewrite IH, Nat2Z.inj_succ. unfold Z.succ. rewrite inject_Z_plus. ring. Qed.
Lemma mean_repeat x n : 0 < n -> (Qmean (repeat x n) == x)%Q.
Proof.
  intros H. unfold Qmean. rewrite sum_repeat, repeat_length. assert ((0 < inject_Z (Z.of_nat n))%Q) by (change 0%Q with (inject_Z 0); rewrite <- Zlt_Qlt; lia). field. lra.
Qed.
Lemma centre_equal v n : 0 < n -> same (centre (length v) (repeat v n)) v.
Proof.
  intros H. apply same_nth; [apply centre_length|]. intros j. rewrite centre_mean by (destruct n; [lia|discriminate]). unfold mean_of.
  destruct (Nat.lt_ge_cases j (length v)) as [L|L].
  - rewrite nth_map_seq by exact L. rewrite map_repeat. now apply mean_repeat.
  - rewrite !nth_overflow; [reflexivity|exact L|]. now rewrite map_length, seq_length.
Qed.
Lemma picks_equal (v : list Q) n P : (forall a, In a P -> a < n) -> map (fun i => nth i (repeat v n) []) P = repeat v (length P).
Proof.
  induction P as [|a P IH]; intros H; [reflexivity|]. cbn [map length repeat]. f_equal; [|apply IH; intros; apply H; now right].
  assert (a < n) by (apply H; now left). apply (repeat_spec n v). apply nth_In. now rewrite repeat_length.
Qed.
Lemma iter_equal big v n k : (0 < big)%Q -> 0 < n -> 0 < k -> exists c0, lloyds_iter big (length v) (repeat v n) (repeat v k) = (c0 :: repeat (repeat 0%Q (length v)) (k - 1), lloyd_residual (repeat v n) (c0 :: repeat (repeat 0%Q (length v)) (k - 1)) (repeat 0 n)) /\ same c0 v.
Proof.
  intros HB Hn Hk. exists (centre (length v) (repeat v n)). split; [|now apply centre_equal]. unfold lloyds_iter.
  assert (EA : map (closest_centre big (repeat v k)) (repeat v n) = repeat 0 n) by (now rewrite map_repeat, closest_equal). rewrite EA, repeat_length.
  assert (EC : map (fun c => centre (length v) (inverted (repeat 0 n) (repeat v n) c)) (seq 0 k) = centre (length v) (repeat v n) :: repeat (repeat 0%Q (length v)) (k - 1)).
  { destruct k as [|k]; [lia|]. cbn [seq map]. rewrite inverted_equal. cbn [Nat.eqb]. f_equal. replace (S k - 1) with k by lia.
    rewrite (map_ext_in _ (fun _ => repeat 0%Q (length v))); [|intros c I; apply in_seq in I; rewrite inverted_equal; destruct c; [lia|reflexivity]].
    clear. generalize 1. induction k as [|k IH]; intros a; [reflexivity|]. cbn [seq map repeat]. now rewrite IH. }
  rewrite EC. reflexivity.
Qed.
Lemma residual_equal v c0 rest n : same c0 v -> (lloyd_residual (repeat v n) (c0 :: rest) (repeat 0%nat n) == 0)%Q.
Proof.
  intros H. unfold lloyd_residual. induction n as [|n IH]; [reflexivity|]. cbn [repeat combine fold_right fst snd nth]. rewrite IH. rewrite (same_zero v c0); [ring|].
  clear - H. induction H; constructor; [now symmetry|assumption].
Qed.
