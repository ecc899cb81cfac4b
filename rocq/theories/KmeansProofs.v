From Coq Require Import Lqa.
From Verif Require Import KmeansSpec PqTrainProofs.
Import ListNotations.
Local Open Scope nat_scope.

Lemma qlt_true a b : qlt a b = true <-> (a < b)%Q.
Proof. apply Qlt_bool_true. Qed.
Lemma qlt_false a b : qlt a b = false <-> (b <= a)%Q.
Proof. apply Qlt_bool_false. Qed.

Lemma nth_numbered {A B} (f : nat * A -> B) (l : list A) i a b : i < length l -> nth i (map f (combine (seq 0 (length l)) l)) b = f (i, nth i l a).
Proof.
  intros Hi. rewrite (nth_indep _ b (f (0, a))) by (rewrite map_length, combine_length, seq_length; lia).
  rewrite map_nth, combine_nth by (now rewrite seq_length). now rewrite seq_nth by exact Hi.
Qed.

Section Pick.
Context (tiny : Q) (rd : rounding) (HR : rounds tiny rd).
Let add := r_add rd.
Definition fin_row (qs : list Q) : Prop := forall x, In x qs -> (x == 0)%Q \/ (tiny <= x)%Q.
Lemma fin_row_nonneg qs x : fin_row qs -> In x qs -> (0 <= x)%Q.
Proof. intros H I. pose proof (rs_tiny _ _ HR). destruct (H x I) as [E|E]; lra. Qed.

Lemma sum_fin qs : forall a, fold_left (nadd rd) (map Fin qs) (Fin a) = Fin (fold_left add qs a).
Proof. induction qs as [|x qs IH]; intros a; [reflexivity|]. cbn [map fold_left nadd]. apply IH. Qed.
Lemma fold_ge qs : forall a, fin_row qs -> (0 <= a)%Q -> (a <= fold_left add qs a)%Q.
Proof.
  induction qs as [|x qs IH]; intros a F H; cbn [fold_left]; [lra|]. pose proof (fin_row_nonneg _ x F (or_introl eq_refl)).
  pose proof (rs_left _ _ HR a x H ltac:(lra)) as L. fold add in L. specialize (IH (add a x) (fun y I => F y (or_intror I)) ltac:(lra)). lra.
Qed.
Lemma fold_ge_in qs : forall a x, fin_row qs -> (0 <= a)%Q -> In x qs -> (x <= fold_left add qs a)%Q.
Proof.
  induction qs as [|y qs IH]; intros a x F H; [intros []|]. cbn [fold_left]. pose proof (fin_row_nonneg _ y F (or_introl eq_refl)).
  pose proof (rs_left _ _ HR a y H ltac:(lra)) as L. fold add in L. assert (F' : fin_row qs) by (intros z I; apply F; now right). intros [->|I].
  - pose proof (rs_right _ _ HR a x H ltac:(lra)) as R. fold add in R. pose proof (fold_ge qs (add a x) F' ltac:(lra)). lra.
  - apply IH; auto. lra.
Qed.
Lemma fold_zero qs : forall a, (forall x, In x qs -> (x == 0)%Q) -> (fold_left add qs a == a)%Q.
Proof.
  induction qs as [|y qs IH]; intros a H; cbn [fold_left]; [reflexivity|]. rewrite IH by (intros; apply H; now right).
  unfold add. rewrite (rs_add_ext _ _ HR a y 0%Q) by (apply H; now left). apply (rs_zero _ _ HR).
Qed.
Lemma zero_or_big qs : fin_row qs -> (forall x, In x qs -> (x == 0)%Q) \/ exists x, In x qs /\ (tiny <= x)%Q.
Proof.
  induction qs as [|y qs IH]; intros F; [left; intros ? []|]. destruct IH as [Z|(x & I & B)]; [intros x I; apply F; now right| |right; exists x; split; [now right|exact B]].
  destruct (F y (or_introl eq_refl)) as [E|E]; [left|right; exists y; split; [now left|exact E]]. intros x [<-|I]; auto.
Qed.
Lemma land_fin t last : forall qs a i, fin_row qs -> (0 <= a)%Q -> (a <= t)%Q -> (t < fold_left add qs a)%Q ->
  exists j, land rd (Fin t) (map Fin qs) i (Fin a) last = i + j /\ j < length qs /\ (0 < nth j qs 0)%Q.
Proof.
  induction qs as [|x qs IH]; intros a i F A LE LT; cbn [fold_left] in LT; [lra|]. cbn [map land nadd nge nlt]. fold add.
  rewrite (proj2 (Qle_bool_iff a t)) by exact LE. cbn [andb]. pose proof (fin_row_nonneg _ x F (or_introl eq_refl)) as X.
  destruct (qlt t (add a x)) eqn:E.
  - apply qlt_true in E. exists 0. split; [lia|]. split; [cbn; lia|]. cbn [nth]. destruct (F x (or_introl eq_refl)) as [Z|B]; [|pose proof (rs_tiny _ _ HR); lra].
    exfalso. unfold add in E. rewrite (rs_add_ext _ _ HR a x 0%Q Z), (rs_zero _ _ HR) in E. lra.
  - apply qlt_false in E. pose proof (rs_left _ _ HR a x A X) as L. fold add in L. destruct (IH (add a x) (S i) (fun y I => F y (or_intror I)) ltac:(lra) E LT) as (j & -> & Hj & P). exists (S j). split; [lia|]. split; [cbn; lia|exact P].
Qed.
Lemma land_last dart last : forall dist i prefix, (i + length dist = S last)%nat -> land rd dart dist i prefix last <= last.
Proof. induction dist as [|x dist IH]; intros i prefix L; cbn [land]; [lia|]. cbn [length] in L. destruct (_ && _); [lia|apply IH; lia]. Qed.
Lemma draw_fin fuel u p qs picked : unit_draws u -> fin_row qs -> qs <> [] -> (forall a, In a picked -> (nth a qs 0 == 0)%Q) ->
  exists c, draw rd (S fuel) u p (map Fin qs) picked = Done (c, S p) /\ c < length qs /\ ((0 < nth c qs 0)%Q \/ forall x, In x qs -> (x == 0)%Q).
Proof.
  intros U F NE P. cbn [draw]. assert (Es : sum_dist rd (map Fin qs) = Fin (fold_left add qs 0%Q)) by apply sum_fin. rewrite Es. rewrite map_length. cbn [is_zero nmul].
  assert (L0 : 0 < length qs) by (destruct qs; [congruence|cbn; lia]). destruct (zero_or_big qs F) as [Z|(x & I & B)].
  - pose proof (fold_zero qs 0%Q Z) as S0. rewrite (proj2 (Qeq_bool_iff _ 0)) by exact S0. eexists. split; [reflexivity|]. split; [|now right].
    pose proof (land_last (Fin (r_mul rd (u p) (fold_left add qs 0%Q))) (length qs - 1) (map Fin qs) 0 (Fin 0%Q)) as L. rewrite map_length in L. specialize (L ltac:(lia)). lia.
  - pose proof (fold_ge_in qs 0%Q x F ltac:(lra) I) as G. pose proof (rs_tiny _ _ HR) as T. destruct (Qeq_bool (fold_left add qs 0%Q) 0) eqn:E; [apply Qeq_bool_iff in E; lra|].
    destruct (U p) as [U0 U1]. destruct (rs_mul _ _ HR (u p) (fold_left add qs 0%Q) U0 U1 ltac:(lra)) as [M0 M1].
    destruct (land_fin (r_mul rd (u p) (fold_left add qs 0%Q)) (length qs - 1) qs 0%Q 0 F ltac:(lra) M0 M1) as (j & Ej & Hj & Pj). rewrite Ej. cbn [Nat.add].
    destruct (existsb (Nat.eqb j) picked) eqn:Ex.
    + exfalso. apply existsb_exists in Ex as (a & Ia & Ea). apply Nat.eqb_eq in Ea. subst a. specialize (P j Ia). lra.
    + exists j. auto.
Qed.

Context (n : nat) (d : nat -> nat -> dnum) (q : nat -> nat -> Q) (HD : distances tiny n d q) (u : nat -> Q) (HU : unit_draws u).
(** [qs] holds the distances to the nearest picked point *)
Definition tracks (qs : list Q) (picked : list nat) : Prop :=
  length qs = n /\ forall i, i < n -> (forall a, In a picked -> (nth i qs 0 <= q i a)%Q) /\ exists a, In a picked /\ nth i qs 0%Q = q i a.
Lemma tracks_row qs picked : (forall a, In a picked -> a < n) -> tracks qs picked -> fin_row qs.
Proof.
  intros HP [L H] x I. apply (In_nth _ _ 0%Q) in I as (i & Hi & <-). rewrite L in Hi. destruct (H i Hi) as [_ (a & Ia & ->)]. apply (di_pos _ _ _ _ HD); auto.
Qed.
Lemma lower_fin c qs : c < n -> length qs = n -> exists qs', lower d c (map Fin qs) = map Fin qs' /\ length qs' = n
  /\ forall i, i < n -> nth i qs' 0%Q = if qlt (q i c) (nth i qs 0%Q) then q i c else nth i qs 0%Q.
Proof.
  intros Hc L. exists (map (fun i => if qlt (q i c) (nth i qs 0%Q) then q i c else nth i qs 0%Q) (seq 0 n)). split; [|split].
  - unfold lower. rewrite map_length, L, map_map. apply (nth_ext _ _ NaN NaN).
    + rewrite !map_length, combine_length, map_length, !seq_length. lia.
    + intros i Hi. rewrite map_length, combine_length, seq_length, map_length in Hi. rewrite nth_map_seq by lia. rewrite <- L, <- (map_length Fin qs).
      rewrite (nth_numbered _ _ i (Fin 0%Q)) by (rewrite map_length; lia). cbn [fst snd]. rewrite (map_nth Fin), (di_fin _ _ _ _ HD) by lia. cbn [nlt]. now destruct (qlt _ _).
  - now rewrite map_length, seq_length.
  - intros i Hi. now rewrite nth_map_seq by exact Hi.
Qed.
Lemma lower_tracks c qs qs' picked : length qs' = n -> (forall i, i < n -> nth i qs' 0%Q = if qlt (q i c) (nth i qs 0%Q) then q i c else nth i qs 0%Q) ->
  tracks qs picked -> tracks qs' (picked ++ [c]).
Proof.
  intros L E [_ H]. split; [exact L|]. intros i Hi. rewrite E by exact Hi. destruct (H i Hi) as [M (a & Ia & Ea)]. destruct (qlt _ _) eqn:Q.
  - apply qlt_true in Q. split; [|exists c; split; [apply in_or_app; right; now left|reflexivity]]. intros b Ib. apply in_app_or in Ib as [Ib|[<-|[]]]; [specialize (M b Ib)|]; lra.
  - apply qlt_false in Q. split; [|exists a; split; [apply in_or_app; now left|exact Ea]]. intros b Ib. apply in_app_or in Ib as [Ib|[<-|[]]]; [now apply M|exact Q].
Qed.
(** Point [b] of the picks is apart from the earlier ones, or these cover everything *)
Definition spread (P : list nat) (b : nat) : Prop :=
  (forall a, a < b -> (0 < q (nth b P 0%nat) (nth a P 0%nat))%Q) \/ (forall i, i < n -> exists a, a < b /\ (q i (nth a P 0%nat) == 0)%Q).
Lemma pick_fin fuel : forall m p qs picked, picked <> [] -> (forall a, In a picked -> a < n) -> tracks qs picked ->
  exists more, pick_more rd (S fuel) d u m p (map Fin qs) picked = Done (picked ++ more, p + m) /\ length more = m
    /\ (forall a, In a more -> a < n) /\ forall b, length picked <= b < length picked + m -> spread (picked ++ more) b.
Proof.
  induction m as [|m IH]; intros p qs picked NE HP T; cbn [pick_more].
  - exists []. rewrite app_nil_r, Nat.add_0_r. repeat split; [intros a []|]. intros b Hb. lia.
  - assert (Hn : 0 < n). { destruct picked as [|a l]; [congruence|]. specialize (HP a (or_introl eq_refl)). lia. }
    destruct (draw_fin fuel u p qs picked HU (tracks_row _ _ HP T)) as (c & E & Hc & C).
    { destruct qs; [destruct T as [L _]; cbn in L; lia|discriminate]. }
    { intros a Ia. destruct T as [L H]. destruct (H a (HP a Ia)) as [M (b & Ib & Eb)]. pose proof (M a Ia) as M'. rewrite (di_self _ _ _ _ HD a (HP a Ia)) in M'.
      rewrite Eb in *. pose proof (rs_tiny _ _ HR). destruct (di_pos _ _ _ _ HD a b (HP a Ia) (HP b Ib)); lra. }
    rewrite E. destruct T as [L H]. rewrite L in Hc. destruct (lower_fin c qs Hc L) as (qs' & El & L' & N'). rewrite El.
    assert (HP' : forall a, In a (picked ++ [c]) -> a < n) by (intros a Ia; apply in_app_or in Ia as [Ia|[<-|[]]]; auto).
    destruct (IH (S p) qs' (picked ++ [c])) as (more & Em & Lm & Bm & Sm).
    { destruct picked; discriminate. } { exact HP'. } { eapply lower_tracks; eauto. split; [exact L|exact H]. }
    exists (c :: more). rewrite Em, <- app_assoc. cbn [app]. split; [do 2 f_equal; lia|]. split; [cbn; lia|]. split; [intros a [<-|Ia]; auto|].
    intros b Hb. rewrite <- app_assoc in Sm. cbn [app] in Sm. rewrite app_length in Sm. cbn [length] in Sm. destruct (Nat.eq_dec b (length picked)) as [->|]; [|apply Sm; lia].
    unfold spread. rewrite (app_nth2 picked _ 0 (le_n _)), Nat.sub_diag. cbn [nth]. destruct C as [C|C]; [left|right].
    + intros a Ha. rewrite app_nth1 by exact Ha. destruct (H c Hc) as [M _]. specialize (M (nth a picked 0) (nth_In _ _ Ha)). lra.
    + intros i Hi. destruct (H i Hi) as [_ (a & Ia & Ea)]. apply (In_nth _ _ 0) in Ia as (k & Hk & <-). exists k. split; [exact Hk|]. rewrite app_nth1 by exact Hk. rewrite <- Ea.
      apply C. apply nth_In. lia.
Qed.
Lemma kmeanspp_fin fuel k first : 0 < k <= n -> (Z.of_nat n <= 2 ^ 23)%Z -> first < n ->
  exists P, kmeanspp rd (S fuel) d n k first u = Done (Ok (P, k - 1)) /\ length P = k /\ nth 0 P 0 = first /\ (forall a, In a P -> a < n)
    /\ forall b, b < k -> spread P b.
Proof.
  intros Hk Hn Hf. unfold kmeanspp. rewrite (proj2 (Nat.eqb_neq k 0)), (proj2 (Nat.eqb_neq n 0)) by lia. cbn [orb].
  destruct (Nat.ltb_spec n k) as [|_]; [lia|]. destruct (Z.ltb_spec (2 ^ 23) (Z.of_nat n)) as [|_]; [lia|].
  assert (Er : map (fun i => d i first) (seq 0 n) = map Fin (map (fun i => q i first) (seq 0 n))).
  { rewrite map_map. apply map_ext_in. intros i Hi. apply in_seq in Hi. apply (di_fin _ _ _ _ HD); lia. }
  rewrite Er. destruct (pick_fin fuel (k - 1) 0 (map (fun i => q i first) (seq 0 n)) [first]) as (more & E & L & B & S).
  { discriminate. } { intros a [<-|[]]; exact Hf. }
  { split; [now rewrite map_length, seq_length|]. intros i Hi. rewrite nth_map_seq by exact Hi. split; [intros a [<-|[]]; lra|exists first; split; [now left|reflexivity]]. }
  rewrite E. cbn [app] in *. exists (first :: more). split; [reflexivity|]. split; [cbn; lia|]. split; [reflexivity|]. split; [intros a [<-|Ia]; auto|].
  intros b Hb. destruct b as [|b]; [left; intros; lia|]. apply S. cbn [length]. lia.
Qed.
End Pick.

(** ** No finite sum: the draws never end *)
Section Hang.
Context (rd : rounding) (d : nat -> nat -> dnum) (u : nat -> Q).
Lemma fold_not_finite l : forall a, not_finite a \/ (exists x, In x l /\ not_finite x) -> not_finite (fold_left (nadd rd) l a).
Proof.
  induction l as [|x l IH]; intros a H; cbn [fold_left]; [destruct H as [H|(x & [] & _)]; exact H|].
  apply IH. destruct H as [H|(y & [<-|I] & N)]; [left|left|right; now exists y].
  - destruct H as [->| ->], x; unfold not_finite; cbn [nadd]; auto.
  - destruct N as [->| ->], a; unfold not_finite; cbn [nadd]; auto.
Qed.
Lemma land_lost dart last : not_finite dart -> forall dist i prefix, land rd dart dist i prefix last = last.
Proof.
  intros [->| ->]; induction dist as [|x dist IH]; intros i prefix; cbn [land]; try reflexivity; destruct prefix, x; cbn [nge nlt nadd andb]; apply IH.
Qed.
Lemma draw_lost fuel p dist picked : (exists x, In x dist /\ not_finite x) ->
  draw rd fuel u p dist picked = match fuel with O => OutOfFuel | S f => if existsb (Nat.eqb (length dist - 1)) picked then draw rd f u (S p) dist picked else Done (length dist - 1, S p) end.
Proof.
  intros H. destruct fuel as [|f]; [reflexivity|]. cbn [draw]. assert (S : not_finite (sum_dist rd dist)) by (apply fold_not_finite; now right).
  assert (Z : is_zero (sum_dist rd dist) = false) by (now destruct S as [->| ->]). rewrite Z.
  rewrite land_lost; [reflexivity|]. destruct S as [->| ->]; cbn [nmul]; [destruct (qlt _ _); (now left) + (now right)|now right].
Qed.
Lemma draw_hangs dist picked : (exists x, In x dist /\ not_finite x) -> In (length dist - 1) picked -> forall fuel p, draw rd fuel u p dist picked = OutOfFuel.
Proof.
  intros H I. induction fuel as [|f IH]; intros p; rewrite draw_lost by exact H; [reflexivity|].
  assert (E : existsb (Nat.eqb (length dist - 1)) picked = true) by (apply existsb_exists; exists (length dist - 1); split; [exact I|apply Nat.eqb_refl]). rewrite E. apply IH.
Qed.
Lemma lower_length c dist : length (lower d c dist) = length dist.
Proof. unfold lower. rewrite map_length, combine_length, seq_length. lia. Qed.
Lemma lower_nth c dist i : i < length dist -> nth i (lower d c dist) NaN = if nlt (d i c) (nth i dist NaN) then d i c else nth i dist NaN.
Proof.
  intros Hi. unfold lower. now rewrite (nth_numbered _ _ i NaN) by exact Hi.
Qed.
Lemma lower_lost c dist i : i < length dist -> not_finite (nth i dist NaN) -> not_finite (d i c) -> not_finite (nth i (lower d c dist) NaN).
Proof. intros Hi N1 N2. rewrite lower_nth by exact Hi. destruct N1 as [->| ->], N2 as [->| ->]; cbn [nlt]; unfold not_finite; auto. Qed.
Lemma kmeanspp_lost n k first i : 3 <= k <= n -> (Z.of_nat n <= 2 ^ 23)%Z -> first < n -> i < n -> not_finite (d i first) -> not_finite (d i (n - 1)) ->
  forall fuel, kmeanspp rd fuel d n k first u = OutOfFuel.
Proof.
  intros Hk Hn Hf Hi N1 N2 fuel. unfold kmeanspp. rewrite (proj2 (Nat.eqb_neq k 0)), (proj2 (Nat.eqb_neq n 0)) by lia. cbn [orb].
  destruct (Nat.ltb_spec n k) as [|_]; [lia|]. destruct (Z.ltb_spec (2 ^ 23) (Z.of_nat n)) as [|_]; [lia|].
  set (row := map (fun i => d i first) (seq 0 n)). assert (L : length row = n) by (unfold row; now rewrite map_length, seq_length).
  assert (E : nth i row NaN = d i first) by (unfold row; now rewrite nth_map_seq by exact Hi).
  assert (X : exists x, In x row /\ not_finite x) by (exists (nth i row NaN); split; [apply nth_In; lia|now rewrite E]).
  destruct (k - 1) as [|[|m]] eqn:Ek; [lia|lia|]. cbn [pick_more]. rewrite (draw_lost fuel 0 row [first] X). destruct fuel as [|fuel]; [reflexivity|].
  destruct (existsb (Nat.eqb (length row - 1)) [first]) eqn:Ex; [rewrite (draw_hangs row [first] X); [reflexivity|]|].
  - apply existsb_exists in Ex as (a & Ia & Ea). apply Nat.eqb_eq in Ea. now rewrite Ea.
  - rewrite draw_hangs; [reflexivity| |].
    + exists (nth i (lower d (length row - 1) row) NaN). split; [apply nth_In; rewrite lower_length; lia|]. apply lower_lost; [lia|now rewrite E|now rewrite L].
    + rewrite lower_length. apply in_or_app. right. now left.
Qed.
End Hang.

(** ** Lloyd's iterations *)
Lemma scan_min_spec : forall row j best id, exists r, scan_min row j best id = r /\
  ((r = id /\ forall x, In x row -> (best <= x)%Q) \/ (j <= r < j + length row /\ (nth (r - j) row 0 < best)%Q /\ forall x, In x row -> (nth (r - j) row 0 <= x)%Q)).
Proof.
  induction row as [|x row IH]; intros j best id; cbn [scan_min]; [exists id; split; [reflexivity|left; split; [reflexivity|intros ? []]]|].
  destruct (qlt x best) eqn:Q.
  - apply qlt_true in Q. destruct (IH (S j) x j) as (r & -> & [[-> M]|(Hr & LT & M)]); eexists; (split; [reflexivity|]); right.
    + rewrite Nat.sub_diag. cbn [length nth]. split; [lia|]. split; [exact Q|]. intros y [<-|I]; [lra|auto].
    + destruct (r - j) as [|t] eqn:Et; [lia|]. replace (r - S j) with t in * by lia. cbn [length nth]. split; [lia|]. split; [lra|]. intros y [<-|I]; [lra|auto].
  - apply qlt_false in Q. destruct (IH (S j) best id) as (r & -> & [[-> M]|(Hr & LT & M)]); eexists; (split; [reflexivity|]).
    + left. split; [reflexivity|]. intros y [<-|I]; [exact Q|auto].
    + right. destruct (r - j) as [|t] eqn:Et; [lia|]. replace (r - S j) with t in * by lia. cbn [length nth]. split; [lia|]. split; [lra|]. intros y [<-|I]; [lra|auto].
Qed.
Lemma closest_centre_in big cents x : cents <> [] -> closest_centre big cents x < length cents.
Proof.
  intros NE. assert (0 < length cents) by (destruct cents; [congruence|cbn; lia]). unfold closest_centre. destruct (scan_min_spec (map (Ql2 x) cents) 0 big 0) as (r & -> & [[-> _]|(Hr & _)]); [lia|].
  rewrite map_length in Hr. lia.
Qed.
Lemma closest_centre_best big cents x : cents <> [] -> (exists c, In c cents /\ (Ql2 x c < big)%Q) -> forall k, k < length cents -> (Ql2 x (nth (closest_centre big cents x) cents []) <= Ql2 x (nth k cents []))%Q.
Proof.
  intros NE (c & Ic & B) k Hk. unfold closest_centre. destruct (scan_min_spec (map (Ql2 x) cents) 0 big 0) as (r & -> & [[-> M]|(Hr & _ & M)]).
  - exfalso. specialize (M (Ql2 x c) (in_map _ _ _ Ic)). lra.
  - rewrite map_length in Hr. rewrite Nat.sub_0_r in M. rewrite (nth_indep _ _ (Ql2 x [])) in M by (rewrite map_length; lia). rewrite map_nth in M. apply M. apply in_map. now apply nth_In.
Qed.
Lemma inverted_members assign data c : inverted assign data c = members (combine assign data) c.
Proof. reflexivity. Qed.
Lemma residual_psum data cents assign : lloyd_residual data cents assign = psum (fun k x => Ql2 x (nth k cents [])) (combine assign data).
Proof. reflexivity. Qed.
Lemma centre_length dim ms : length (centre dim ms) = dim.
Proof. destruct ms; cbn [centre]; [apply repeat_length|now rewrite map_length, seq_length]. Qed.
Lemma centre_mean dim ms : ms <> [] -> centre dim ms = mean_of dim ms.
Proof. destruct ms; [congruence|reflexivity]. Qed.

Section Lloyd.
Context (big : Q) (dim : nat) (data : list (list Q)) (HM : matrix dim data).
Lemma iter_length cents : length (fst (lloyds_iter big dim data cents)) = length cents.
Proof. cbn [lloyds_iter fst]. now rewrite map_length, seq_length. Qed.
Lemma iter_matrix cents : matrix dim (fst (lloyds_iter big dim data cents)).
Proof. cbn [lloyds_iter fst]. intros v I. apply in_map_iff in I as (c & <- & _). apply centre_length. Qed.
Lemma iter_nonempty cents : cents <> [] -> fst (lloyds_iter big dim data cents) <> [].
Proof. intros NE E. pose proof (iter_length cents) as L. rewrite E in L. destruct cents; [congruence|discriminate L]. Qed.
Lemma assign_sum (cents c2 : list (list Q)) (f g : list Q -> Q) : forall l, (forall x, In x l -> (f x <= g x)%Q) ->
  (fold_right (fun x s => (f x + s)%Q) 0%Q l <= fold_right (fun x s => (g x + s)%Q) 0%Q l)%Q.
Proof. induction l as [|x l IH]; intros H; cbn [fold_right]; [lra|]. pose proof (H x (or_introl eq_refl)). pose proof (IH (fun y I => H y (or_intror I))). lra. Qed.
Lemma residual_fold cents (h : list Q -> nat) l : lloyd_residual l cents (map h l) = fold_right (fun x s => (Ql2 x (nth (h x) cents []) + s)%Q) 0%Q l.
Proof. unfold lloyd_residual. induction l as [|x l IH]; [reflexivity|]. cbn [map combine fold_right fst snd]. now rewrite IH. Qed.
(** Moving the centres to the means lowers the sum for the given assignment *)
Lemma update_better cents : cents <> [] -> matrix dim cents ->
  (snd (lloyds_iter big dim data cents) <= lloyd_residual data cents (map (closest_centre big cents) data))%Q.
Proof.
  intros NE MC. cbn [lloyds_iter snd]. rewrite !residual_psum. set (a := map (closest_centre big cents) data).
  assert (K : forall p, In p (combine a data) -> fst p < length cents).
  { intros [k x] I. apply in_combine_l in I. apply in_map_iff in I as (y & <- & _). now apply closest_centre_in. }
  rewrite !(psum_members _ (length cents)) by exact K. apply sum_to_le. intros k Hk. rewrite nth_map_seq by exact Hk. rewrite inverted_members.
  destruct (members (combine a data) k) as [|m ms] eqn:EM; [cbn; lra|]. rewrite <- EM. rewrite centre_mean by (rewrite EM; discriminate). apply mean_of_best.
  - apply Forall_forall. intros x I. unfold members in I. apply in_map_iff in I as ([? ?] & <- & I). apply filter_In in I as [I _]. apply in_combine_r in I. now apply HM.
  - rewrite EM. discriminate.
  - apply MC. now apply nth_In.
Qed.
Lemma assign_best cents : cents <> [] -> in_reach big data cents -> (lloyd_residual data cents (map (closest_centre big cents) data) == total_dist data cents)%Q.
Proof.
  intros NE R. rewrite residual_fold. unfold total_dist. revert R. generalize data. induction data0 as [|x l IH]; intros R; [reflexivity|]. cbn [fold_right].
  rewrite IH by (intros y c Iy Ic; apply R; [now right|exact Ic]). rewrite (nearest_at cents x (closest_centre big cents x)); [reflexivity|now apply closest_centre_in|].
  intros k Hk. apply closest_centre_best; [exact NE| |exact Hk]. destruct cents as [|c cs]; [congruence|]. exists c. split; [now left|]. apply R; now left.
Qed.
Lemma total_below cents (h : list Q -> nat) : (forall x, In x data -> h x < length cents) -> (total_dist data cents <= lloyd_residual data cents (map h data))%Q.
Proof.
  rewrite residual_fold. unfold total_dist. generalize data. induction data0 as [|x l IH]; intros H; cbn [fold_right]; [lra|]. pose proof (IH (fun y I => H y (or_intror I))).
  assert (NE : cents <> []) by (intros E; specialize (H x (or_introl eq_refl)); subst; cbn in H; lia). destruct (nearest_spec cents x NE) as [L _]. specialize (L (h x) (H x (or_introl eq_refl))). lra.
Qed.
Lemma reported_above cents : cents <> [] -> (total_dist data (fst (lloyds_iter big dim data cents)) <= snd (lloyds_iter big dim data cents))%Q.
Proof. intros NE. cbn [lloyds_iter fst snd]. apply total_below. intros x I. rewrite map_length, seq_length. now apply closest_centre_in. Qed.
Lemma reported_below cents : cents <> [] -> matrix dim cents -> in_reach big data cents -> (snd (lloyds_iter big dim data cents) <= total_dist data cents)%Q.
Proof. intros NE M R. rewrite <- (assign_best cents NE R). now apply update_better. Qed.
Lemma after_ok cents r : cents <> [] -> matrix dim cents -> after big dim data cents r <> [] /\ matrix dim (after big dim data cents r) /\ length (after big dim data cents r) = length cents.
Proof.
  intros NE M. induction r as [|r (A & B & C)]; [auto|]. cbn [after]. split; [now apply iter_nonempty|]. split; [apply iter_matrix|]. now rewrite iter_length.
Qed.
Lemma loop_after tol eps cents0 : forall reps r first cents old, cents = after big dim data cents0 r -> (r = 0 -> first = true) -> (forall r', r = S r' -> first = false /\ old = reported big dim data cents0 r') ->
  exists t, t <= reps /\ fst (lloyds_loop big tol eps dim data reps first cents old) = after big dim data cents0 (r + t)
    /\ (0 < t -> snd (lloyds_loop big tol eps dim data reps first cents old) = reported big dim data cents0 (r + t - 1))
    /\ (t < reps -> 0 < t /\ ((reported big dim data cents0 (r + t - 1)%nat < eps)%Q
        \/ (1 < r + t /\ (0 < reported big dim data cents0 (r + t - 1)%nat)%Q /\ ((reported big dim data cents0 (r + t - 2)%nat - reported big dim data cents0 (r + t - 1)%nat) / reported big dim data cents0 (r + t - 1)%nat < tol)%Q))).
Proof.
  induction reps as [|reps IH]; intros r first cents old -> F0 FS; cbn [lloyds_loop].
  - exists 0. rewrite Nat.add_0_r. split; [lia|]. split; [reflexivity|]. split; lia.
  - destruct (lloyds_iter big dim data (after big dim data cents0 r)) as [c' res] eqn:E.
    assert (Ec : c' = after big dim data cents0 (S r)) by (cbn [after]; now rewrite E). assert (Er : res = reported big dim data cents0 r) by (unfold reported; now rewrite E).
    destruct (negb first && qlt 0 res && qlt ((old - res) / res) tol) eqn:B1.
    + apply andb_prop in B1 as [B1 B3]. apply andb_prop in B1 as [B1 B2]. apply qlt_true in B2, B3. destruct r as [|r']; [rewrite F0 in B1 by reflexivity; discriminate|].
      destruct (FS r' eq_refl) as [_ ->]. exists 1. replace (S r' + 1) with (S (S r')) by lia. cbn [fst snd]. split; [lia|]. split; [exact Ec|].
      replace (S (S r') - 1) with (S r') by lia. replace (S (S r') - 2) with r' by lia. split; [intros _; exact Er|]. intros _. split; [lia|]. right. rewrite <- Er. split; [lia|]. split; assumption.
    + destruct (qlt res eps) eqn:B2.
      * apply qlt_true in B2. exists 1. replace (r + 1) with (S r) by lia. cbn [fst snd]. split; [lia|]. split; [exact Ec|]. replace (S r - 1) with r by lia. split; [intros _; exact Er|].
        intros _. split; [lia|]. left. now rewrite <- Er.
      * destruct (IH (S r) false c' res Ec ltac:(discriminate)) as (t & Ht & T1 & T2 & T3).
        { intros r' Hr. injection Hr as <-. auto. }
        exists (S t). replace (r + S t) with (S r + t) by lia. split; [lia|]. split; [exact T1|]. split.
        -- intros _. destruct t as [|t]; [|apply T2; lia]. destruct reps as [|reps]; [|exfalso; destruct (T3 ltac:(lia)); lia]. cbn [lloyds_loop snd].
           replace (S r + 0 - 1) with r by lia. exact Er.
        -- intros Hlt. split; [lia|]. apply T3. lia.
Qed.
End Lloyd.

(** ** Counting *)
Lemma count_all_ok ids : forall counts, (forall c, In c ids -> c < length counts) ->
  exists out, count_all ids counts = Ok out /\ length out = length counts /\ forall c, c < length counts -> nth c out 0%N = (nth c counts 0 + N.of_nat (count_occ Nat.eq_dec ids c))%N.
Proof.
  induction ids as [|x ids IH]; intros counts H; cbn [count_all].
  - exists counts. repeat split. intros c _. cbn. lia.
  - assert (Hx : x < length counts) by (apply H; now left). rewrite (aget_nth counts (N.of_nat x) 0%N) by lia. cbn [bind]. rewrite aput_ok by lia. cbn [bind]. rewrite Nat2N.id.
    destruct (IH (upd counts x (nth x counts 0 + 1)%N)) as (out & E & L & C). { intros c I. rewrite upd_length. apply H. now right. }
    rewrite upd_length in L, C. exists out. split; [exact E|]. split; [exact L|]. intros c Hc. rewrite C by exact Hc. cbn [count_occ]. rewrite nth_upd by lia. destruct (Nat.eq_dec x c) as [->|N]; [rewrite Nat.eqb_refl; lia|].
    destruct (Nat.eqb_spec x c) as [Ex|_]; [congruence|]. reflexivity.
Qed.
