From Coq Require Import Lqa Permutation.
From Verif Require Export PqExactProofs.
Import ListNotations.
Local Open Scope nat_scope.

Lemma sum_to_swap m n f : (sum_to m (fun i => sum_to n (fun j => f i j)) == sum_to n (fun j => sum_to m (fun i => f i j)))%Q.
Proof.
  induction m as [|m IH]; cbn [sum_to]; [symmetry; now apply sum_to_zero|]. rewrite IH, <- sum_to_plus. apply sum_to_ext. intros; reflexivity.
Qed.
Lemma sum_to_single n k0 a : k0 < n -> (sum_to n (fun k => if Nat.eqb k0 k then a else 0) == a)%Q.
Proof.
  induction n as [|n IH]; intros H; [lia|]. cbn [sum_to]. destruct (Nat.eqb_spec k0 n) as [->|C]; [|rewrite IH by lia; ring].
  rewrite sum_to_zero; [ring|]. intros i Hi. destruct (Nat.eqb_spec n i); [lia|reflexivity].
Qed.
Definition lsum {A} (f : A -> Q) (l : list A) : Q := fold_right (fun x s => (f x + s)%Q) 0%Q l.
Definition psum (f : nat -> list Q -> Q) (ps : list (nat * list Q)) : Q := lsum (fun p => f (fst p) (snd p)) ps.
Definition members (ps : list (nat * list Q)) (k : nat) : list (list Q) := map snd (filter (fun e => Nat.eqb (fst e) k) ps).
Lemma psum_members f n ps : (forall p, In p ps -> fst p < n) -> (psum f ps == sum_to n (fun k => lsum (f k) (members ps k)))%Q.
Proof.
  unfold psum. induction ps as [|[k0 x] ps IH]; intros H; [symmetry; apply sum_to_zero; intros; reflexivity|]. cbn [lsum fold_right fst snd].
  fold (lsum (fun p => f (fst p) (snd p)) ps). rewrite IH by (intros; apply H; now right).
  rewrite <- (sum_to_single n k0 (f k0 x)) by (apply (H (k0, x)); now left). rewrite <- sum_to_plus. apply sum_to_ext. intros k Hk. unfold members. cbn [filter fst].
  destruct (Nat.eqb_spec k0 k) as [->|C]; cbn [map snd lsum fold_right]; [reflexivity|]. ring.
Qed.
Lemma lsum_map (g : list Q -> Q) ms : fold_right Qplus 0%Q (map g ms) = lsum g ms.
Proof. induction ms as [|x ms IH]; [reflexivity|]. cbn [map fold_right lsum]. unfold lsum in IH. now rewrite IH. Qed.
Lemma lsum_square (g : list Q -> Q) a ms :
  (lsum (fun x => (g x - a) * (g x - a)) ms == lsum (fun x => g x * g x) ms - 2 * a * lsum g ms + inject_Z (Z.of_nat (length ms)) * (a * a))%Q.
Proof.
  unfold lsum. induction ms as [|x ms IH]; cbn [fold_right length]; [ring|]. rewrite IH, Nat2Z.inj_succ. unfold Z.succ. rewrite inject_Z_plus. ring.
Qed.
Lemma count_pos {A} (l : list A) : l <> [] -> (0 < inject_Z (Z.of_nat (length l)))%Q.
Proof. intros H. change 0%Q with (inject_Z 0). rewrite <- Zlt_Qlt. destruct l; [congruence|cbn [length]; lia]. Qed.
(** The mean is the best point in every coordinate *)
Lemma mean_best (g : list Q -> Q) a ms : ms <> [] ->
  (lsum (fun x => (g x - Qmean (map g ms)) * (g x - Qmean (map g ms))) ms <= lsum (fun x => (g x - a) * (g x - a)) ms)%Q.
Proof.
  intros N. rewrite (lsum_square g (Qmean (map g ms)) ms), (lsum_square g a ms). pose proof (count_pos ms N) as L. set (n := inject_Z (Z.of_nat (length ms))) in *.
  assert (S : (lsum g ms == n * Qmean (map g ms))%Q). { unfold Qmean. rewrite lsum_map, map_length. fold n. field. lra. }
  rewrite S. set (m := Qmean (map g ms)). pose proof (Qmult_le_0_compat n ((a - m) * (a - m)) (Qlt_le_weak _ _ L) (sq_nonneg _)). nra.
Qed.
Lemma lsum_le {A} (f g : A -> Q) l : (forall x, In x l -> (f x <= g x)%Q) -> (lsum f l <= lsum g l)%Q.
Proof.
  unfold lsum. induction l as [|x l IH]; intros H; cbn [fold_right]; [lra|]. pose proof (H x (or_introl eq_refl)). pose proof (IH (fun y I => H y (or_intror I))). lra.
Qed.
Lemma lsum_coords cd c ms : rows_of cd ms -> length c = cd -> (lsum (fun x => Ql2 x c) ms == sum_to cd (fun d => lsum (fun x => (nth d x 0 - nth d c 0) * (nth d x 0 - nth d c 0)) ms))%Q.
Proof.
  intros R L. unfold lsum. induction R as [|x ms E R IH]; cbn [fold_right]; [symmetry; apply sum_to_zero; intros; reflexivity|].
  rewrite sum_to_plus, <- IH, (Ql2_sum x c cd) by auto. reflexivity.
Qed.
Definition mean_of (cd : nat) (ms : list (list Q)) : list Q := map (fun d => Qmean (map (fun v => nth d v 0%Q) ms)) (seq 0 cd).
Lemma mean_of_length cd ms : length (mean_of cd ms) = cd.
Proof. unfold mean_of. now rewrite map_length, seq_length. Qed.
Lemma mean_of_best cd ms c : rows_of cd ms -> ms <> [] -> length c = cd -> (lsum (fun x => Ql2 x (mean_of cd ms)) ms <= lsum (fun x => Ql2 x c) ms)%Q.
Proof.
  intros R N L. rewrite (lsum_coords cd _ ms R (mean_of_length cd ms)), (lsum_coords cd c ms R L). apply sum_to_le. intros d Hd.
  unfold mean_of. rewrite nth_map_seq by exact Hd. apply (mean_best (fun v => nth d v 0%Q)). exact N.
Qed.

(** ** Bounds *)
Lemma mean_bounded B l : l <> [] -> Forall (fun x => - B <= x <= B)%Q l -> (- B <= Qmean l <= B)%Q.
Proof.
  intros N F. pose proof (count_pos l N) as L. unfold Qmean. set (n := inject_Z (Z.of_nat (length l))) in *.
  assert (S : (- B * n <= fold_right Qplus 0 l <= B * n)%Q).
  { unfold n. clear - F. induction F as [|x l H F IH]; cbn [fold_right length]; [change (inject_Z (Z.of_nat 0)) with 0%Q; lra|]. rewrite Nat2Z.inj_succ. unfold Z.succ. rewrite inject_Z_plus. change (inject_Z 1) with 1%Q. nra. }
  split; [apply Qle_shift_div_l|apply Qle_shift_div_r]; try exact L; lra.
Qed.
Lemma Ql2_bound B a : forall b, Forall (fun x => - B <= x <= B)%Q a -> Forall (fun x => - B <= x <= B)%Q b -> (Ql2 a b <= inject_Z (Z.of_nat (length a)) * (4 * (B * B)))%Q.
Proof.
  assert (BB : (0 <= B * B)%Q) by apply sq_nonneg.
  assert (C : forall n, (0 <= inject_Z (Z.of_nat n))%Q) by (intros n; change 0%Q with (inject_Z 0); rewrite <- Zle_Qle; lia).
  induction a as [|x a IH]; intros b FA FB; [cbn [Ql2 length]; change (inject_Z (Z.of_nat 0)) with 0%Q; lra|]. destruct b as [|y b]; [cbn [Ql2]; pose proof (C (length (x :: a))); nra|].
  inversion FA as [|? ? HX FA']; inversion FB as [|? ? HY FB']; subst. cbn [Ql2 length]. rewrite Nat2Z.inj_succ. unfold Z.succ. rewrite inject_Z_plus. change (inject_Z 1) with 1%Q.
  pose proof (IH b FA' FB') as I. assert (((x - y) * (x - y) <= 4 * (B * B))%Q). { assert (0 <= (2 * B - (x - y)) * (2 * B + (x - y)))%Q by (apply Qmult_le_0_compat; lra). lra. }
  set (w := inject_Z (Z.of_nat (length a))) in *. lra.
Qed.
Lemma bounded_nth B data i : bounded B data -> i < length data -> Forall (fun x => - B <= x <= B)%Q (nth i data []).
Proof. intros H I. eapply (proj1 (Forall_forall _ _) H). now apply nth_In. Qed.
Lemma coords_bounded B cd ms d : bounded B ms -> rows_of cd ms -> d < cd -> Forall (fun x => - B <= x <= B)%Q (map (fun v => nth d v 0%Q) ms).
Proof.
  intros HB R Hd. apply Forall_map, Forall_forall. intros v I. pose proof (proj1 (Forall_forall _ _) HB v I) as F. pose proof (proj1 (Forall_forall _ _) R v I) as L. cbv beta in F, L.
  apply (proj1 (Forall_forall _ _) F). apply nth_In. lia.
Qed.
Lemma mean_of_bounded B cd ms : bounded B ms -> rows_of cd ms -> ms <> [] -> Forall (fun x => - B <= x <= B)%Q (mean_of cd ms).
Proof.
  intros HB R N. apply Forall_map, Forall_forall. intros d I. apply in_seq in I. apply mean_bounded; [now destruct ms|]. eapply coords_bounded; eauto. lia.
Qed.

(** ** The nearest centroid *)
Lemma fold_min d ds : let m := fold_right (fun a b => if Qle_bool a b then a else b) d ds in (forall y, In y (d :: ds) -> (m <= y)%Q) /\ In m (d :: ds).
Proof.
  induction ds as [|e ds IH]; cbn [fold_right]; [split; [intros y [<-|[]]; lra|now left]|]. cbv zeta in IH. destruct IH as [L I]. set (m := fold_right _ d ds) in *.
  destruct (Qle_bool e m) eqn:E; [apply Qle_bool_iff in E|assert (m < e)%Q by (apply Qnot_le_lt; intros C; apply Qle_bool_iff in C; congruence)]; (split; [|destruct I as [<-|I]; [auto with *|auto with *]]).
  - intros y [<-|[<-|J]]; [|lra|]; [pose proof (L d (or_introl eq_refl))|pose proof (L y (or_intror J))]; lra.
  - intros y [<-|[<-|J]]; [|lra|]; [apply (L d (or_introl eq_refl))|apply (L y (or_intror J))].
Qed.
Lemma nearest_spec cents x : cents <> [] -> (forall k, k < length cents -> (nearest_dist cents x <= Ql2 x (nth k cents []))%Q) /\
  exists k, k < length cents /\ nearest_dist cents x = Ql2 x (nth k cents []).
Proof.
  intros N. unfold nearest_dist. destruct cents as [|c cs]; [congruence|]. cbn [map]. destruct (fold_min (Ql2 x c) (map (Ql2 x) cs)) as [L I]. cbv zeta in *.
  change (Ql2 x c :: map (Ql2 x) cs) with (map (Ql2 x) (c :: cs)) in *. set (m := fold_right _ _ _) in *. split.
  - intros k Hk. apply L. apply in_map. now apply nth_In.
  - apply in_map_iff in I as (y & E & J). apply (In_nth _ _ []) in J as (k & Hk & <-). exists k. auto.
Qed.
Lemma nearest_at cents x r : r < length cents -> (forall k, k < length cents -> (Ql2 x (nth r cents []) <= Ql2 x (nth k cents []))%Q) -> (nearest_dist cents x == Ql2 x (nth r cents []))%Q.
Proof.
  intros Hr M. destruct (nearest_spec cents x) as [L (k & Hk & E)]; [now destruct cents; [cbn in Hr; lia|]|]. pose proof (L r Hr). pose proof (M k Hk). rewrite E in *. lra.
Qed.
Lemma total_as_sum data cents : (total_dist data cents == sum_to (length data) (fun i => nearest_dist cents (nth i data [])))%Q.
Proof. unfold total_dist. induction data as [|x data IH]; [reflexivity|]. cbn [fold_right length]. rewrite sum_to_first, IH. reflexivity. Qed.

Lemma in_firstn {A} n : forall (l : list A) x, In x (firstn n l) -> In x l.
Proof. induction n as [|n IH]; intros [|y l] x; cbn [firstn]; try tauto; [intros []|]. intros [->|I]; [now left|right; auto]. Qed.
Lemma in_skipn {A} n : forall (l : list A) x, In x (skipn n l) -> In x l.
Proof. induction n as [|n IH]; intros [|y l] x; cbn [skipn]; try tauto. intros I. right. auto. Qed.
Section Exact.
Context (big : Q).
Let ar := exact big.
Lemma update_spec rnd cd data assign : 0 < length data -> forall ks p cents p', update_centroids ar rnd cd data assign ks p = Ok (cents, p') ->
  (forall i, i < length ks -> members (combine assign data) (nth i ks 0) <> [] -> nth i cents [] = mean_of cd (members (combine assign data) (nth i ks 0))) /\
  (forall B, rows_of cd data -> bounded B data -> bounded B cents).
Proof.
  intros N. induction ks as [|k ks IH]; intros p cents p' E; cbn [update_centroids] in E; [injection E as <- <-; split; [intros i Hi; cbn in Hi; lia|constructor]|].
  fold (members (combine assign data) k) in E. destruct (members (combine assign data) k) as [|m ms] eqn:EM.
  - assert (H : N.to_nat (r_draw rnd p mod N.of_nat (length data)) < length data) by (pose proof (N.mod_lt (r_draw rnd p) (N.of_nat (length data)) ltac:(lia)); lia).
    rewrite point_ok in E by exact H. cbn [bind] in E. destruct (update_centroids ar rnd cd data assign ks (S p)) as [[c q]| | |] eqn:EU; try discriminate E. cbn [bind fst snd] in E. injection E as <- <-.
    destruct (IH _ _ _ EU) as [I1 I2]. split.
    + intros [|i] Hi NM; cbn [nth] in *; [congruence|]. apply I1; [cbn [length] in Hi; lia|exact NM].
    + intros B R HB. constructor; [now apply bounded_nth|now apply I2].
  - destruct (update_centroids ar rnd cd data assign ks p) as [[c q]| | |] eqn:EU; try discriminate E. cbn [bind fst snd] in E. injection E as <- <-.
    destruct (IH _ _ _ EU) as [I1 I2]. split.
    + intros [|i] Hi NM; cbn [nth] in *; [now rewrite EM|]. apply I1; [cbn [length] in Hi; lia|exact NM].
    + intros B R HB. constructor; [|now apply I2].
      assert (IN : forall x, In x (m :: ms) -> In x data). { intros x I. rewrite <- EM in I. unfold members in I. apply in_map_iff in I as ([? ?] & <- & I). apply filter_In in I as [I _]. now apply in_combine_r in I. }
      apply (mean_of_bounded B cd (m :: ms)); [| |discriminate]; apply Forall_forall; intros x I; apply IN in I; [apply (proj1 (Forall_forall _ _) HB x I)|apply (proj1 (Forall_forall _ _) R x I)].
Qed.
Lemma argmin_exact cd x cents r : length cents = 256 -> rows_of cd cents -> argmin_centroid ar cd x (concat cents) = Ok r ->
  r < 256 /\ ((exists k, k < 256 /\ (Ql2 x (nth k cents []) < big)%Q) -> forall k, k < 256 -> (Ql2 x (nth r cents []) <= Ql2 x (nth k cents []))%Q).
Proof.
  intros L R E. assert (LC : length (concat cents) = 256 * cd) by (now rewrite (concat_length cd _ R), L).
  destruct (argmin_ok ar (lt_trans_exact big) (lt_irr_exact big) cd x _ LC) as (r' & E' & Hr & M). rewrite E in E'. injection E' as <-. split; [exact Hr|].
  assert (DE : forall k, k < 256 -> cd_dist ar cd x (concat cents) k = Ql2 x (nth k cents [])).
  { intros k Hk. unfold cd_dist. cbn [a_l2 ar exact]. rewrite (concat_row cd cents [] R) by lia. reflexivity. }
  intros (k0 & Hk0 & F0) k Hk. assert (X : a_lt ar (Ql2 x (nth k cents [])) (Ql2 x (nth r cents [])) = false).
  { rewrite <- !DE by assumption. apply M; [|exact Hk]. exists k0. split; [exact Hk0|]. rewrite DE by exact Hk0. cbn [a_lt a_max ar exact]. now apply Qlt_bool_true. }
  cbn [a_lt ar exact] in X. now apply Qlt_bool_false in X.
Qed.
(** One iteration does not make the total larger *)
Lemma lloyd_step rnd cd data cents a p new p' B : 0 < length data -> rows_of cd data -> bounded B data -> length cents = 256 -> rows_of cd cents -> bounded B cents ->
  (inject_Z (Z.of_nat cd) * (4 * (B * B)) < big)%Q ->
  each (fun x => argmin_centroid ar cd x (concat cents)) data = Ok a -> update_centroids ar rnd cd data a (seq 0 kCentroids) p = Ok (new, p') ->
  (total_dist data new <= total_dist data cents)%Q.
Proof.
  intros N R HB LC RC BC SM EA EU. apply each_Ok in EA. destruct (update_ok ar rnd cd data a N R (seq 0 kCentroids) p) as (new' & p'' & E' & LN & RN). rewrite EU in E'. injection E' as <- <-.
  rewrite seq_length in LN. unfold kCentroids in LN. destruct (update_spec rnd cd data a N _ _ _ _ EU) as [U _].
  assert (BIG : forall x, In x data -> exists k, k < 256 /\ (Ql2 x (nth k cents []) < big)%Q).
  { intros x I. exists 0. split; [lia|]. eapply Qle_lt_trans; [|exact SM]. pose proof (proj1 (Forall_forall _ _) R x I) as LX. cbv beta in LX. rewrite <- LX.
    apply Ql2_bound; [apply (proj1 (Forall_forall _ _) HB x I)|apply bounded_nth; [exact BC|lia]]. }
  assert (A1 : (total_dist data cents == psum (fun k x => Ql2 x (nth k cents [])) (combine a data))%Q).
  { clear U EU. revert BIG. clear - LC RC EA. unfold psum, total_dist, lsum. induction EA as [|x k data a E EA IH]; intros BIG; [reflexivity|]. cbn [combine fold_right fst snd].
    rewrite IH by (intros; apply BIG; now right). destruct (argmin_exact cd x cents k LC RC E) as [Hk M]. rewrite (nearest_at cents x k); [reflexivity|lia|]. rewrite LC. apply M. apply BIG. now left. }
  assert (K : forall q, In q (combine a data) -> fst q < 256).
  { clear - EA LC RC. induction EA as [|x k data a E EA IH]; intros q I; [inversion I|]. destruct I as [<-|I]; [|now apply IH]. apply (argmin_exact cd x cents k LC RC E). }
  assert (A2 : (total_dist data new <= psum (fun k x => Ql2 x (nth k new [])) (combine a data))%Q).
  { clear U EU. clear - LN EA K. unfold psum, total_dist, lsum. induction EA as [|x k data a E EA IH]; [cbn; lra|]. cbn [combine fold_right fst snd].
    pose proof (IH (fun q I => K q (or_intror I))). destruct (nearest_spec new x) as [L _]; [now destruct new|]. pose proof (L k ltac:(rewrite LN; apply (K (k, x)); now left)). lra. }
  rewrite A1. eapply Qle_trans; [exact A2|]. rewrite !(psum_members _ 256) by exact K. apply sum_to_le. intros k Hk.
  destruct (members (combine a data) k) as [|m ms] eqn:EM; [cbn; lra|]. rewrite <- EM. specialize (U k). unfold kCentroids in U. rewrite seq_length, seq_nth in U by lia. cbn [Nat.add] in U.
  rewrite U by (try lia; rewrite EM; discriminate). apply mean_of_best.
  - apply Forall_forall. intros x I. unfold members in I. apply in_map_iff in I as ([? ?] & <- & I). apply filter_In in I as [I _]. apply in_combine_r in I. apply (proj1 (Forall_forall _ _) R _ I).
  - rewrite EM. discriminate.
  - apply (proj1 (Forall_forall _ _) RC). apply nth_In. lia.
Qed.
Lemma lloyd_S rnd k cd data cents p : lloyd ar rnd (S k) cd data cents p =
  (let* a := each (fun x => argmin_centroid ar cd x (concat cents)) data in let* r := update_centroids ar rnd cd data a (seq 0 kCentroids) p in lloyd ar rnd k cd data (fst r) (snd r)).
Proof. reflexivity. Qed.
Lemma lloyd_O rnd cd data cents p : lloyd ar rnd 0 cd data cents p = Ok cents.
Proof. reflexivity. Qed.
Lemma bind_inv {A B} (x : res A) (f : A -> res B) c : (let* a := x in f a) = Ok c -> exists a, x = Ok a /\ f a = Ok c.
Proof. destruct x as [a| | |]; intros E; try discriminate E. exists a. auto. Qed.
Lemma update_inv {X} rnd cd data a ks p (f : list (list Q) * nat -> res X) c : 0 < length data -> rows_of cd data -> (let* r := update_centroids ar rnd cd data a ks p in f r) = Ok c ->
  exists new p', update_centroids ar rnd cd data a ks p = Ok (new, p') /\ length new = length ks /\ rows_of cd new /\ (forall B, bounded B data -> bounded B new) /\ f (new, p') = Ok c.
Proof.
  intros N R E. apply bind_inv in E as ([new p'] & EU & E). destruct (update_ok ar rnd cd data a N R ks p) as (new' & p'' & EU' & LN & RN). rewrite EU in EU'. injection EU' as <- <-.
  exists new, p'. split; [exact EU|]. split; [exact LN|]. split; [exact RN|]. split; [|exact E]. intros B HB. exact (proj2 (update_spec rnd cd data a N ks p new p' EU) B R HB).
Qed.
Lemma lloyd_step_inv rnd k cd data cents p c : 0 < length data -> rows_of cd data -> lloyd ar rnd (S k) cd data cents p = Ok c ->
  exists a new p', each (fun x => argmin_centroid ar cd x (concat cents)) data = Ok a /\ update_centroids ar rnd cd data a (seq 0 kCentroids) p = Ok (new, p') /\ length new = 256 /\ rows_of cd new /\
    (forall B, bounded B data -> bounded B new) /\ lloyd ar rnd k cd data new p' = Ok c.
Proof.
  intros N R E. rewrite lloyd_S in E. apply bind_inv in E as (a & EA & E). apply (update_inv _ _ _ _ _ _ _ _ N R) in E as (new & p' & EU & LN & RN & BN & E).
  rewrite seq_length in LN. exists a, new, p'. exact (conj EA (conj EU (conj LN (conj RN (conj BN E))))).
Qed.
Lemma lloyd_bounded rnd cd data B : 0 < length data -> rows_of cd data -> bounded B data -> forall iters cents p c, length cents = 256 -> rows_of cd cents -> bounded B cents ->
  lloyd ar rnd iters cd data cents p = Ok c -> bounded B c.
Proof.
  intros N R HB. induction iters as [|k IH]; intros cents p c LC RC BC E; [rewrite lloyd_O in E; now injection E as <-|].
  destruct (lloyd_step_inv _ _ _ _ _ _ _ N R E) as (a & new & p' & EA & EU & LN & RN & BN & E'). apply (IH new p' c); auto.
Qed.
Lemma lloyd_improves rnd cd data B : 0 < length data -> rows_of cd data -> bounded B data -> (inject_Z (Z.of_nat cd) * (4 * (B * B)) < big)%Q ->
  forall more iters cents p c1 c2, length cents = 256 -> rows_of cd cents -> bounded B cents ->
  lloyd ar rnd iters cd data cents p = Ok c1 -> lloyd ar rnd (iters + more) cd data cents p = Ok c2 -> (total_dist data c2 <= total_dist data c1)%Q.
Proof.
  intros N R HB SM more. induction iters as [|k IH]; intros cents p c1 c2 LC RC BC E1 E2.
  - rewrite lloyd_O in E1. injection E1 as <-. cbn [Nat.add] in E2. revert cents p c2 LC RC BC E2. induction more as [|m IHm]; intros cents p c2 LC RC BC E2; [rewrite lloyd_O in E2; injection E2 as <-; lra|].
    destruct (lloyd_step_inv _ _ _ _ _ _ _ N R E2) as (a & new & p' & EA & EU & LN & RN & BN & E').
    assert (S := lloyd_step rnd cd data cents a p new p' B N R HB LC RC BC SM EA EU). assert (X := IHm new p' c2 LN RN (BN B HB) E'). lra.
  - change (S k + more) with (S (k + more)) in E2. destruct (lloyd_step_inv _ _ _ _ _ _ _ N R E1) as (a & new & p' & EA & EU & LN & RN & BN & E').
    destruct (lloyd_step_inv _ _ _ _ _ _ _ N R E2) as (a' & new' & p'' & EA' & EU' & _ & _ & _ & E''). rewrite EA in EA'. injection EA' as <-. rewrite EU in EU'. injection EU' as <- <-.
    apply (IH new p' c1 c2 LN RN (BN B HB) E' E'').
Qed.
Lemma each_in {A B} (f : A -> res B) l ys y : each f l = Ok ys -> In y ys -> exists x, f x = Ok y.
Proof. intros E. apply each_Ok in E. induction E as [|x z l zs H _ IH]; intros I; [inversion I|]. destruct I as [->|I]; eauto. Qed.
Lemma init_bounded rnd data c B : 0 < length data -> bounded B data -> kmeanspp_init rnd data = Ok c -> bounded B c.
Proof.
  intros N HB E. apply Forall_forall. intros x I. destruct (each_in _ _ _ _ E I) as [k F].
  assert (H : r_pick rnd k mod length data < length data) by (apply Nat.mod_upper_bound; lia). rewrite point_ok in F by exact H. injection F as <-. now apply bounded_nth.
Qed.
Lemma chunk_bounded rnd iters cd data B c : 0 < length data -> rows_of cd data -> bounded B data -> train_chunk ar rnd iters cd data = Ok c -> bounded B c.
Proof.
  intros N R HB E. unfold train_chunk in E. destruct (Nat.leb_spec (length data) kCentroids) as [H|H].
  - rewrite point_ok in E by lia. cbn [bind] in E. injection E as <-. apply Forall_app. split; [exact HB|]. apply Forall_forall. intros x I. apply repeat_spec in I as ->. apply bounded_nth; [exact HB|lia].
  - destruct (init_ok rnd cd data N R) as (c0 & E0 & L & RC). rewrite E0 in E. cbn [bind] in E. eapply lloyd_bounded; eauto. eapply init_bounded; eauto.
Qed.
Lemma chunk_improves rnd iters more cd data B c1 c2 : 0 < length data -> rows_of cd data -> bounded B data -> (inject_Z (Z.of_nat cd) * (4 * (B * B)) < big)%Q ->
  train_chunk ar rnd iters cd data = Ok c1 -> train_chunk ar rnd (iters + more) cd data = Ok c2 -> (total_dist data c2 <= total_dist data c1)%Q.
Proof.
  intros N R HB SM E1 E2. unfold train_chunk in E1, E2. destruct (Nat.leb_spec (length data) kCentroids) as [H|H].
  - rewrite E1 in E2. injection E2 as <-. lra.
  - destruct (init_ok rnd cd data N R) as (c0 & E0 & L & RC). rewrite E0 in E1, E2. cbn [bind] in E1, E2. eapply lloyd_improves; eauto. eapply init_bounded; eauto.
Qed.

(** ** The whole table *)
Lemma entry_same (t t' : pq Q) v c k : q_cd t' = q_cd t -> q_centroid t' = q_centroid t -> q_codebook t' = q_codebook t -> entry big t' v c k = entry big t v c k.
Proof. intros E1 E2 E3. unfold entry. now rewrite E1, E2, E3. Qed.
Definition pts (dim chunks : nat) (data : list (list Q)) (c : nat) : list (list Q) := chunk_points (dim / chunks) (map (residual ar (average ar dim data)) data) c.
Lemma trained_entry rnds iters order t data dim chunks t' : 0 < length data -> 0 < dim -> 0 < chunks -> dim mod chunks = 0 -> rows_of dim data -> Permutation order (seq 0 chunks) ->
  train ar rnds iters order t data dim chunks = Ok t' -> q_cd t' = dim / chunks /\ q_centroid t' = average ar dim data /\ rows_of dim (map (residual ar (average ar dim data)) data) /\
  forall c, c < chunks -> exists cents, train_chunk ar (rnds c) iters (dim / chunks) (pts dim chunks data c) = Ok cents /\ length cents = 256 /\ rows_of (dim / chunks) cents /\
    rows_of (dim / chunks) (pts dim chunks data c) /\ length (pts dim chunks data c) = length data /\
    forall k, k < 256 -> firstn (dim / chunks) (skipn ((c * 256 + k) * (dim / chunks)) (q_codebook t')) = nth k cents [].
Proof.
  intros N D C M R P E. destruct (train_ok ar rnds iters order t data dim chunks N D C M R P) as (E' & DM & CP & LG & RR). cbv zeta in E'. rewrite E in E'. injection E' as ->.
  cbn [q_cd q_centroid q_codebook]. split; [reflexivity|]. split; [reflexivity|]. split; [exact RR|]. intros c Hc. set (cd := dim / chunks) in *. set (rs := map (residual ar (average ar dim data)) data) in *.
  assert (RS : rows_of (chunks * cd) rs) by (rewrite <- DM; exact RR). assert (NR : 0 < length rs) by (unfold rs; now rewrite map_length).
  destruct (chunk_points_ok cd chunks rs c RS Hc) as [_ RC]. assert (LP : length (chunk_points cd rs c) = length data) by (unfold chunk_points, rs; now rewrite !map_length).
  destruct (train_chunk_ok ar (rnds c) iters cd (chunk_points cd rs c)) as (cents & EC & LC & RCC); [rewrite LP; exact N|exact RC|].
  exists cents. change (pts dim chunks data c) with (chunk_points cd rs c). split; [exact EC|]. split; [exact LC|]. split; [exact RCC|]. split; [exact RC|]. split; [exact LP|]. intros k Hk.
  set (books := map (chunk_book ar rnds iters cd rs) (seq 0 chunks)).
  assert (FB : Forall (fun r => length r = 256 * cd) books) by (apply Forall_map, Forall_forall; intros x I; apply in_seq in I; apply (chunk_book_length ar _ _ _ chunks); auto; lia).
  assert (LB : length books = chunks) by (unfold books; now rewrite map_length, seq_length).
  pose proof (concat_row (256 * cd) books [] FB c ltac:(lia)) as HR. unfold books in HR at 2. rewrite nth_map_seq in HR by exact Hc.
  assert (EB : chunk_book ar rnds iters cd rs c = concat cents) by (unfold chunk_book; now rewrite EC). rewrite EB in HR.
  rewrite <- (concat_row cd cents [] RCC k) by lia. rewrite <- HR. rewrite skip_cut by nia. do 2 f_equal. lia.
Qed.
Lemma entry_cents t' v c k cd cents : q_cd t' = cd -> (forall k, k < 256 -> firstn cd (skipn ((c * 256 + k) * cd) (q_codebook t')) = nth k cents []) -> k < 256 ->
  entry big t' v c k = Ql2 (firstn cd (skipn (c * cd) (residual ar (q_centroid t') v))) (nth k cents []).
Proof. intros <- H Hk. unfold entry. now rewrite H. Qed.
Lemma pts_nth dim chunks data c i : i < length data -> nth i (pts dim chunks data c) [] = firstn (dim / chunks) (skipn (c * (dim / chunks)) (residual ar (average ar dim data) (nth i data []))).
Proof.
  intros Hi. unfold pts, chunk_points. rewrite map_map. rewrite (nth_indep _ [] ((fun x => firstn (dim / chunks) (skipn (c * (dim / chunks)) (residual ar (average ar dim data) x))) [])) by (now rewrite map_length).
  now rewrite (map_nth (fun x => firstn (dim / chunks) (skipn (c * (dim / chunks)) (residual ar (average ar dim data) x)))).
Qed.
Lemma pts_bounded dim chunks data c B : 0 < length data -> rows_of dim data -> bounded B data -> bounded (2 * B) (pts dim chunks data c).
Proof.
  intros N R HB. apply Forall_forall. intros x I. unfold pts, chunk_points in I. rewrite map_map in I. apply in_map_iff in I as (v & <- & I).
  assert (F : Forall (fun y => - (2 * B) <= y <= 2 * B)%Q (residual ar (average ar dim data) v)).
  { apply Forall_forall. intros y J. apply (In_nth _ _ 0%Q) in J as (d & Hd & <-). pose proof (proj1 (Forall_forall _ _) R v I) as L. cbv beta in L.
    assert (LG : length (average ar dim data) = dim) by (unfold average; now rewrite map_length, seq_length). rewrite (residual_length ar _ _ dim) in Hd by auto.
    rewrite (residual_nth big _ _ dim) by auto. pose proof (proj1 (Forall_forall _ _) (proj1 (Forall_forall _ _) HB v I) (nth d v 0%Q) ltac:(apply nth_In; lia)) as B1. cbv beta in B1.
    unfold average. rewrite nth_map_seq by exact Hd. cbn [a_avg a_zero ar exact]. assert (B2 := mean_bounded B (map (fun v => nth d v 0%Q) data) ltac:(destruct data; [cbn in N; lia|discriminate]) (coords_bounded B dim data d HB R Hd)). lra. }
  apply Forall_forall. intros y J. apply (proj1 (Forall_forall _ _) F). apply in_firstn in J. now apply in_skipn in J.
Qed.
End Exact.
