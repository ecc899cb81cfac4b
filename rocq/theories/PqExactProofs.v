From Coq Require Import Lqa Permutation.
From Verif Require Export PqTableProofs.
Import ListNotations.
Local Open Scope nat_scope.

(** ** Sums *)
Lemma sum_to_ext n f g : (forall i, i < n -> (f i == g i)%Q) -> (sum_to n f == sum_to n g)%Q.
Proof. induction n as [|n IH]; intros H; cbn [sum_to]; [reflexivity|]. rewrite IH by (intros; apply H; lia). rewrite (H n) by lia. reflexivity. Qed.
Lemma sum_to_le n f g : (forall i, i < n -> (f i <= g i)%Q) -> (sum_to n f <= sum_to n g)%Q.
Proof. induction n as [|n IH]; intros H; cbn [sum_to]; [lra|]. pose proof (IH (fun i Hi => H i (Nat.lt_lt_succ_r _ _ Hi))). pose proof (H n (Nat.lt_succ_diag_r n)). lra. Qed.
Lemma sum_to_zero n f : (forall i, i < n -> (f i == 0)%Q) -> (sum_to n f == 0)%Q.
Proof. intros H. rewrite (sum_to_ext n f (fun _ => 0%Q) H). induction n as [|n IH]; cbn [sum_to]; [reflexivity|]. rewrite IH; [ring|]. intros i Hi. apply H. lia. Qed.
Lemma sum_to_plus n f g : (sum_to n (fun i => f i + g i) == sum_to n f + sum_to n g)%Q.
Proof. induction n as [|n IH]; cbn [sum_to]; [ring|]. rewrite IH. ring. Qed.
Lemma sum_to_app m n f : (sum_to (m + n) f == sum_to m f + sum_to n (fun i => f (m + i)%nat))%Q.
Proof. induction n as [|n IH]; [rewrite Nat.add_0_r; cbn [sum_to]; ring|]. rewrite Nat.add_succ_r. cbn [sum_to]. rewrite IH. ring. Qed.
Lemma sum_to_first n f : (sum_to (S n) f == f 0%nat + sum_to n (fun i => f (S i)))%Q.
Proof. induction n as [|n IH]; [cbn [sum_to]; ring|]. change (sum_to (S (S n)) f) with (sum_to (S n) f + f (S n))%Q. rewrite IH. cbn [sum_to]. ring. Qed.
Lemma sum_to_blocks m k f : (sum_to (m * k) f == sum_to m (fun c => sum_to k (fun j => f (c * k + j)%nat)))%Q.
Proof. induction m as [|m IH]; [reflexivity|]. cbn [sum_to]. replace (S m * k) with (m * k + k) by lia. rewrite sum_to_app, IH. reflexivity. Qed.
Lemma fold_sum f n : (fold_left (fun s c => s + f c) (seq 0 n) 0 == sum_to n f)%Q.
Proof. induction n as [|n IH]; [reflexivity|]. rewrite (seq_S n 0), fold_left_app. cbn [fold_left sum_to Nat.add]. rewrite IH. reflexivity. Qed.
Lemma sum_to_nonneg n f : (forall i, i < n -> (0 <= f i)%Q) -> (0 <= sum_to n f)%Q.
Proof. intros H. pose proof (sum_to_le n (fun _ => 0%Q) f H) as L. rewrite (sum_to_zero n (fun _ => 0%Q)) in L by reflexivity. exact L. Qed.
Lemma sq_nonneg (x : Q) : (0 <= x * x)%Q.
Proof. destruct (Qlt_le_dec x 0); nra. Qed.
Lemma Ql2_nonneg a : forall b, (0 <= Ql2 a b)%Q.
Proof. induction a as [|x a IH]; intros [|y b]; cbn [Ql2]; try lra. pose proof (IH b). pose proof (sq_nonneg (x - y)). lra. Qed.
Lemma Ql2_refl a : (Ql2 a a == 0)%Q.
Proof. induction a as [|x a IH]; cbn [Ql2]; [reflexivity|]. rewrite IH. ring. Qed.
Lemma sq_zero (x : Q) : (x * x <= 0)%Q -> (x == 0)%Q.
Proof. intros H. destruct (Q_dec x 0) as [[C|C]|C]; [nra|nra|exact C]. Qed.
Lemma Ql2_zero a : forall b, length a = length b -> (Ql2 a b <= 0)%Q -> forall j, (nth j a 0 == nth j b 0)%Q.
Proof.
  induction a as [|x a IH]; intros [|y b] L H j; try discriminate L; [reflexivity|]. cbn [Ql2] in H. pose proof (Ql2_nonneg a b). pose proof (sq_nonneg (x - y)).
  destruct j as [|j]; cbn [nth]; [|apply IH; [now injection L|lra]]. assert (E : (x - y == 0)%Q) by (apply sq_zero; lra). lra.
Qed.
Lemma Ql2_sum a : forall b n, length a = n -> length b = n -> (Ql2 a b == sum_to n (fun j => (nth j a 0 - nth j b 0) * (nth j a 0 - nth j b 0)))%Q.
Proof.
  induction a as [|x a IH]; intros [|y b] n LA LB; subst n; try discriminate LB; [reflexivity|]. cbn [Ql2 length]. rewrite sum_to_first. cbn [nth].
  rewrite (IH b (length a)) by (auto; now injection LB). reflexivity.
Qed.
Lemma Qlt_bool_true a b : negb (Qle_bool b a) = true <-> (a < b)%Q.
Proof. destruct (Qle_bool b a) eqn:E; cbn; [apply Qle_bool_iff in E; split; [discriminate|lra]|]. split; [|reflexivity]. intros _. apply Qnot_le_lt. intros C. apply Qle_bool_iff in C. congruence. Qed.
Lemma Qlt_bool_false a b : negb (Qle_bool b a) = false <-> (b <= a)%Q.
Proof. destruct (Qle_bool b a) eqn:E; cbn; [apply Qle_bool_iff in E; tauto|]. split; [discriminate|]. intros C. apply Qle_bool_iff in C. congruence. Qed.

Section Exact.
Context (big : Q).
Let ar := exact big.
Lemma lt_trans_exact a b c : a_lt ar a b = true -> a_lt ar b c = true -> a_lt ar a c = true.
Proof. cbn [a_lt ar exact]. rewrite !Qlt_bool_true. lra. Qed.
Lemma lt_irr_exact a : a_lt ar a a = false.
Proof. cbn [a_lt ar exact]. rewrite Qlt_bool_false. lra. Qed.

(** ** Distances by lookup *)
Definition entry (t : pq Q) (v : list Q) (c k : nat) : Q :=
  Ql2 (firstn (q_cd t) (skipn (c * q_cd t) (residual ar (q_centroid t) v))) (firstn (q_cd t) (skipn ((c * 256 + k) * q_cd t) (q_codebook t))).
Lemma residual_nth g v n d : length g = n -> length v = n -> d < n -> nth d (residual ar g v) 0%Q = (nth d v 0 - nth d g 0)%Q.
Proof.
  intros <- V H. unfold residual. revert v d V H. induction g as [|y g IH]; intros [|x v] d V H; try discriminate V; [cbn in H; lia|].
  destruct d as [|d]; [reflexivity|]. apply (IH v d); [now injection V|cbn [length] in H; lia].
Qed.
Lemma entry_dist (t : pq Q) v c k : shaped t -> length v = q_dim t -> c < q_chunks t -> k < 256 -> (entry t v c k == chunk_dist t v c k)%Q.
Proof.
  intros S L Hc Hk. destruct S as (P1 & P2 & D & G & B). unfold entry, chunk_dist.
  assert (BR : c * q_cd t + q_cd t <= length (residual ar (q_centroid t) v)) by (rewrite (residual_length ar _ _ (q_dim t)) by auto; rewrite D; nia).
  assert (BC : (c * 256 + k) * q_cd t + q_cd t <= length (q_codebook t)) by (rewrite B; pose proof (rows_index c k (q_chunks t) 256 Hc Hk); nia).
  rewrite (Ql2_sum _ _ (q_cd t)) by (apply cut_length; assumption). apply sum_to_ext. intros j Hj. rewrite !nth_cut by exact Hj. cbv zeta. unfold decoded, coord. cbv zeta.
  destruct (split_index c j (q_cd t) Hj) as [-> ->]. rewrite (residual_nth _ _ (q_dim t)) by (auto; rewrite D; now apply rows_index). ring.
Qed.
Lemma dist_chunks (t : pq Q) v row : shaped t -> (sq_dist (q_dim t) (coord v) (decoded t row) == sum_to (q_chunks t) (fun c => chunk_dist t v c (row c)))%Q.
Proof.
  intros (P1 & P2 & D & G & B). unfold sq_dist. rewrite D, sum_to_blocks. apply sum_to_ext. intros c Hc. unfold chunk_dist. apply sum_to_ext. intros j Hj. cbv zeta.
  unfold decoded. cbv zeta. destruct (split_index c j (q_cd t) Hj) as [-> ->]. reflexivity.
Qed.
Lemma preprocess_ok (t : pq Q) v : shaped t -> length v = q_dim t -> exists table, preprocess_query ar t v = Ok table /\ length table = q_chunks t * 256 /\
  forall c k, c < q_chunks t -> k < 256 -> nth (c * 256 + k) table 0%Q = entry t v c k.
Proof.
  intros S L. set (rows := map (fun c => map (fun k => entry t v c k) (seq 0 kCentroids)) (seq 0 (q_chunks t))). exists (concat rows).
  assert (F : Forall (fun r => length r = 256) rows) by (apply Forall_map, Forall_forall; intros c _; now rewrite map_length, seq_length).
  assert (LR : length rows = q_chunks t) by (unfold rows; now rewrite map_length, seq_length). split; [|split].
  - unfold preprocess_query. destruct S as (P1 & P2 & D & G & B). rewrite (each_map _ (fun c => map (fun k => entry t v c k) (seq 0 kCentroids))); [reflexivity|].
    intros c I. apply in_seq in I. rewrite slice_ok by (rewrite (residual_length ar _ _ (q_dim t)) by auto; rewrite D; nia). cbn [bind].
    apply each_map. intros k I'. apply in_seq in I'. unfold kCentroids in I'. change (c * kCentroids * q_cd t + k * q_cd t) with (c * 256 * q_cd t + k * q_cd t).
    replace (c * 256 * q_cd t + k * q_cd t) with ((c * 256 + k) * q_cd t) by lia.
    rewrite slice_ok by (rewrite B; pose proof (rows_index c k (q_chunks t) 256 ltac:(lia) ltac:(lia)); nia). reflexivity.
  - now rewrite (concat_length 256 _ F), LR.
  - intros c k Hc Hk. rewrite (concat_nth 256 _ _ F) by (rewrite ?LR; assumption). unfold rows. rewrite nth_map_seq by exact Hc. now apply nth_map_seq.
Qed.
Lemma fold_left_ext {A B} (f g : A -> B -> A) l : (forall s x, In x l -> f s x = g s x) -> forall s, fold_left f l s = fold_left g l s.
Proof. induction l as [|x l IH]; intros H s; [reflexivity|]. cbn [fold_left]. rewrite (H s x) by now left. apply IH. intros; apply H; now right. Qed.
Lemma pq_distance_entries (t : pq Q) v id : shaped t -> coded t -> length v = q_dim t -> id < q_points t ->
  exists table r, preprocess_query ar t v = Ok table /\ pq_distance ar t id table = Ok r /\ (r == sq_dist (q_dim t) (coord v) (decoded t (code t id)))%Q.
Proof.
  intros S C L Hi. destruct (preprocess_ok t v S L) as (table & E & LT & N). exists table, (table_sum ar t table id). split; [exact E|]. split; [now apply pq_distance_ok|].
  rewrite dist_chunks by exact S. unfold table_sum. change (a_zero ar) with 0%Q. change (a_add ar) with Qplus.
  rewrite (fold_left_ext _ (fun s c => (s + entry t v c (code t id c))%Q)).
  - rewrite fold_sum. apply sum_to_ext. intros c Hc. apply entry_dist; auto. now apply code_bound.
  - intros s c I. apply in_seq in I. rewrite N; [reflexivity|lia|]. apply code_bound; auto. lia.
Qed.
Lemma sym_sum_ok (t : pq Q) lhs rhs (a b : nat -> N) cs s : (forall c, In c cs -> lhs c = Ok (a c) /\ rhs c = Ok (b c) /\ (a c < 256)%N /\ (b c < 256)%N /\ c < q_chunks t) ->
  q_sym t = sym_table ar t ->
  sym_sum ar t lhs rhs cs s = Ok (fold_left (fun s c => (s + sym_entry ar t c (N.to_nat (a c)) (N.to_nat (b c)))%Q) cs s).
Proof.
  intros H E. revert s. induction cs as [|c cs IH]; intros s; cbn [sym_sum fold_left]; [reflexivity|]. destruct (H c) as (-> & -> & A & B & C); [now left|]. cbn [bind].
  assert (X : N.to_nat (N.of_nat (c * kCentroids) * 256 + a c * 256 + b c) = c * (256 * 256) + (N.to_nat (a c) * 256 + N.to_nat (b c))).
  { change (c * kCentroids) with (c * 256). rewrite !N2Nat.inj_add, !N2Nat.inj_mul, Nat2N.id. change (N.to_nat 256) with 256. lia. }
  assert (LB : N.to_nat (N.of_nat (c * kCentroids) * 256 + a c * 256 + b c) < length (sym_table ar t)).
  { rewrite X, sym_table_length. apply rows_index; [exact C|]. apply rows_index; lia. }
  rewrite E. rewrite (aget_nth _ _ 0%Q) by lia. cbn [bind]. rewrite X, sym_table_nth by lia. apply IH. intros x I. apply H. now right.
Qed.
Lemma sym_dist (t : pq Q) (x y : nat -> nat) : shaped t -> (forall c, c < q_chunks t -> x c < 256 /\ y c < 256) ->
  (sq_dist (q_dim t) (decoded t x) (decoded t y) == sum_to (q_chunks t) (fun c => sym_entry ar t c (x c) (y c)))%Q.
Proof.
  intros (P1 & P2 & D & G & B) H. unfold sq_dist. rewrite D, sum_to_blocks. apply sum_to_ext. intros c Hc. destruct (H c Hc) as [HX HY]. unfold sym_entry. cbn [a_l2 ar exact].
  rewrite (Ql2_sum _ _ (q_cd t)) by (apply cut_length; rewrite B; match goal with |- (c * 256 + ?k) * _ + _ <= _ => pose proof (rows_index c k (q_chunks t) 256 Hc ltac:(assumption)) end; nia).
  apply sum_to_ext. intros j Hj. rewrite !nth_cut by exact Hj. unfold decoded. cbv zeta. destruct (split_index c j (q_cd t) Hj) as [-> ->]. ring.
Qed.
Lemma symmetric_exact (t : pq Q) i j : shaped t -> coded t -> q_sym t = sym_table ar t -> i < q_points t -> j < q_points t ->
  exists r, pq_symmetric_distance ar t i j = Ok r /\ (r == sq_dist (q_dim t) (decoded t (code t i)) (decoded t (code t j)))%Q.
Proof.
  intros S C E Hi Hj. exists (fold_left (fun s c => (s + sym_entry ar t c (code t i c) (code t j c))%Q) (seq 0 (q_chunks t)) 0%Q). split.
  - unfold pq_symmetric_distance, sym_from_code. rewrite (proj2 (Nat.leb_gt _ _) Hi), (proj2 (Nat.leb_gt _ _) Hj). cbn [orb].
    assert (NE : q_sym t <> []). { rewrite E. intros X. pose proof (sym_table_length ar t) as L. rewrite X in L. cbn [length] in L. destruct S as (_ & P2 & _). assert (0 < q_chunks t * (256 * 256)) by (apply Nat.mul_pos_pos; [exact P2|apply Nat.ltb_lt; reflexivity]). lia. }
    assert (M : forall X : res Q, match q_sym t with [] => Throws | _ => X end = X) by (intros X; destruct (q_sym t); [congruence|reflexivity]). rewrite M.
    rewrite (sym_sum_ok t _ _ (fun c => nth (i * q_chunks t + c) (q_codes t) 0%N) (fun c => nth (j * q_chunks t + c) (q_codes t) 0%N)); [reflexivity| |exact E].
    intros c I. apply in_seq in I. destruct (code_bound t i c C Hi ltac:(lia)) as [B1 K1]. destruct (code_bound t j c C Hj ltac:(lia)) as [B2 K2]. unfold code in K1, K2.
    rewrite !(aget_nth _ _ 0%N) by lia. rewrite !Nat2N.id. repeat split; lia.
  - rewrite fold_sum. symmetry. apply sym_dist; [exact S|]. intros c Hc. split; apply code_bound; auto.
Qed.

(** ** Codes *)
Lemma nearest_entry (t : pq Q) v c b : shaped t -> length v = q_dim t -> c < q_chunks t ->
  nearest_centroid ar t (firstn (q_cd t) (skipn (c * q_cd t) (residual ar (q_centroid t) v))) c = Ok b ->
  (exists k, k < 256 /\ (entry t v c k < big)%Q) -> forall k, k < 256 -> (entry t v c (N.to_nat b) <= entry t v c k)%Q.
Proof.
  intros S L Hc E (k0 & Hk0 & F0) k Hk. set (x := firstn (q_cd t) (skipn (c * q_cd t) (residual ar (q_centroid t) v))) in *.
  destruct (nearest_ok ar t x c S Hc) as (r & Hr & E' & EA). rewrite E in E'. injection E' as ->. rewrite Nat2N.id.
  destruct S as (P1 & P2 & D & G & B). assert (R : c * 256 * q_cd t + 256 * q_cd t <= length (q_codebook t)) by (rewrite B; nia).
  destruct (argmin_ok ar lt_trans_exact lt_irr_exact (q_cd t) x _ (cut_length _ _ _ R)) as (r' & E2 & _ & M). rewrite EA in E2. injection E2 as <-.
  assert (DE : forall k, k < 256 -> cd_dist ar (q_cd t) x (firstn (256 * q_cd t) (skipn (c * 256 * q_cd t) (q_codebook t))) k = entry t v c k).
  { intros k' Hk'. unfold cd_dist, entry. cbn [a_l2 ar exact]. fold x. rewrite skip_cut by nia. do 3 f_equal. lia. }
  assert (X : a_lt ar (entry t v c k) (entry t v c r) = false).
  { rewrite <- !DE by assumption. apply M; [|exact Hk]. exists k0. split; [exact Hk0|]. rewrite DE by exact Hk0. cbn [a_lt a_max ar exact]. now apply Qlt_bool_true. }
  cbn [a_lt ar exact] in X. now apply Qlt_bool_false in X.
Qed.
Lemma row_code_nearest (t : pq Q) v c : shaped t -> length v = q_dim t -> c < q_chunks t ->
  nearest_centroid ar t (firstn (q_cd t) (skipn (c * q_cd t) (residual ar (q_centroid t) v))) c = Ok (nth c (row_code ar t v) 0%N).
Proof.
  intros S L Hc. destruct (row_code_ok ar t v S L) as (E & _). destruct (encode_row_ok ar t (residual ar (q_centroid t) v) S) as (row & E' & _ & _ & H); [apply residual_length; [apply S|exact L]|].
  rewrite E in E'. injection E' as ->. auto.
Qed.
(** The codes that encode writes *)
Lemma encoded_ok (t : pq Q) data order : shaped t -> rows_of (q_dim t) data -> 0 < length data -> Permutation order (seq 0 (blocks_of (length data))) ->
  exists t', encode ar order t data = Ok t' /\ shaped t' /\ coded t' /\ q_points t' = length data /\ q_sym t' = sym_table ar t' /\
    q_dim t' = q_dim t /\ q_chunks t' = q_chunks t /\ q_cd t' = q_cd t /\ q_centroid t' = q_centroid t /\ q_codebook t' = q_codebook t /\ q_codes t' = all_codes ar t data /\
    forall i c, i < length data -> c < q_chunks t -> code t' i c = N.to_nat (nth c (row_code ar t (nth i data [])) 0%N).
Proof.
  intros S R N P. set (t1 := with_codes t (length data) (all_codes ar t data)). exists (with_sym t1 (sym_table ar t1)). pose proof (all_codes_rows ar t data S R) as RL.
  split.
  { unfold encode. assert (M : forall X : res (pq Q), match q_codebook t with [] => Throws | _ => X end = X) by (intros X; pose proof (codebook_nonempty t S); destruct (q_codebook t); [congruence|reflexivity]).
    rewrite M, (proj2 (Nat.eqb_neq _ _)) by lia. rewrite encode_all by auto. cbn [bind]. apply build_symmetric_ok. exact S. }
  split; [exact S|]. split; [split; cbn [q_codes q_points q_chunks with_sym with_codes t1]|].
  - unfold all_codes. now rewrite (concat_length _ _ RL), map_length.
  - now apply all_codes_bytes.
  - do 8 (split; [reflexivity|]). intros i c Hi Hc. unfold code. cbn [q_codes q_chunks with_sym with_codes t1]. unfold all_codes.
    rewrite (concat_nth _ _ _ RL) by (rewrite ?map_length; assumption). do 2 f_equal. rewrite (nth_indep _ [] (row_code ar t [])) by (rewrite map_length; exact Hi). apply map_nth.
Qed.
End Exact.
