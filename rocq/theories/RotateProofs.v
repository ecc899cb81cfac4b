(** Proofs about the rotations. *)
From Coq Require Import Lra Lia List.
From Verif Require Export RotateModel RotateSpec.
Import ListNotations.
Local Open Scope R_scope.

(** ** Inner products *)
Lemma dot_app a b c d : length a = length c -> dot (a ++ b) (c ++ d) = dot a c + dot b d.
Proof. revert c. induction a as [|x a IH]; intros [|y c] H; cbn in *; try lia; [lra|]. rewrite IH by lia. lra. Qed.
Lemma dot_zeros n m : dot (repeat 0 n) (repeat 0 m) = 0.
Proof. revert m. induction n as [|n IH]; intros [|m]; cbn; try reflexivity. rewrite IH. lra. Qed.
Lemma dot_scale x y c : dot (map (fun a => a * c) x) (map (fun a => a * c) y) = c * c * dot x y.
Proof. revert y. induction x as [|a x IH]; intros [|b y]; cbn; try lra. rewrite IH. lra. Qed.
Lemma dist2_dot x y : length x = length y -> dist2 x y = dot x x - 2 * dot x y + dot y y.
Proof. revert y. induction x as [|a x IH]; intros [|b y] H; cbn in *; try lia; [lra|]. rewrite IH by lia. lra. Qed.
Lemma zip_length f x y : length x = length y -> length (zip f x y) = length x.
Proof. revert y. induction x as [|a x IH]; intros [|b y] H; cbn in *; try lia. now rewrite IH by lia. Qed.
Lemma dot_zip a b c d : length a = length b -> length c = length d -> length a = length c ->
  dot (zip Rplus a b) (zip Rplus c d) + dot (zip Rminus a b) (zip Rminus c d) = 2 * (dot a c + dot b d).
Proof.
  revert b c d. induction a as [|x a IH]; intros [|y b] [|z c] [|w d] H1 H2 H3; cbn in *; try lia; [lra|].
  specialize (IH b c d ltac:(lia) ltac:(lia) ltac:(lia)). lra.
Qed.
Lemma pow2_pos n : (0 < 2 ^ n)%nat.
Proof. induction n; cbn; lia. Qed.
Lemma wh_length n : forall v, length v = (2 ^ n)%nat -> length (walsh_hadamard n v) = (2 ^ n)%nat.
Proof.
  induction n as [|n IH]; intros v H; [exact H|]. cbn [walsh_hadamard Nat.pow] in *.
  assert (H1 : length (walsh_hadamard n (firstn (2 ^ n) v)) = (2 ^ n)%nat) by (apply IH; rewrite firstn_length; lia).
  assert (H2 : length (walsh_hadamard n (skipn (2 ^ n) v)) = (2 ^ n)%nat) by (apply IH; rewrite skipn_length; lia).
  rewrite app_length, !zip_length by lia. lia.
Qed.
Lemma wh_dot n : forall x y, length x = (2 ^ n)%nat -> length y = (2 ^ n)%nat -> dot (walsh_hadamard n x) (walsh_hadamard n y) = INR (2 ^ n) * dot x y.
Proof.
  induction n as [|n IH]; intros x y Hx Hy; [cbn; lra|]. cbn [walsh_hadamard]. cbn [Nat.pow] in Hx, Hy.
  assert (L : forall v : list R, length v = (2 ^ n + (2 ^ n + 0))%nat -> length (firstn (2 ^ n) v) = (2 ^ n)%nat /\ length (skipn (2 ^ n) v) = (2 ^ n)%nat)
    by (intros v H; rewrite firstn_length, skipn_length; lia).
  destruct (L x Hx) as [X1 X2]. destruct (L y Hy) as [Y1 Y2].
  pose proof (wh_length n _ X1). pose proof (wh_length n _ X2). pose proof (wh_length n _ Y1). pose proof (wh_length n _ Y2).
  rewrite dot_app by (rewrite !zip_length by lia; lia). rewrite dot_zip by lia. rewrite !IH by assumption.
  replace (dot x y) with (dot (firstn (2 ^ n) x) (firstn (2 ^ n) y) + dot (skipn (2 ^ n) x) (skipn (2 ^ n) y))
    by (rewrite <- dot_app by lia; now rewrite !firstn_skipn).
  replace (2 ^ S n)%nat with (2 ^ n + 2 ^ n)%nat by (cbn [Nat.pow]; lia). rewrite plus_INR. lra.
Qed.

(** ** The transform *)
Lemma aget_mid_eq {A} (pre : list A) x post i : i = length pre -> aget (pre ++ x :: post) (N.of_nat i) = Ok x.
Proof. intros ->. unfold aget. rewrite Nnat.Nat2N.id, nth_error_app2, Nat.sub_diag by lia. reflexivity. Qed.
Lemma upd_mid {A} (pre : list A) x post y : upd (pre ++ x :: post) (length pre) y = pre ++ y :: post.
Proof. induction pre as [|a pre IH]; cbn; [reflexivity|]. now rewrite IH. Qed.
Lemma aput_mid_eq {A} (pre : list A) x post i y : i = length pre -> aput (pre ++ x :: post) (N.of_nat i) y = Ok (pre ++ y :: post).
Proof. intros ->. rewrite aput_ok by (rewrite app_length; cbn [length]; lia). rewrite Nnat.Nat2N.id. now rewrite upd_mid. Qed.

Lemma butterflies_spec : forall A B pre S M post half, length A = length B -> half = (length A + length M)%nat -> length S = length M ->
  butterflies (pre ++ S ++ A ++ M ++ B ++ post) (length pre + length S) half (length A) = Ok (pre ++ S ++ zip Rplus A B ++ M ++ zip Rminus A B ++ post).
Proof.
  induction A as [|a A IH]; intros [|b B] pre SS M post half L1 LH LS; cbn [length] in *; try lia; cbn [butterflies zip app]; [reflexivity|].
  unfold butterfly. rewrite app_assoc.
  rewrite (aget_mid_eq (pre ++ SS) a) by (rewrite app_length; lia). cbn [bind].
  replace ((pre ++ SS) ++ a :: A ++ M ++ b :: B ++ post) with ((pre ++ SS ++ a :: A ++ M) ++ b :: B ++ post)
    by (rewrite <- !app_assoc; cbn [app]; rewrite <- !app_assoc; reflexivity).
  rewrite (aget_mid_eq _ b) by (repeat (rewrite app_length; cbn [length]); lia). cbn [bind].
  replace ((pre ++ SS ++ a :: A ++ M) ++ b :: B ++ post) with ((pre ++ SS) ++ a :: A ++ M ++ b :: B ++ post)
    by (rewrite <- !app_assoc; cbn [app]; rewrite <- !app_assoc; reflexivity).
  rewrite (aput_mid_eq (pre ++ SS) a) by (rewrite app_length; lia). cbn [bind].
  replace ((pre ++ SS) ++ (a + b) :: A ++ M ++ b :: B ++ post) with ((pre ++ SS ++ (a + b) :: A ++ M) ++ b :: B ++ post)
    by (rewrite <- !app_assoc; cbn [app]; rewrite <- !app_assoc; reflexivity).
  rewrite (aput_mid_eq _ b) by (repeat (rewrite app_length; cbn [length]); lia). cbn [bind].
  specialize (IH B pre (SS ++ [a + b]) (M ++ [a - b]) post half ltac:(lia) ltac:(rewrite app_length; cbn; lia) ltac:(rewrite !app_length; cbn; lia)).
  rewrite app_length in IH. cbn [length] in IH. replace (length pre + (length SS + 1))%nat with (S (length pre + length SS)) in IH by lia.
  repeat (rewrite <- !app_assoc in IH; cbn [app] in IH). repeat (rewrite <- !app_assoc; cbn [app]).
  exact IH.
Qed.
Lemma block_spec pre A B post half : length A = half -> length B = half ->
  butterflies (pre ++ A ++ B ++ post) (length pre) half half = Ok (pre ++ zip Rplus A B ++ zip Rminus A B ++ post).
Proof.
  intros HA HB. pose proof (butterflies_spec A B pre [] [] post half ltac:(lia) ltac:(cbn; lia) eq_refl) as H.
  cbn [app length] in H. rewrite Nat.add_0_r, HA in H. exact H.
Qed.
(** The blocks of a list. *)
Fixpoint chunks (n size : nat) (v : list R) : list (list R) := match n with O => [] | S k => firstn size v :: chunks k size (skipn size v) end.
Lemma chunks_concat n size : forall v, length v = (n * size)%nat -> concat (chunks n size v) = v.
Proof.
  induction n as [|n IH]; intros v H; cbn [chunks concat]; [destruct v; [reflexivity|cbn in H; lia]|].
  rewrite IH by (rewrite skipn_length; cbn in H; lia). apply firstn_skipn.
Qed.
Lemma chunks_len n size : forall v, length v = (n * size)%nat -> Forall (fun c => length c = size) (chunks n size v).
Proof.
  induction n as [|n IH]; intros v H; cbn [chunks]; constructor; [rewrite firstn_length; cbn in H; lia|]. apply IH. rewrite skipn_length. cbn in H. lia.
Qed.
Lemma wh_step i c : length c = (2 * 2 ^ i)%nat ->
  walsh_hadamard (S i) c = zip Rplus (walsh_hadamard i (firstn (2 ^ i) c)) (walsh_hadamard i (skipn (2 ^ i) c))
    ++ zip Rminus (walsh_hadamard i (firstn (2 ^ i) c)) (walsh_hadamard i (skipn (2 ^ i) c)).
Proof. reflexivity. Qed.
Lemma blocks_spec i : forall n pre v post, length v = (n * (2 * 2 ^ i))%nat ->
  fht_blocks (pre ++ flat_map (fun c => walsh_hadamard i (firstn (2 ^ i) c) ++ walsh_hadamard i (skipn (2 ^ i) c)) (chunks n (2 * 2 ^ i) v) ++ post) (length pre) (2 ^ i) n
  = Ok (pre ++ flat_map (walsh_hadamard (S i)) (chunks n (2 * 2 ^ i) v) ++ post).
Proof.
  induction n as [|n IH]; intros pre v post H; cbn [fht_blocks chunks flat_map]; [reflexivity|].
  set (c := firstn (2 * 2 ^ i) v). assert (LC : length c = (2 * 2 ^ i)%nat) by (subst c; rewrite firstn_length; cbn in *; lia).
  set (A := walsh_hadamard i (firstn (2 ^ i) c)). set (B := walsh_hadamard i (skipn (2 ^ i) c)).
  assert (LA : length A = (2 ^ i)%nat) by (apply wh_length; rewrite firstn_length; lia).
  assert (LB : length B = (2 ^ i)%nat) by (apply wh_length; rewrite skipn_length; lia).
  rewrite <- !app_assoc. rewrite block_spec by assumption. cbn [bind].
  rewrite (wh_step i c LC). fold A B.
  assert (LZ : length (zip Rplus A B ++ zip Rminus A B) = (2 * 2 ^ i)%nat) by (rewrite app_length, !zip_length by lia; lia).
  specialize (IH (pre ++ zip Rplus A B ++ zip Rminus A B) (skipn (2 * 2 ^ i) v) post ltac:(rewrite skipn_length; cbn in *; lia)).
  rewrite app_length, LZ in IH. repeat rewrite <- app_assoc in IH. repeat rewrite <- app_assoc. exact IH.
Qed.
Lemma chunks_split i : forall n v, length v = (n * (2 * 2 ^ i))%nat ->
  flat_map (walsh_hadamard i) (chunks (2 * n) (2 ^ i) v)
  = flat_map (fun c => walsh_hadamard i (firstn (2 ^ i) c) ++ walsh_hadamard i (skipn (2 ^ i) c)) (chunks n (2 * 2 ^ i) v).
Proof.
  induction n as [|n IH]; intros v H; [reflexivity|]. replace (2 * S n)%nat with (S (S (2 * n))) by lia. cbn [chunks flat_map].
  rewrite app_assoc. f_equal.
  - f_equal; f_equal.
    + rewrite firstn_firstn. f_equal. lia.
    + replace (2 * 2 ^ i)%nat with (2 ^ i + 2 ^ i)%nat by lia. now rewrite skipn_firstn_comm, Nat.add_sub.
  - rewrite <- IH by (rewrite skipn_length; cbn in *; lia). do 2 f_equal.
    assert (SS : forall (a b : nat) (l : list R), skipn a (skipn b l) = skipn (b + a) l).
    { intros a b. induction b as [|b IHb]; intros l; [reflexivity|]. destruct l; [now rewrite !skipn_nil|]. cbn. apply IHb. }
    rewrite SS. f_equal. lia.
Qed.
Lemma rounds_spec log_n v post : length v = (2 ^ log_n)%nat -> forall left done, (done + left = log_n)%nat ->
  fht_rounds (flat_map (walsh_hadamard done) (chunks (2 ^ left) (2 ^ done) v) ++ post) log_n done left = Ok (walsh_hadamard log_n v ++ post).
Proof.
  intros H. induction left as [|k IH]; intros done E; cbn [fht_rounds].
  - assert (done = log_n) by lia. subst done. cbn [Nat.pow chunks flat_map]. rewrite app_nil_r. now rewrite firstn_all2 by lia.
  - assert (PW : (2 ^ log_n = 2 ^ k * (2 * 2 ^ done))%nat).
    { rewrite <- E, Nat.pow_add_r. cbn [Nat.pow]. lia. }
    assert (DV : (2 ^ log_n / (2 * 2 ^ done) = 2 ^ k)%nat) by (rewrite PW; apply Nat.div_mul; pose proof (pow2_pos done); lia).
    rewrite DV. replace (2 ^ S k)%nat with (2 * 2 ^ k)%nat by reflexivity. rewrite chunks_split by (rewrite H; exact PW).
    pose proof (blocks_spec done (2 ^ k) [] v post ltac:(rewrite H; exact PW)) as BS. cbn [app length] in BS. rewrite BS. cbn [bind].
    replace (2 * 2 ^ done)%nat with (2 ^ S done)%nat by reflexivity. apply IH. lia.
Qed.
Lemma fht_spec log_n v post : length v = (2 ^ log_n)%nat -> fht log_n (v ++ post) = Ok (walsh_hadamard log_n v ++ post).
Proof.
  intros H. unfold fht. rewrite <- (rounds_spec log_n v post H log_n 0 ltac:(lia)). do 2 f_equal. cbn [walsh_hadamard Nat.pow].
  rewrite (flat_map_concat_map (fun v => v)), map_id. rewrite chunks_concat by lia. reflexivity.
Qed.

(** ** Parts of the rotations *)
(** Each part turns a list of [n] into a list of [n], multiplying every inner product by [c]. *)
Definition scales (n : nat) (c : R) (f : list R -> res (list R)) : Prop :=
  exists g, (forall v, length v = n -> f v = Ok (g v) /\ length (g v) = n) /\
            (forall x y, length x = n -> length y = n -> dot (g x) (g y) = c * dot x y).
Lemma scales_bind n c d f g : scales n c f -> scales n d g -> scales n (d * c) (fun v => let* w := f v in g w).
Proof.
  intros (f' & F1 & F2) (g' & G1 & G2). exists (fun v => g' (f' v)). split.
  - intros v H. destruct (F1 v H) as [E L]. rewrite E. cbn [bind]. apply G1, L.
  - intros x y Hx Hy. destruct (F1 x Hx) as [_ Lx]. destruct (F1 y Hy) as [_ Ly]. rewrite G2, F2 by assumption. lra.
Qed.
Lemma scales_ext n c d f g : scales n c f -> (forall v, length v = n -> f v = g v) -> c = d -> scales n d g.
Proof. intros (f' & F1 & F2) E <-. exists f'. split; [|exact F2]. intros v H. rewrite <- E by exact H. apply F1, H. Qed.
(** Acting on a slice by a factor one. *)
Lemma scales_slice n off m f : (off + m <= n)%nat -> scales m 1 f -> (forall v post r, length v = m -> f v = Ok r -> f (v ++ post) = Ok (r ++ post)) -> scales n 1 (at_ptr off f).
Proof.
  intros HL (g & G1 & G2) HP. exists (fun v => firstn off v ++ g (firstn m (skipn off v)) ++ skipn m (skipn off v)).
  assert (LM : forall v : list R, length v = n -> length (firstn m (skipn off v)) = m) by (intros v H; rewrite firstn_length, skipn_length; lia).
  assert (LO : forall v : list R, length v = n -> length (firstn off v) = off) by (intros v H; rewrite firstn_length; lia).
  split.
  - intros v H. unfold at_ptr. rewrite (proj2 (Nat.leb_le off (length v))) by lia.
    destruct (G1 _ (LM v H)) as [E L]. rewrite <- (firstn_skipn m (skipn off v)) at 1. rewrite (HP _ _ _ (LM v H) E). cbn [bind]. split; [reflexivity|].
    rewrite !app_length, L, LO, !skipn_length by exact H. lia.
  - intros x y Hx Hy. pose proof (proj2 (G1 _ (LM x Hx))) as Lx. pose proof (proj2 (G1 _ (LM y Hy))) as Ly.
    rewrite !dot_app by (rewrite ?LO by assumption; lia). rewrite G2 by (apply LM; assumption).
    replace (dot x y) with (dot (firstn off x) (firstn off y) + (dot (firstn m (skipn off x)) (firstn m (skipn off y)) + dot (skipn m (skipn off x)) (skipn m (skipn off y)))).
    + lra.
    + rewrite <- dot_app by (rewrite !LM by assumption; reflexivity). rewrite !firstn_skipn. rewrite <- dot_app by (rewrite !LO by assumption; reflexivity). now rewrite !firstn_skipn.
Qed.
Lemma fht_ok n v : length v = (2 ^ n)%nat -> fht n v = Ok (walsh_hadamard n v).
Proof. intros H. pose proof (fht_spec n v [] H) as E. now rewrite !app_nil_r in E. Qed.
Lemma inv_sqrt_sq m : (0 < m)%nat -> (1 / sqrt (INR m)) * (1 / sqrt (INR m)) * INR m = 1.
Proof.
  intros H. assert (P : 0 < INR m) by (apply lt_0_INR; exact H). pose proof (sqrt_lt_R0 _ P) as Q. pose proof (sqrt_sqrt (INR m) ltac:(lra)) as SQ.
  rewrite <- SQ at 3. field. lra.
Qed.
(** The transform scaled by one over the root keeps inner products. *)
Lemma scales_fht_scaled k n start : (start + k_trunc k <= n)%nat -> scales n 1 (fht_scaled k start).
Proof.
  intros HL. unfold k_trunc in HL.
  apply (scales_ext n 1 1 (at_ptr start (fun s => let* s1 := fht (k_log k) s in vec_rescale s1 (k_trunc k) (k_fac k)))); [|intros v H|reflexivity].
  - apply (scales_slice n start (2 ^ k_log k)); [exact HL|..].
    + exists (fun v => map (fun x => x * k_fac k) (walsh_hadamard (k_log k) v)). split.
      * intros v H. rewrite (fht_ok _ v H). cbn [bind]. unfold vec_rescale, k_trunc. pose proof (wh_length _ v H) as L.
        rewrite (proj2 (Nat.leb_le _ _)) by lia. rewrite firstn_all2, skipn_all2 by lia. rewrite app_nil_r, map_length. now split.
      * intros x y Hx Hy. rewrite dot_scale, wh_dot by assumption. pose proof (inv_sqrt_sq (2 ^ k_log k) (pow2_pos _)) as Q. unfold k_fac, k_trunc.
        rewrite <- Rmult_assoc, Q. lra.
    + intros v post r H E. rewrite fht_spec by exact H. rewrite (fht_ok _ v H) in E. cbn [bind] in E |- *. unfold vec_rescale, k_trunc in E |- *. pose proof (wh_length _ v H) as L.
      rewrite (proj2 (Nat.leb_le _ _)) in E by lia. rewrite (proj2 (Nat.leb_le _ _)) by (rewrite app_length; lia). injection E as <-.
      rewrite firstn_app, skipn_app, L, Nat.sub_diag. cbn [firstn skipn]. rewrite app_nil_r, <- app_assoc. reflexivity.
  - unfold fht_scaled, at_ptr. rewrite (proj2 (Nat.leb_le start (length v))) by lia.
    destruct (fht (k_log k) (skipn start v)) as [w| | |] eqn:E; cbn [bind]; try reflexivity.
    assert (LF : length (firstn start v) = start) by (rewrite firstn_length; lia).
    rewrite (proj2 (Nat.leb_le start _)) by (rewrite app_length; lia).
    rewrite skipn_app, firstn_app, LF, Nat.sub_diag. cbn [firstn skipn]. rewrite skipn_all2 by lia. rewrite (firstn_all2 (n := start) (firstn start v)) by lia. cbn [app]. rewrite app_nil_r. reflexivity.
Qed.
(** The walk doubles inner products, for an even number of coordinates. *)
Lemma scales_walk n : Nat.even n = true -> scales n 2 (fun v => kacs_walk v n).
Proof.
  intros EV. apply Nat.even_spec in EV. destruct EV as [h ->]. assert (D : (2 * h / 2 = h)%nat) by (rewrite Nat.mul_comm; apply Nat.div_mul; lia).
  exists (fun v => zip Rplus (firstn h v) (skipn h v) ++ zip Rminus (firstn h v) (skipn h v)).
  assert (L : forall v : list R, length v = (2 * h)%nat -> length (firstn h v) = h /\ length (skipn h v) = h) by (intros v H; rewrite firstn_length, skipn_length; lia).
  split.
  - intros v H. destruct (L v H) as [L1 L2]. unfold kacs_walk. rewrite D. pose proof (block_spec [] (firstn h v) (skipn h v) [] h L1 L2) as B. cbn [app length] in B.
    rewrite !app_nil_r, firstn_skipn in B. rewrite B. split; [reflexivity|]. rewrite app_length, !zip_length by lia. lia.
  - intros x y Hx Hy. destruct (L x Hx) as [X1 X2]. destruct (L y Hy) as [Y1 Y2]. rewrite dot_app by (rewrite !zip_length by lia; lia). rewrite dot_zip by lia.
    rewrite <- dot_app by lia. now rewrite !firstn_skipn.
Qed.
(** Flips keep inner products. *)
Fixpoint flipped (flip : list N) (base i : nat) (v : list R) : list R :=
  match v with
  | [] => []
  | x :: v' => (if N.testbit (nth (base + i / 8) flip 0%N) (N.of_nat (i mod 8)) then - x else x) :: flipped flip base (S i) v'
  end.
Lemma flipped_length flip base v : forall i, length (flipped flip base i v) = length v.
Proof. induction v as [|x v IH]; intros i; cbn; [reflexivity|]. now rewrite IH. Qed.
Lemma flipped_dot flip base x : forall y i, dot (flipped flip base i x) (flipped flip base i y) = dot x y.
Proof. induction x as [|a x IH]; intros [|b y] i; cbn; try reflexivity. rewrite IH. destruct (N.testbit _ _); lra. Qed.
Lemma flip_loop_spec flip base : forall v pre, (forall j, (j < length pre + length v)%nat -> (base + j / 8 < length flip)%nat) ->
  flip_loop flip base (pre ++ v) (length pre) (length v) = Ok (pre ++ flipped flip base (length pre) v).
Proof.
  induction v as [|x v IH]; intros pre H; cbn [flip_loop length flipped]; [reflexivity|].
  assert (B : aget flip (N.of_nat (base + length pre / 8)) = Ok (nth (base + length pre / 8) flip 0%N)).
  { unfold aget. rewrite Nnat.Nat2N.id. rewrite (nth_error_nth' flip 0%N) by (apply H; cbn [length]; lia). reflexivity. }
  rewrite B. cbn [bind].
  destruct (N.testbit _ _).
  - rewrite aget_mid_eq by reflexivity. cbn [bind]. rewrite aput_mid_eq by reflexivity. cbn [bind].
    specialize (IH (pre ++ [- x])). rewrite app_length in IH. cbn [length] in IH. rewrite Nat.add_1_r, <- !app_assoc in IH. cbn [app] in IH. apply IH.
    intros j Hj. apply H. cbn [length]. lia.
  - specialize (IH (pre ++ [x])). rewrite app_length in IH. cbn [length] in IH. rewrite Nat.add_1_r, <- !app_assoc in IH. cbn [app] in IH. apply IH.
    intros j Hj. apply H. cbn [length]. lia.
Qed.
Lemma scales_flip flip base n : (forall j, (j < n)%nat -> (base + j / 8 < length flip)%nat) -> scales n 1 (fun v => flip_sign flip base v n).
Proof.
  intros H. exists (flipped flip base 0). split.
  - intros v L. unfold flip_sign. pose proof (flip_loop_spec flip base v []) as E. cbn [app length plus] in E. rewrite L in E. rewrite E by exact H.
    now rewrite flipped_length.
  - intros x y _ _. rewrite flipped_dot. lra.
Qed.
Lemma scales_rescale n c : scales n (c * c) (fun v => vec_rescale v n c).
Proof.
  exists (map (fun x => x * c)). split.
  - intros v H. unfold vec_rescale. rewrite (proj2 (Nat.leb_le _ _)) by lia. rewrite firstn_all2, skipn_all2 by lia. rewrite app_nil_r, map_length. now split.
  - intros x y _ _. apply dot_scale.
Qed.

(** ** The rotations *)
Lemma flips_in_bounds k r : (r < 4)%nat -> (k_padded k mod 64 = 0)%nat -> length (k_flip k) = (4 * k_padded k / 8)%nat ->
  forall j, (j < k_padded k)%nat -> (r * k_padded k / 8 + j / 8 < length (k_flip k))%nat.
Proof.
  intros Hr HM HL j Hj. rewrite HL. apply Nat.mod_divide in HM; [|lia]. destruct HM as [q E]. rewrite E in *.
  replace (r * (q * 64))%nat with (r * q * 8 * 8)%nat by lia. replace (4 * (q * 64))%nat with (4 * q * 8 * 8)%nat by lia. rewrite !Nat.div_mul by lia.
  assert (j / 8 < q * 8)%nat by (apply Nat.div_lt_upper_bound; lia). nia.
Qed.
Definition good (k : kac) : Prop :=
  (k_dim k <= k_padded k)%nat /\ (k_trunc k <= k_padded k)%nat /\ (k_padded k mod 64 = 0)%nat /\ length (k_flip k) = (4 * k_padded k / 8)%nat.
Lemma scales_pow2_round k r : good k -> (r < 4)%nat -> scales (k_padded k) 1 (pow2_round k r).
Proof.
  intros (D & T & M & L) Hr. unfold pow2_round. apply (scales_ext _ (1 * 1) 1 (fun v => let* v1 := flip_sign (k_flip k) (r * k_padded k / 8) v (k_padded k) in fht_scaled k 0 v1)); [|reflexivity|lra].
  apply scales_bind; [apply scales_flip, flips_in_bounds; assumption|]. apply scales_fht_scaled. lia.
Qed.
Lemma even_64 n : (n mod 64 = 0)%nat -> Nat.even n = true.
Proof. intros H. apply Nat.mod_divide in H; [|lia]. destruct H as [q ->]. apply Nat.even_spec. exists (32 * q)%nat. lia. Qed.
Lemma scales_kac_round k r start : good k -> (r < 4)%nat -> (start + k_trunc k <= k_padded k)%nat -> scales (k_padded k) 2 (kac_round k r start).
Proof.
  intros (D & T & M & L) Hr HS.
  apply (scales_ext _ (2 * 1 * 1) 2 (fun v => let* v1 := flip_sign (k_flip k) (r * k_padded k / 8) v (k_padded k) in (let* v2 := fht_scaled k start v1 in kacs_walk v2 (k_padded k)))); [|reflexivity|lra].
  apply (scales_bind (k_padded k) 1 (2 * 1)%R); [apply scales_flip, flips_in_bounds; assumption|].
  apply (scales_bind (k_padded k) 1 2 (fht_scaled k start) (fun v2 => kacs_walk v2 (k_padded k))); [apply scales_fht_scaled, HS|]. apply scales_walk, even_64, M.
Qed.
Lemma scales_kac k : good k ->
  exists g, forall x, (k_dim k <= length x)%nat -> kac_rotate k x = Ok (g x) /\ length (g x) = k_padded k /\
    forall y, (k_dim k <= length y)%nat -> dot (g x) (g y) = dot (firstn (k_dim k) x) (firstn (k_dim k) y).
Proof.
  intros G. pose proof G as (D & T & M & L).
  set (pad := fun x : list R => firstn (k_dim k) x ++ repeat 0 (k_padded k - k_dim k)).
  set (body := fun v => if (k_trunc k =? k_padded k)%nat then
      let* v := pow2_round k 0 v in let* v := pow2_round k 1 v in let* v := pow2_round k 2 v in pow2_round k 3 v
    else
      let* v := kac_round k 0 0 v in let* v := kac_round k 1 (k_padded k - k_trunc k) v in let* v := kac_round k 2 0 v in
      let* v := kac_round k 3 (k_padded k - k_trunc k) v in vec_rescale v (k_padded k) (1 / 4)).
  assert (B : scales (k_padded k) 1 body).
  { unfold body. destruct (k_trunc k =? k_padded k)%nat.
    - apply (scales_ext _ (1 * 1 * 1 * 1) 1 (fun v => let* v := pow2_round k 0 v in (let* v := pow2_round k 1 v in (let* v := pow2_round k 2 v in pow2_round k 3 v)))); [|reflexivity|lra].
      apply (scales_bind _ 1 (1 * 1 * 1)); [apply scales_pow2_round; [exact G|lia]|].
      apply (scales_bind _ 1 (1 * 1)); [apply scales_pow2_round; [exact G|lia]|].
      apply (scales_bind _ 1 1); apply scales_pow2_round; [exact G|lia|exact G|lia].
    - apply (scales_ext _ ((1 / 4) * (1 / 4) * 2 * 2 * 2 * 2) 1 (fun v => let* v := kac_round k 0 0 v in (let* v := kac_round k 1 (k_padded k - k_trunc k) v in (let* v := kac_round k 2 0 v in
        (let* v := kac_round k 3 (k_padded k - k_trunc k) v in vec_rescale v (k_padded k) (1 / 4)))))); [|reflexivity|lra].
      apply (scales_bind _ 2 ((1 / 4) * (1 / 4) * 2 * 2 * 2)); [apply scales_kac_round; [exact G|lia|lia]|].
      apply (scales_bind _ 2 ((1 / 4) * (1 / 4) * 2 * 2)); [apply scales_kac_round; [exact G|lia|lia]|].
      apply (scales_bind _ 2 ((1 / 4) * (1 / 4) * 2)); [apply scales_kac_round; [exact G|lia|lia]|].
      apply (scales_bind _ 2 ((1 / 4) * (1 / 4))); [apply scales_kac_round; [exact G|lia|lia]|].
      apply (scales_rescale (k_padded k) (1 / 4)). }
  destruct B as (g & G1 & G2). exists (fun x => g (pad x)).
  assert (LP : forall x, (k_dim k <= length x)%nat -> length (pad x) = k_padded k) by (intros x H; unfold pad; rewrite app_length, firstn_length, repeat_length; lia).
  intros x Hx. destruct (G1 (pad x) (LP x Hx)) as [E LG]. split; [|split; [exact LG|]].
  - unfold kac_rotate. rewrite (proj2 (Nat.leb_le (k_dim k) (length x)) Hx), (proj2 (Nat.leb_le (k_dim k) (k_padded k)) D). cbn [andb]. exact E.
  - intros y Hy. rewrite G2 by (apply LP; assumption). unfold pad. rewrite dot_app by (rewrite !firstn_length; lia). rewrite dot_zeros. lra.
Qed.
Lemma pow2_log2_le n : (0 < n)%nat -> (2 ^ Nat.log2 n <= n)%nat.
Proof. intros H. apply Nat.log2_spec, H. Qed.
Lemma padding_le n : (n <= padding_requirement n)%nat /\ (padding_requirement n mod 64 = 0)%nat.
Proof.
  unfold padding_requirement. split; [|apply Nat.mod_mul; lia]. pose proof (Nat.div_mod (n + 63) 64 ltac:(lia)). pose proof (Nat.mod_upper_bound (n + 63) 64 ltac:(lia)). lia.
Qed.
Lemma choose_good dim padded flips k : (padded = 0 \/ dim <= padded)%nat -> (4 * (if padded =? 0 then padding_requirement dim else padded) / 8 <= length flips)%nat -> choose_rotator dim padded flips = Ok k ->
  good k /\ k_dim k = dim /\ k_padded k = if (padded =? 0)%nat then padding_requirement dim else padded.
Proof.
  intros HP HF. unfold choose_rotator. set (p := if (padded =? 0)%nat then padding_requirement dim else padded) in *.
  assert (DP : (dim <= p)%nat) by (subst p; destruct (Nat.eqb_spec padded 0) as [Z|Z]; [apply padding_le|lia]).
  destruct (Nat.eqb_spec p (padding_requirement p)) as [EP|]; cbn [negb]; [|discriminate].
  unfold kac_new. destruct ((6 <=? Nat.log2 dim)%nat && (Nat.log2 dim <=? 11)%nat)%bool eqn:EL; [|discriminate]. intros [= <-].
  apply andb_prop in EL. destruct EL as [E1 E2]. apply Nat.leb_le in E1, E2. cbn [k_dim k_padded]. split; [|now split].
  assert (0 < dim)%nat by (destruct dim; [cbn in E1; lia|lia]).
  unfold good, k_trunc. cbn [k_dim k_padded k_flip k_log]. pose proof (pow2_log2_le dim ltac:(lia)).
  split; [lia|]. split; [lia|]. split; [rewrite EP; apply padding_le|]. rewrite firstn_length. apply Nat.min_l. exact HF.
Qed.
Lemma accepted_dims dim : ((6 <=? Nat.log2 dim)%nat && (Nat.log2 dim <=? 11)%nat)%bool = true <-> (64 <= dim < 4096)%nat.
Proof.
  split; intros H.
  - apply andb_prop in H. destruct H as [E1 E2]. apply Nat.leb_le in E1, E2.
    assert (0 < dim)%nat by (destruct dim; [cbn in E1; lia|lia]). split.
    + replace 64%nat with (2 ^ 6)%nat by reflexivity. apply Nat.log2_le_pow2; assumption.
    + replace 4096%nat with (2 ^ 12)%nat by reflexivity. apply Nat.log2_lt_pow2; [assumption|lia].
  - destruct H as [H1 H2]. apply andb_true_intro. split; apply Nat.leb_le.
    + apply Nat.log2_le_pow2; [lia|]. exact H1.
    + enough (Nat.log2 dim < 12)%nat by lia. apply Nat.log2_lt_pow2; [lia|]. exact H2.
Qed.
(** LASER *)
Lemma rotate_loop_spec : forall dim src mat, (dim <= length src)%nat -> (dim <= length mat)%nat -> rotate_loop src mat dim = Ok (zip Rmult (firstn dim src) (firstn dim mat)).
Proof.
  induction dim as [|k IH]; intros [|s src] [|m mat] H1 H2; cbn in *; try lia; try reflexivity. now rewrite IH by lia.
Qed.
Lemma zip_mult_dot c : forall mat x y, Forall (fun m => m * m = c) mat -> length x = length mat -> length y = length mat -> dot (zip Rmult x mat) (zip Rmult y mat) = c * dot x y.
Proof.
  induction mat as [|m mat IH]; intros [|a x] [|b y] F H1 H2; cbn in *; try lia; [lra|]. inversion F; subst. rewrite IH by (assumption || lia). nra.
Qed.
Lemma fhtr_dot dim signs f : fhtr_new dim signs = Ok f -> (2 ^ Nat.log2_up dim <= length signs)%nat ->
  exists g, forall x, (dim <= length x)%nat -> fhtr_rotate f x = Ok (g x) /\ length (g x) = (2 ^ Nat.log2_up dim)%nat /\
    forall y, (dim <= length y)%nat -> dot (g x) (g y) = dot (firstn dim x) (firstn dim y).
Proof.
  unfold fhtr_new. destruct ((6 <=? Nat.log2_up dim)%nat && (Nat.log2_up dim <=? 11)%nat)%bool eqn:EL; [|discriminate]. intros [= <-] HS.
  apply andb_prop in EL. destruct EL as [E1 E2]. apply Nat.leb_le in E1, E2.
  set (l := Nat.log2_up dim) in *. assert (DP : (dim <= 2 ^ l)%nat).
  { destruct (Nat.le_gt_cases dim 1) as [H|H]; [pose proof (pow2_pos l); lia|]. apply (Nat.log2_up_spec dim H). }
  set (mat := map (fun b : bool => (if b then 1 else -1) / sqrt (INR (2 ^ l))) (firstn (2 ^ l) signs)).
  assert (LM : length mat = (2 ^ l)%nat) by (unfold mat; rewrite map_length, firstn_length; lia).
  assert (FM : Forall (fun m => m * m = / INR (2 ^ l)) mat).
  { apply Forall_forall. intros m Hm. unfold mat in Hm. apply in_map_iff in Hm. destruct Hm as (b & <- & _).
    pose proof (inv_sqrt_sq (2 ^ l) (pow2_pos l)) as Q. assert (P : 0 < INR (2 ^ l)) by (apply lt_0_INR, pow2_pos). pose proof (sqrt_lt_R0 _ P) as P2.
    apply (Rmult_eq_reg_r (INR (2 ^ l))); [|lra]. rewrite Rinv_l by lra. destruct b; [exact Q|]. rewrite <- Q. field. lra. }
  exists (fun x => walsh_hadamard l (zip Rmult (firstn dim x) (firstn dim mat) ++ repeat 0 (2 ^ l - dim))).
  assert (LZ : forall x, (dim <= length x)%nat -> length (zip Rmult (firstn dim x) (firstn dim mat)) = dim)
    by (intros x H; rewrite zip_length by (rewrite !firstn_length; lia); rewrite firstn_length; lia).
  assert (LP : forall x, (dim <= length x)%nat -> length (zip Rmult (firstn dim x) (firstn dim mat) ++ repeat 0 (2 ^ l - dim)) = (2 ^ l)%nat)
    by (intros x H; rewrite app_length, LZ, repeat_length by exact H; lia).
  intros x Hx. unfold fhtr_rotate. cbn [f_dim f_log f_mat]. fold mat. rewrite rotate_loop_spec by lia. cbn [bind]. rewrite fht_ok by (apply LP, Hx).
  split; [reflexivity|]. split; [apply wh_length, LP, Hx|]. intros y Hy.
  rewrite wh_dot by (apply LP; assumption). rewrite dot_app by (rewrite !LZ by assumption; reflexivity). rewrite dot_zeros.
  rewrite (zip_mult_dot (/ INR (2 ^ l))).
  - assert (P : 0 < INR (2 ^ l)) by (apply lt_0_INR, pow2_pos). field. lra.
  - apply Forall_forall. intros m Hm. rewrite Forall_forall in FM. apply FM. rewrite <- (firstn_skipn dim mat). apply in_or_app. now left.
  - rewrite !firstn_length. lia.
  - rewrite !firstn_length. lia.
Qed.
