(** * C94: what [Index.fit] leaves of the PCA step *)

From Coq Require Import List Arith ZArith Bool Lia.
From Verif Require Import PcaFileModel PcaFileSpec PcaFileProofs.
Import ListNotations.

(** C94, proved: for the same vectors and the same seed, whatever number of
    earlier calls was killed, and wherever, a call that returns leaves exactly
    the files of an undisturbed call. *)
Theorem fit_pca_resumes_partial :
  forall tr chunk dim vs skip seed w, 0 < chunk -> 0 < dim ->
  rows_of dim (tr seed vs) ->
  after_calls tr chunk dim vs seed w ->
  fit tr chunk dim vs skip seed w = expected tr dim vs seed.
Proof.
  intros tr c dim vs skip seed w Hc Hd Hf A.
  apply fit_good; try assumption. exact (after_good tr c dim vs seed w Hc Hd Hf A).
Qed.

(** C94, proved: whatever lies in the directory, a call that may not skip leaves
    the expected files if the base file it finds has less than a whole chunk. *)
Theorem fit_pca_short_partial :
  forall tr chunk dim vs skip seed w, 0 < chunk -> 0 < dim ->
  skip = false \/ sidecar w <> Some seed ->
  (forall b, base w = Some b -> length b < 8 + chunk * (dim * 4)) ->
  fit tr chunk dim vs skip seed w = expected tr dim vs seed.
Proof.
  intros tr c dim vs skip seed w Hc Hd S L.
  assert (K : skips dim vs skip seed w = false).
  { unfold skips. destruct S as [->|S]; [reflexivity|].
    unfold seed_matches. destruct (sidecar w) as [s|] eqn:E.
    - destruct (Z.eqb_spec s seed) as [->|]; [contradiction S; reflexivity|].
      destruct skip; reflexivity.
    - destruct skip; reflexivity. }
  unfold fit. rewrite K. unfold expected. destruct (base w) as [b|].
  - rewrite save_short by (try assumption; apply L; reflexivity). reflexivity.
  - rewrite save_none by exact Hc. reflexivity.
Qed.

(** C94, proved: what the expected base file says to a reader: the number of
    vectors, their dimension, and rows of [4 * dim] bytes, the [i]-th of which is
    the [i]-th vector transformed. *)
Theorem fit_pca_readable :
  forall dim f vs b, rows_of dim f ->
  (Z.of_nat (length vs) < 2 ^ 31)%Z -> (Z.of_nat dim < 2 ^ 31)%Z ->
  b = base_file dim f vs ->
  number4 (firstn 4 b) = length vs /\ number4 (firstn 4 (skipn 4 b)) = dim /\
  length b = 8 + length vs * (4 * dim) /\
  forall i v, nth_error vs i = Some v ->
    firstn (4 * dim) (skipn (8 + i * (4 * dim)) b) = f v.
Proof.
  intros dim f vs b Hf Hn Hd ->.
  assert (N4 : forall n, (Z.of_nat n < 2 ^ 31)%Z -> number4 (int32 n) = n).
  { intros n H. unfold number4, int32.
    pose proof (Nat.div_mod n 256 ltac:(lia)) as E1.
    pose proof (Nat.div_mod (n / 256) 256 ltac:(lia)) as E2.
    pose proof (Nat.div_mod (n / 256 / 256) 256 ltac:(lia)) as E3.
    set (q1 := n / 256) in *. set (q2 := q1 / 256) in *. set (q3 := q2 / 256) in *.
    rewrite (Nat.mod_small q3) by lia. lia. }
  split; [apply (N4 (length vs) Hn)|]. split; [apply (N4 dim Hd)|].
  split; [rewrite (base_file_length dim) by exact Hf; lia|].
  intros i v Hi. rewrite base_file_flat.
  assert (Lf : forall x, @length nat (f x) = dim * 4) by exact Hf.
  rewrite skipn_add. change (skipn 8 (fbin_header (length vs) dim ++ flat_map f vs))
    with (flat_map f vs).
  unfold byte in *. clear Hn. revert i Hi. induction vs as [|x vs IH]; intros i Hi; [destruct i; discriminate|].
  cbn [flat_map]. destruct i as [|i].
  - injection Hi as ->. rewrite Nat.mul_0_l. cbn [skipn].
    rewrite firstn_app, (Lf v). replace (4 * dim - dim * 4) with 0 by lia.
    rewrite firstn_O, app_nil_r. apply firstn_all2. rewrite (Lf v). lia.
  - replace (S i * (4 * dim)) with (dim * 4 + i * (4 * dim)) by lia.
    rewrite skipn_add, skipn_app, (Lf x), Nat.sub_diag.
    rewrite (skipn_all2 (n := dim * 4) (f x)) by (rewrite (Lf x); lia). cbn [app skipn]. apply IH. exact Hi.
Qed.

(** C94, proved: a call for another seed that is killed has either changed
    nothing or left no sidecar, so that no later call, for whichever seed and
    vectors, keeps what lies there. *)
Theorem fit_pca_killed_untrusted :
  forall tr chunk dim vs skip seed w w',
  sidecar w <> Some seed -> fit_killed tr chunk dim vs skip seed w w' ->
  w' = w \/
  forall vs' skip' seed',
    let r := fit tr chunk dim vs' skip' seed' w' in
    sidecar w' = None /\ params r = Some (seed', vs') /\
    base r = Some (pca_save chunk dim (tr seed' vs') vs' (base w')).
Proof.
  intros tr c dim vs skip seed w w' N K.
  assert (G : sidecar (gate w seed) = None).
  { unfold gate, seed_matches. destruct (sidecar w) as [s|] eqn:E; [|reflexivity].
    destruct (Z.eqb_spec s seed) as [->|]; [contradiction N; reflexivity|reflexivity]. }
  assert (F : forall x, sidecar x = None -> forall vs' skip' seed',
    let r := fit tr c dim vs' skip' seed' x in
    sidecar x = None /\ params r = Some (seed', vs') /\
    base r = Some (pca_save c dim (tr seed' vs') vs' (base x))).
  { intros x X vs' skip' seed' r. split; [exact X|]. unfold r, fit, skips, seed_matches.
    rewrite X, andb_false_r. split; reflexivity. }
  destruct K as [| | S | l S K]; [left; reflexivity|right|right|right]; apply F;
    first [exact G | cbn [sidecar]; exact G].
Qed.

(** C94, refuted for another seed: the second call sees that the sidecar does
    not match and rebuilds, and yet every whole chunk of the base file is kept
    from the first seed, next to the parameters of the second. *)
Theorem fit_pca_seed_refuted :
  forall tr chunk dim vs skip1 skip2 s1 s2, 0 < chunk -> 0 < dim -> s1 <> s2 ->
  rows_of dim (tr s1 vs) -> rows_of dim (tr s2 vs) ->
  let w := fit tr chunk dim vs skip2 s2 (fit tr chunk dim vs skip1 s1 no_files) in
  let m := length vs / chunk * chunk in
  sidecar w = Some s2 /\ params w = Some (s2, vs) /\
  base w = Some (fbin_header (length vs) dim
                 ++ concat (map (tr s1 vs) (firstn m vs))
                 ++ concat (map (tr s2 vs) (skipn m vs))) /\
  (forall v, hd_error vs = Some v -> chunk <= length vs ->
   tr s1 vs v <> tr s2 vs v -> w <> expected tr dim vs s2).
Proof.
  intros tr c dim vs skip1 skip2 s1 s2 Hc Hd Hs H1 H2 w m.
  assert (W : w = mkFiles (Some s2) (Some (s2, vs))
    (Some (fbin_header (length vs) dim ++ flat_map (tr s1 vs) (firstn m vs)
           ++ flat_map (tr s2 vs) (skipn m vs)))).
  { unfold w. rewrite fit_fresh by exact Hc. unfold fit.
    replace (skips dim vs skip2 s2 (expected tr dim vs s1)) with false.
    - unfold expected. cbn [base].
      rewrite (save_over_whole c dim (tr s2 vs) (tr s1 vs) vs) by assumption. reflexivity.
    - unfold skips, seed_matches, expected. cbn [sidecar].
      destruct (Z.eqb_spec s1 s2) as [|_]; [contradiction|]. destruct skip2; reflexivity. }
  rewrite W. cbn [sidecar params base]. rewrite <- !flat_map_concat_map.
  split; [reflexivity|]. split; [reflexivity|]. split; [reflexivity|].
  intros v Hv L N E. unfold expected in E.
  apply (f_equal base) in E. cbn [base] in E.
  apply (f_equal (fun o => match o with Some b => b | None => [] end)) in E.
  cbv beta iota in E.
  rewrite base_file_flat in E. apply app_inv_head in E.
  assert (Pm : 0 < m).
  { unfold m. assert (0 < length vs / c) by (apply Nat.div_str_pos; lia). nia. }
  destruct vs as [|v' vs']; [discriminate|]. injection Hv as ->.
  destruct m as [|m']; [lia|]. cbn [firstn flat_map] in E.
  rewrite <- app_assoc in E. apply N.
  apply (f_equal (firstn (dim * 4))) in E.
  rewrite !firstn_app in E.
  rewrite (firstn_all2 (tr s1 _ v)) in E by (rewrite H1; lia).
  rewrite (firstn_all2 (tr s2 _ v)) in E by (rewrite H2; lia).
  rewrite H1, H2, Nat.sub_diag, !firstn_O, !app_nil_r in E. exact E.
Qed.

(** C94, refuted for other vectors: with the same seed and the same shape the
    files of the earlier vectors are kept, all of them. *)
Theorem fit_pca_vectors_refuted :
  forall tr chunk dim vs ws seed, 0 < chunk -> 0 < dim ->
  rows_of dim (tr seed vs) -> length vs = length ws -> vs <> ws ->
  let w := fit tr chunk dim ws true seed (fit tr chunk dim vs true seed no_files) in
  w = expected tr dim vs seed /\ w <> expected tr dim ws seed.
Proof.
  intros tr c dim vs ws seed Hc Hd Hf L N w.
  assert (W : w = expected tr dim vs seed).
  { unfold w. rewrite fit_fresh by exact Hc. unfold fit.
    replace (skips dim ws true seed (expected tr dim vs seed)) with true; [reflexivity|].
    unfold skips, seed_matches, expected, validate_pca_params. cbn [sidecar base params].
    rewrite Z.eqb_refl, <- L, validate_whole by exact Hf. reflexivity. }
  split; [exact W|]. rewrite W. unfold expected. intros E. injection E as E _.
  contradiction.
Qed.

(** C94, refuted for fewer vectors: even without [skip_existing] the base file
    keeps the number of the earlier vectors in its header and their rows, and
    holds no row of the vectors that were given. *)
Theorem fit_pca_fewer_refuted :
  forall tr chunk dim vs ws skip seed1 seed2, 0 < chunk -> 0 < dim ->
  rows_of dim (tr seed1 vs) -> chunk <= length vs ->
  length ws <= length vs / chunk * chunk -> length ws <> length vs ->
  let w := fit tr chunk dim ws skip seed2 (fit tr chunk dim vs true seed1 no_files) in
  sidecar w = Some seed2 /\ params w = Some (seed2, ws) /\
  base w = Some (fbin_header (length vs) dim
                 ++ concat (map (tr seed1 vs) (firstn (length vs / chunk * chunk) vs))).
Proof.
  intros tr c dim vs ws skip seed1 seed2 Hc Hd Hf Lc Lw N w.
  assert (W : w = mkFiles (Some seed2) (Some (seed2, ws))
    (Some (fbin_header (length vs) dim
           ++ flat_map (tr seed1 vs) (firstn (length vs / c * c) vs)))).
  { unfold w. rewrite fit_fresh by exact Hc. unfold fit.
    replace (skips dim ws skip seed2 (expected tr dim vs seed1)) with false.
    - unfold expected. cbn [base].
      rewrite (save_fewer c dim (tr seed2 ws) (tr seed1 vs) vs ws);
        try assumption; [reflexivity|]. apply Nat.div_str_pos. lia.
    - unfold skips, expected. cbn [base]. unfold validate_pca_base.
      rewrite (base_file_length dim) by exact Hf.
      destruct (Nat.eqb_spec (8 + length vs * (dim * 4)) (8 + length ws * dim * 4)) as [E|_].
      + exfalso. apply N. nia.
      + rewrite andb_false_r. reflexivity. }
  rewrite W. cbn [sidecar params base]. rewrite <- flat_map_concat_map.
  split; [reflexivity|]. split; reflexivity.
Qed.

(** A case: one float per row, chunks of two rows, five vectors.  The first call
    is killed within the second chunk, the next one before its sidecar; then a
    call returns.  Another seed afterwards keeps four rows of the old one. *)
Definition sample_tr (seed : Z) (vs : list row) (v : row) : list byte :=
  [Z.to_nat seed; length vs; hd 0 v; 0].
Definition sample_vs : list row := [[11]; [12]; [13]; [14]; [15]].

Lemma sample_rows : forall seed vs, rows_of 1 (sample_tr seed vs).
Proof. intros seed vs v. reflexivity. Qed.

Definition sample_left : files :=
  mkFiles None (Some (7%Z, sample_vs))
    (Some (firstn 19 (base_file 1 (sample_tr 7 sample_vs) sample_vs))).

Example sample_after : after_calls sample_tr 2 1 sample_vs 7 sample_left.
Proof.
  apply call_killed with (skip := true) (w := no_files); [apply no_calls|].
  apply (killed_base sample_tr 2 1 sample_vs true 7 no_files); [reflexivity|].
  right. right. exists 19. split; [apply Nat.le_0_l|reflexivity].
Qed.

Example sample_resumed :
  base (fit sample_tr 2 1 sample_vs true 7 sample_left)
  = Some [5;0;0;0; 1;0;0;0;  7;5;11;0; 7;5;12;0; 7;5;13;0; 7;5;14;0; 7;5;15;0].
Proof. reflexivity. Qed.

Example sample_reseeded :
  base (fit sample_tr 2 1 sample_vs true 8
         (fit sample_tr 2 1 sample_vs true 7 no_files))
  = Some [5;0;0;0; 1;0;0;0;  7;5;11;0; 7;5;12;0; 7;5;13;0; 7;5;14;0; 8;5;15;0].
Proof. reflexivity. Qed.

Example sample_fewer :
  base (fit sample_tr 2 1 [[21]; [22]] true 7
         (fit sample_tr 2 1 sample_vs true 7 no_files))
  = Some [5;0;0;0; 1;0;0;0;  7;5;11;0; 7;5;12;0; 7;5;13;0; 7;5;14;0].
Proof. reflexivity. Qed.

(** Less than a chunk: the hypotheses of [fit_pca_short_partial]. *)
Example sample_short :
  base (fit sample_tr 2 1 [[31]] true 8 (fit sample_tr 2 1 [[41]] true 7 no_files))
  = Some [1;0;0;0; 1;0;0;0;  8;1;31;0].
Proof. reflexivity. Qed.

(** Another seed is begun over the files of the first and killed at once. *)
Example sample_killed :
  fit_killed sample_tr 2 1 sample_vs true 8 (expected sample_tr 1 sample_vs 7)
    (mkFiles None None (Some (base_file 1 (sample_tr 7 sample_vs) sample_vs))).
Proof.
  apply (killed_params sample_tr 2 1 sample_vs true 8 (expected sample_tr 1 sample_vs 7)).
  reflexivity.
Qed.

Example sample_read :
  nth_error sample_vs 3 = Some [14] /\
  firstn 4 (skipn 20 (base_file 1 (sample_tr 7 sample_vs) sample_vs)) = [7;5;14;0].
Proof. split; reflexivity. Qed.

Print Assumptions fit_pca_resumes_partial.
Print Assumptions fit_pca_short_partial.
Print Assumptions fit_pca_readable.
Print Assumptions fit_pca_killed_untrusted.
Print Assumptions fit_pca_seed_refuted.
Print Assumptions fit_pca_vectors_refuted.
Print Assumptions fit_pca_fewer_refuted.
