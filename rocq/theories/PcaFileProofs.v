From Coq Require Import List Arith ZArith Bool Lia.
From Verif Require Import PcaFileModel PcaFileSpec.
Import ListNotations.

Lemma header_length : forall n dim, length (fbin_header n dim) = 8.
Proof. reflexivity. Qed.

Lemma rows_length : forall dim f vs, rows_of dim f ->
  length (flat_map f vs) = length vs * (dim * 4).
Proof.
  intros dim f vs H. induction vs as [|v vs IH]; [reflexivity|].
  cbn [flat_map length]. rewrite app_length, H, IH. lia.
Qed.

Lemma base_file_flat : forall dim f vs,
  base_file dim f vs = fbin_header (length vs) dim ++ flat_map f vs.
Proof. intros. unfold base_file. rewrite flat_map_concat_map. reflexivity. Qed.

Lemma base_file_length : forall dim f vs, rows_of dim f ->
  length (base_file dim f vs) = 8 + length vs * (dim * 4).
Proof.
  intros. rewrite base_file_flat, app_length, header_length, (rows_length dim); auto.
Qed.

Lemma firstn_rows : forall dim f m vs, rows_of dim f -> m <= length vs ->
  firstn (m * (dim * 4)) (flat_map f vs) = flat_map f (firstn m vs).
Proof.
  intros dim f m vs H Hm.
  rewrite <- (firstn_skipn m vs) at 1. rewrite flat_map_app.
  assert (E : length (flat_map f (firstn m vs)) = m * (dim * 4)).
  { rewrite (rows_length dim) by exact H. rewrite firstn_length, Nat.min_l by exact Hm.
    reflexivity. }
  rewrite <- E. rewrite firstn_app, Nat.sub_diag, firstn_O, app_nil_r, firstn_all.
  reflexivity.
Qed.

Lemma firstn_base : forall dim f m vs, rows_of dim f -> m <= length vs ->
  firstn (8 + m * (dim * 4)) (base_file dim f vs)
  = fbin_header (length vs) dim ++ flat_map f (firstn m vs).
Proof.
  intros dim f m vs H Hm. rewrite base_file_flat.
  rewrite firstn_app, header_length.
  rewrite firstn_all2 by (rewrite header_length; lia).
  replace (8 + m * (dim * 4) - 8) with (m * (dim * 4)) by lia.
  rewrite (firstn_rows dim) by assumption. reflexivity.
Qed.

Lemma num_chunks_enough : forall c n, 0 < c -> n <= num_chunks c n * c.
Proof.
  intros c n Hc. unfold num_chunks.
  pose proof (Nat.div_mod (n + c - 1) c ltac:(lia)) as E.
  pose proof (Nat.mod_upper_bound (n + c - 1) c ltac:(lia)). nia.
Qed.

Lemma skipn_add : forall (A : Type) a b (l : list A),
  skipn (a + b) l = skipn b (skipn a l).
Proof.
  intros A a. induction a as [|a IH]; intros b l; [reflexivity|].
  destruct l as [|x l]; [cbn [Nat.add skipn]; rewrite skipn_nil; reflexivity|].
  cbn [Nat.add skipn]. apply IH.
Qed.

Lemma chunk_step : forall c i (vs : list row),
  skipn (i * c) vs = chunk_of c i vs ++ skipn (S i * c) vs.
Proof.
  intros c i vs. unfold chunk_of.
  replace (S i * c) with (i * c + c) by lia.
  rewrite (skipn_add row (i * c) c vs).
  destruct (le_lt_dec (i * c + c) (length vs)) as [L|L].
  - rewrite Nat.min_l by exact L. replace (i * c + c - i * c) with c by lia.
    symmetry. apply firstn_skipn.
  - rewrite Nat.min_r by lia.
    rewrite firstn_all2 by (rewrite skipn_length; lia).
    rewrite (skipn_all2 (n := c)) by (rewrite skipn_length; lia).
    rewrite app_nil_r. reflexivity.
Qed.

Lemma append_from : forall c (f : row -> list byte) (vs : list row) k start b, 0 < c ->
  start + k = num_chunks c (length vs) ->
  fold_left (fun acc i => acc ++ flat_map f (chunk_of c i vs)) (seq start k) b
  = b ++ flat_map f (skipn (start * c) vs).
Proof.
  intros c f vs k. induction k as [|k IH]; intros start b Hc E.
  - cbn [seq fold_left]. rewrite skipn_all2.
    + cbn [flat_map]. rewrite app_nil_r. reflexivity.
    + pose proof (num_chunks_enough c (length vs) Hc).
      replace start with (num_chunks c (length vs)) by lia. assumption.
  - cbn [seq fold_left]. rewrite IH by (try assumption; lia).
    rewrite (chunk_step c start vs), flat_map_app, app_assoc. reflexivity.
Qed.

Lemma append_chunks_eq : forall c f vs start b, 0 < c -> start * c <= length vs ->
  append_chunks c f vs start b = b ++ flat_map f (skipn (start * c) vs).
Proof.
  intros c f vs start b Hc L. unfold append_chunks. apply append_from; [exact Hc|].
  pose proof (num_chunks_enough c (length vs) Hc). nia.
Qed.

(** What the writer makes of a file that is the beginning of a base file. *)
Lemma save_over : forall c dim f g vs k, 0 < c -> 0 < dim ->
  rows_of dim f -> rows_of dim g ->
  let b := firstn k (base_file dim g vs) in
  let m := start_chunk c dim (Some b) * c in
  m <= length vs /\ (m > 0 -> 8 + m * (dim * 4) <= length b) /\
  m = ((length b - 8) / (dim * 4)) / c * c /\
  pca_save c dim f vs (Some b)
  = fbin_header (length vs) dim ++ flat_map g (firstn m vs) ++ flat_map f (skipn m vs).
Proof.
  intros c dim f g vs k Hc Hd Hf Hg b m.
  assert (Lb : length b <= 8 + length vs * (dim * 4)).
  { unfold b. rewrite firstn_length, (base_file_length dim) by exact Hg. lia. }
  assert (Em : m = ((length b - 8) / (dim * 4)) / c * c).
  { unfold m, start_chunk, header_size, bytes_per_vector.
    destruct (8 <? length b) eqn:E; [reflexivity|].
    apply Nat.ltb_ge in E. replace (length b - 8) with 0 by lia.
    rewrite Nat.div_0_l by lia. rewrite Nat.div_0_l by lia. reflexivity. }
  assert (M1 : m <= (length b - 8) / (dim * 4)).
  { rewrite Em. rewrite Nat.mul_comm. apply Nat.mul_div_le. lia. }
  assert (M2 : (length b - 8) / (dim * 4) * (dim * 4) <= length b - 8).
  { rewrite Nat.mul_comm. apply Nat.mul_div_le. lia. }
  assert (M3 : m * (dim * 4) <= length b - 8) by nia.
  assert (Mn : m <= length vs) by nia.
  assert (M4 : m > 0 -> 8 + m * (dim * 4) <= length b) by nia.
  split; [exact Mn|]. split; [exact M4|]. split; [exact Em|].
  unfold pca_save. rewrite append_chunks_eq by (try exact Hc; exact Mn).
  fold m. rewrite app_assoc. f_equal.
  unfold begun. destruct (start_chunk c dim (Some b) =? 0) eqn:E0.
  - apply Nat.eqb_eq in E0. unfold m. rewrite E0. cbn [Nat.mul]. rewrite firstn_O.
    cbn [flat_map]. rewrite app_nil_r. reflexivity.
  - apply Nat.eqb_neq in E0.
    assert (Mp : m > 0) by (unfold m; nia).
    unfold truncated.
    destruct (header_size <? length b) eqn:E.
    2:{ apply Nat.ltb_ge in E. unfold header_size in E. specialize (M4 Mp). nia. }
    unfold valid_size. fold m. unfold header_size, bytes_per_vector.
    unfold b at 1. rewrite firstn_firstn, Nat.min_l.
    + apply firstn_base; assumption.
    + specialize (M4 Mp). unfold b in M4. rewrite firstn_length in M4. lia.
Qed.

Lemma save_none : forall c dim f vs, 0 < c ->
  pca_save c dim f vs None = base_file dim f vs.
Proof.
  intros c dim f vs Hc. unfold pca_save. cbn [start_chunk].
  rewrite append_chunks_eq by (try exact Hc; lia).
  rewrite base_file_flat. reflexivity.
Qed.

(** The beginnings of the base file, or no file. *)
Definition begins (dim : nat) (f : row -> list byte) (vs : list row) (b : option file)
  : Prop := b = None \/ exists k, b = Some (firstn k (base_file dim f vs)).

Lemma save_begins : forall c dim f vs b, 0 < c -> 0 < dim -> rows_of dim f ->
  begins dim f vs b -> pca_save c dim f vs b = base_file dim f vs.
Proof.
  intros c dim f vs b Hc Hd Hf [->|[k ->]]; [apply save_none; exact Hc|].
  pose proof (save_over c dim f f vs k Hc Hd Hf Hf) as H. cbv zeta in H.
  destruct H as (_ & _ & _ & ->).
  rewrite <- flat_map_app, firstn_skipn, base_file_flat. reflexivity.
Qed.

Lemma killed_begins : forall c dim f vs b l, 0 < c -> 0 < dim -> rows_of dim f ->
  begins dim f vs b -> pca_killed c dim f vs b l -> begins dim f vs l.
Proof.
  intros c dim f vs b l Hc Hd Hf B [->|[->|(k & _ & ->)]]; [exact B| |].
  - destruct B as [->|[k ->]]; [left; reflexivity|]. right.
    unfold truncated. destruct (header_size <? _).
    + rewrite firstn_firstn. eexists. reflexivity.
    + exists k. reflexivity.
  - right. exists k. rewrite save_begins by assumption. reflexivity.
Qed.

Definition good (tr : Z -> list row -> row -> list byte) (dim : nat)
  (vs : list row) (seed : Z) (w : files) : Prop :=
  begins dim (tr seed vs) vs (base w) /\
  (params w = None \/ params w = Some (seed, vs)).

Lemma validate_whole : forall dim f vs, rows_of dim f ->
  validate_pca_base (Some (base_file dim f vs)) (length vs) dim = true.
Proof.
  intros dim f vs Hf. unfold validate_pca_base.
  rewrite (base_file_length dim) by exact Hf.
  replace (8 + length vs * dim * 4) with (8 + length vs * (dim * 4)) by lia.
  rewrite Nat.eqb_refl. cbn [andb].
  pose proof (firstn_base dim f 0 vs Hf ltac:(lia)) as E.
  rewrite Nat.mul_0_l, Nat.add_0_r, firstn_O in E. cbn [flat_map] in E.
  rewrite app_nil_r in E. rewrite E.
  destruct (list_eq_dec _ _ _) as [|N]; [reflexivity|]. exfalso. apply N. reflexivity.
Qed.

Lemma fit_good : forall tr c dim vs skip seed w, 0 < c -> 0 < dim ->
  rows_of dim (tr seed vs) -> good tr dim vs seed w ->
  fit tr c dim vs skip seed w = expected tr dim vs seed.
Proof.
  intros tr c dim vs skip seed w Hc Hd Hf [B P]. unfold fit, expected.
  destruct (skips dim vs skip seed w) eqn:S.
  - unfold skips in S. rewrite !andb_true_iff in S. destruct S as [[_ V] Q].
    unfold validate_pca_params in Q.
    destruct P as [P|P]; rewrite P in Q |- *; [discriminate|].
    destruct B as [B|[k B]]; rewrite B in V |- *; [discriminate|].
    unfold validate_pca_base in V. apply andb_true_iff in V. destruct V as [V _].
    apply Nat.eqb_eq in V. rewrite firstn_length, (base_file_length dim) in V by exact Hf.
    rewrite firstn_all2; [reflexivity|].
    rewrite (base_file_length dim) by exact Hf. lia.
  - rewrite save_begins by assumption. reflexivity.
Qed.

Lemma after_good : forall tr c dim vs seed w, 0 < c -> 0 < dim ->
  rows_of dim (tr seed vs) -> after_calls tr c dim vs seed w ->
  good tr dim vs seed w.
Proof.
  intros tr c dim vs seed w Hc Hd Hf A. induction A as [|skip w w' A IH K|skip w A IH].
  - split; left; reflexivity.
  - destruct IH as [B P]. destruct K as [| | S | l S K].
    + split; assumption.
    + unfold gate. destruct (seed_matches w seed); split; assumption.
    + split; [exact B|left; reflexivity].
    + split; [|right; reflexivity]. cbn [base].
      exact (killed_begins c dim (tr seed vs) vs (base w) l Hc Hd Hf B K).
  - rewrite fit_good by assumption. split; [|right; reflexivity].
    right. exists (length (base_file dim (tr seed vs) vs)).
    cbn [expected base]. rewrite firstn_all. reflexivity.
Qed.

(** The writer over the whole base file of other rows. *)
Lemma save_over_whole : forall c dim f g vs, 0 < c -> 0 < dim ->
  rows_of dim f -> rows_of dim g ->
  pca_save c dim f vs (Some (base_file dim g vs))
  = fbin_header (length vs) dim
    ++ flat_map g (firstn (length vs / c * c) vs)
    ++ flat_map f (skipn (length vs / c * c) vs).
Proof.
  intros c dim f g vs Hc Hd Hf Hg.
  pose proof (save_over c dim f g vs (length (base_file dim g vs)) Hc Hd Hf Hg) as H.
  cbv zeta in H. rewrite firstn_all in H. destruct H as (_ & _ & E & R).
  etransitivity; [exact R|].
  rewrite (base_file_length dim) in E by exact Hg.
  replace (8 + length vs * (dim * 4) - 8) with (length vs * (dim * 4)) in E by lia.
  rewrite Nat.div_mul in E by lia. unfold byte in *. rewrite E. reflexivity.
Qed.

Lemma save_short : forall c dim f vs b, 0 < c -> 0 < dim ->
  length b < 8 + c * (dim * 4) ->
  pca_save c dim f vs (Some b) = base_file dim f vs.
Proof.
  intros c dim f vs b Hc Hd L.
  assert (E : start_chunk c dim (Some b) = 0).
  { unfold start_chunk, header_size, bytes_per_vector.
    destruct (8 <? length b); [|reflexivity].
    apply Nat.div_small. apply Nat.div_lt_upper_bound; lia. }
  unfold pca_save, begun. rewrite E. cbn [Nat.eqb].
  rewrite append_chunks_eq by (try exact Hc; lia).
  rewrite base_file_flat. reflexivity.
Qed.

(** The writer for fewer rows than the file has in whole chunks. *)
Lemma save_fewer : forall c dim f g vs ws, 0 < c -> 0 < dim ->
  rows_of dim g -> 0 < length vs / c ->
  length ws <= length vs / c * c ->
  pca_save c dim f ws (Some (base_file dim g vs))
  = fbin_header (length vs) dim ++ flat_map g (firstn (length vs / c * c) vs).
Proof.
  intros c dim f g vs ws Hc Hd Hg P L.
  assert (Lb : length (base_file dim g vs) = 8 + length vs * (dim * 4))
    by (apply base_file_length; exact Hg).
  assert (Pv : 0 < length vs).
  { destruct (length vs); [|lia]. rewrite Nat.div_0_l in P by lia. lia. }
  assert (H8 : (header_size <? length (base_file dim g vs)) = true).
  { apply Nat.ltb_lt. rewrite Lb. unfold header_size. nia. }
  assert (E : start_chunk c dim (Some (base_file dim g vs)) = length vs / c).
  { unfold start_chunk. rewrite H8, Lb. unfold header_size, bytes_per_vector.
    replace (8 + length vs * (dim * 4) - 8) with (length vs * (dim * 4)) by lia.
    rewrite Nat.div_mul by lia. reflexivity. }
  assert (N : num_chunks c (length ws) <= length vs / c).
  { unfold num_chunks. apply Nat.lt_succ_r. apply Nat.div_lt_upper_bound; nia. }
  unfold pca_save, append_chunks. rewrite E.
  replace (num_chunks c (length ws) - length vs / c) with 0 by lia.
  cbn [seq fold_left]. unfold begun. rewrite E.
  destruct (length vs / c =? 0) eqn:Z; [apply Nat.eqb_eq in Z; lia|].
  unfold truncated. rewrite H8, E. unfold valid_size, header_size, bytes_per_vector.
  apply firstn_base; [exact Hg|]. rewrite Nat.mul_comm. apply Nat.mul_div_le. lia.
Qed.

Lemma fit_fresh : forall tr c dim vs skip seed, 0 < c ->
  fit tr c dim vs skip seed no_files = expected tr dim vs seed.
Proof.
  intros tr c dim vs skip seed Hc. unfold fit.
  replace (skips dim vs skip seed no_files) with false
    by (unfold skips, seed_matches; cbn [sidecar no_files]; destruct skip; reflexivity).
  cbn [base no_files]. rewrite save_none by exact Hc. reflexivity.
Qed.
