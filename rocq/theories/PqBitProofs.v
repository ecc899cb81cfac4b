From Coq Require Import Permutation.
From Verif Require Export PqProofs.
Import ListNotations.
Local Open Scope nat_scope.

(** ** Rows of an array *)
Lemma skip_skip {A} (l : list A) : forall a b, skipn a (skipn b l) = skipn (a + b) l.
Proof. induction l as [|x l IH]; intros a b; [now rewrite !skipn_nil|]. destruct b; [now rewrite Nat.add_0_r|]. rewrite Nat.add_succ_r. cbn [skipn]. apply IH. Qed.
Definition row_of {A} (k j : nat) (l : list A) : list A := firstn k (skipn (j * k) l).
Lemma rows_eq {A} k n (a b : list A) : length a = n * k -> length b = n * k -> (forall j, j < n -> row_of k j a = row_of k j b) -> a = b.
Proof.
  revert a b. induction n as [|n IH]; intros a b LA LB H; [now destruct a, b|].
  rewrite <- (firstn_skipn k a), <- (firstn_skipn k b). f_equal; [apply (H 0); lia|].
  apply IH; [rewrite skipn_length; lia|rewrite skipn_length; lia|]. intros j Hj. specialize (H (S j) ltac:(lia)). unfold row_of in *.
  rewrite !skip_skip. now replace (j * k + k) with (S j * k) by lia.
Qed.
Lemma row_length {A} k j n (l : list A) : length l = n * k -> j < n -> length (row_of k j l) = k.
Proof. intros L H. apply cut_length. rewrite L. nia. Qed.
Lemma row_put {A} k i j n (l r : list A) : length l = n * k -> i < n -> j < n -> length r = k ->
  row_of k j (firstn (i * k) l ++ r ++ skipn (i * k + length r) l) = if Nat.eqb i j then r else row_of k j l.
Proof.
  intros L Hi Hj R. assert (B : i * k + length r <= length l) by (rewrite L, R; nia).
  assert (LP := put_length l (i * k) r B). destruct (Nat.eqb_spec i j) as [<-|NE].
  - unfold row_of. rewrite skipn_app, firstn_length, Nat.min_l by lia. rewrite skipn_all2 by (rewrite firstn_length; lia). rewrite Nat.sub_diag. cbn [skipn app].
    now rewrite firstn_app, R, Nat.sub_diag, firstn_O, app_nil_r, <- R, firstn_all.
  - destruct l as [|d l']; [cbn in L; assert (K0 : k = 0) by nia; rewrite K0 in R; destruct r; [now rewrite firstn_nil, skipn_nil|discriminate R]|]. set (l := d :: l') in *.
    apply (list_nth_eq _ _ d); [rewrite !(row_length k j n); congruence|]. intros x Hx. rewrite (row_length k j n) in Hx; [|congruence|exact Hj].
    unfold row_of. rewrite !nth_cut by exact Hx. rewrite nth_put by exact B. rewrite R.
    destruct (Nat.leb_spec (i * k) (j * k + x)) as [H1|H1]; cbn [andb]; [|reflexivity]. destruct (Nat.ltb_spec (j * k + x) (i * k + k)) as [H2|H2]; [|reflexivity].
    exfalso. assert (j < i \/ i < j) as [C|C] by lia; nia.
Qed.
(** Writing row after row *)
Fixpoint write_rows {A} (k : nat) (f : nat -> list A) (is : list nat) (l : list A) : list A :=
  match is with [] => l | i :: rest => write_rows k f rest (firstn (i * k) l ++ f i ++ skipn (i * k + length (f i)) l) end.
Lemma write_rows_ok {A} k n (f : nat -> list A) : forall is l, length l = n * k -> (forall i, In i is -> i < n /\ length (f i) = k) ->
  length (write_rows k f is l) = n * k /\ forall j, j < n -> row_of k j (write_rows k f is l) = if existsb (Nat.eqb j) is then f j else row_of k j l.
Proof.
  induction is as [|i is IH]; intros l L H; cbn [write_rows existsb]; [auto|].
  destruct (H i) as [Hi F]; [now left|]. assert (B : i * k + length (f i) <= length l) by (rewrite L, F; nia).
  destruct (IH (firstn (i * k) l ++ f i ++ skipn (i * k + length (f i)) l)) as [LW RW]; [now rewrite put_length|intros x Hx; apply H; now right|].
  split; [exact LW|]. intros j Hj. rewrite RW by exact Hj. rewrite row_put with (n := n) by auto. destruct (existsb (Nat.eqb j) is); [now rewrite orb_true_r|].
  rewrite orb_false_r, Nat.eqb_sym. destruct (Nat.eqb_spec j i) as [->|_]; reflexivity.
Qed.
Lemma write_rows_app {A} k (f : nat -> list A) : forall a b l, write_rows k f (a ++ b) l = write_rows k f b (write_rows k f a l).
Proof. induction a as [|i a IH]; intros b l; cbn [app write_rows]; auto. Qed.
Lemma write_all {A} k n (f : nat -> list A) is l : length l = n * k -> (forall i, In i is -> i < n /\ length (f i) = k) -> (forall i, i < n -> In i is) ->
  write_rows k f is l = concat (map f (seq 0 n)).
Proof.
  intros L H C. destruct (write_rows_ok k n f is l L H) as [LW RW].
  assert (F : Forall (fun r => length r = k) (map f (seq 0 n))).
  { apply Forall_map, Forall_forall. intros i I. apply in_seq in I. apply H, C. lia. }
  apply (rows_eq k n); [exact LW|rewrite (concat_length k _ F), map_length, seq_length; reflexivity|].
  intros j Hj. rewrite RW by exact Hj. assert (existsb (Nat.eqb j) is = true) as -> by (apply existsb_exists; exists j; split; [apply C; exact Hj|apply Nat.eqb_refl]).
  unfold row_of. rewrite (concat_row k _ (f 0) F) by (rewrite map_length, seq_length; exact Hj). rewrite map_nth, seq_nth by exact Hj. reflexivity.
Qed.
Lemma row_concat_nth {A} (d : A) (rows : list (list A)) k j : Forall (fun r => length r = k) rows -> j < length rows -> row_of k j (concat rows) = nth j rows [].
Proof. intros F H. apply (concat_row k rows [] F j H). Qed.
Lemma perm_in n order : Permutation order (seq 0 n) -> (forall i, In i order -> i < n) /\ (forall i, i < n -> In i order).
Proof.
  intros P. split; intros i I; [apply (Permutation_in i P), in_seq in I; lia|]. apply (Permutation_in i (Permutation_sym P)), in_seq. lia.
Qed.

Section Any.
Context {T : Type} (ar : arith T).

(** ** Encoding *)
Definition row_code (t : pq T) (v : list T) : list N := match encode_to_code ar t v with Ok r => r | _ => [] end.
Lemma codebook_nonempty (t : pq T) : shaped t -> q_codebook t <> [].
Proof. intros (P1 & P2 & D & G & B) E. rewrite E in B. cbn in B. nia. Qed.
Lemma row_code_ok (t : pq T) v : shaped t -> length v = q_dim t -> encode_row ar t (residual ar (q_centroid t) v) = Ok (row_code t v) /\
  encode_to_code ar t v = Ok (row_code t v) /\ length (row_code t v) = q_chunks t /\ Forall (fun b => (b < 256)%N) (row_code t v).
Proof.
  intros S L. destruct (encode_row_ok ar t (residual ar (q_centroid t) v) S) as (row & E & LR & FB & _); [apply residual_length; [apply S|exact L]|].
  assert (EC : encode_to_code ar t v = Ok row) by (unfold encode_to_code; pose proof (codebook_nonempty t S); destruct (q_codebook t); [congruence|exact E]).
  unfold row_code. rewrite EC. auto.
Qed.
Lemma encode_points_ok (t : pq T) data : shaped t -> rows_of (q_dim t) data -> forall is codes, length codes = length data * q_chunks t -> (forall i, In i is -> i < length data) ->
  encode_points ar t data is codes = Ok (write_rows (q_chunks t) (fun i => row_code t (nth i data [])) is codes).
Proof.
  intros S R. induction is as [|i is IH]; intros codes L H; cbn [encode_points write_rows]; [reflexivity|].
  assert (Hi : i < length data) by (apply H; now left). unfold point. rewrite (aget_nth data _ []) by lia. rewrite Nat2N.id. cbn [bind].
  assert (LV : length (nth i data []) = q_dim t) by (eapply Forall_forall in R; [exact R|now apply nth_In]).
  destruct (row_code_ok t (nth i data []) S LV) as (E & _ & LR & _). rewrite E. cbn [bind].
  assert (B : i * q_chunks t + length (row_code t (nth i data [])) <= length codes) by (rewrite L, LR; nia).
  rewrite put_slice_ok by exact B. cbn [bind]. apply IH; [now rewrite put_length|]. intros x Hx. apply H. now right.
Qed.
Definition block_points (n b : nat) : list nat := seq (b * kBlock) (Nat.min (b * kBlock + kBlock) n - b * kBlock).
Lemma encode_blocks_ok (t : pq T) data : shaped t -> rows_of (q_dim t) data -> forall order codes, length codes = length data * q_chunks t ->
  encode_blocks ar t data order codes = Ok (write_rows (q_chunks t) (fun i => row_code t (nth i data [])) (flat_map (block_points (length data)) order) codes).
Proof.
  intros S R. induction order as [|b order IH]; intros codes L; cbn [encode_blocks flat_map]; [reflexivity|].
  assert (I : forall i, In i (block_points (length data) b) -> i < length data) by (intros i I; apply in_seq in I; lia).
  fold (block_points (length data) b). rewrite encode_points_ok by auto. cbn [bind]. rewrite write_rows_app. apply IH.
  apply write_rows_ok; [exact L|]. intros i Hi. split; [auto|]. apply row_code_ok; [exact S|]. eapply Forall_forall in R; [exact R|]. apply nth_In. auto.
Qed.
Lemma kBlock_pos : 0 < kBlock.
Proof. unfold kBlock. apply Nat.ltb_lt. reflexivity. Qed.
Lemma blocks_cover n order : Permutation order (seq 0 (blocks_of n)) -> forall i, i < n <-> In i (flat_map (block_points n) order).
Proof.
  intros P i. destruct (perm_in _ _ P) as [P1 P2]. rewrite in_flat_map. pose proof kBlock_pos as K. unfold blocks_of in *. set (B := kBlock) in *. split.
  - intros H. exists (i / B). pose proof (Nat.div_mod i B ltac:(lia)). pose proof (Nat.mod_upper_bound i B ltac:(lia)). split.
    + apply P2. apply Nat.lt_le_trans with (S (i / B)); [lia|]. apply Nat.div_le_lower_bound; [lia|]. nia.
    + unfold block_points. fold B. apply in_seq. nia.
  - intros (b & _ & I). unfold block_points in I. fold B in I. apply in_seq in I. lia.
Qed.
Definition all_codes (t : pq T) (data : list (list T)) : list N := concat (map (row_code t) data).
Lemma encode_all (t : pq T) data order : shaped t -> rows_of (q_dim t) data -> Permutation order (seq 0 (blocks_of (length data))) ->
  encode_blocks ar t data order (repeat 0%N (length data * q_chunks t)) = Ok (all_codes t data).
Proof.
  intros S R P. rewrite encode_blocks_ok by (auto; now rewrite repeat_length). f_equal. unfold all_codes.
  rewrite (write_all (q_chunks t) (length data)).
  - f_equal. rewrite <- (map_map (fun i => nth i data []) (row_code t)). f_equal.
    clear. induction data as [|x data IH]; [reflexivity|]. cbn [length seq map nth]. f_equal. rewrite <- seq_shift, map_map. exact IH.
  - apply repeat_length.
  - intros i I. apply (blocks_cover _ _ P) in I. split; [exact I|]. apply row_code_ok; [exact S|]. eapply Forall_forall in R; [exact R|]. now apply nth_In.
  - intros i I. now apply (blocks_cover _ _ P).
Qed.
Lemma all_codes_rows (t : pq T) data : shaped t -> rows_of (q_dim t) data -> Forall (fun r => length r = q_chunks t) (map (row_code t) data).
Proof. intros S R. apply Forall_map. eapply Forall_impl; [|exact R]. intros v L. apply row_code_ok; auto. Qed.
Lemma all_codes_bytes (t : pq T) data : shaped t -> rows_of (q_dim t) data -> Forall (fun b => (b < 256)%N) (all_codes t data).
Proof.
  intros S R. unfold all_codes. apply Forall_concat, Forall_map. eapply Forall_impl; [|exact R]. intros v L. apply row_code_ok; auto.
Qed.

(** ** The symmetric table *)
Definition sym_entry (t : pq T) (c a b : nat) : T :=
  a_l2 ar (firstn (q_cd t) (skipn ((c * 256 + a) * q_cd t) (q_codebook t))) (firstn (q_cd t) (skipn ((c * 256 + b) * q_cd t) (q_codebook t))).
Definition sym_table (t : pq T) : list T :=
  concat (map (fun c => concat (map (fun a => map (fun b => sym_entry t c a b) (seq 0 kCentroids)) (seq 0 kCentroids))) (seq 0 (q_chunks t))).
Definition with_sym (t : pq T) (s : list T) : pq T :=
  {| q_dim := q_dim t; q_chunks := q_chunks t; q_cd := q_cd t; q_points := q_points t;
     q_centroid := q_centroid t; q_codebook := q_codebook t; q_codes := q_codes t; q_sym := s |}.
Lemma skip_cut {A} (l : list A) off n off' n' : off' + n' <= n -> firstn n' (skipn off' (firstn n (skipn off l))) = firstn n' (skipn (off + off') l).
Proof.
  intros H. rewrite skipn_firstn_comm, firstn_firstn, Nat.min_l by lia. now rewrite skip_skip, Nat.add_comm.
Qed.
Lemma build_symmetric_ok (t : pq T) : shaped t -> build_symmetric ar t = Ok (with_sym t (sym_table t)).
Proof.
  intros S. pose proof (codebook_nonempty t S) as NE. destruct S as (P1 & P2 & D & G & B). unfold build_symmetric.
  assert (E : each (sym_chunk ar t) (seq 0 (q_chunks t)) = Ok (map (fun c => concat (map (fun a => map (fun b => sym_entry t c a b) (seq 0 kCentroids)) (seq 0 kCentroids))) (seq 0 (q_chunks t)))).
  { apply each_map. intros c I. apply in_seq in I. unfold sym_chunk. change (kCentroids * q_cd t) with (256 * q_cd t). change (c * kCentroids) with (c * 256).
    assert (R : c * 256 * q_cd t + 256 * q_cd t <= length (q_codebook t)) by (rewrite B; nia). rewrite slice_ok by exact R. cbn [bind].
    assert (CL := cut_length (q_codebook t) _ _ R). set (cents := firstn (256 * q_cd t) (skipn (c * 256 * q_cd t) (q_codebook t))) in *.
    assert (SL : forall a, a < 256 -> slice cents (a * q_cd t) (q_cd t) = Ok (firstn (q_cd t) (skipn ((c * 256 + a) * q_cd t) (q_codebook t)))).
    { intros a Ha. rewrite slice_ok by (rewrite CL; nia). f_equal. unfold cents. rewrite skip_cut by nia. do 2 f_equal. lia. }
    rewrite (each_map _ (fun a => map (fun b => sym_entry t c a b) (seq 0 kCentroids))); [reflexivity|]. intros a Ia. apply in_seq in Ia. unfold kCentroids in Ia.
    unfold sym_row. rewrite SL by lia. cbn [bind]. apply each_map. intros b Ib. apply in_seq in Ib. unfold kCentroids in Ib. rewrite SL by lia. reflexivity. }
  rewrite E. assert (M : forall X : res (list T), match q_codebook t with [] => Ok [] | _ => X end = X) by (intros X; destruct (q_codebook t); [congruence|reflexivity]).
  rewrite M. reflexivity.
Qed.
Lemma sym_inner_length (f : nat -> nat -> T) : length (concat (map (fun a => map (f a) (seq 0 kCentroids)) (seq 0 kCentroids))) = 256 * 256.
Proof.
  rewrite (concat_length 256); [now rewrite map_length, seq_length|]. apply Forall_map, Forall_forall. intros a _. now rewrite map_length, seq_length.
Qed.
Lemma nth_map_seq {B} (f : nat -> B) n i d : i < n -> nth i (map f (seq 0 n)) d = f i.
Proof. intros H. rewrite (nth_indep _ d (f 0)) by (rewrite map_length, seq_length; exact H). rewrite map_nth, seq_nth by exact H. reflexivity. Qed.
Lemma sym_table_nth (t : pq T) c a b d : c < q_chunks t -> a < 256 -> b < 256 -> nth (c * (256 * 256) + (a * 256 + b)) (sym_table t) d = sym_entry t c a b.
Proof.
  intros Hc Ha Hb. unfold sym_table. set (rows := map _ (seq 0 (q_chunks t))).
  assert (F : Forall (fun r => length r = (256 * 256)) rows). { apply Forall_map, Forall_forall. intros x _. apply sym_inner_length. }
  rewrite (concat_nth (256 * 256) rows d F); [|unfold rows; now rewrite map_length, seq_length|now apply rows_index].
  unfold rows. rewrite nth_map_seq by exact Hc. rewrite (concat_nth 256).
  - rewrite nth_map_seq by exact Ha. now rewrite nth_map_seq.
  - apply Forall_map, Forall_forall. intros x _. now rewrite map_length, seq_length.
  - now rewrite map_length, seq_length.
  - exact Hb.
Qed.
Lemma sym_table_length (t : pq T) : length (sym_table t) = q_chunks t * (256 * 256).
Proof.
  unfold sym_table. rewrite (concat_length (256 * 256)); [now rewrite map_length, seq_length|]. apply Forall_map, Forall_forall. intros x _. apply sym_inner_length.
Qed.
End Any.
