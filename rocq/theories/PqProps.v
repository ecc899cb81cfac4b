(** Product quantization: what its distances mean (C74), and that its codes and files do
    not depend on how they were made (C75). *)
From Coq Require Import Lqa Permutation Eqdep_dec.
From Verif Require Import PqSpec PqTrainProofs.
Import ListNotations.
Local Open Scope nat_scope.

(** ** C74: exact arithmetic *)
(** The distance found by table lookup is the squared distance of the query to the vector
    that the codes of the point stand for *)
Theorem pq_distance_exact big (t : pq Q) query id : shaped t -> coded t -> length query = q_dim t -> id < q_points t ->
  exists table r, preprocess_query (exact big) t query = Ok table /\ pq_distance (exact big) t id table = Ok r /\
    (r == sq_dist (q_dim t) (coord query) (decoded t (code t id)))%Q.
Proof. exact (pq_distance_entries big t query id). Qed.

(** The symmetric distance is that of the two decoded vectors *)
Theorem pq_symmetric_exact big (t : pq Q) i j : shaped t -> coded t -> i < q_points t -> j < q_points t ->
  exists t' r, build_symmetric (exact big) t = Ok t' /\ pq_symmetric_distance (exact big) t' i j = Ok r /\
    (r == sq_dist (q_dim t) (decoded t (code t i)) (decoded t (code t j)))%Q.
Proof.
  intros S C Hi Hj. exists (with_sym t (sym_table (exact big) t)). destruct (symmetric_exact big (with_sym t (sym_table (exact big) t)) i j S C eq_refl Hi Hj) as (r & E & H).
  exists r. split; [now apply build_symmetric_ok|]. split; [exact E|exact H].
Qed.

(** No other codes stand for a vector nearer to the encoded one *)
Theorem pq_encode_best big (t : pq Q) v : shaped t -> length v = q_dim t ->
  (forall c, c < q_chunks t -> exists k, k < 256 /\ (chunk_dist t v c k < big)%Q) ->
  exists row, encode_to_code (exact big) t v = Ok row /\ length row = q_chunks t /\ Forall (fun b => (b < 256)%N) row /\
    forall other, (forall c, c < q_chunks t -> other c < 256) ->
      (sq_dist (q_dim t) (coord v) (decoded t (fun c => N.to_nat (nth c row 0%N))) <= sq_dist (q_dim t) (coord v) (decoded t other))%Q.
Proof.
  intros S L H. exists (row_code (exact big) t v). destruct (row_code_ok (exact big) t v S L) as (_ & E & LR & FR). split; [exact E|]. split; [exact LR|]. split; [exact FR|].
  intros other O. rewrite !dist_chunks by exact S. apply sum_to_le. intros c Hc.
  assert (B : N.to_nat (nth c (row_code (exact big) t v) 0%N) < 256) by (pose proof (proj1 (Forall_forall _ _) FR _ (nth_In _ 0%N ltac:(rewrite LR; exact Hc))) as X; cbv beta in X; lia).
  rewrite <- !(entry_dist big) by auto. apply (nearest_entry big); auto; [now apply row_code_nearest|]. destruct (H c Hc) as (k & Hk & F). exists k. split; [exact Hk|]. now rewrite entry_dist.
Qed.
(** Without the bound on the distances the first codeword is taken, however bad *)
Theorem pq_encode_overflow_refuted : ~ (forall big (t : pq Q) v row other, shaped t -> length v = q_dim t -> encode_to_code (exact big) t v = Ok row ->
  (forall c, c < q_chunks t -> other c < 256) ->
  (sq_dist (q_dim t) (coord v) (decoded t (fun c => N.to_nat (nth c row 0%N))) <= sq_dist (q_dim t) (coord v) (decoded t other))%Q).
Proof.
  intros H. set (t := {| q_dim := 1; q_chunks := 1; q_cd := 1; q_points := 0; q_centroid := [0%Q]; q_codebook := 5%Q :: repeat 3%Q 255; q_codes := []; q_sym := [] |}).
  specialize (H 1%Q t [0%Q] [0%N] (fun _ => 1)). assert (X : (sq_dist 1 (coord [0%Q]) (decoded t (fun c => N.to_nat (nth c [0%N] 0%N))) <= sq_dist 1 (coord [0%Q]) (decoded t (fun _ => 1%nat)))%Q).
  { apply H; [repeat split; repeat constructor|reflexivity|vm_compute; reflexivity|intros; lia]. }
  vm_compute in X. apply X. reflexivity.
Qed.

(** A table trained on at most 256 vectors stores those vectors without loss *)
Theorem pq_lossless big rnds iters corder eorder t data dim chunks : (0 < big)%Q ->
  0 < length data <= 256 -> 0 < dim -> 0 < chunks -> dim mod chunks = 0 -> rows_of dim data ->
  Permutation corder (seq 0 chunks) -> Permutation eorder (seq 0 (blocks_of (length data))) ->
  exists t1 t2, train (exact big) rnds iters corder t data dim chunks = Ok t1 /\ encode (exact big) eorder t1 data = Ok t2 /\
    q_points t2 = length data /\ q_dim t2 = dim /\
    forall i d, i < length data -> d < dim -> (decoded t2 (code t2 i) d == coord (nth i data []) d)%Q.
Proof.
  intros BP [N1 N2] D C M R PC PE. destruct (trained_shaped (exact big) rnds iters corder t data dim chunks N1 D C M R PC) as (t1 & E1 & S1 & D1 & C1).
  destruct (trained_entry big rnds iters corder t data dim chunks t1 N1 D C M R PC E1) as (CD & CT & RR & TE). exists t1.
  destruct (encoded_ok big t1 data eorder S1 ltac:(rewrite D1; exact R) N1 PE) as (t2 & E2 & S2 & K2 & P2 & Y2 & D2 & C2 & CD2 & CT2 & CB2 & _ & RC). exists t2.
  split; [exact E1|]. split; [exact E2|]. split; [exact P2|]. split; [congruence|]. intros i d Hi Hd.
  pose proof S1 as (Q1 & Q2 & QD & QG & QB). rewrite D1, C1, CD in *. set (cd := dim / chunks) in *. set (v := nth i data []). assert (LV : length v = dim) by (eapply nth_row; eauto).
  assert (Hc : d / cd < chunks) by (apply Nat.div_lt_upper_bound; lia). assert (Hj : d mod cd < cd) by (apply Nat.mod_upper_bound; lia). set (c := d / cd) in *. set (j := d mod cd) in *.
  assert (DJ : d = c * cd + j) by (unfold c, j; rewrite (Nat.mul_comm _ cd); apply Nat.div_mod; lia).
  destruct (TE c Hc) as (cents & EC & LC & RCC & RP & LP & BK). pose proof (pts_nth big dim chunks data c i Hi) as PN. fold cd in PN. fold v in PN.
  assert (NC : nth i cents [] = nth i (pts big dim chunks data c) []).
  { unfold train_chunk in EC. unfold kCentroids in EC. rewrite (proj2 (Nat.leb_le _ _)) in EC by lia. rewrite point_ok in EC by lia. cbn [bind] in EC. injection EC as <-. apply app_nth1. rewrite LP. exact Hi. }
  set (x := firstn cd (skipn (c * cd) (residual (exact big) (average (exact big) dim data) v))) in *.
  assert (EN : forall k, k < 256 -> entry big t1 v c k = Ql2 x (nth k cents [])). { intros k Hk. unfold x. rewrite <- CT. now apply entry_cents. }
  set (b := nth c (row_code (exact big) t1 v) 0%N). assert (LR := row_code_nearest big t1 v c S1 ltac:(congruence) ltac:(rewrite C1; exact Hc)). fold b in LR.
  destruct (row_code_ok (exact big) t1 v S1 ltac:(congruence)) as (_ & _ & RL & RF).
  assert (Hb : N.to_nat b < 256) by (pose proof (proj1 (Forall_forall _ _) RF _ (nth_In _ 0%N ltac:(rewrite RL, C1; exact Hc))) as X; cbv beta in X; fold b in X; lia).
  assert (Z : (entry big t1 v c i == 0)%Q) by (rewrite EN by lia; rewrite NC, PN; apply Ql2_refl).
  assert (LE := nearest_entry big t1 v c b S1 ltac:(congruence) ltac:(rewrite C1; exact Hc) LR ltac:(exists i; split; [lia|rewrite Z; exact BP]) i ltac:(lia)). rewrite Z in LE.
  unfold entry in LE. rewrite CD, CT in LE. fold x in LE.
  assert (BC : (c * 256 + N.to_nat b) * cd + cd <= length (q_codebook t1)) by (rewrite QB; pose proof (rows_index c (N.to_nat b) chunks 256 Hc Hb); nia).
  assert (LX : c * cd + cd <= length (residual (exact big) (average (exact big) dim data) v)) by (rewrite (residual_length (exact big) _ _ dim) by (rewrite <- ?CT; auto); nia).
  assert (LL : length x = length (firstn cd (skipn ((c * 256 + N.to_nat b) * cd) (q_codebook t1)))) by (unfold x; rewrite !cut_length; auto).
  assert (EQ := Ql2_zero _ _ LL LE j). unfold x in EQ. rewrite !nth_cut in EQ by exact Hj. rewrite (residual_nth big _ _ dim) in EQ by (rewrite <- ?CT; auto; nia).
  unfold decoded, coord. cbv zeta. rewrite CD2, CT2, CB2, ?CD, ?CT. fold cd c j v. rewrite (RC i c Hi Hc). fold v. fold b. rewrite <- EQ, <- DJ. ring.
Qed.

(** More iterations of the training never make the codes of the training data worse *)
Lemma error_total big rnds iters corder eorder t data dim chunks t1 t2 B :
  0 < length data -> 0 < dim -> 0 < chunks -> dim mod chunks = 0 -> rows_of dim data -> bounded B data ->
  (inject_Z (Z.of_nat (dim / chunks)) * (4 * (2 * B * (2 * B))) < big)%Q ->
  Permutation corder (seq 0 chunks) -> Permutation eorder (seq 0 (blocks_of (length data))) ->
  train (exact big) rnds iters corder t data dim chunks = Ok t1 -> encode (exact big) eorder t1 data = Ok t2 ->
  exists cents, (error t2 data == sum_to chunks (fun c => total_dist (pts big dim chunks data c) (cents c)))%Q /\
    forall c, c < chunks -> train_chunk (exact big) (rnds c) iters (dim / chunks) (pts big dim chunks data c) = Ok (cents c) /\ rows_of (dim / chunks) (pts big dim chunks data c) /\ length (pts big dim chunks data c) = length data.
Proof.
  intros N D C M R HB SM PC PE E1 E2. destruct (trained_shaped (exact big) rnds iters corder t data dim chunks N D C M R PC) as (t1' & E1' & S1 & D1 & C1). rewrite E1 in E1'. injection E1' as <-.
  destruct (trained_entry big rnds iters corder t data dim chunks t1 N D C M R PC E1) as (CD & CT & RR & TE).
  destruct (encoded_ok big t1 data eorder S1 ltac:(rewrite D1; exact R) N PE) as (t2' & E2' & S2 & K2 & P2 & Y2 & D2 & C2 & CD2 & CT2 & CB2 & _ & RC). rewrite E2 in E2'. injection E2' as <-.
  exists (fun c => match train_chunk (exact big) (rnds c) iters (dim / chunks) (pts big dim chunks data c) with Ok x => x | _ => [] end). split.
  - unfold error. rewrite D2, D1.
    transitivity (sum_to (length data) (fun i => sum_to chunks (fun c => nearest_dist (match train_chunk (exact big) (rnds c) iters (dim / chunks) (pts big dim chunks data c) with Ok x => x | _ => [] end) (nth i (pts big dim chunks data c) [])))).
    + apply sum_to_ext. intros i Hi. assert (LV : length (nth i data []) = dim) by (eapply nth_row; eauto). replace dim with (q_dim t2) at 1 by congruence. rewrite dist_chunks by exact S2. rewrite C2, C1. apply sum_to_ext. intros c Hc.
      destruct (TE c Hc) as (cents & EC & LC & RCC & RP & LP & BK). rewrite EC. assert (KB : code t2 i c < 256) by (apply code_bound; [exact K2|congruence|congruence]).
      rewrite <- (entry_dist big t2 (nth i data []) c (code t2 i c) S2 ltac:(congruence) ltac:(congruence) KB).
      rewrite (entry_same big t1 t2) by auto. rewrite RC by congruence. set (v := nth i data []) in *. set (b := nth c (row_code (exact big) t1 v) 0%N).
      assert (LR := row_code_nearest big t1 v c S1 ltac:(congruence) ltac:(rewrite C1; exact Hc)). fold b in LR.
      destruct (row_code_ok (exact big) t1 v S1 ltac:(congruence)) as (_ & _ & RL & RF).
      assert (Hb : N.to_nat b < 256) by (pose proof (proj1 (Forall_forall _ _) RF _ (nth_In _ 0%N ltac:(rewrite RL, C1; exact Hc))) as X; cbv beta in X; fold b in X; lia).
      pose proof (pts_nth big dim chunks data c i Hi) as PN. fold v in PN.
      assert (EN : forall k, k < 256 -> entry big t1 v c k = Ql2 (nth i (pts big dim chunks data c) []) (nth k cents [])). { intros k Hk. rewrite PN. rewrite <- CT. now apply entry_cents. }
      assert (SMALL : exists k, k < 256 /\ (entry big t1 v c k < big)%Q).
      { exists 0. split; [lia|]. rewrite EN by lia. eapply Qle_lt_trans; [|exact SM]. pose proof (pts_bounded big dim chunks data c B N R HB) as PB.
        assert (LX : length (nth i (pts big dim chunks data c) []) = dim / chunks) by (apply nth_row; [exact RP|lia]). rewrite <- LX.
        apply Ql2_bound; [apply bounded_nth; [exact PB|lia]|]. apply bounded_nth; [|lia]. eapply (chunk_bounded big); [| |exact PB|exact EC]; [lia|exact RP]. }
      assert (LE := nearest_entry big t1 v c b S1 ltac:(congruence) ltac:(rewrite C1; exact Hc) LR SMALL).
      symmetry. rewrite EN by exact Hb. apply nearest_at; [lia|]. rewrite LC. intros k Hk. specialize (LE k Hk). rewrite !EN in LE by assumption. exact LE.
    + rewrite sum_to_swap. apply sum_to_ext. intros c Hc. destruct (TE c Hc) as (cents & EC & LC & RCC & RP & LP & BK). rewrite total_as_sum, LP. reflexivity.
  - intros c Hc. destruct (TE c Hc) as (cents & EC & LC & RCC & RP & LP & BK). rewrite EC. auto.
Qed.
Theorem pq_training_improves big rnds iters more corder eorder t data dim chunks t1 t1' t2 t2' B :
  0 < length data -> 0 < dim -> 0 < chunks -> dim mod chunks = 0 -> rows_of dim data -> bounded B data ->
  (inject_Z (Z.of_nat (dim / chunks)) * (16 * (B * B)) < big)%Q ->
  Permutation corder (seq 0 chunks) -> Permutation eorder (seq 0 (blocks_of (length data))) ->
  train (exact big) rnds iters corder t data dim chunks = Ok t1 -> encode (exact big) eorder t1 data = Ok t1' ->
  train (exact big) rnds (iters + more) corder t data dim chunks = Ok t2 -> encode (exact big) eorder t2 data = Ok t2' ->
  (error t2' data <= error t1' data)%Q.
Proof.
  intros N D C M R HB SM PC PE E1 E1' E2 E2'. assert (SM' : (inject_Z (Z.of_nat (dim / chunks)) * (4 * (2 * B * (2 * B))) < big)%Q) by lra.
  destruct (error_total big rnds iters corder eorder t data dim chunks t1 t1' B N D C M R HB SM' PC PE E1 E1') as (c1 & -> & H1).
  destruct (error_total big rnds (iters + more) corder eorder t data dim chunks t2 t2' B N D C M R HB SM' PC PE E2 E2') as (c2 & -> & H2).
  apply sum_to_le. intros c Hc. destruct (H1 c Hc) as (T1 & RP & LP). destruct (H2 c Hc) as (T2 & _ & _).
  eapply (chunk_improves big); [| | |exact SM'|exact T1|exact T2]; [lia|exact RP|now apply pts_bounded].
Qed.

(** ** C75: whatever the arithmetic *)
Theorem pq_batch_same {T} (ar : arith T) t ids table : coded t -> length table = q_chunks t * 256 -> Forall (fun i => i < q_points t) ids ->
  exists ds, pq_distance_batch ar t ids table = Ok ds /\ Forall2 (fun id d => pq_distance ar t id table = Ok d) ids ds.
Proof.
  intros C L F. assert (X : each (fun id => pq_distance ar t id table) ids = Ok (map (table_sum ar t table) ids)).
  { apply each_map. intros id I. apply pq_distance_ok; auto. eapply Forall_forall in F; eauto. }
  exists (map (table_sum ar t table) ids). split; [|apply each_Ok; exact X]. unfold pq_distance_batch. destruct (Nat.ltb_spec kTileChunks (q_chunks t)) as [H|H]; [exact X|]. now apply batch_tiles_ok.
Qed.
(** Nothing checks the point: past the end the code reads outside its array *)
Theorem pq_distance_unchecked {T} (ar : arith T) t id table : shaped t -> coded t -> q_points t <= id -> pq_distance ar t id table = OutOfBounds.
Proof.
  intros (P1 & P2 & _) [L _] H. unfold pq_distance. destruct (q_chunks t) as [|k] eqn:E; [lia|]. cbn [seq lookup_sum]. rewrite aget_out; [reflexivity|]. rewrite L. nia.
Qed.
Theorem pq_symmetric_checks {T} (ar : arith T) t i j : q_points t <= i \/ q_points t <= j -> pq_symmetric_distance ar t i j = Throws.
Proof.
  intros H. unfold pq_symmetric_distance. destruct (Nat.leb_spec (q_points t) i); [reflexivity|]. destruct (Nat.leb_spec (q_points t) j); [reflexivity|lia].
Qed.
Theorem pq_train_any_order {T} (ar : arith T) rnds iters order t data dim chunks : 0 < length data -> 0 < dim -> 0 < chunks -> dim mod chunks = 0 -> rows_of dim data ->
  Permutation order (seq 0 chunks) ->
  train ar rnds iters order t data dim chunks = train ar rnds iters (seq 0 chunks) t data dim chunks /\
  exists t', train ar rnds iters order t data dim chunks = Ok t' /\ shaped t' /\ q_dim t' = dim /\ q_chunks t' = chunks.
Proof.
  intros N D C M R P. split; [|now apply trained_shaped].
  rewrite (proj1 (train_ok ar rnds iters order t data dim chunks N D C M R P)), (proj1 (train_ok ar rnds iters (seq 0 chunks) t data dim chunks N D C M R (Permutation_refl _))). reflexivity.
Qed.
(** Training refuses what it cannot split into equal chunks *)
Theorem pq_train_checks {T} (ar : arith T) rnds iters order t data dim chunks : length data = 0 \/ dim = 0 \/ chunks = 0 \/ dim mod chunks <> 0 ->
  train ar rnds iters order t data dim chunks = Throws.
Proof.
  intros H. unfold train. destruct (Nat.eqb_spec (length data) 0); [reflexivity|]. destruct (Nat.eqb_spec dim 0); [reflexivity|]. destruct (Nat.eqb_spec chunks 0); [reflexivity|].
  cbn [orb]. destruct (Nat.eqb_spec (dim mod chunks) 0); [lia|reflexivity].
Qed.
Theorem pq_encode_any_order {T} (ar : arith T) order t data : shaped t -> rows_of (q_dim t) data -> 0 < length data -> Permutation order (seq 0 (blocks_of (length data))) ->
  exists t', encode ar order t data = Ok t' /\ shaped t' /\ coded t' /\ q_points t' = length data /\ q_chunks t' = q_chunks t /\
    q_centroid t' = q_centroid t /\ q_codebook t' = q_codebook t /\ build_symmetric ar t' = Ok t' /\
    forall i, i < length data -> Ok (code_row t' i) = encode_to_code ar t (nth i data []).
Proof.
  intros S R N P. destruct (encode_ok ar t data order S R N P) as (E & C & H). cbv zeta in E, C, H. eexists. split; [exact E|]. split; [exact S|]. split; [exact C|].
  do 4 (split; [reflexivity|]). split; [|exact H]. rewrite build_symmetric_ok by exact S. reflexivity.
Qed.
Theorem pq_encode_one {T} (ar : arith T) t v id : shaped t -> coded t -> length v = q_dim t ->
  exists t', encode_one ar t v id = Ok t' /\ shaped t' /\ coded t' /\ q_points t' = Nat.max (q_points t) (id + 1) /\
    q_centroid t' = q_centroid t /\ q_codebook t' = q_codebook t /\ q_sym t' = q_sym t /\
    Ok (code_row t' id) = encode_to_code ar t v /\
    (forall j, j < q_points t -> j <> id -> code_row t' j = code_row t j) /\
    (forall j, q_points t <= j < q_points t' -> j <> id -> code_row t' j = repeat 0%N (q_chunks t)).
Proof.
  intros S C L. destruct (encode_one_ok ar t v id S C L) as (t' & E & S' & C' & P & G & B & Y & _ & _ & _ & R1 & R2 & R3). exists t'. auto 12.
Qed.
Theorem pq_save_load {T} (ar : arith T) t : bits_ok ar -> shaped t -> coded t -> 0 < q_points t -> build_symmetric ar t = Ok t ->
  exists p c, save ar t = Ok (p, c) /\ load ar p c (q_points t) (q_dim t) (q_chunks t) = Ok t.
Proof. intros B S C P E. destruct (save_load ar t B S C P) as (p & c & E1 & E2). exists p, c. split; [exact E1|]. now rewrite E2. Qed.
(** Files of the wrong size are refused, and what is loaded has the right shape *)
Lemma read_floats_length {T} (ar : arith T) n : forall l, length (read_floats ar n l) = n.
Proof. induction n as [|n IH]; intros l; cbn [read_floats length]; [reflexivity|]. now rewrite IH. Qed.
Theorem pq_load_checks {T} (ar : arith T) p c n dim chunks : Forall (fun b => (b < 256)%N) c ->
  (exists t, load ar p c n dim chunks = Ok t /\ shaped t /\ coded t /\ q_points t = n /\ q_dim t = dim /\ q_chunks t = chunks) \/
  (load ar p c n dim chunks = Throws /\
    (n = 0 \/ dim = 0 \/ chunks = 0 \/ dim mod chunks <> 0 \/ length p <> (dim + 256 * dim) * 4 \/ length c <> n * chunks)).
Proof.
  intros F. unfold load. destruct (Nat.eqb_spec n 0); [right; cbn [orb]; auto|]. destruct (Nat.eqb_spec dim 0); [right; cbn [orb]; auto|]. destruct (Nat.eqb_spec chunks 0); [right; cbn [orb]; auto|].
  destruct (Nat.eqb_spec (dim mod chunks) 0) as [M|M]; cbn [orb negb]; [|right; auto 6]. assert (DM : dim = chunks * (dim / chunks)) by (pose proof (Nat.div_mod dim chunks ltac:(lia)); lia). unfold kCentroids.
  assert (FL : chunks * 256 * (dim / chunks) = 256 * dim) by (rewrite (Nat.mul_comm chunks 256), <- Nat.mul_assoc, <- DM; reflexivity).
  destruct (Nat.eqb_spec (length p) ((dim + chunks * 256 * (dim / chunks)) * 4)) as [LP|LP]; cbn [negb]; [|right; rewrite FL in LP; auto 8].
  destruct (Nat.eqb_spec (length c) (n * chunks)) as [LC|LC]; cbn [negb]; [|right; auto 8]. left.
  match goal with |- exists t, build_symmetric ar ?t0 = _ /\ _ => set (t0' := t0) end.
  assert (S : shaped t0'). { unfold shaped, t0'. cbn [q_cd q_chunks q_dim q_centroid q_codebook]. rewrite !read_floats_length. repeat split; [destruct (dim / chunks); lia|lia|exact DM]. }
  rewrite build_symmetric_ok by exact S. eexists. split; [reflexivity|]. split; [exact S|]. split; [split; [exact LC|exact F]|]. repeat split.
Qed.

(** ** Examples *)
Definition some_data : list (list Q) := [[1; 2; 3; 4]; [5; 6; 7; 8]; [0; 0; 3; 1]]%Q.
Definition no_table : pq Q := pq_new.
Definition some_random (c : nat) : random := {| r_pick := fun k => k; r_draw := fun p => N.of_nat (p + c) |}.
Definition some_table : pq Q := match train (exact 1000) some_random 15 [1; 0] no_table some_data 4 2 with Ok t => t | _ => no_table end.
Definition coded_table : pq Q := with_codes some_table 2 [0; 1; 2; 0]%N.
Example trained_case : 0 < length some_data <= 256 /\ 4 mod 2 = 0 /\ rows_of 4 some_data /\ Permutation [1; 0] (seq 0 2) /\ Permutation [0] (seq 0 (blocks_of (length some_data))) /\
  bounded 8 some_data /\ (inject_Z (Z.of_nat (4 / 2)) * (16 * (8 * 8)) < 3000)%Q /\ train (exact 1000) some_random 15 [1; 0] no_table some_data 4 2 = Ok some_table.
Proof.
  split; [cbn; lia|]. split; [reflexivity|]. split; [repeat constructor|]. split; [apply perm_swap|]. split; [apply Permutation_refl|].
  split; [repeat constructor; discriminate|]. split; [reflexivity|]. vm_compute. reflexivity.
Qed.
Example distance_case : shaped coded_table /\ coded coded_table /\ q_points coded_table = 2 /\
  (exists table r, preprocess_query (exact 1000) coded_table [1; 1; 1; 1]%Q = Ok table /\ pq_distance (exact 1000) coded_table 1 table = Ok r /\
   (r == 1 + 1 + 4 + 9)%Q) /\ (decoded coded_table (code coded_table 1) 2 == 3)%Q /\ (decoded coded_table (code coded_table 1) 0 == 0)%Q /\
  (exists k, k < 256 /\ (chunk_dist coded_table [1; 1; 1; 1]%Q 1 k < 1000)%Q).
Proof.
  split; [repeat split; vm_compute; lia|]. split; [split; [reflexivity|repeat constructor]|]. split; [reflexivity|].
  split; [|split; [vm_compute; reflexivity|split; [vm_compute; reflexivity|exists 0; split; [lia|vm_compute; reflexivity]]]].
  destruct (preprocess_query (exact 1000) coded_table [1; 1; 1; 1]%Q) as [table| | |] eqn:E; [|vm_compute in E; discriminate E..].
  destruct (pq_distance (exact 1000) coded_table 1 table) as [r| | |] eqn:E2; [|vm_compute in E; injection E as <-; vm_compute in E2; discriminate E2..].
  exists table, r. split; [reflexivity|]. split; [exact E2|]. vm_compute in E. injection E as <-. vm_compute in E2. injection E2 as <-. reflexivity.
Qed.
(** An arithmetic whose numbers are their 32 bits *)
Definition word : Type := {n : N | N.ltb n (2 ^ 32) = true}.
Lemma word_lt n : N.ltb (N.modulo n (2 ^ 32)) (2 ^ 32) = true.
Proof. apply N.ltb_lt, N.mod_lt. discriminate. Qed.
Definition to_word (n : N) : word := exist _ (N.modulo n (2 ^ 32)) (word_lt n).
Definition words : arith word :=
  {| a_zero := to_word 0; a_max := to_word (2 ^ 32 - 1); a_add := fun a b => to_word (proj1_sig a + proj1_sig b); a_sub := fun a b => to_word (proj1_sig a + (2 ^ 32 - proj1_sig b));
     a_lt := fun a b => N.ltb (proj1_sig a) (proj1_sig b); a_l2 := fun _ _ => to_word 0; a_avg := fun _ => to_word 0; a_mean := fun _ => to_word 0; a_bits := fun a => proj1_sig a; a_of_bits := to_word |}.
Example words_case : bits_ok words.
Proof.
  intros [n H]. cbn [a_bits a_of_bits words proj1_sig]. pose proof (proj1 (N.ltb_lt _ _) H) as L. split; [|exact L]. unfold to_word. generalize (word_lt n). rewrite N.mod_small by exact L.
  intros e. f_equal. apply UIP_dec. apply Bool.bool_dec.
Qed.
Definition word_table : pq word := {| q_dim := 2; q_chunks := 1; q_cd := 2; q_points := 3; q_centroid := [to_word 1; to_word 2]; q_codebook := map (fun k => to_word (N.of_nat k)) (seq 0 512);
  q_codes := [7; 0; 255]%N; q_sym := [] |}.
Example save_case : exists t, build_symmetric words word_table = Ok t /\ shaped t /\ coded t /\ 0 < q_points t /\ build_symmetric words t = Ok t /\
  exists p c, save words t = Ok (p, c) /\ length p = 2056 /\ length c = 3.
Proof.
  assert (S : shaped word_table) by (repeat split; cbn; lia). assert (L : (length (float_bytes words (q_centroid word_table) ++ float_bytes words (q_codebook word_table)) =? 2056) = true) by (vm_compute; reflexivity). apply Nat.eqb_eq in L.
  exists (with_sym word_table (sym_table words word_table)). split; [now apply build_symmetric_ok|]. split; [exact S|]. split; [split; [reflexivity|repeat constructor]|]. split; [cbn; lia|].
  split; [rewrite build_symmetric_ok by exact S; reflexivity|]. eexists _, _. split; [reflexivity|]. split; [exact L|reflexivity].
Qed.
Example encode_one_case : coded coded_table /\ length [1; 2; 3; 4]%Q = q_dim coded_table /\
  match encode_one (exact 1000) coded_table [1; 2; 3; 4]%Q 3 with Ok t => q_codes t = [0; 1; 2; 0; 0; 0; 0; 0]%N | _ => False end /\
  match encode_one (exact 1000) coded_table [5; 6; 3; 1]%Q 0 with Ok t => q_codes t = [1; 2; 2; 0]%N | _ => False end.
Proof. split; [split; [reflexivity|repeat constructor]|]. split; [reflexivity|]. split; vm_compute; reflexivity. Qed.

Print Assumptions pq_distance_exact.
Print Assumptions pq_symmetric_exact.
Print Assumptions pq_encode_best.
Print Assumptions pq_encode_overflow_refuted.
Print Assumptions pq_lossless.
Print Assumptions pq_training_improves.
Print Assumptions pq_batch_same.
Print Assumptions pq_distance_unchecked.
Print Assumptions pq_symmetric_checks.
Print Assumptions pq_train_any_order.
Print Assumptions pq_train_checks.
Print Assumptions pq_encode_any_order.
Print Assumptions pq_encode_one.
Print Assumptions pq_save_load.
Print Assumptions pq_load_checks.
