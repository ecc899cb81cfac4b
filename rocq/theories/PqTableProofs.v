From Coq Require Import Permutation.
From Verif Require Export PqBitProofs.
Import ListNotations.
Local Open Scope nat_scope.

Section Any.
Context {T : Type} (ar : arith T).

(** ** Training *)
Lemma point_ok (data : list (list T)) i : i < length data -> point data i = Ok (nth i data []).
Proof. intros H. unfold point. rewrite (aget_nth data _ []) by lia. now rewrite Nat2N.id. Qed.
Lemma nth_row cd (data : list (list T)) i : rows_of cd data -> i < length data -> length (nth i data []) = cd.
Proof. intros R H. eapply Forall_forall in R; [exact R|]. now apply nth_In. Qed.
Lemma update_ok rnd cd data assign : 0 < length data -> rows_of cd data -> forall ks p, exists cents p', update_centroids ar rnd cd data assign ks p = Ok (cents, p') /\ length cents = length ks /\ rows_of cd cents.
Proof.
  intros N R. induction ks as [|k ks IH]; intros p; cbn [update_centroids]; [exists [], p; repeat split; constructor|].
  destruct (map snd _) as [|m ms].
  - assert (H : N.to_nat (r_draw rnd p mod N.of_nat (length data)) < length data) by (pose proof (N.mod_lt (r_draw rnd p) (N.of_nat (length data)) ltac:(lia)); lia).
    rewrite point_ok by exact H. cbn [bind]. destruct (IH (S p)) as (c & p' & -> & L & RC). cbn [bind fst snd]. eexists _, _. split; [reflexivity|].
    split; [cbn; lia|]. constructor; [apply nth_row; auto|exact RC].
  - destruct (IH p) as (c & p' & -> & L & RC). cbn [bind fst snd]. eexists _, _. split; [reflexivity|]. split; [cbn; lia|]. constructor; [now rewrite map_length, seq_length|exact RC].
Qed.
Lemma assign_ok cd data cents : length cents = 256 -> rows_of cd cents -> exists a, each (fun x => argmin_centroid ar cd x (concat cents)) data = Ok a.
Proof.
  intros L R. apply each_exists. intros x _. destruct (argmin_range ar cd x (concat cents)) as (r & E & _); [rewrite (concat_length cd _ R), L; reflexivity|eauto].
Qed.
Lemma lloyd_ok rnd cd data : 0 < length data -> rows_of cd data -> forall iters cents p, length cents = 256 -> rows_of cd cents ->
  exists c, lloyd ar rnd iters cd data cents p = Ok c /\ length c = 256 /\ rows_of cd c.
Proof.
  intros N R. induction iters as [|k IH]; intros cents p L RC; cbn [lloyd]; [eauto|].
  destruct (assign_ok cd data cents L RC) as [a ->]. cbn [bind]. destruct (update_ok rnd cd data a N R (seq 0 kCentroids) p) as (c & p' & -> & LC & RC'). cbn [bind fst snd].
  apply IH; [now rewrite LC, seq_length|exact RC'].
Qed.
Lemma init_ok rnd cd (data : list (list T)) : 0 < length data -> rows_of cd data -> exists c, kmeanspp_init rnd data = Ok c /\ length c = 256 /\ rows_of cd c.
Proof.
  intros N R. exists (map (fun k => nth (r_pick rnd k mod length data) data []) (seq 0 kCentroids)).
  assert (H : forall k, r_pick rnd k mod length data < length data) by (intros k; apply Nat.mod_upper_bound; lia).
  split; [apply each_map; intros k _; now rewrite point_ok|]. split; [now rewrite map_length, seq_length|].
  apply Forall_map, Forall_forall. intros k _. apply nth_row; auto.
Qed.
Lemma train_chunk_ok rnd iters cd data : 0 < length data -> rows_of cd data -> exists c, train_chunk ar rnd iters cd data = Ok c /\ length c = 256 /\ rows_of cd c.
Proof.
  intros N R. unfold train_chunk. destruct (Nat.leb_spec (length data) kCentroids) as [H|H].
  - rewrite point_ok by lia. cbn [bind]. eexists. split; [reflexivity|]. unfold kCentroids in *. split; [rewrite app_length, repeat_length; lia|].
    apply Forall_app. split; [exact R|]. apply Forall_forall. intros x I. apply repeat_spec in I as ->. apply nth_row; [exact R|lia].
  - destruct (init_ok rnd cd data N R) as (c & -> & L & RC). cbn [bind]. apply lloyd_ok; auto.
Qed.
Definition chunk_points (cd : nat) (rs : list (list T)) (c : nat) : list (list T) := map (fun r => firstn cd (skipn (c * cd) r)) rs.
Definition chunk_book (rnds : nat -> random) (iters cd : nat) (rs : list (list T)) (c : nat) : list T :=
  match train_chunk ar (rnds c) iters cd (chunk_points cd rs c) with Ok cents => concat cents | _ => [] end.
Lemma chunk_points_ok cd chunks (rs : list (list T)) c : rows_of (chunks * cd) rs -> c < chunks -> each (fun r => slice r (c * cd) cd) rs = Ok (chunk_points cd rs c) /\ rows_of cd (chunk_points cd rs c).
Proof.
  intros R H. assert (B : forall r, In r rs -> c * cd + cd <= length r) by (intros r I; eapply Forall_forall in R; [|exact I]; cbn in R; rewrite R; nia). split.
  - apply each_map. intros r I. now rewrite slice_ok by auto.
  - apply Forall_map, Forall_forall. intros r I. apply cut_length. auto.
Qed.
Lemma chunk_book_length rnds iters cd chunks rs c : 0 < length rs -> rows_of (chunks * cd) rs -> c < chunks -> length (chunk_book rnds iters cd rs c) = 256 * cd.
Proof.
  intros N R H. destruct (chunk_points_ok cd chunks rs c R H) as [_ RC]. unfold chunk_book.
  destruct (train_chunk_ok (rnds c) iters cd (chunk_points cd rs c)) as (cents & -> & L & RR); [unfold chunk_points; now rewrite map_length|exact RC|].
  now rewrite (concat_length cd _ RR), L.
Qed.
Lemma train_all_ok rnds iters cd chunks rs : 0 < length rs -> rows_of (chunks * cd) rs -> forall order cb, length cb = chunks * (256 * cd) -> (forall c, In c order -> c < chunks) ->
  train_all ar rnds iters cd rs cb order = Ok (write_rows (256 * cd) (chunk_book rnds iters cd rs) order cb).
Proof.
  intros N R. induction order as [|c order IH]; intros cb L H; cbn [train_all write_rows]; [reflexivity|].
  assert (Hc : c < chunks) by (apply H; now left). unfold train_one. destruct (chunk_points_ok cd chunks rs c R Hc) as [E RC]. rewrite E. cbn [bind].
  pose proof (chunk_book_length rnds iters cd chunks rs c N R Hc) as LB.
  destruct (train_chunk_ok (rnds c) iters cd (chunk_points cd rs c)) as (cents & E2 & LC & RR); [unfold chunk_points; now rewrite map_length|exact RC|].
  rewrite E2. cbn [bind]. assert (EB : chunk_book rnds iters cd rs c = concat cents) by (unfold chunk_book; now rewrite E2). rewrite <- EB in *.
  change (c * kCentroids * cd) with (c * 256 * cd). rewrite <- Nat.mul_assoc.
  assert (B : c * (256 * cd) + length (chunk_book rnds iters cd rs c) <= length cb) by (rewrite L, LB; nia).
  rewrite put_slice_ok by exact B. cbn [bind]. apply IH; [now rewrite put_length|]. intros x Hx. apply H. now right.
Qed.
Definition average (dim : nat) (data : list (list T)) : list T := map (fun d => a_avg ar (map (fun v => nth d v (a_zero ar)) data)) (seq 0 dim).
(** What training produces, whatever the order of the chunks *)
Lemma train_ok rnds iters order t data dim chunks : 0 < length data -> 0 < dim -> 0 < chunks -> dim mod chunks = 0 -> rows_of dim data -> Permutation order (seq 0 chunks) ->
  let g := average dim data in
  train ar rnds iters order t data dim chunks =
    Ok {| q_dim := dim; q_chunks := chunks; q_cd := dim / chunks; q_points := q_points t; q_centroid := g;
          q_codebook := concat (map (chunk_book rnds iters (dim / chunks) (map (residual ar g) data)) (seq 0 chunks)); q_codes := q_codes t; q_sym := q_sym t |} /\
  dim = chunks * (dim / chunks) /\ 0 < dim / chunks /\ length g = dim /\ rows_of dim (map (residual ar g) data).
Proof.
  intros N D C M R P g. assert (DM : dim = chunks * (dim / chunks)) by (pose proof (Nat.div_mod dim chunks ltac:(lia)); lia).
  assert (CP : 0 < dim / chunks) by (destruct (dim / chunks); [lia|lia]). assert (LG : length g = dim) by (unfold g, average; now rewrite map_length, seq_length).
  assert (RR : rows_of dim (map (residual ar g) data)). { apply Forall_map. eapply Forall_impl; [|exact R]. intros v L. now apply residual_length. }
  split; [|auto]. unfold train. rewrite (proj2 (Nat.eqb_neq (length data) 0)), (proj2 (Nat.eqb_neq dim 0)), (proj2 (Nat.eqb_neq chunks 0)) by lia. cbn [orb].
  rewrite M, Nat.eqb_refl. cbn [negb]. fold (average dim data). fold g. destruct (perm_in _ _ P) as [P1 P2]. set (cd := dim / chunks) in *.
  rewrite (train_all_ok rnds iters cd chunks) with (order := order); [|now rewrite map_length|now rewrite <- DM| |exact P1].
  - cbn [bind]. rewrite (write_all (256 * cd) chunks); [reflexivity| | |exact P2].
    + rewrite repeat_length. unfold kCentroids. lia.
    + intros c I. split; [auto|]. apply (chunk_book_length _ _ _ chunks); [now rewrite map_length|now rewrite <- DM|auto].
  - rewrite repeat_length. unfold kCentroids. lia.
Qed.
Lemma trained_shaped rnds iters order t data dim chunks : 0 < length data -> 0 < dim -> 0 < chunks -> dim mod chunks = 0 -> rows_of dim data -> Permutation order (seq 0 chunks) ->
  exists t', train ar rnds iters order t data dim chunks = Ok t' /\ shaped t' /\ q_dim t' = dim /\ q_chunks t' = chunks.
Proof.
  intros N D C M R P. destruct (train_ok rnds iters order t data dim chunks N D C M R P) as (E & DM & CP & LG & RR). eexists. split; [exact E|].
  split; [|auto]. unfold shaped. cbn [q_cd q_chunks q_dim q_centroid q_codebook]. split; [exact CP|]. split; [exact C|]. split; [exact DM|]. split; [exact LG|].
  rewrite (concat_length (256 * (dim / chunks))); [rewrite map_length, seq_length; lia|]. apply Forall_map, Forall_forall. intros c I. apply in_seq in I.
  apply (chunk_book_length _ _ _ chunks); [now rewrite map_length|now rewrite <- DM|lia].
Qed.

(** ** Distances *)
Lemma lookup_sum_ok table row b cs s : (forall c, In c cs -> row c = Ok (b c) /\ c * 256 + N.to_nat (b c) < length table) ->
  lookup_sum ar table row cs s = Ok (fold_left (fun s c => a_add ar s (nth (c * 256 + N.to_nat (b c)) table (a_zero ar))) cs s).
Proof.
  revert s. induction cs as [|c cs IH]; intros s H; cbn [lookup_sum fold_left]; [reflexivity|]. destruct (H c) as [-> L]; [now left|]. cbn [bind].
  change (c * kCentroids) with (c * 256). rewrite (aget_nth table _ (a_zero ar)) by lia. cbn [bind].
  replace (N.to_nat (N.of_nat (c * 256) + b c)) with (c * 256 + N.to_nat (b c)) by lia. apply IH. intros x I. apply H. now right.
Qed.
Definition table_sum (t : pq T) (table : list T) (id : nat) : T :=
  fold_left (fun s c => a_add ar s (nth (c * 256 + code t id c) table (a_zero ar))) (seq 0 (q_chunks t)) (a_zero ar).
Lemma code_bound (t : pq T) id c : coded t -> id < q_points t -> c < q_chunks t -> id * q_chunks t + c < length (q_codes t) /\ code t id c < 256.
Proof.
  intros [L F] Hi Hc. assert (B : id * q_chunks t + c < length (q_codes t)) by (rewrite L; now apply rows_index). split; [exact B|].
  unfold code. pose proof (proj1 (Forall_forall _ _) F _ (nth_In (q_codes t) 0%N B)) as X. cbv beta in X. lia.
Qed.
Lemma pq_distance_ok (t : pq T) id table : coded t -> id < q_points t -> length table = q_chunks t * 256 -> pq_distance ar t id table = Ok (table_sum t table id).
Proof.
  intros C Hi L. unfold pq_distance. rewrite (lookup_sum_ok table _ (fun c => nth (id * q_chunks t + c) (q_codes t) 0%N)); [reflexivity|].
  intros c I. apply in_seq in I. destruct (code_bound t id c C Hi ltac:(lia)) as [B K]. split; [rewrite (aget_nth _ _ 0%N) by lia; now rewrite Nat2N.id|]. rewrite L.
  apply rows_index; [lia|exact K].
Qed.
Lemma add_chunk_ok (t : pq T) table tile b c : forall o i, (forall j, i <= j < i + length o -> aget tile (N.of_nat (j * q_chunks t + c)) = Ok (b j) /\ c * 256 + N.to_nat (b j) < length table) ->
  add_chunk ar t table tile c i o = Ok (map (fun '(j, x) => a_add ar x (nth (c * 256 + N.to_nat (b j)) table (a_zero ar))) (combine (seq i (length o)) o)).
Proof.
  induction o as [|x o IH]; intros i H; cbn [add_chunk length seq combine map]; [reflexivity|]. destruct (H i) as [-> L]; [cbn; lia|]. cbn [bind].
  change (c * kCentroids) with (c * 256). rewrite (aget_nth table _ (a_zero ar)) by lia. cbn [bind].
  replace (N.to_nat (N.of_nat (c * 256) + b i)) with (c * 256 + N.to_nat (b i)) by lia.
  rewrite IH; [reflexivity|]. intros j Hj. apply H. cbn [length]. lia.
Qed.
Lemma combine_map_seq {A B} (f : nat -> A -> B) : forall (o : list A) i, combine (seq i (length o)) (map (fun '(j, x) => f j x) (combine (seq i (length o)) o)) = map (fun '(j, x) => (j, f j x)) (combine (seq i (length o)) o).
Proof. induction o as [|x o IH]; intros i; [reflexivity|]. cbn [length seq combine map]. f_equal. apply IH. Qed.
Lemma add_chunks_ok (t : pq T) table tile (b : nat -> nat -> N) : forall cs o, (forall j c, j < length o -> In c cs -> aget tile (N.of_nat (j * q_chunks t + c)) = Ok (b j c) /\ c * 256 + N.to_nat (b j c) < length table) ->
  add_chunks ar t table tile cs o = Ok (map (fun '(j, x) => fold_left (fun s c => a_add ar s (nth (c * 256 + N.to_nat (b j c)) table (a_zero ar))) cs x) (combine (seq 0 (length o)) o)).
Proof.
  induction cs as [|c cs IH]; intros o H; cbn [add_chunks fold_left].
  - f_equal. clear H. generalize 0. induction o as [|x o IHo]; intros i; [reflexivity|]. cbn [length seq combine map]. f_equal. apply IHo.
  - rewrite (add_chunk_ok t table tile (fun j => b j c)) by (intros j Hj; apply H; [lia|now left]). cbn [bind]. set (f := fun j x => a_add ar x (nth (c * 256 + N.to_nat (b j c)) table (a_zero ar))).
    change (fun '(j, x) => a_add ar x (nth (c * 256 + N.to_nat (b j c)) table (a_zero ar))) with (fun '(j, x) => f j x).
    assert (LO : length (map (fun '(j, x) => f j x) (combine (seq 0 (length o)) o)) = length o) by (rewrite map_length, combine_length, seq_length; lia).
    rewrite IH; rewrite LO; [|intros j c' Hj I; apply H; [exact Hj|now right]]. rewrite combine_map_seq, map_map. f_equal. apply map_ext. intros [j x]. reflexivity.
Qed.
Lemma combine_repeat {A B} (f : nat -> A -> B) z : forall n i, map (fun '(j, x) => f j x) (combine (seq i n) (repeat z n)) = map (fun j => f j z) (seq i n).
Proof. induction n as [|n IH]; intros i; [reflexivity|]. cbn [seq repeat combine map]. f_equal. apply IH. Qed.
Lemma gather_ok (t : pq T) ids : coded t -> Forall (fun i => i < q_points t) ids -> length ids <= 96 -> q_chunks t <= 64 ->
  gather t ids = Ok (concat (map (code_row t) ids)) /\ Forall (fun r => length r = q_chunks t) (map (code_row t) ids).
Proof.
  intros [L _] F H1 H2. rewrite Forall_forall in F. assert (B : forall id, In id ids -> id * q_chunks t + q_chunks t <= length (q_codes t)) by (intros id I; apply F in I; rewrite L; nia).
  assert (RL : Forall (fun r => length r = q_chunks t) (map (code_row t) ids)) by (apply Forall_map, Forall_forall; intros id I; apply cut_length; auto).
  split; [|exact RL]. unfold gather. rewrite (each_map _ (code_row t)) by (intros id I; now rewrite slice_ok by auto). cbn [bind].
  rewrite (concat_length _ _ RL), map_length. unfold kTilePoints, kTileChunks. rewrite (proj2 (Nat.leb_le _ _)) by (apply Nat.mul_le_mono; assumption). reflexivity.
Qed.
Lemma map_nth_ids {A B} (f : A -> B) (ids : list A) d : map (fun j => f (nth j ids d)) (seq 0 (length ids)) = map f ids.
Proof. induction ids as [|x ids IH]; [reflexivity|]. cbn [length seq map nth]. f_equal. rewrite <- seq_shift, map_map. exact IH. Qed.
Lemma tile_ok (t : pq T) table ids : coded t -> length table = q_chunks t * 256 -> Forall (fun i => i < q_points t) ids -> length ids <= 96 -> q_chunks t <= 64 ->
  add_chunks ar t table (concat (map (code_row t) ids)) (seq 0 (q_chunks t)) (repeat (a_zero ar) (length ids)) = Ok (map (table_sum t table) ids).
Proof.
  intros C LT F H1 H2. destruct (gather_ok t ids C F H1 H2) as [_ RL]. rewrite Forall_forall in F.
  rewrite (add_chunks_ok t table _ (fun j c => nth (nth j ids 0 * q_chunks t + c) (q_codes t) 0%N)).
  - rewrite repeat_length. f_equal. rewrite (combine_repeat (fun j x => fold_left _ _ x)). apply (map_nth_ids (table_sum t table) ids 0).
  - rewrite repeat_length. intros j c Hj I. apply in_seq in I. assert (P : nth j ids 0 < q_points t) by (apply F, nth_In, Hj).
    destruct (code_bound t _ c C P ltac:(lia)) as [B K]. split; [|rewrite LT; apply rows_index; [lia|exact K]].
    rewrite (aget_nth _ _ 0%N) by (rewrite (concat_length _ _ RL), map_length; pose proof (rows_index j c (length ids) (q_chunks t) Hj ltac:(lia)); lia). rewrite Nat2N.id. f_equal.
    rewrite (concat_nth _ _ _ RL) by (rewrite ?map_length; lia). rewrite (nth_indep _ [] (code_row t 0)) by (rewrite map_length; exact Hj). rewrite map_nth.
    unfold code_row. apply nth_cut. lia.
Qed.
Lemma batch_tiles_ok (t : pq T) table : coded t -> length table = q_chunks t * 256 -> q_chunks t <= 64 -> forall fuel ids, length ids <= fuel -> Forall (fun i => i < q_points t) ids ->
  batch_tiles ar fuel t ids table = Ok (map (table_sum t table) ids).
Proof.
  intros C LT H2. induction fuel as [|k IH]; intros ids L F; cbn [batch_tiles]; [now destruct ids; [|cbn in L; lia]|].
  destruct ids as [|x ids']; [reflexivity|]. set (ids := x :: ids') in *. change kTilePoints with 96.
  rewrite <- (firstn_skipn 96 ids) in F at 1. apply Forall_app in F as [F1 F2].
  destruct (gather_ok t (firstn 96 ids) C F1) as [-> _]; [rewrite firstn_length; lia|exact H2|]. cbn [bind].
  rewrite tile_ok by (auto; rewrite firstn_length; lia). cbn [bind]. rewrite IH; [|rewrite skipn_length; assert (LE : length ids = S (length ids')) by reflexivity; lia|exact F2]. cbn [bind].
  now rewrite <- map_app, firstn_skipn.
Qed.

(** ** Files *)
Lemma read_floats_app : bits_ok ar -> forall l r, read_floats ar (length l) (float_bytes ar l ++ r) = l.
Proof.
  intros BO. induction l as [|x l IH]; intros r; [reflexivity|]. cbn [length read_floats float_bytes flat_map]. rewrite <- app_assoc. destruct (BO x) as [B1 B2].
  rewrite firstn_app, le_enc_length, Nat.sub_diag, firstn_O, app_nil_r, firstn_all2 by (rewrite le_enc_length; lia).
  rewrite skipn_app, le_enc_length, Nat.sub_diag, skipn_all2 by (rewrite le_enc_length; lia). cbn [app skipn]. rewrite le_dec_enc by exact B2. rewrite B1. f_equal. apply IH.
Qed.
Lemma float_bytes_length l : length (float_bytes ar l) = length l * 4.
Proof. induction l as [|x l IH]; [reflexivity|]. cbn [float_bytes flat_map length]. rewrite app_length, le_enc_length. fold (float_bytes ar l). lia. Qed.
Lemma save_load (t : pq T) : bits_ok ar -> shaped t -> coded t -> 0 < q_points t -> exists p c, save ar t = Ok (p, c) /\ load ar p c (q_points t) (q_dim t) (q_chunks t) = build_symmetric ar t.
Proof.
  intros BO S C P. pose proof (codebook_nonempty t S) as NE. pose proof S as (P1 & P2 & D & G & B). destruct C as [LC FC].
  exists (float_bytes ar (q_centroid t) ++ float_bytes ar (q_codebook t)), (q_codes t). split; [unfold save; destruct (q_codebook t); [congruence|reflexivity]|].
  assert (DM : q_dim t mod q_chunks t = 0) by (rewrite D, Nat.mul_comm; apply Nat.mod_mul; lia). assert (DD : q_dim t / q_chunks t = q_cd t) by (rewrite D, Nat.mul_comm; apply Nat.div_mul; lia).
  unfold load. rewrite (proj2 (Nat.eqb_neq (q_points t) 0)), (proj2 (Nat.eqb_neq (q_dim t) 0)), (proj2 (Nat.eqb_neq (q_chunks t) 0)) by nia. rewrite DM, Nat.eqb_refl, DD. cbn [orb negb].
  change kCentroids with 256. rewrite app_length, !float_bytes_length, G, B. rewrite (proj2 (Nat.eqb_eq _ _)) by lia. cbn [negb]. rewrite LC, Nat.eqb_refl. cbn [negb].
  assert (R1 : read_floats ar (q_dim t) (float_bytes ar (q_centroid t) ++ float_bytes ar (q_codebook t)) = q_centroid t) by (rewrite <- G; now apply read_floats_app).
  assert (R2 : read_floats ar (q_chunks t * 256 * q_cd t) (skipn (q_dim t * 4) (float_bytes ar (q_centroid t) ++ float_bytes ar (q_codebook t))) = q_codebook t).
  { rewrite skipn_app, float_bytes_length, G, Nat.sub_diag, skipn_all2 by (rewrite float_bytes_length; lia). cbn [app skipn].
    rewrite <- B. rewrite <- (app_nil_r (float_bytes ar (q_codebook t))). now apply read_floats_app. }
  rewrite R1, R2.
  rewrite !build_symmetric_ok; [reflexivity|exact S|exact S].
Qed.

(** ** Single points *)
Lemma encode_one_ok (t : pq T) v id : shaped t -> coded t -> length v = q_dim t -> exists t', encode_one ar t v id = Ok t' /\ shaped t' /\ coded t' /\
  q_points t' = Nat.max (q_points t) (id + 1) /\ q_centroid t' = q_centroid t /\ q_codebook t' = q_codebook t /\ q_sym t' = q_sym t /\ q_chunks t' = q_chunks t /\ q_cd t' = q_cd t /\ q_dim t' = q_dim t /\
  (Ok (code_row t' id) = encode_to_code ar t v) /\
  (forall j, j < q_points t -> j <> id -> code_row t' j = code_row t j) /\ (forall j, q_points t <= j < q_points t' -> j <> id -> code_row t' j = repeat 0%N (q_chunks t)).
Proof.
  intros S C LV. pose proof (codebook_nonempty t S) as NE. destruct C as [LC FC]. set (k := q_chunks t) in *.
  set (grown := if Nat.ltb (q_points t) (id + 1) then firstn ((id + 1) * k) (q_codes t ++ repeat 0%N ((id + 1) * k - length (q_codes t))) else q_codes t).
  set (m := Nat.max (q_points t) (id + 1)).
  assert (LG : length grown = m * k).
  { unfold grown, m. destruct (Nat.ltb_spec (q_points t) (id + 1)) as [H|H]; [|rewrite Nat.max_l by lia; exact LC].
    rewrite Nat.max_r by lia. rewrite firstn_length, app_length, repeat_length, LC. assert (q_points t * k <= (id + 1) * k) by (apply Nat.mul_le_mono_r; lia). lia. }
  assert (FG : Forall (fun b => (b < 256)%N) grown).
  { unfold grown. destruct (Nat.ltb (q_points t) (id + 1)); [|exact FC]. apply Forall_forall. intros x I. assert (I' : In x (q_codes t ++ repeat 0%N ((id + 1) * k - length (q_codes t)))).
    { rewrite <- (firstn_skipn ((id + 1) * k)). apply in_or_app. now left. } apply in_app_or in I' as [I'|I']; [eapply Forall_forall in FC; eauto|apply repeat_spec in I'; subst x; lia]. }
  assert (RG : (forall j, j < q_points t -> row_of k j grown = row_of k j (q_codes t)) /\ forall j, q_points t <= j < m -> row_of k j grown = repeat 0%N k).
  { unfold grown, m. destruct (Nat.ltb_spec (q_points t) (id + 1)) as [H|H].
    - rewrite Nat.max_r by lia. rewrite firstn_all2 by (rewrite app_length, repeat_length, LC; assert (q_points t * k <= (id + 1) * k) by (apply Nat.mul_le_mono_r; lia); lia).
      split; intros j Hj; unfold row_of; rewrite skipn_app, LC.
      + assert (j * k + k <= q_points t * k) by nia. rewrite firstn_app, skipn_length, LC. replace (k - (q_points t * k - j * k)) with 0 by lia. now rewrite firstn_O, app_nil_r.
      + assert (q_points t * k <= j * k) by nia. rewrite skipn_all2 by lia. cbn [app].
        apply (list_nth_eq _ _ 0%N); [rewrite firstn_length, skipn_length, !repeat_length; nia|]. intros x Hx. rewrite firstn_length, skipn_length, repeat_length in Hx.
        rewrite nth_cut by lia. rewrite !nth_repeat. reflexivity.
    - split; [reflexivity|]. intros j Hj. lia. }
  destruct (row_code_ok ar t v S LV) as (E1 & E2 & LR & FR). set (row := row_code ar t v) in *.
  assert (B : id * k + length row <= length grown) by (rewrite LG, LR; unfold m; nia).
  set (codes := firstn (id * k) grown ++ row ++ skipn (id * k + length row) grown).
  exists (with_codes t m codes). assert (E : encode_one ar t v id = Ok (with_codes t m codes)).
  { unfold encode_one. assert (M : forall X : res (pq T), match q_codebook t with [] => Throws | _ => X end = X) by (intros X; destruct (q_codebook t); [congruence|reflexivity]). rewrite M. clear M.
    fold k. unfold grown in *. destruct (Nat.ltb_spec (q_points t) (id + 1)) as [H|H].
    - assert (ER : encode_row ar (with_codes t (id + 1) (firstn ((id + 1) * k) (q_codes t ++ repeat 0%N ((id + 1) * k - length (q_codes t))))) (residual ar (q_centroid t) v) = Ok row) by exact E1.
      cbn [q_centroid with_codes]. fold (with_codes t (id + 1) (firstn ((id + 1) * k) (q_codes t ++ repeat 0%N ((id + 1) * k - length (q_codes t))))). rewrite ER. cbn [bind q_codes q_chunks q_points with_codes]. fold k.
      rewrite put_slice_ok by exact B. cbn [bind]. unfold m. rewrite Nat.max_r by lia. reflexivity.
    - rewrite E1. cbn [bind]. fold k. rewrite put_slice_ok by exact B. cbn [bind]. unfold m. rewrite Nat.max_l by lia. reflexivity. }
  split; [exact E|]. split; [exact S|]. assert (LP : length codes = m * k) by (unfold codes; rewrite put_length by exact B; exact LG).
  split; [split; [exact LP|]|]. { unfold codes. apply Forall_app. split; [apply Forall_forall; intros x I; eapply Forall_forall in FG; [exact FG|]; rewrite <- (firstn_skipn (id * k)); apply in_or_app; now left|].
    apply Forall_app. split; [exact FR|]. apply Forall_forall; intros x I; eapply Forall_forall in FG; [exact FG|]; rewrite <- (firstn_skipn (id * k + length row)); apply in_or_app; now right. }
  split; [reflexivity|]. split; [reflexivity|]. split; [reflexivity|]. split; [reflexivity|]. split; [reflexivity|]. split; [reflexivity|]. split; [reflexivity|].
  assert (RP : forall j, j < m -> row_of k j codes = if Nat.eqb id j then row else row_of k j grown) by (intros j Hj; unfold codes; apply row_put with (n := m); auto; unfold m; lia).
  change (code_row (with_codes t m codes)) with (fun j => row_of k j codes). cbn beta. split; [|split].
  - rewrite RP by (unfold m; lia). now rewrite Nat.eqb_refl, E2.
  - intros j Hj NJ. rewrite RP by (unfold m; lia). rewrite (proj2 (Nat.eqb_neq _ _)) by auto. apply RG. exact Hj.
  - intros j Hj NJ. cbn [q_points with_codes] in Hj. rewrite RP by lia. rewrite (proj2 (Nat.eqb_neq _ _)) by auto. apply RG. exact Hj.
Qed.

(** ** All points *)
Lemma encode_ok (t : pq T) data order : shaped t -> rows_of (q_dim t) data -> 0 < length data -> Permutation order (seq 0 (blocks_of (length data))) ->
  let t1 := with_codes t (length data) (all_codes ar t data) in
  encode ar order t data = Ok (with_sym t1 (sym_table ar t1)) /\ coded (with_sym t1 (sym_table ar t1)) /\
  forall i, i < length data -> Ok (code_row (with_sym t1 (sym_table ar t1)) i) = encode_to_code ar t (nth i data []).
Proof.
  intros S R N P t1. pose proof (all_codes_rows ar t data S R) as RL. split; [|split].
  - unfold encode. assert (M : forall X : res (pq T), match q_codebook t with [] => Throws | _ => X end = X) by (intros X; pose proof (codebook_nonempty t S); destruct (q_codebook t); [congruence|reflexivity]).
    rewrite M, (proj2 (Nat.eqb_neq _ _)) by lia. rewrite encode_all by auto. cbn [bind]. apply build_symmetric_ok. exact S.
  - split; cbn [q_codes q_points q_chunks with_sym with_codes t1]; [unfold all_codes; now rewrite (concat_length _ _ RL), map_length|now apply all_codes_bytes].
  - intros i Hi. destruct (row_code_ok ar t (nth i data []) S) as (_ & -> & _); [eapply nth_row; eauto|]. f_equal. unfold code_row. cbn [q_codes q_chunks with_sym with_codes t1]. unfold all_codes.
    rewrite (concat_row _ _ (row_code ar t []) RL) by (rewrite map_length; exact Hi). apply map_nth.
Qed.
End Any.
