From Coq Require Import Lqa Permutation.
From Verif Require Export PqSpec.
Import ListNotations.
Local Open Scope nat_scope.

(** ** Reading and writing arrays *)
Lemma each_map {A B} (f : A -> res B) g l : (forall x, In x l -> f x = Ok (g x)) -> each f l = Ok (map g l).
Proof.
  induction l as [|x l IH]; intros H; [reflexivity|]. cbn [each map]. rewrite (H x) by now left. cbn [bind].
  rewrite IH by (intros y Hy; apply H; now right). reflexivity.
Qed.
Lemma each_ext {A B} (f g : A -> res B) l : (forall x, In x l -> f x = g x) -> each f l = each g l.
Proof.
  induction l as [|x l IH]; intros H; [reflexivity|]. cbn [each]. rewrite (H x) by now left.
  rewrite IH by (intros y Hy; apply H; now right). reflexivity.
Qed.
Lemma each_Ok {A B} (f : A -> res B) l : forall ys, each f l = Ok ys -> Forall2 (fun x y => f x = Ok y) l ys.
Proof.
  induction l as [|x l IH]; intros ys E; cbn [each] in E; [injection E as <-; constructor|].
  destruct (f x) as [y| | |] eqn:F; try discriminate E. destruct (each f l) as [r| | |]; try discriminate E. injection E as <-. constructor; auto.
Qed.
Lemma each_exists {A B} (f : A -> res B) l : (forall x, In x l -> exists y, f x = Ok y) -> exists ys, each f l = Ok ys.
Proof.
  induction l as [|x l IH]; intros H; [now exists []|]. destruct (H x) as [y E]; [now left|]. destruct IH as [ys E']; [intros z Hz; apply H; now right|].
  exists (y :: ys). cbn [each]. now rewrite E; cbn [bind]; rewrite E'.
Qed.
Lemma slice_ok {A} (l : list A) off len : off + len <= length l -> slice l off len = Ok (firstn len (skipn off l)).
Proof. intros H. unfold slice. now rewrite (proj2 (Nat.leb_le _ _) H). Qed.
Lemma slice_inv {A} (l : list A) off len x : slice l off len = Ok x -> off + len <= length l /\ x = firstn len (skipn off l).
Proof. unfold slice. destruct (Nat.leb_spec (off + len) (length l)); intros E; [|discriminate E]. injection E as <-. auto. Qed.
Lemma cut_length {A} (l : list A) off len : off + len <= length l -> length (firstn len (skipn off l)) = len.
Proof. intros H. rewrite firstn_length, skipn_length. lia. Qed.
Lemma nth_skip {A} (l : list A) : forall off j d, nth j (skipn off l) d = nth (off + j) l d.
Proof. induction l as [|x l IH]; intros off j d; [now rewrite skipn_nil; destruct j, off|]. destruct off as [|off]; [reflexivity|]. cbn [skipn Nat.add nth]. apply IH. Qed.
Lemma nth_first {A} (l : list A) : forall n j d, j < n -> nth j (firstn n l) d = nth j l d.
Proof. induction l as [|x l IH]; intros n j d H; [now rewrite firstn_nil; destruct j|]. destruct n; [lia|]. destruct j; [reflexivity|]. cbn [firstn nth]. apply IH. lia. Qed.
Lemma nth_cut {A} (l : list A) off len j d : j < len -> nth j (firstn len (skipn off l)) d = nth (off + j) l d.
Proof. intros H. rewrite nth_first by exact H. apply nth_skip. Qed.
Lemma put_slice_ok {A} (l : list A) off xs : off + length xs <= length l -> put_slice l off xs = Ok (firstn off l ++ xs ++ skipn (off + length xs) l).
Proof. intros H. unfold put_slice. now rewrite (proj2 (Nat.leb_le _ _) H). Qed.
Lemma put_slice_inv {A} (l : list A) off xs r : put_slice l off xs = Ok r -> off + length xs <= length l /\ r = firstn off l ++ xs ++ skipn (off + length xs) l.
Proof. unfold put_slice. destruct (Nat.leb_spec (off + length xs) (length l)); intros E; [|discriminate E]. injection E as <-. auto. Qed.
Lemma put_length {A} (l : list A) off xs : off + length xs <= length l -> length (firstn off l ++ xs ++ skipn (off + length xs) l) = length l.
Proof. intros H. rewrite !app_length, firstn_length, skipn_length. lia. Qed.
Lemma nth_put {A} (l : list A) off xs j d : off + length xs <= length l ->
  nth j (firstn off l ++ xs ++ skipn (off + length xs) l) d = if (Nat.leb off j && Nat.ltb j (off + length xs))%bool then nth (j - off) xs d else nth j l d.
Proof.
  intros H. destruct (Nat.leb_spec off j) as [H1|H1]; cbn [andb].
  - rewrite app_nth2; rewrite firstn_length, Nat.min_l by lia; [|lia]. destruct (Nat.ltb_spec j (off + length xs)) as [H2|H2].
    + apply app_nth1. lia.
    + rewrite app_nth2 by lia. rewrite nth_skip. f_equal. lia.
  - rewrite app_nth1 by (rewrite firstn_length; lia). apply nth_first. exact H1.
Qed.
Lemma list_nth_eq {A} (a b : list A) d : length a = length b -> (forall i, i < length a -> nth i a d = nth i b d) -> a = b.
Proof.
  revert b. induction a as [|x a IH]; intros [|y b] L H; try discriminate L; [reflexivity|]. f_equal; [apply (H 0); cbn; lia|].
  apply IH; [now injection L|]. intros i Hi. apply (H (S i)). cbn. lia.
Qed.
(** Rows of one length *)
Lemma concat_length {A} n (rows : list (list A)) : Forall (fun r => length r = n) rows -> length (concat rows) = length rows * n.
Proof. induction 1 as [|r rows E _ IH]; [reflexivity|]. cbn [concat length]. rewrite app_length, IH, E. lia. Qed.
Lemma concat_row {A} n (rows : list (list A)) d : Forall (fun r => length r = n) rows -> forall i, i < length rows -> firstn n (skipn (i * n) (concat rows)) = nth i rows d.
Proof.
  induction 1 as [|r rows E _ IH]; intros i Hi; [inversion Hi|]. cbn [concat]. destruct i as [|i].
  - cbn [Nat.mul skipn nth]. now rewrite <- E, firstn_app, firstn_all, Nat.sub_diag, firstn_O, app_nil_r.
  - cbn [nth]. rewrite <- IH by (cbn [length] in Hi; lia). f_equal. rewrite skipn_app, skipn_all2 by lia. cbn [app]. f_equal. lia.
Qed.
Lemma concat_nth {A} n (rows : list (list A)) d : Forall (fun r => length r = n) rows -> forall i j, i < length rows -> j < n -> nth (i * n + j) (concat rows) d = nth j (nth i rows []) d.
Proof. intros F i j Hi Hj. rewrite <- (concat_row n rows [] F i Hi). now rewrite nth_cut. Qed.
Lemma rows_index i j n k : i < n -> j < k -> i * k + j < n * k.
Proof. intros H1 H2. assert (S i * k <= n * k) by (apply Nat.mul_le_mono_r; lia). lia. Qed.
Lemma split_index c j k : j < k -> (c * k + j) / k = c /\ (c * k + j) mod k = j.
Proof. intros H. split; [rewrite Nat.add_comm, Nat.div_add by lia; rewrite Nat.div_small by lia; reflexivity|rewrite Nat.add_comm, Nat.mod_add by lia; apply Nat.mod_small; exact H]. Qed.

(** ** The nearest centroid *)
Section Argmin.
Context {T : Type} (ar : arith T).
Hypothesis lt_trans : forall a b c, a_lt ar a b = true -> a_lt ar b c = true -> a_lt ar a c = true.
Hypothesis lt_irr : forall a, a_lt ar a a = false.
Definition cd_dist (cd : nat) (x cents : list T) (k : nat) : T := a_l2 ar x (firstn cd (skipn (k * cd) cents)).
Lemma argmin_loop_ok cd x cents : forall ks best bk, (forall k, In k ks -> k * cd + cd <= length cents) ->
  exists r, argmin_loop ar cd x cents ks best bk = Ok r /\
    ((r = bk /\ (forall k, In k ks -> a_lt ar (cd_dist cd x cents k) best = false)) \/
     (In r ks /\ a_lt ar (cd_dist cd x cents r) best = true /\ forall k, In k ks -> a_lt ar (cd_dist cd x cents k) (cd_dist cd x cents r) = false)).
Proof.
  induction ks as [|k ks IH]; intros best bk H; cbn [argmin_loop]; [exists bk; split; [reflexivity|]; left; split; [reflexivity|]; intros k []|].
  rewrite slice_ok by (apply H; now left). cbn [bind]. fold (cd_dist cd x cents k). assert (H' : forall k0, In k0 ks -> k0 * cd + cd <= length cents) by (intros; apply H; now right).
  destruct (a_lt ar (cd_dist cd x cents k) best) eqn:E.
  - destruct (IH (cd_dist cd x cents k) k H') as (r & -> & C). exists r. split; [reflexivity|]. right. destruct C as [[-> C]|(I & L & C)].
    + split; [now left|]. split; [exact E|]. intros k' [<-|I]; [apply lt_irr|auto].
    + split; [now right|]. split; [eapply lt_trans; eauto|]. intros k' [<-|I']; [|auto].
      destruct (a_lt ar (cd_dist cd x cents k) (cd_dist cd x cents r)) eqn:E2; [|reflexivity]. pose proof (lt_trans _ _ _ E2 L) as X. now rewrite lt_irr in X.
  - destruct (IH best bk H') as (r & -> & C). exists r. split; [reflexivity|]. destruct C as [[-> C]|(I & L & C)].
    + left. split; [reflexivity|]. intros k' [<-|I]; auto.
    + right. split; [now right|]. split; [exact L|]. intros k' [<-|I']; [|auto].
      destruct (a_lt ar (cd_dist cd x cents k) (cd_dist cd x cents r)) eqn:E2; [|reflexivity]. pose proof (lt_trans _ _ _ E2 L) as X. congruence.
Qed.
Lemma argmin_ok cd x cents : length cents = 256 * cd -> exists r, argmin_centroid ar cd x cents = Ok r /\ r < 256 /\
  ((exists k, k < 256 /\ a_lt ar (cd_dist cd x cents k) (a_max ar) = true) -> forall k, k < 256 -> a_lt ar (cd_dist cd x cents k) (cd_dist cd x cents r) = false).
Proof.
  intros L. destruct (argmin_loop_ok cd x cents (seq 0 kCentroids) (a_max ar) 0) as (r & E & C).
  { intros k I. apply in_seq in I. unfold kCentroids in I. rewrite L. nia. }
  exists r. split; [exact E|]. destruct C as [[-> C]|(I & _ & C)].
  - split; [lia|]. intros (k & Hk & X). exfalso. rewrite C in X by (apply in_seq; unfold kCentroids; lia). discriminate X.
  - apply in_seq in I. unfold kCentroids in *. split; [lia|]. intros _ k Hk. apply C. apply in_seq. lia.
Qed.
End Argmin.
(** The result is always one of the 256, whatever the arithmetic *)
Section Any.
Context {T : Type} (ar : arith T).
Lemma argmin_loop_range cd x cents : forall ks best bk, (forall k, In k ks -> k * cd + cd <= length cents) -> bk < 256 -> (forall k, In k ks -> k < 256) ->
  exists r, argmin_loop ar cd x cents ks best bk = Ok r /\ r < 256.
Proof.
  induction ks as [|k ks IH]; intros best bk H B K; cbn [argmin_loop]; [eauto|].
  rewrite slice_ok by (apply H; now left). cbn [bind].
  destruct (a_lt ar _ best); apply IH; try (intros; (apply H || apply K); now right); auto. apply K. now left.
Qed.
Lemma argmin_range cd x cents : length cents = 256 * cd -> exists r, argmin_centroid ar cd x cents = Ok r /\ r < 256.
Proof.
  intros L. apply argmin_loop_range; [|lia|]; intros k I; apply in_seq in I; unfold kCentroids in I; [rewrite L; nia|lia].
Qed.
Lemma residual_length g v n : length g = n -> length v = n -> length (residual ar g v) = n.
Proof. intros G V. unfold residual. rewrite map_length, combine_length. lia. Qed.
Lemma nearest_ok (t : pq T) x c : shaped t -> c < q_chunks t -> exists k, k < 256 /\ nearest_centroid ar t x c = Ok (N.of_nat k) /\
  argmin_centroid ar (q_cd t) x (firstn (256 * q_cd t) (skipn (c * 256 * q_cd t) (q_codebook t))) = Ok k.
Proof.
  intros (P1 & P2 & D & G & B) Hc. assert (R : c * 256 * q_cd t + 256 * q_cd t <= length (q_codebook t)) by (rewrite B; nia).
  destruct (argmin_range (q_cd t) x _ (cut_length (q_codebook t) (c * 256 * q_cd t) (256 * q_cd t) R)) as (k & E & K).
  exists k. split; [exact K|]. split; [|exact E]. unfold nearest_centroid, kCentroids. rewrite slice_ok by exact R. cbn [bind]. rewrite E. cbn [bind]. f_equal. apply N.mod_small. lia.
Qed.
Lemma encode_row_ok (t : pq T) r : shaped t -> length r = q_dim t -> exists row, encode_row ar t r = Ok row /\ length row = q_chunks t /\ Forall (fun b => (b < 256)%N) row /\
  forall c, c < q_chunks t -> nearest_centroid ar t (firstn (q_cd t) (skipn (c * q_cd t) r)) c = Ok (nth c row 0%N).
Proof.
  intros S L. set (f := fun c => match nearest_centroid ar t (firstn (q_cd t) (skipn (c * q_cd t) r)) c with Ok b => b | _ => 0%N end).
  assert (F : forall c, c < q_chunks t -> nearest_centroid ar t (firstn (q_cd t) (skipn (c * q_cd t) r)) c = Ok (f c) /\ (f c < 256)%N).
  { intros c Hc. unfold f. destruct (nearest_ok t (firstn (q_cd t) (skipn (c * q_cd t) r)) c S Hc) as (k & K & -> & _). split; [reflexivity|lia]. }
  exists (map f (seq 0 (q_chunks t))). split; [|split; [now rewrite map_length, seq_length|split]].
  - apply each_map. intros c I. apply in_seq in I. destruct S as (P1 & P2 & D & _). rewrite slice_ok by (rewrite L, D; nia). cbn [bind]. apply F. lia.
  - apply Forall_map, Forall_forall. intros c I. apply in_seq in I. apply F. lia.
  - intros c Hc. rewrite (nth_indep _ 0%N (f 0)) by (rewrite map_length, seq_length; exact Hc). rewrite map_nth, seq_nth by exact Hc. cbn [Nat.add]. apply F. exact Hc.
Qed.
End Any.
