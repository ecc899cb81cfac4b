From Verif Require Export ResultIdsSpec.

Definition words (w : nat) (l : list N) : bytes := concat (map (le_enc w) l).

Lemma words_length w l : length (words w l) = w * length l.
Proof.
  unfold words. induction l as [|v l IH]; cbn [map concat length]; [lia|].
  rewrite app_length, IH, le_enc_length. lia.
Qed.
Lemma words_app w a b : words w (a ++ b) = words w a ++ words w b.
Proof. unfold words. now rewrite map_app, concat_app. Qed.
Lemma words_cons w v l : words w (v :: l) = le_enc w v ++ words w l.
Proof. reflexivity. Qed.

Lemma skipn_skipn {A} a b (l : list A) : skipn a (skipn b l) = skipn (b + a) l.
Proof.
  revert l. induction b as [|b IH]; intros l; [reflexivity|]. destruct l; cbn [skipn Nat.add]; [now rewrite skipn_nil|apply IH].
Qed.

Lemma fill_words w i n mem : w * (i + n) <= length mem ->
  fill_from w i n mem = Ok (firstn (w * i) mem ++ words w (repeat (id_max w) n) ++ skipn (w * (i + n)) mem).
Proof.
  revert i mem. induction n as [|n IH]; intros i mem H; cbn [fill_from repeat].
  - rewrite Nat.add_0_r. cbn [words map concat app]. now rewrite firstn_skipn.
  - unfold store. destruct (Nat.leb_spec (w * i + w) (length mem)); [|nia]. cbn [bind].
    assert (L : length (firstn (w * i) mem ++ le_enc w (id_max w)) = w * S i).
    { rewrite app_length, firstn_length, le_enc_length. nia. }
    rewrite IH.
    + f_equal. rewrite words_cons. rewrite !app_assoc. rewrite <- L at 1. rewrite firstn_app, firstn_all, Nat.sub_diag. cbn [firstn].
      rewrite app_nil_r, <- !app_assoc. do 3 f_equal.
      rewrite app_assoc, skipn_app.
      rewrite skipn_all2 by (rewrite L; nia). cbn [app]. rewrite L.
      rewrite skipn_skipn. f_equal. nia.
    + rewrite !app_length, firstn_length, le_enc_length, skipn_length. nia.
Qed.

Lemma copy_words i ids mem : 4 * (i + length ids) <= length mem ->
  copy_from i ids mem = Ok (firstn (4 * i) mem ++ words 4 ids ++ skipn (4 * (i + length ids)) mem).
Proof.
  revert i mem. induction ids as [|v ids IH]; intros i mem H; cbn [copy_from length] in *.
  - rewrite Nat.add_0_r. cbn [words map concat app]. now rewrite firstn_skipn.
  - unfold store. destruct (Nat.leb_spec (4 * i + 4) (length mem)); [|lia]. cbn [bind].
    assert (L : length (firstn (4 * i) mem ++ le_enc 4 v) = 4 * S i).
    { rewrite app_length, firstn_length, le_enc_length. lia. }
    rewrite IH.
    + f_equal. rewrite words_cons. rewrite !app_assoc. rewrite <- L at 1. rewrite firstn_app, firstn_all, Nat.sub_diag. cbn [firstn].
      rewrite app_nil_r, <- !app_assoc. do 3 f_equal.
      rewrite app_assoc, skipn_app.
      rewrite skipn_all2 by (rewrite L; lia). cbn [app]. rewrite L.
      rewrite skipn_skipn. f_equal. lia.
    + rewrite !app_length, firstn_length, le_enc_length, skipn_length. lia.
Qed.

Lemma le_enc_max n : le_enc n (id_max n) = repeat 255%N n.
Proof.
  unfold id_max. induction n as [|n IH]; [reflexivity|]. cbn [le_enc repeat].
  replace (8 * N.of_nat (S n))%N with (8 + 8 * N.of_nat n)%N by lia. rewrite N.pow_add_r. change (2 ^ 8)%N with 256%N.
  assert (P : (2 ^ (8 * N.of_nat n) <> 0)%N) by (apply N.pow_nonzero; lia).
  set (p := (2 ^ (8 * N.of_nat n))%N) in *. clearbody p.
  replace (256 * p - 1)%N with (255 + (p - 1) * 256)%N by lia.
  rewrite N.mod_add, N.div_add by lia. change (255 mod 256)%N with 255%N. change (255 / 256)%N with 0%N.
  rewrite N.add_0_l. now rewrite IH.
Qed.
Lemma words_max w n : words w (repeat (id_max w) n) = repeat 255%N (w * n).
Proof.
  induction n as [|n IH]; cbn [repeat].
  - now rewrite Nat.mul_0_r.
  - rewrite words_cons, IH, le_enc_max, <- repeat_app. f_equal. lia.
Qed.
Lemma skipn_repeat {A} (x : A) a b : skipn a (repeat x b) = repeat x (b - a).
Proof.
  revert b. induction a as [|a IH]; intros b; [now rewrite Nat.sub_0_r|]. destruct b; cbn [repeat skipn]; [reflexivity|apply IH].
Qed.

(** The memory after filling and copying [q], at most [k] ids *)
Lemma fill_exact w k mem : array w k mem -> fill w k mem = Ok (repeat 255%N (w * k)).
Proof.
  intros [L _]. unfold fill. rewrite fill_words by (rewrite L; lia).
  cbn [Nat.add]. rewrite Nat.mul_0_r. cbn [firstn app]. rewrite words_max.
  rewrite skipn_all2 by lia. now rewrite app_nil_r.
Qed.
Lemma copy_exact w k q : 4 <= w -> length q <= k ->
  copy_from 0 q (repeat 255%N (w * k)) = Ok (words 4 q ++ repeat 255%N (w * k - 4 * length q)).
Proof.
  intros W L. rewrite copy_words by (rewrite repeat_length; nia).
  cbn [Nat.add]. rewrite Nat.mul_0_r. cbn [firstn app]. now rewrite skipn_repeat.
Qed.

Lemma firstn_min {A} k (p : list A) : firstn (Nat.min (length p) k) p = firstn k p.
Proof.
  destruct (Nat.le_ge_cases (length p) k).
  - rewrite Nat.min_l by lia. rewrite !firstn_all2 by lia. reflexivity.
  - now rewrite Nat.min_r.
Qed.
Lemma firstn_min_min {A} k (p : list A) : firstn (Nat.min (length p) (Nat.min (length p) k)) p = firstn k p.
Proof. replace (Nat.min (length p) (Nat.min (length p) k)) with (Nat.min (length p) k) by lia. apply firstn_min. Qed.

Lemma counted_ok w pool k mem : 4 <= w -> array w k mem ->
  deliver_counted w pool k mem = Ok (Nat.min (length pool) k, words 4 (firstn k pool) ++ repeat 255%N (w * k - 4 * length (firstn k pool))).
Proof.
  intros W A. unfold deliver_counted, materialize_result_ids, copy_results_to. rewrite (fill_exact _ _ _ A). cbn [bind].
  rewrite firstn_min_min, copy_exact by (try rewrite firstn_length; lia). reflexivity.
Qed.
Lemma recounted_ok w pool k mem : 4 <= w -> array w k mem ->
  deliver_recounted w pool k mem =
  let m := words 4 (firstn k pool) ++ repeat 255%N (w * k - 4 * length (firstn k pool)) in
  let* n := count_materialized_results w k m in Ok (n, m).
Proof.
  intros W A. unfold deliver_recounted, copy_results_to. rewrite (fill_exact _ _ _ A). cbn [bind].
  rewrite firstn_min, copy_exact by (try rewrite firstn_length; lia). reflexivity.
Qed.

(** ** 32-bit ids *)
Lemma words_nth w l i v : nth_error l i = Some v -> firstn w (skipn (w * i) (words w l)) = le_enc w v.
Proof.
  intros H. apply nth_error_split in H. destruct H as (a & b & -> & <-).
  rewrite words_app, words_cons. rewrite skipn_app, skipn_all2 by (rewrite words_length; lia).
  rewrite words_length, Nat.sub_diag. cbn [skipn app].
  rewrite firstn_app, le_enc_length, Nat.sub_diag. cbn [firstn]. rewrite app_nil_r.
  rewrite firstn_all2; [reflexivity|]. rewrite le_enc_length. lia.
Qed.

Definition padded (k : nat) (pool : list N) : list N := firstn k pool ++ repeat (id_max 4) (k - length (firstn k pool)).
Lemma padded_length k pool : length (padded k pool) = k.
Proof. unfold padded. rewrite app_length, repeat_length, firstn_length. lia. Qed.
Lemma narrow_mem k pool :
  words 4 (firstn k pool) ++ repeat 255%N (4 * k - 4 * length (firstn k pool)) = words 4 (padded k pool).
Proof. unfold padded. rewrite words_app, words_max. do 2 f_equal. lia. Qed.

Lemma nth_error_firstn {A} i k (p : list A) : i < k -> nth_error (firstn k p) i = nth_error p i.
Proof.
  revert i k. induction p as [|x p IH]; intros i k H; [now rewrite firstn_nil|].
  destruct k; [lia|]. cbn [firstn]. destruct i; [reflexivity|]. cbn [nth_error]. apply IH. lia.
Qed.
Lemma delivered_narrow k pool : row_ids pool -> delivered 4 k pool (words 4 (padded k pool)).
Proof.
  intros R. split; [|split].
  - rewrite words_length, padded_length. reflexivity.
  - intros i v Hi E. split.
    + apply words_nth. unfold padded. rewrite nth_error_app1.
      * now rewrite nth_error_firstn.
      * rewrite firstn_length. assert (i < length pool) by (apply nth_error_Some; congruence). lia.
    + apply nth_error_In in E. unfold row_ids in R. rewrite Forall_forall in R. specialize (R v E). cbv beta in R.
      change (id_max 4) with 4294967295%N. lia.
  - intros i Hi L. split; [|lia]. apply words_nth. unfold padded. rewrite firstn_all2 by lia.
    rewrite nth_error_app2 by lia. apply nth_error_repeat. lia.
Qed.

Lemma load_words w l i v : (v < 2 ^ (8 * N.of_nat w))%N -> nth_error l i = Some v -> load w i (words w l) = Ok v.
Proof.
  intros B H. unfold load. assert (i < length l) by (apply nth_error_Some; congruence).
  rewrite words_length. destruct (Nat.leb_spec (w * i + w) (w * length l)); [|nia].
  rewrite (words_nth _ _ _ _ H). now rewrite le_dec_enc.
Qed.

Lemma count_words pre q n : row_ids q ->
  count_from 4 (length pre) (length q + n) (words 4 (pre ++ q ++ repeat (id_max 4) n)) = Ok (length pre + length q).
Proof.
  revert pre. induction q as [|v q IH]; intros pre R.
  - cbn [length Nat.add app]. destruct n as [|n]; cbn [count_from repeat]; [now rewrite Nat.add_0_r|].
    rewrite (load_words 4 _ _ (id_max 4)).
    + cbn [bind]. rewrite N.eqb_refl. now rewrite Nat.add_0_r.
    + reflexivity.
    + rewrite nth_error_app2, Nat.sub_diag by lia. reflexivity.
  - apply Forall_cons_iff in R. destruct R as [B R]. cbn [length Nat.add count_from].
    rewrite (load_words 4 _ _ v).
    + cbn [bind]. destruct (N.eqb_spec v (id_max 4)) as [E|_]; [subst v; vm_compute in B; discriminate B|].
      specialize (IH (pre ++ [v]) R). rewrite app_length in IH. cbn [length] in IH.
      rewrite <- app_assoc in IH. cbn [app] in *. replace (S (length pre)) with (length pre + 1) by lia.
      rewrite IH. f_equal. lia.
    + cbv beta in B. change (2 ^ (8 * N.of_nat 4))%N with 4294967296%N. lia.
    + rewrite nth_error_app2, Nat.sub_diag by lia. reflexivity.
Qed.
Lemma count_narrow k pool : row_ids pool ->
  count_materialized_results 4 k (words 4 (padded k pool)) = Ok (Nat.min (length pool) k).
Proof.
  intros R. unfold count_materialized_results, padded.
  assert (R' : row_ids (firstn k pool)).
  { unfold row_ids in *. rewrite <- (firstn_skipn k pool) in R. now apply Forall_app in R. }
  pose proof (count_words [] (firstn k pool) (k - length (firstn k pool)) R') as E. cbn [length app Nat.add] in E.
  replace (length (firstn k pool) + (k - length (firstn k pool))) with k in E by (rewrite firstn_length; lia).
  rewrite E, firstn_length. f_equal. lia.
Qed.

(** ** 64-bit ids *)
Lemma le_enc_8 v : (v < 4294967296)%N -> le_enc 8 v = le_enc 4 v ++ [0; 0; 0; 0]%N.
Proof.
  intros H. cbn [le_enc app].
  assert (E : (v / 256 / 256 / 256 / 256)%N = 0%N) by (rewrite !N.div_div by lia; apply N.div_small; exact H).
  rewrite E. reflexivity.
Qed.
Lemma le_enc_inj4 a b : (a < 4294967296)%N -> (b < 4294967296)%N -> le_enc 4 a = le_enc 4 b -> a = b.
Proof. intros A B E. apply (f_equal le_dec) in E. rewrite !le_dec_enc in E; assumption. Qed.

(** the first two entries of an array packed with 32-bit numbers *)
Lemma wide_first a b l v : (v < 4294967296)%N -> (a < 4294967296)%N -> (b < 4294967296)%N ->
  holds 8 (words 4 (a :: b :: l)) 0 v -> a = v /\ b = 0%N.
Proof.
  intros V A B [H _]. rewrite !words_cons in H. rewrite Nat.mul_0_r in H. cbn [skipn] in H.
  rewrite le_enc_8 in H by exact V. cbn [le_enc app firstn] in H.
  injection H as H1 H2 H3 H4 H5 H6 H7 H8. split.
  - apply le_enc_inj4; [exact A|exact V|]. cbn [le_enc]. congruence.
  - apply le_enc_inj4; [exact B|reflexivity|]. cbn [le_enc]. rewrite H5, H6, H7, H8. reflexivity.
Qed.
Lemma wide_second a b c d l v : holds 8 (words 4 (a :: b :: c :: d :: l)) 1 v -> holds 8 (words 4 (c :: d :: l)) 0 v.
Proof.
  intros [H B]. split; [|exact B]. rewrite Nat.mul_0_r. cbn [skipn]. rewrite <- H. f_equal.
Qed.

Lemma wide_words k q : length q <= k ->
  words 4 q ++ repeat 255%N (8 * k - 4 * length q) = words 4 (q ++ repeat (id_max 4) (2 * k - length q)).
Proof. intros L. rewrite words_app, words_max. do 2 f_equal. lia. Qed.

Lemma id_max_4 : id_max 4 = 4294967295%N. Proof. reflexivity. Qed.

Lemma wide_wrong k pool : 0 < k -> pool <> [] -> NoDup pool -> row_ids pool ->
  ~ delivered 8 k pool (words 4 (firstn k pool) ++ repeat 255%N (8 * k - 4 * length (firstn k pool))).
Proof.
  intros K NE ND R (_ & D & _).
  rewrite wide_words in D by (rewrite firstn_length; lia).
  destruct pool as [|a p]; [congruence|]. clear NE.
  apply Forall_cons_iff in R. destruct R as [A R].
  pose proof (D 0 a K eq_refl) as D0.
  destruct k as [|k]; [lia|]. cbn [firstn] in D, D0.
  destruct (firstn k p) as [|b q] eqn:Eq.
  - cbn [length app] in D0. replace (2 * S k - 1) with (S (2 * k)) in D0 by lia. cbn [repeat] in D0.
    apply wide_first in D0; [|lia|lia|reflexivity]. destruct D0 as [_ D0]. discriminate D0.
  - destruct k as [|k]; [discriminate Eq|]. destruct p as [|b' p]; [discriminate Eq|]. cbn [firstn] in Eq. injection Eq as -> Eq.
    apply Forall_cons_iff in R. destruct R as [B R]. cbn [app] in D0.
    apply wide_first in D0; [|lia|lia|lia]. destruct D0 as [_ ->].
    assert (D1 : holds 8 (words 4 ((a :: 0%N :: q) ++ repeat (id_max 4) (2 * S (S k) - length (a :: 0%N :: q)))) 1 0).
    { apply (D 1 0%N); [lia|reflexivity]. }
    cbn [length app] in D1. destruct q as [|c q].
    + replace (2 * S (S k) - S (S (@length N []))) with (S (S (2 * k))) in D1 by (cbn [length]; lia). cbn [repeat app] in D1. apply wide_second in D1.
      apply wide_first in D1; [|lia|reflexivity|reflexivity]. destruct D1 as [D1 _]. discriminate D1.
    + destruct k as [|k]; [discriminate Eq|]. destruct p as [|c' p]; [discriminate Eq|]. cbn [firstn] in Eq. injection Eq as -> Eq.
      apply Forall_cons_iff in R. destruct R as [C R].
      assert (Z : c = 0%N).
      { destruct q as [|d q].
        - replace (2 * S (S (S k)) - S (S (length [c]))) with (S (2 * k + 2)) in D1 by (cbn [length]; lia).
          cbn [repeat app] in D1. apply wide_second in D1. apply wide_first in D1; [|lia|lia|reflexivity]. tauto.
        - cbn [app] in D1. apply wide_second in D1. apply wide_first in D1; [tauto|lia|lia|].
          destruct k as [|k]; [discriminate Eq|]. destruct p as [|d' p]; [discriminate Eq|]. cbn [firstn] in Eq. injection Eq as -> Eq.
          apply Forall_cons_iff in R. destruct R as [Dd _]. lia. }
      subst c. apply NoDup_cons_iff in ND. destruct ND as [_ ND]. apply NoDup_cons_iff in ND. destruct ND as [ND _]. apply ND. left. reflexivity.
Qed.
