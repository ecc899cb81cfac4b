(** Proofs about the reads through a shared io_uring. *)
From Coq Require Import Lia Permutation.
From Verif Require Export UringSpec.
Import ListNotations.
Local Open Scope nat_scope.

Definition idx (w : nat) (l : list entry) : list nat := map snd (filter (fun e => fst e =? w) l).
Lemma idx_app w a b : idx w (a ++ b) = idx w a ++ idx w b.
Proof. unfold idx. now rewrite filter_app, map_app. Qed.
Lemma idx_own w l : idx w (map (fun k => (w, k)) l) = l.
Proof. unfold idx. induction l as [|k l IH]; cbn; [reflexivity|]. rewrite Nat.eqb_refl. cbn. now f_equal. Qed.
Lemma idx_other w i l : w <> i -> idx w (map (fun k => (i, k)) l) = [].
Proof. intros NE. unfold idx. induction l as [|k l IH]; cbn; [reflexivity|]. now rewrite (proj2 (Nat.eqb_neq i w)) by auto. Qed.
Lemma idx_In w l k : In k (idx w l) <-> In (w, k) l.
Proof.
  unfold idx. rewrite in_map_iff. split.
  - intros ([a b] & E & H). apply filter_In in H. destruct H as [H Q]. cbn in E, Q. apply Nat.eqb_eq in Q. now subst.
  - intros H. exists (w, k). split; [reflexivity|]. apply filter_In. split; [exact H|]. apply Nat.eqb_refl.
Qed.
Lemma idx_nil w l : (forall k, ~ In (w, k) l) -> idx w l = [].
Proof. intros H. destruct (idx w l) as [|k t] eqn:E; [reflexivity|]. exfalso. apply (H k). apply idx_In. rewrite E. now left. Qed.
Lemma answers_app a b : answers (a ++ b) = answers a ++ answers b.
Proof. induction a as [|x a IH]; [reflexivity|]. destruct x; cbn; rewrite IH; reflexivity. Qed.
Lemma drop_perm e : forall l l', drop_entry e l = Some l' -> Permutation l (e :: l').
Proof.
  induction l as [|x t IH]; intros l' E; [discriminate|]. cbn in E. destruct (Nat.eqb_spec (fst x) (fst e)) as [A|A]; cbn [andb] in E.
  - destruct (Nat.eqb_spec (snd x) (snd e)) as [B|B].
    + injection E as <-. destruct x, e. cbn in A, B. now subst.
    + destruct (drop_entry e t) as [t'|]; [|discriminate]. injection E as <-. etransitivity; [apply perm_skip, IH; reflexivity|apply perm_swap].
  - destruct (drop_entry e t) as [t'|]; [|discriminate]. injection E as <-. etransitivity; [apply perm_skip, IH; reflexivity|apply perm_swap].
Qed.
Lemma drop_head e t : drop_entry e (e :: t) = Some t.
Proof. cbn. now rewrite !Nat.eqb_refl. Qed.
Lemma filter_perm {A} (f : A -> bool) a b : Permutation a b -> Permutation (filter f a) (filter f b).
Proof.
  induction 1; cbn; try constructor.
  - destruct (f x); [now apply perm_skip|assumption].
  - destruct (f x), (f y); try reflexivity. apply perm_swap.
  - etransitivity; eassumption.
Qed.
Lemma idx_perm w a b : Permutation a b -> Permutation (idx w a) (idx w b).
Proof. intros H. apply Permutation_map, filter_perm, H. Qed.

(** Failures among answers. *)
Definition bads (w : nat) (sizes : list N) (l : list (entry * Z)) : nat :=
  length (filter (fun x => (fst (fst x) =? w) && bad (nth (snd (fst x)) sizes 0%N) (snd x)) l).
Lemma bads_app w z a b : bads w z (a ++ b) = bads w z a + bads w z b.
Proof. unfold bads. now rewrite filter_app, app_length. Qed.
Lemma bads_none w z l : idx w (map fst l) = [] -> bads w z l = 0.
Proof.
  unfold bads, idx. induction l as [|[[a b] r] l IH]; [reflexivity|]. cbn [map filter fst]. destruct (Nat.eqb_spec a w) as [E|E]; cbn [map snd andb fst]; [discriminate|]. exact IH.
Qed.

(** ** The invariant *)
Definition hand_all (h : option (entry * Z * nat)) : list (entry * Z) := match h with Some (x, _) => [x] | None => [] end.
Definition hand_uncounted (h : option (entry * Z * nat)) : list (entry * Z) := match h with Some (x, S (S _)) => [] | Some (x, _) => [x] | None => [] end.
Definition hand_unstored (h : option (entry * Z * nat)) : list (entry * Z) := match h with Some (x, O) => [x] | _ => [] end.
Definition sent (w : wave) (m : nat) : Prop :=
  match w_at w with
  | Submitting s => m = s | Flushing s _ fl _ => m = s + fl | Deducting s => m = s | Polling s _ => m = s
  | Returned _ => m = w_count w | Thrown => True
  end.
Definition deducted (w : wave) : nat := match w_at w with Polling s true => w_count w - s | _ => 0 end.
Definition place_ok (lock : option nat) (sq : list entry) (poisoned : bool) (i : nat) (w : wave) : Prop :=
  match w_at w with
  | Submitting s => s < w_count w
  | Flushing s ch fl sp => s + ch <= w_count w /\ fl < ch /\ sp < retries /\ lock = Some i /\ poisoned = false /\ sq = map (fun k => (i, k)) (seq (s + fl) (ch - fl))
  | Deducting s => s < w_count w /\ poisoned = true
  | Polling s true => s < w_count w /\ poisoned = true
  | Polling s false => s = w_count w
  | Returned f => f = w_failures w
  | Thrown => poisoned = true
  end.
Record wave_inv (s : reactor) (ans : list (entry * Z)) (i : nat) (w : wave) : Prop := {
  wi_len : length (w_results w) = w_count w;
  wi_count : (N.of_nat (w_count w) < 2 ^ 32)%N;
  wi_place : place_ok (r_lock s) (r_sq s) (r_poisoned s) i w;
  wi_sent : exists m, sent w m /\ m <= w_count w /\ Permutation (idx i (r_kernel s) ++ idx i (map fst ans)) (seq 0 m);
  wi_quiet : ended w = true -> idx i (r_kernel s) = [] /\ idx i (map fst (r_cq s ++ hand_all (r_hand s))) = [];
  wi_remaining : ended w = false -> N.to_nat (w_remaining w) + deducted w + length (idx i (map fst ans)) = w_count w + length (idx i (map fst (r_cq s ++ hand_all (r_hand s))));
  wi_failures : N.to_nat (w_failures w) + bads i (w_sizes w) (r_cq s ++ hand_uncounted (r_hand s)) = bads i (w_sizes w) ans;
  wi_results : forall k r, In ((i, k), r) ans -> In ((i, k), r) (r_cq s ++ hand_unstored (r_hand s)) \/ nth_error (w_results w) k = Some r;
}.
Record inv (s : reactor) (ans : list (entry * Z)) : Prop := {
  in_depth : 0 < r_depth s <= r_ring s;
  in_idle : r_lock s = None -> r_poisoned s = false -> r_sq s = [];
  in_lock : forall i, r_lock s = Some i -> exists w s' ch fl sp, nth_error (r_waves s) i = Some w /\ w_at w = Flushing s' ch fl sp;
  in_waves : forall i w, nth_error (r_waves s) i = Some w -> wave_inv s ans i w;
  in_none : forall i, nth_error (r_waves s) i = None -> idx i (r_kernel s) = [] /\ idx i (map fst ans) = [];
  in_pend : exists old, Permutation ((r_cq s ++ hand_all (r_hand s)) ++ old) ans;
}.
Lemma start_inv depth ring : 0 < depth <= ring -> inv (start depth ring) [].
Proof.
  intros H. constructor; cbn; auto; try discriminate; try (intros i w E; destruct i; discriminate). now exists [].
Qed.
Lemma sub32_ok a b : (b <= a)%N -> (a < 2 ^ 32)%N -> sub32 a b = (a - b)%N.
Proof.
  intros H L. unfold sub32. replace (a + 2 ^ 32 - b)%N with ((a - b) + 1 * 2 ^ 32)%N by lia. rewrite N.mod_add by discriminate. apply N.mod_small. lia.
Qed.
(** Changing the place of one batch. *)
Lemma nth_put s i w j : i < length (r_waves s) -> nth_error (r_waves (put_wave s i w)) j = if i =? j then Some w else nth_error (r_waves s) j.
Proof. intros H. cbn. now rewrite nth_error_upd by exact H. Qed.
Lemma nth_lt {A} (l : list A) i x : nth_error l i = Some x -> i < length l.
Proof. intros H. apply nth_error_Some. congruence. Qed.
(** A batch is not affected by what happens to the others. *)
Lemma wave_other s s' ans ans' i w : wave_inv s ans i w ->
  place_ok (r_lock s') (r_sq s') (r_poisoned s') i w ->
  idx i (r_kernel s') = idx i (r_kernel s) -> r_cq s' = r_cq s -> r_hand s' = r_hand s -> ans' = ans -> wave_inv s' ans' i w.
Proof.
  intros [A B C D E F G H] P K Q1 Q2 ->. constructor; auto; rewrite ?K, ?Q1, ?Q2; auto.
Qed.

Lemma place_keep lock sq p lock' sq' p' j w : place_ok lock sq p j w -> lock <> Some j -> (p = true -> p' = true) -> place_ok lock' sq' p' j w.
Proof.
  unfold place_ok. destruct (w_at w) as [s|s ch fl sp|s|s [|]|f|]; intros H L M; tauto.
Qed.
Lemma put_inv s s1 ans i w w' : inv s ans -> nth_error (r_waves s) i = Some w ->
  r_waves s1 = r_waves s -> r_cq s1 = r_cq s -> r_hand s1 = r_hand s -> r_depth s1 = r_depth s -> r_ring s1 = r_ring s ->
  wave_inv s1 ans i w' ->
  (forall j wv, j <> i -> nth_error (r_waves s) j = Some wv -> place_ok (r_lock s1) (r_sq s1) (r_poisoned s1) j wv) ->
  (forall j, j <> i -> idx j (r_kernel s1) = idx j (r_kernel s)) ->
  (r_lock s1 = None -> r_poisoned s1 = false -> r_sq s1 = []) ->
  (forall j, r_lock s1 = Some j -> j = i /\ exists s' ch fl sp, w_at w' = Flushing s' ch fl sp) ->
  inv (put_wave s1 i w') ans.
Proof.
  intros [D I L W N P] E Q1 Q2 Q3 Q4 Q5 WI PO K ID LK. pose proof (nth_lt _ _ _ E) as LT.
  assert (NP : forall j, nth_error (r_waves (put_wave s1 i w')) j = if i =? j then Some w' else nth_error (r_waves s) j) by (intros j; cbn; rewrite Q1; now apply nth_error_upd).
  constructor.
  - cbn. now rewrite Q4, Q5.
  - exact ID.
  - intros j Hj. destruct (LK j Hj) as [-> (s' & ch & fl & sp & A)]. exists w', s', ch, fl, sp. rewrite NP, Nat.eqb_refl. auto.
  - intros j wv Ej. rewrite NP in Ej. destruct (Nat.eqb_spec i j) as [<-|NE].
    + injection Ej as <-. destruct WI as [WA WB WC WD WE WF WG WH]. constructor; auto.
    + apply (wave_other s _ ans ans j wv (W j wv Ej)); [apply (PO j wv); auto|apply K; auto|exact Q2|exact Q3|reflexivity].
  - intros j Ej. rewrite NP in Ej. destruct (Nat.eqb_spec i j) as [Q|NE]; [discriminate|]. change (r_kernel (put_wave s1 i w')) with (r_kernel s1). rewrite K by auto. now apply N.
  - cbn. rewrite Q2, Q3. exact P.
Qed.
Lemma pend_le s ans i : inv s ans -> length (idx i (map fst (r_cq s ++ hand_all (r_hand s)))) <= length (idx i (map fst ans)).
Proof.
  intros [_ _ _ _ _ (old & P)]. set (x := r_cq s ++ hand_all (r_hand s)) in *. apply (Permutation_map fst) in P. apply (idx_perm i) in P. rewrite <- (Permutation_length P), map_app, idx_app, app_length. lia.
Qed.
Lemma pend_in s ans x : inv s ans -> In x (r_cq s ++ hand_all (r_hand s)) -> In x ans.
Proof. intros [_ _ _ _ _ (old & P)] H. apply (Permutation_in _ P). apply in_or_app. now left. Qed.
Lemma sent_total s ans i w : wave_inv s ans i w -> exists m, sent w m /\ m <= w_count w /\ length (idx i (r_kernel s)) + length (idx i (map fst ans)) = m.
Proof. intros [_ _ _ (m & A & B & P) _ _ _ _]. exists m. split; [exact A|]. split; [exact B|]. now rewrite <- app_length, (Permutation_length P), seq_length. Qed.
Lemma wave_set s s1 ans i w p : wave_inv s ans i w -> r_cq s1 = r_cq s -> r_hand s1 = r_hand s -> ended w = false -> deducted w = 0 ->
  (match p with Polling _ true | Returned _ | Thrown => False | _ => True end) ->
  place_ok (r_lock s1) (r_sq s1) (r_poisoned s1) i (set_place w p) ->
  (exists m, sent (set_place w p) m /\ m <= w_count w /\ Permutation (idx i (r_kernel s1) ++ idx i (map fst ans)) (seq 0 m)) -> wave_inv s1 ans i (set_place w p).
Proof.
  intros [A B C D E F G H] Q1 Q2 EN DE NP PO SE. constructor; auto; rewrite ?Q1, ?Q2; auto.
  - unfold ended, set_place. cbn. destruct p as [| | |? []| |]; try discriminate; contradiction.
  - intros _. specialize (F EN). rewrite DE in F. unfold deducted, set_place. cbn. destruct p as [| | |? []| |]; try contradiction; exact F.
Qed.
Lemma enter_inv i s ans r : inv s ans -> enter i s = Some r -> exists s', r = Ok s' /\ inv s' ans.
Proof.
  intros IV E. unfold enter in E. destruct (nth_error (r_waves s) i) as [w|] eqn:EW; [|discriminate]. pose proof (in_waves _ _ IV i w EW) as WI.
  destruct (w_at w) as [sub| | | | |] eqn:PL; try discriminate. destruct (r_lock s) as [|] eqn:LK; [discriminate|].
  pose proof (wi_place _ _ _ _ WI) as PO. unfold place_ok in PO. rewrite PL in PO. destruct (in_depth _ _ IV) as [D1 D2].
  assert (EN : ended w = false) by (unfold ended; now rewrite PL). assert (DE : deducted w = 0) by (unfold deducted; now rewrite PL).
  assert (SE : Permutation (idx i (r_kernel s) ++ idx i (map fst ans)) (seq 0 sub)).
  { destruct (wi_sent _ _ _ _ WI) as (m & SM & _ & PM). unfold sent in SM. rewrite PL in SM. now subst m. }
  set (chunk := Nat.min (w_count w - sub) (r_depth s)) in *. assert (CH : 0 < chunk /\ sub + chunk <= w_count w /\ chunk <= r_ring s) by (unfold chunk; lia).
  assert (AF : after_chunk w sub chunk 0 = set_place w (Deducting (sub + 0))) by (unfold after_chunk; now rewrite (proj2 (Nat.ltb_lt 0 chunk)) by lia).
  destruct (r_poisoned s) eqn:PS.
  - injection E as <-. eexists. split; [reflexivity|]. rewrite AF, Nat.add_0_r. apply (put_inv s s ans i w); auto.
    + apply (wave_set s); auto; [cbn; auto|]. exists sub. split; [reflexivity|]. split; [lia|exact SE].
    + intros j wv NE Ej. apply (wi_place _ _ _ _ (in_waves _ _ IV j wv Ej)).
    + intros _ Q. congruence.
    + intros j Q. congruence.
  - assert (SQ : r_sq s = []) by (apply (in_idle _ _ IV); assumption). rewrite SQ in E. cbn [length app] in E. rewrite Nat.sub_0_r in E.
    rewrite (proj2 (Nat.leb_le chunk (r_ring s))) in E by lia. injection E as <-. eexists. split; [reflexivity|]. apply (put_inv s _ ans i w); auto; cbn [with_ring r_lock r_sq r_poisoned r_kernel].
    + apply (wave_set s); auto; cbn [with_ring r_lock r_sq r_poisoned r_kernel].
      * unfold place_ok, set_place. cbn [w_at w_count w_sizes]. split; [apply CH|]. split; [lia|]. split; [unfold retries; lia|]. rewrite Nat.add_0_r, Nat.sub_0_r. auto.
      * exists sub. split; [cbn; lia|]. split; [lia|exact SE].
    + intros j wv NE Ej. apply (place_keep (r_lock s) (r_sq s) (r_poisoned s)); [apply (wi_place _ _ _ _ (in_waves _ _ IV j wv Ej))|congruence|congruence].
    + discriminate.
    + intros j [= ->]. split; [reflexivity|]. cbn. eauto.
Qed.
Lemma skipn_seq n : forall a m, skipn n (seq a m) = seq (a + n) (m - n).
Proof. induction n as [|n IH]; intros a m; [now rewrite Nat.add_0_r, Nat.sub_0_r|]. destruct m as [|m]; [reflexivity|]. cbn [seq skipn]. rewrite IH. f_equal; lia. Qed.
Lemma firstn_seq n : forall a m, n <= m -> firstn n (seq a m) = seq a n.
Proof. induction n as [|n IH]; intros a m L; [reflexivity|]. destruct m as [|m]; [lia|]. cbn [seq firstn]. f_equal. apply IH. lia. Qed.
Lemma submit_inv i a s ans r : inv s ans -> submit i a s = Some r -> exists s', r = Ok s' /\ inv s' ans.
Proof.
  intros IV E. unfold submit in E. destruct (nth_error (r_waves s) i) as [w|] eqn:EW; [|discriminate]. pose proof (in_waves _ _ IV i w EW) as WI.
  destruct (w_at w) as [|sub chunk fl spins| | | |] eqn:PL; try discriminate.
  pose proof (wi_place _ _ _ _ WI) as PO. unfold place_ok in PO. rewrite PL in PO. destruct PO as (C1 & C2 & C3 & LK & PS & SQ).
  assert (EN : ended w = false) by (unfold ended; now rewrite PL). assert (DE : deducted w = 0) by (unfold deducted; now rewrite PL).
  assert (SE : Permutation (idx i (r_kernel s) ++ idx i (map fst ans)) (seq 0 (sub + fl))).
  { destruct (wi_sent _ _ _ _ WI) as (m & SM & _ & PM). unfold sent in SM. rewrite PL in SM. now subst m. }
  assert (OTH : forall lock' sq' p', forall j wv, j <> i -> nth_error (r_waves s) j = Some wv -> (r_poisoned s = true -> p' = true) -> place_ok lock' sq' p' j wv).
  { intros lock' sq' p' j wv NE Ej Hp. apply (place_keep (r_lock s) (r_sq s) (r_poisoned s)); [apply (wi_place _ _ _ _ (in_waves _ _ IV j wv Ej))|congruence|exact Hp]. }
  assert (POISON : exists s', Ok (put_wave (with_ring s (r_sq s) (r_kernel s) None true) i (after_chunk w sub chunk fl)) = Ok s' /\ inv s' ans).
  { eexists. split; [reflexivity|]. unfold after_chunk. rewrite (proj2 (Nat.ltb_lt fl chunk)) by lia.
    apply (put_inv s _ ans i w); auto; cbn [with_ring r_lock r_sq r_poisoned r_kernel].
    - apply (wave_set s); auto; cbn [with_ring r_lock r_sq r_poisoned r_kernel].
      + unfold place_ok, set_place. cbn [w_at w_count w_sizes]. split; [unfold w_count in *; cbn [w_sizes]; lia|reflexivity].
      + exists (sub + fl). split; [reflexivity|]. split; [lia|exact SE].
    - discriminate.
    - discriminate. }
  destruct a as [n| | |].
  - destruct (Nat.ltb_spec 0 n) as [N0|N0]; cbn [andb] in E; [|discriminate]. destruct (Nat.leb_spec n (length (r_sq s))) as [NL|NL]; [|discriminate].
    rewrite SQ in NL. rewrite map_length, seq_length in NL. injection E as <-. eexists. split; [reflexivity|].
    assert (KE : firstn n (r_sq s) = map (fun k => (i, k)) (seq (sub + fl) n)) by (rewrite SQ, firstn_map, firstn_seq by lia; reflexivity).
    assert (SK : skipn n (r_sq s) = map (fun k => (i, k)) (seq (sub + (fl + n)) (chunk - (fl + n)))) by (rewrite SQ, skipn_map, skipn_seq; do 2 f_equal; lia).
    assert (SE' : Permutation (idx i (r_kernel s ++ firstn n (r_sq s)) ++ idx i (map fst ans)) (seq 0 (sub + (fl + n)))).
    { rewrite KE, idx_app, idx_own. replace (sub + (fl + n)) with ((sub + fl) + n) by lia. rewrite seq_app. cbn [Nat.add].
      etransitivity; [rewrite <- app_assoc; apply Permutation_app_head, Permutation_app_comm|]. rewrite app_assoc. now apply Permutation_app_tail. }
    destruct (Nat.ltb_spec (fl + n) chunk) as [MO|NM].
    + apply (put_inv s _ ans i w); auto; cbn [with_ring r_lock r_sq r_poisoned r_kernel].
      * apply (wave_set s); auto; cbn [with_ring r_lock r_sq r_poisoned r_kernel].
        -- unfold place_ok, set_place. cbn [w_at]. split; [exact C1|]. split; [exact MO|]. auto.
        -- exists (sub + (fl + n)). split; [reflexivity|]. split; [lia|exact SE'].
      * intros j NE. rewrite KE, idx_app, idx_other by auto. apply app_nil_r.
      * congruence.
      * intros j Q. split; [congruence|]. cbn. eauto.
    + assert (FC : fl + n = chunk) by lia. apply (put_inv s _ ans i w); auto; cbn [with_ring r_lock r_sq r_poisoned r_kernel].
      * unfold after_chunk. rewrite (proj2 (Nat.ltb_ge (fl + n) chunk)) by lia. destruct (Nat.ltb_spec (sub + (fl + n)) (w_count w)) as [LT|GE].
        -- apply (wave_set s); auto; cbn [with_ring r_lock r_sq r_poisoned r_kernel]. exists (sub + (fl + n)). split; [reflexivity|]. split; [lia|exact SE'].
        -- apply (wave_set s); auto; cbn [with_ring r_lock r_sq r_poisoned r_kernel].
           ++ unfold place_ok, set_place. cbn [w_at]. unfold w_count in *. cbn [w_sizes]. lia.
           ++ exists (sub + (fl + n)). split; [reflexivity|]. split; [lia|exact SE'].
      * intros j NE. rewrite KE, idx_app, idx_other by auto. apply app_nil_r.
      * intros _ _. rewrite SK, FC, Nat.sub_diag. reflexivity.
      * discriminate.
  - injection E as <-. eauto.
  - destruct (Nat.ltb_spec (S spins) retries) as [LT|GE]; [|injection E as <-; exact POISON]. injection E as <-. eexists. split; [reflexivity|].
    apply (put_inv s s ans i w); auto.
    + apply (wave_set s); auto; [|exists (sub + fl); split; [reflexivity|]; split; [lia|exact SE]]. unfold place_ok, set_place. cbn [w_at]. auto 10.
    + congruence.
    + intros j Q. split; [congruence|]. cbn. eauto.
  - injection E as <-. exact POISON.
Qed.
Lemma deduct_inv i s ans r : inv s ans -> deduct i s = Some r -> exists s', r = Ok s' /\ inv s' ans.
Proof.
  intros IV E. unfold deduct in E. destruct (nth_error (r_waves s) i) as [w|] eqn:EW; [|discriminate]. pose proof (in_waves _ _ IV i w EW) as WI.
  destruct (w_at w) as [| |sub| | |] eqn:PL; try discriminate. injection E as <-. eexists. split; [reflexivity|].
  pose proof (sent_total _ _ _ _ WI) as (m & SM & _ & LM). unfold sent in SM. rewrite PL in SM. subst m. pose proof (pend_le s ans i IV) as PL'.
  destruct WI as [A B C D E F G H]. unfold place_ok in C. rewrite PL in C. destruct C as [C1 C2].
  assert (EN : ended w = false) by (unfold ended; now rewrite PL). specialize (F EN). unfold deducted in F. rewrite PL in F.
  assert (S32 : sub32 (w_remaining w) (N.of_nat (w_count w - sub)) = (w_remaining w - N.of_nat (w_count w - sub))%N) by (apply sub32_ok; lia).
  apply (put_inv s s ans i w); auto.
  - constructor; auto; cbn [w_remaining w_failures w_sizes w_results].
    + unfold place_ok. cbn [w_at]. auto.
    + destruct D as (m & D1 & D2 & D3). unfold sent in D1. rewrite PL in D1. exists m. split; [exact D1|]. auto.
    + intros Q. discriminate Q.
    + intros _. rewrite S32. unfold deducted. cbn [w_at]. unfold w_count in *. cbn [w_sizes]. lia.
  - intros j wv NE Ej. apply (wi_place _ _ _ _ (in_waves _ _ IV j wv Ej)).
  - congruence.
  - intros j Q. exfalso. destruct (in_lock _ _ IV j Q) as (wj & s' & ch & fl & sp & Ej & Pj). pose proof (wi_place _ _ _ _ (in_waves _ _ IV j wj Ej)) as PO. unfold place_ok in PO. rewrite Pj in PO.
    destruct PO as (_ & _ & _ & _ & PO & _). congruence.
Qed.
Lemma in_idle' s ans : inv s ans -> r_lock s = None -> r_poisoned s = false -> r_sq s = [].
Proof. intros H. apply H. Qed.
(** Changes that leave the lock and the queue alone. *)
Lemma put_same s s1 ans i w w' : inv s ans -> nth_error (r_waves s) i = Some w -> (forall sub ch fl sp, w_at w = Flushing sub ch fl sp -> w_at w' = Flushing sub ch fl sp) ->
  r_waves s1 = r_waves s -> r_sq s1 = r_sq s -> r_kernel s1 = r_kernel s -> r_lock s1 = r_lock s -> r_poisoned s1 = r_poisoned s -> r_depth s1 = r_depth s -> r_ring s1 = r_ring s ->
  wave_inv s1 ans i w' -> (forall j wv, j <> i -> nth_error (r_waves s) j = Some wv -> wave_inv s1 ans j wv) ->
  (exists old, Permutation ((r_cq s1 ++ hand_all (r_hand s1)) ++ old) ans) -> inv (put_wave s1 i w') ans.
Proof.
  intros [D I L W N P] E FL Q1 Q2 Q3 Q4 Q5 Q6 Q7 WI WJ PE. pose proof (nth_lt _ _ _ E) as LT.
  assert (NP : forall j, nth_error (r_waves (put_wave s1 i w')) j = if i =? j then Some w' else nth_error (r_waves s) j) by (intros j; cbn; rewrite Q1; now apply nth_error_upd).
  constructor; try (cbn; rewrite ?Q2, ?Q3, ?Q4, ?Q5, ?Q6, ?Q7; assumption).
  - intros j Hj. cbn in Hj. rewrite Q4 in Hj. destruct (L j Hj) as (wj & s' & ch & fl & sp & Ej & Pj). rewrite NP. destruct (Nat.eqb_spec i j) as [<-|NE].
    + exists w', s', ch, fl, sp. split; [reflexivity|]. apply FL. congruence.
    + exists wj, s', ch, fl, sp. auto.
  - intros j wv Ej. rewrite NP in Ej. destruct (Nat.eqb_spec i j) as [<-|NE].
    + injection Ej as <-. destruct WI. constructor; auto.
    + destruct (WJ j wv ltac:(auto) Ej). constructor; auto.
  - intros j Ej. rewrite NP in Ej. destruct (Nat.eqb_spec i j) as [Q|NE]; [discriminate|]. change (r_kernel (put_wave s1 i w')) with (r_kernel s1). rewrite Q3. now apply N.
Qed.
Lemma resume_inv i s ans r : inv s ans -> resume i s = Some r -> exists s', r = Ok s' /\ inv s' ans.
Proof.
  intros IV E. unfold resume in E. destruct (nth_error (r_waves s) i) as [w|] eqn:EW; [|discriminate]. pose proof (in_waves _ _ IV i w EW) as WI.
  destruct (w_at w) as [| | |sub failed| |] eqn:PL; try discriminate. destruct (N.eqb_spec (w_remaining w) 0) as [R0|]; [|discriminate]. injection E as <-. eexists. split; [reflexivity|].
  pose proof (sent_total _ _ _ _ WI) as (m & SM & _ & LM). unfold sent in SM. rewrite PL in SM. subst m.
  pose proof WI as [A B C D E F G H]. unfold place_ok in C. rewrite PL in C. assert (EN : ended w = false) by (unfold ended; now rewrite PL). specialize (F EN). unfold deducted in F. rewrite PL, R0 in F. cbn [N.to_nat] in F.
  assert (Q : length (idx i (r_kernel s)) = 0 /\ length (idx i (map fst (r_cq s ++ hand_all (r_hand s)))) = 0) by (destruct failed; lia).
  destruct Q as [Q1 Q2]. apply length_zero_iff_nil in Q1, Q2.
  apply (put_same s s ans i w); auto; [intros; congruence| |intros j wv NE; apply (in_waves _ _ IV)|apply (in_pend _ _ IV)].
  destruct D as (m & D1 & D2 & D3). unfold sent in D1. rewrite PL in D1. subst m.
  constructor; auto.
  - unfold place_ok, set_place. cbn [w_at]. destruct failed; [apply C|reflexivity].
  - exists sub. split; [|split; [exact D2|exact D3]]. unfold sent, set_place. cbn [w_at]. destruct failed; [exact I|]. rewrite C. reflexivity.
  - unfold ended, set_place. cbn [w_at]. destruct failed; discriminate.
Qed.
Lemma idx_same_length i a b : Permutation a b -> length (idx i (map fst a)) = length (idx i (map fst (b : list (entry * Z)))).
Proof. intros H. apply Permutation_length, idx_perm, Permutation_map, H. Qed.
Lemma idx_same_nil i a b : Permutation a b -> idx i (map fst a) = [] -> idx i (map fst (b : list (entry * Z))) = [].
Proof. intros H E. apply length_zero_iff_nil. rewrite <- (idx_same_length i a b H), E. reflexivity. Qed.
Lemma bads_perm i z a b : Permutation a b -> bads i z a = bads i z b.
Proof. intros H. apply Permutation_length, filter_perm, H. Qed.
Lemma complete_inv e r0 s ans r : inv s ans -> complete e r0 s = Some r -> exists s', r = Ok s' /\ inv s' (ans ++ [(e, r0)]).
Proof.
  intros IV E. unfold complete in E. destruct (drop_entry e (r_kernel s)) as [k|] eqn:DE; [|discriminate]. cbn in E. injection E as <-. eexists. split; [reflexivity|].
  apply drop_perm in DE. destruct IV as [D I L W N P].
  assert (KE : forall j, Permutation (idx j (r_kernel s)) (idx j [e] ++ idx j k)) by (intros j; rewrite <- idx_app; apply idx_perm; exact DE).
  assert (AE : forall j, idx j (map fst (ans ++ [(e, r0)])) = idx j (map fst ans) ++ idx j [e]) by (intros j; now rewrite map_app, idx_app).
  assert (PK : forall j, Permutation (idx j k ++ idx j (map fst (ans ++ [(e, r0)]))) (idx j (r_kernel s) ++ idx j (map fst ans))).
  { intros j. rewrite AE, KE. rewrite !app_assoc. rewrite Permutation_app_comm, app_assoc. reflexivity. }
  assert (PP : Permutation ((r_cq s ++ [(e, r0)]) ++ hand_all (r_hand s)) ((r_cq s ++ hand_all (r_hand s)) ++ [(e, r0)])) by (rewrite <- !app_assoc; apply Permutation_app_head, Permutation_app_comm).
  constructor; auto; cbn [with_cq r_kernel r_cq r_hand r_waves r_lock r_sq r_poisoned].
  - intros j w Ej. destruct (W j w Ej) as [A B C (m & D1 & D2 & D3) E F G H]. constructor; auto; cbn [with_cq r_kernel r_cq r_hand r_waves r_lock r_sq r_poisoned].
    + exists m. split; [exact D1|]. split; [exact D2|]. now rewrite PK.
    + intros EN. destruct (E EN) as [E1 E2]. pose proof (KE j) as KJ. rewrite E1 in KJ. apply Permutation_nil in KJ. apply app_eq_nil in KJ. destruct KJ as [K1 K2]. split; [exact K2|].
      apply (idx_same_nil j _ _ (Permutation_sym PP)). rewrite map_app, idx_app, E2. exact K1.
    + intros EN. rewrite (idx_same_length j _ _ PP), AE, app_length, map_app, idx_app, app_length. cbn [map fst]. specialize (F EN). lia.
    + rewrite !bads_app in *. lia.
    + intros k' r' Hin. apply in_app_or in Hin. destruct Hin as [Hin|[Q|[]]].
      * destruct (H k' r' Hin) as [K|K]; [left|now right]. apply in_app_or in K. rewrite <- app_assoc. apply in_or_app. destruct K as [K|K]; [now left|right; apply in_or_app; now right].
      * left. rewrite <- app_assoc. apply in_or_app. right. left. exact Q.
  - intros j Ej. destruct (N j Ej) as [N1 N2]. pose proof (PK j) as PJ. rewrite N1, N2 in PJ. cbn in PJ. apply Permutation_sym, Permutation_nil, app_eq_nil in PJ. exact PJ.
  - destruct P as (old & P). exists old. rewrite PP, <- app_assoc. etransitivity; [apply Permutation_app_head, Permutation_app_comm|]. rewrite app_assoc. now apply Permutation_app_tail.
Qed.
Lemma reap_inv s ans r : inv s ans -> reap s = Some r -> exists s', r = Ok s' /\ inv s' ans.
Proof.
  intros IV E. unfold reap in E. destruct (r_hand s) as [|] eqn:HA; [discriminate|]. destruct (r_cq s) as [|[e r0] t] eqn:CQ; [discriminate|]. injection E as <-. eexists. split; [reflexivity|].
  assert (PP : Permutation (t ++ [(e, r0)]) (((e, r0) :: t) ++ [])) by (rewrite app_nil_r; symmetry; apply Permutation_cons_append).
  destruct IV as [D I L W N P]. constructor; auto; cbn [with_cq r_kernel r_cq r_hand r_waves r_lock r_sq r_poisoned hand_all].
  - intros j w Ej. destruct (W j w Ej) as [A B C D0 E F G H]. rewrite HA, CQ in *. cbn [hand_all hand_uncounted hand_unstored] in *. constructor; auto; cbn [with_cq r_kernel r_cq r_hand r_waves r_lock r_sq r_poisoned hand_all hand_uncounted hand_unstored].
    + intros EN. destruct (E EN) as [E1 E2]. split; [exact E1|]. apply (idx_same_nil j _ _ (Permutation_sym PP)). exact E2.
    + intros EN. rewrite (idx_same_length j _ _ PP). auto.
    + now rewrite (bads_perm j _ _ _ PP).
    + intros k' r' Hin. destruct (H k' r' Hin) as [K|K]; [left|now right]. apply (Permutation_in _ (Permutation_sym PP) K).
  - destruct P as (old & P). exists old. rewrite HA, CQ in P. cbn [hand_all] in P. now rewrite PP.
Qed.
Lemma once l i k (r r' : Z) : NoDup (idx i (map fst l)) -> In ((i, k), r) l -> In ((i, k), r') l -> r = r'.
Proof.
  induction l as [|[[a b] c] l IH]; intros ND H1 H2; [destruct H1|]. cbn [map fst] in ND. unfold idx in ND. cbn [filter fst] in ND. fold (idx i (map fst l)) in ND.
  assert (T : In k (idx i (map fst l)) <-> exists q, In ((i, k), q) l).
  { rewrite idx_In, in_map_iff. split; [intros ([x q] & Q & K); cbn in Q; subst x; now exists q|intros (q & K); now exists ((i, k), q)]. }
  destruct (Nat.eqb_spec a i) as [->|NE].
  - cbn [map snd] in ND. fold (idx i (map fst l)) in ND. inversion ND as [|? ? NI ND']; subst. destruct H1 as [Q1|H1], H2 as [Q2|H2].
    + congruence.
    + injection Q1 as -> ->. exfalso. apply NI, T. now exists r'.
    + injection Q2 as -> ->. exfalso. apply NI, T. now exists r.
    + now apply IH.
  - fold (idx i (map fst l)) in ND. destruct H1 as [Q1|H1]; [injection Q1 as -> -> ->; contradiction|]. destruct H2 as [Q2|H2]; [injection Q2 as -> -> ->; contradiction|]. now apply IH.
Qed.
Lemma hand_alive s ans i k r p : inv s ans -> r_hand s = Some ((i, k), r, p) -> exists w, nth_error (r_waves s) i = Some w /\ ended w = false /\ k < w_count w /\ In ((i, k), r) ans.
Proof.
  intros IV HA. assert (IN : In ((i, k), r) ans) by (apply (pend_in _ _ _ IV); rewrite HA; apply in_or_app; right; now left).
  assert (IK : In k (idx i (map fst ans))) by (apply idx_In, in_map_iff; exists ((i, k), r); auto).
  destruct (nth_error (r_waves s) i) as [w|] eqn:EW; [|destruct (in_none _ _ IV i EW) as [_ Q]; rewrite Q in IK; destruct IK].
  exists w. split; [reflexivity|]. pose proof (in_waves _ _ IV i w EW) as [A B C (m & D1 & D2 & D3) E F G H]. split; [|split; [|exact IN]].
  - destruct (ended w) eqn:EN; [|reflexivity]. destruct (E eq_refl) as [_ Q]. exfalso. assert (K : In k (idx i (map fst (r_cq s ++ hand_all (r_hand s))))); [|rewrite Q in K; destruct K].
    apply idx_In, in_map_iff. exists ((i, k), r). split; [reflexivity|]. rewrite HA. apply in_or_app. right. now left.
  - assert (K : In k (seq 0 m)) by (apply (Permutation_in _ D3), in_or_app; now right). apply in_seq in K. lia.
Qed.
Lemma idx_single_other j i k : j <> i -> idx j [(i, k)] = [].
Proof. intros NE. exact (idx_other j i [k] NE). Qed.
Lemma dispatch_inv s ans r : inv s ans -> dispatch s = Some r -> exists s', r = Ok s' /\ inv s' ans.
Proof.
  intros IV E. unfold dispatch in E. destruct (r_hand s) as [[[[i k] r0] p]|] eqn:HA; [|discriminate].
  destruct (hand_alive s ans i k r0 p IV HA) as (w & EW & EN & LK & IN).
  assert (FR : in_frame s i = Ok w) by (unfold in_frame, aget; rewrite Nnat.Nat2N.id, EW; cbn [bind]; now rewrite EN).
  pose proof (in_waves _ _ IV i w EW) as WI. pose proof WI as [A B C (m & D1 & D2 & D3) E0 F G H]. specialize (F EN). rewrite HA in F, G, H, E0. cbn [hand_all hand_uncounted hand_unstored] in F, G, H, E0.
  assert (ND : NoDup (idx i (map fst ans))). { assert (Q : NoDup (idx i (r_kernel s) ++ idx i (map fst ans))) by (apply (Permutation_NoDup (Permutation_sym D3)), seq_NoDup). clear -Q. induction (idx i (r_kernel s)); [exact Q|]. inversion Q; auto. }
  pose proof (in_pend _ _ IV) as PE. rewrite HA in PE. cbn [hand_all] in PE. rewrite FR in E. cbn [bind] in E.
  assert (OTH : forall j, j <> i -> forall h, idx j (map fst (r_cq s ++ h)) = idx j (map fst (r_cq s)) ++ idx j (map fst h)) by (intros; now rewrite map_app, idx_app).
  destruct p as [|[|p]].
  - rewrite aput_ok in E by lia. cbn [bind] in E. injection E as <-. eexists. split; [reflexivity|]. rewrite Nnat.Nat2N.id. apply (put_same s _ ans i w); auto.
    + constructor; cbn [with_cq r_kernel r_cq r_hand r_lock r_sq r_poisoned hand_all hand_uncounted hand_unstored w_results w_sizes w_remaining w_failures]; auto.
      * rewrite upd_length. exact A.
      * exists m. auto.
      * intros k' r' Hin. rewrite app_nil_r. rewrite nth_error_upd by lia. destruct (Nat.eqb_spec k k') as [<-|NE]; [right; f_equal; exact (once ans i k r0 r' ND IN Hin)|].
        destruct (H k' r' Hin) as [K|K]; [|now right]. apply in_app_or in K. destruct K as [K|[Q|[]]]; [now left|]. congruence.
    + intros j wv NE Ej. destruct (in_waves _ _ IV j wv Ej) as [A' B' C' D' E' F' G' H']. rewrite HA in E', F', G', H'. cbn [hand_all hand_uncounted hand_unstored] in E', F', G', H'.
      constructor; cbn [with_cq r_kernel r_cq r_hand r_lock r_sq r_poisoned hand_all hand_uncounted hand_unstored]; auto.
      intros k' r' Hin. destruct (H' k' r' Hin) as [K|K]; [|now right]. left. apply in_app_or in K. destruct K as [K|[Q|[]]]; [now rewrite app_nil_r|]. congruence.
  - assert (AG : aget (w_sizes w) (N.of_nat k) = Ok (nth k (w_sizes w) 0%N)) by (rewrite (aget_nth _ _ 0%N) by (unfold w_count in LK; lia); now rewrite Nnat.Nat2N.id).
    rewrite AG in E. cbn [bind] in E. injection E as <-. eexists. split; [reflexivity|]. apply (put_same s _ ans i w); auto.
    + constructor; cbn [with_cq r_kernel r_cq r_hand r_lock r_sq r_poisoned hand_all hand_uncounted hand_unstored w_results w_sizes w_remaining w_failures]; auto.
      * unfold place_ok in *. cbn [w_at w_failures]. unfold ended in EN. destruct (w_at w); auto. discriminate.
      * exists m. auto.
      * rewrite bads_app in G. unfold bads at 2 in G. cbn [filter fst snd] in G. rewrite Nat.eqb_refl in G. cbn [andb] in G. rewrite app_nil_r. destruct (bad (nth k (w_sizes w) 0%N) r0); cbn [length] in G; lia.
    + intros j wv NE Ej. destruct (in_waves _ _ IV j wv Ej) as [A' B' C' D' E' F' G' H']. rewrite HA in E', F', G', H'. cbn [hand_all hand_uncounted hand_unstored] in E', F', G', H'.
      constructor; cbn [with_cq r_kernel r_cq r_hand r_lock r_sq r_poisoned hand_all hand_uncounted hand_unstored]; auto.
      rewrite app_nil_r. rewrite bads_app, (bads_none j _ [((i, k), r0)]) in G' by (apply idx_single_other; auto). lia.
  - injection E as <-. eexists. split; [reflexivity|]. pose proof (pend_le s ans i IV) as PL. rewrite HA in PL. cbn [hand_all] in PL.
    rewrite map_app, idx_app, app_length in F, PL. cbn [map fst] in F, PL. change [(i, k)] with (map (fun k => (i, k)) [k]) in F, PL. rewrite idx_own in F, PL. cbn [length] in F, PL.
    assert (LA : length (idx i (map fst ans)) <= w_count w) by (apply Permutation_length in D3; rewrite app_length, seq_length in D3; lia).
    assert (DD : deducted w + length (idx i (map fst ans)) <= w_count w).
    { apply Permutation_length in D3. rewrite app_length, seq_length in D3. unfold deducted. unfold sent in D1. destruct (w_at w) as [| | |q [|]| |]; lia. }
    assert (S32 : sub32 (w_remaining w) 1 = (w_remaining w - 1)%N) by (apply sub32_ok; lia).
    apply (put_same s _ ans i w); auto.
    + constructor; cbn [with_cq r_kernel r_cq r_hand r_lock r_sq r_poisoned hand_all hand_uncounted hand_unstored w_results w_sizes w_remaining w_failures]; auto.
      * exists m. auto.
      * intros EN'. unfold ended in EN', EN. cbn [w_at] in EN'. congruence.
      * intros _. rewrite S32, app_nil_r. unfold deducted in *. cbn [w_at]. unfold w_count in *. cbn [w_sizes]. lia.
    + intros j wv NE Ej. destruct (in_waves _ _ IV j wv Ej) as [A' B' C' D' E' F' G' H']. rewrite HA in E', F', G', H'. cbn [hand_all hand_uncounted hand_unstored] in E', F', G', H'.
      assert (IJ : idx j (map fst (r_cq s ++ [((i, k), r0)])) = idx j (map fst (r_cq s))) by (rewrite OTH by auto; cbn [map fst]; rewrite idx_single_other by auto; apply app_nil_r).
      rewrite IJ in E', F'. constructor; cbn [with_cq r_kernel r_cq r_hand r_lock r_sq r_poisoned hand_all hand_uncounted hand_unstored]; rewrite ?app_nil_r in *; auto.
    + destruct PE as (old & PE). exists (((i, k), r0) :: old). cbn [with_cq r_cq r_hand hand_all]. rewrite app_nil_r. rewrite <- PE, <- app_assoc. reflexivity.
Qed.
Lemma arrive_inv sizes s ans r : inv s ans -> arrive sizes s = Some r -> exists s', r = Ok s' /\ inv s' ans.
Proof.
  intros IV E. unfold arrive in E. destruct (N.ltb_spec (N.of_nat (length sizes)) (2 ^ 32)) as [LT|]; [|discriminate]. injection E as <-. eexists. split; [reflexivity|].
  assert (NN : nth_error (r_waves s) (length (r_waves s)) = None) by (apply nth_error_None; lia). destruct (in_none _ _ IV _ NN) as [N1 N2].
  pose proof (pend_le s ans (length (r_waves s)) IV) as PL. rewrite N2 in PL. cbn [length] in PL.
  assert (PN : idx (length (r_waves s)) (map fst (r_cq s ++ hand_all (r_hand s))) = []) by (apply length_zero_iff_nil; lia).
  pose proof IV as [D I L W N P]. constructor; auto; cbn [with_waves r_kernel r_cq r_hand r_waves r_lock r_sq r_poisoned].
  - intros j Hj. destruct (L j Hj) as (wj & s' & ch & fl & sp & Ej & Pj). exists wj, s', ch, fl, sp. split; [|exact Pj]. rewrite nth_error_app1; [exact Ej|exact (nth_lt _ _ _ Ej)].
  - intros j w Ej. destruct (Nat.lt_ge_cases j (length (r_waves s))) as [LJ|GJ].
    + rewrite nth_error_app1 in Ej by exact LJ. destruct (W j w Ej). constructor; auto.
    + rewrite nth_error_app2 in Ej by exact GJ. destruct (j - length (r_waves s)) as [|q] eqn:Q; [|destruct q; discriminate]. assert (j = length (r_waves s)) by lia. subst j. cbn in Ej. injection Ej as <-.
      constructor; cbn [with_waves r_kernel r_cq r_hand r_waves r_lock r_sq r_poisoned w_results w_sizes w_remaining w_failures]; auto.
      * unfold w_count. cbn [w_sizes]. now rewrite map_length.
      * unfold place_ok, w_count. cbn [w_at w_sizes w_failures]. destruct sizes; cbn; [reflexivity|lia].
      * exists 0. rewrite N1, N2. unfold sent, w_count. cbn [w_at w_sizes]. destruct sizes; cbn; auto with arith.
      * rewrite N2, PN. intros _. unfold deducted, w_count. cbn [w_at w_sizes length]. destruct sizes; cbn [length]; lia.
      * cbn [N.to_nat]. rewrite (bads_none _ _ ans N2). rewrite bads_none; [reflexivity|]. apply idx_nil. intros k K. assert (K' : In k (idx (length (r_waves s)) (map fst (r_cq s ++ hand_all (r_hand s))))); [|rewrite PN in K'; destruct K'].
        apply idx_In. rewrite map_app in K |- *. apply in_app_or in K. apply in_or_app. destruct K as [K|K]; [now left|right]. destruct (r_hand s) as [[x [|[|p]]]|]; cbn in K |- *; tauto.
      * intros k r Hin. exfalso. assert (K : In k (idx (length (r_waves s)) (map fst ans))); [|rewrite N2 in K; destruct K]. apply idx_In, in_map_iff. exists ((length (r_waves s), k), r). auto.
  - intros j Ej. apply N. apply nth_error_None in Ej. rewrite app_length in Ej. apply nth_error_None. lia.
Qed.
Lemma step_inv a s ans r : inv s ans -> step a s = Some r -> exists s', r = Ok s' /\ inv s' (ans ++ answers [a]).
Proof.
  intros IV E. destruct a as [z|i|i x|i|i|e r0| |]; cbn [step answers] in *; rewrite ?app_nil_r;
    [eapply arrive_inv|eapply enter_inv|eapply submit_inv|eapply deduct_inv|eapply resume_inv|eapply complete_inv|eapply reap_inv|eapply dispatch_inv]; eassumption.
Qed.
Lemma run_inv : forall acts s ans r, inv s ans -> run acts s = Some r -> exists s', r = Ok s' /\ inv s' (ans ++ answers acts).
Proof.
  induction acts as [|a t IH]; intros s ans r IV E; cbn [run] in E.
  - injection E as <-. exists s. cbn. rewrite app_nil_r. auto.
  - destruct (step a s) as [q|] eqn:ES; [|discriminate]. destruct (step_inv a s ans q IV ES) as (s1 & -> & I1). destruct (IH s1 _ r I1 E) as (s2 & -> & I2).
    exists s2. split; [reflexivity|]. rewrite <- app_assoc in I2. now rewrite <- answers_app in I2.
Qed.

(** ** Results *)
Lemma bad_spec z r : bad z r = negb (Z.eqb (Z.of_N z) r).
Proof.
  unfold bad. destruct (Z.ltb_spec r 0) as [L|G]; cbn [orb].
  - destruct (Z.eqb_spec (Z.of_N z) r); [lia|reflexivity].
  - f_equal. destruct (N.eqb_spec (Z.to_N r) z), (Z.eqb_spec (Z.of_N z) r); try reflexivity; lia.
Qed.
Lemma bads_idx i z results : forall l, (forall k r, In ((i, k), r) l -> nth_error results k = Some r) ->
  bads i z l = length (filter (fun k => bad (nth k z 0%N) (nth k results 0%Z)) (idx i (map fst l))).
Proof.
  unfold bads, idx. induction l as [|[[a k] r] l IH]; intros H; [reflexivity|]. cbn [map filter fst snd]. specialize (IH (fun k r Hin => H k r (or_intror Hin))).
  destruct (Nat.eqb_spec a i) as [->|NE]; cbn [andb map filter snd]; [|exact IH]. pose proof (H k r (or_introl eq_refl)) as E. apply (nth_error_nth _ _ 0%Z) in E. rewrite E.
  destruct (bad (nth k z 0%N) r); cbn [length]; [f_equal|]; exact IH.
Qed.
Lemma short_seq : forall z results, length results = length z -> length (filter (fun k => bad (nth k z 0%N) (nth k results 0%Z)) (seq 0 (length z))) = short_reads z results.
Proof.
  induction z as [|x z IH]; intros [|r results] L; try discriminate; [reflexivity|]. cbn [length seq filter nth short_reads]. rewrite bad_spec.
  assert (E : length (filter (fun k => bad (nth k (x :: z) 0%N) (nth k (r :: results) 0%Z)) (seq 1 (length z))) = short_reads z results).
  { rewrite <- (IH results) by (cbn in L; lia). rewrite <- seq_shift. generalize (seq 0 (length z)). induction l as [|k l IHl]; [reflexivity|]. cbn [map filter]. cbn [nth] in IHl |- *. destruct (bad (nth k z 0%N) (nth k results 0%Z)); cbn [length]; [f_equal|]; exact IHl. }
  destruct (Z.eqb (Z.of_N x) r); cbn [negb length]; [rewrite <- E|rewrite <- E]; reflexivity.
Qed.
Lemma once_filter l i k (r : Z) : NoDup (idx i (map fst l)) -> In ((i, k), r) l -> filter (fun x => (fst (fst x) =? i) && (snd (fst x) =? k)) l = [((i, k), r)].
Proof.
  assert (T : forall l : list (entry * Z), ~ In k (idx i (map fst l)) -> filter (fun x => (fst (fst x) =? i) && (snd (fst x) =? k)) l = []).
  { induction l0 as [|[[a b] c] l0 IH]; intros H; [reflexivity|]. cbn [filter fst snd]. unfold idx in H. cbn [map filter fst] in H. destruct (Nat.eqb_spec a i) as [->|NE]; cbn [andb].
    - cbn [map snd] in H. destruct (Nat.eqb_spec b k) as [->|NB]; [exfalso; apply H; now left|]. apply IH. intros K. apply H. now right.
    - now apply IH. }
  induction l as [|[[a b] c] l IH]; intros ND H; [destruct H|]. unfold idx in ND. cbn [map filter fst] in ND. cbn [filter fst snd]. destruct (Nat.eqb_spec a i) as [->|NE]; cbn [andb].
  - cbn [map snd] in ND. fold (idx i (map fst l)) in ND. inversion ND as [|? ? NI ND']; subst. destruct (Nat.eqb_spec b k) as [->|NB].
    + rewrite T by exact NI. f_equal. f_equal. destruct H as [Q|H]; [congruence|]. exfalso. apply NI, idx_In, in_map_iff. exists ((i, k), r). auto.
    + apply IH; [exact ND'|]. destruct H as [Q|H]; [congruence|exact H].
  - apply IH; [exact ND|]. destruct H as [Q|H]; [congruence|exact H].
Qed.
Lemma returned_ok s ans i w f : inv s ans -> nth_error (r_waves s) i = Some w -> w_at w = Returned f ->
  length (w_results w) = length (w_sizes w) /\
  (forall k, k < length (w_sizes w) -> exists r, nth_error (w_results w) k = Some r /\ filter (fun x => (fst (fst x) =? i) && (snd (fst x) =? k)) ans = [((i, k), r)]) /\
  f = N.of_nat (short_reads (w_sizes w) (w_results w)).
Proof.
  intros IV EW PL. pose proof (in_waves _ _ IV i w EW) as [A B C (m & D1 & D2 & D3) E F G H]. unfold sent in D1. rewrite PL in D1. subst m.
  assert (EN : ended w = true) by (unfold ended; now rewrite PL). destruct (E EN) as [K0 P0]. rewrite K0 in D3. cbn [app] in D3.
  assert (ND : NoDup (idx i (map fst ans))) by (apply (Permutation_NoDup (Permutation_sym D3)), seq_NoDup).
  assert (NP : forall k r, ~ In ((i, k), r) (r_cq s ++ hand_all (r_hand s))).
  { intros k r K. assert (Q : In k (idx i (map fst (r_cq s ++ hand_all (r_hand s))))); [|rewrite P0 in Q; destruct Q]. apply idx_In, in_map_iff. exists ((i, k), r). auto. }
  assert (RE : forall k r, In ((i, k), r) ans -> nth_error (w_results w) k = Some r).
  { intros k r Hin. destruct (H k r Hin) as [K|K]; [|exact K]. exfalso. apply (NP k r). apply in_app_or in K. apply in_or_app. destruct K as [K|K]; [now left|right]. destruct (r_hand s) as [[x [|p]]|]; cbn in K |- *; tauto. }
  split; [exact A|]. split.
  - intros k Hk. assert (IK : In k (idx i (map fst ans))) by (apply (Permutation_in _ (Permutation_sym D3)), in_seq; unfold w_count; lia).
    apply idx_In, in_map_iff in IK. destruct IK as ([e r] & Q & Hin). cbn in Q. subst e. exists r. split; [now apply RE|]. now apply once_filter.
  - unfold place_ok in C. rewrite PL in C. subst f. assert (BP : bads i (w_sizes w) (r_cq s ++ hand_uncounted (r_hand s)) = 0).
    { apply bads_none, idx_nil. intros k K. apply in_map_iff in K. destruct K as ([e r] & Q & K). cbn in Q. subst e. apply (NP k r). apply in_app_or in K. apply in_or_app. destruct K as [K|K]; [now left|right]. destruct (r_hand s) as [[x [|[|p]]]|]; cbn in K |- *; tauto. }
    rewrite BP, Nat.add_0_r in G. rewrite (bads_idx i _ (w_results w) ans RE) in G. rewrite (Permutation_length (filter_perm _ _ _ D3)) in G. unfold w_count in G, A. rewrite short_seq in G by exact A. lia.
Qed.
Lemma step_poison a s ans s' : inv s ans -> step a s = Some (Ok s') -> r_poisoned s' = true -> r_poisoned s = true \/ exists i, a = Submit i Hard \/ a = Submit i Busy.
Proof.
  intros IV E P. destruct a as [z|i|i x|i|i|e r0| |]; cbn [step] in E.
  - unfold arrive in E. destruct (N.ltb _ _); [|discriminate]. injection E as <-. now left.
  - left. unfold enter in E. destruct (nth_error (r_waves s) i) as [w|]; [|discriminate]. destruct (w_at w) as [sub| | | | |]; try discriminate. destruct (r_lock s) eqn:LK; [discriminate|]. destruct (r_poisoned s) eqn:PS; [reflexivity|].
    destruct (in_depth _ _ IV). rewrite (in_idle _ _ IV LK PS) in E. cbn [length] in E. rewrite (proj2 (Nat.leb_le _ _)) in E by lia. injection E as <-. discriminate.
  - unfold submit in E. destruct (nth_error (r_waves s) i) as [w|]; [|discriminate]. destruct (w_at w); try discriminate. destruct x as [n| | |].
    + destruct (_ && _)%bool; [|discriminate]. injection E as <-. now left.
    + injection E as <-. now left.
    + right. exists i. auto.
    + right. exists i. auto.
  - unfold deduct in E. destruct (nth_error (r_waves s) i) as [w|]; [|discriminate]. destruct (w_at w); try discriminate. injection E as <-. now left.
  - unfold resume in E. destruct (nth_error (r_waves s) i) as [w|]; [|discriminate]. destruct (w_at w); try discriminate. destruct (N.eqb _ _); [|discriminate]. injection E as <-. now left.
  - unfold complete in E. destruct (drop_entry _ _); [|discriminate]. injection E as <-. now left.
  - unfold reap in E. destruct (r_hand s); [discriminate|]. destruct (r_cq s) as [|[]]; [discriminate|]. injection E as <-. now left.
  - unfold dispatch in E. destruct (r_hand s) as [[[[i k] r0] [|[|p]]]|]; [| | |discriminate]; destruct (in_frame s i); try discriminate; cbn [bind] in E.
    + destruct (aput _ _ _); try discriminate. injection E as <-. now left.
    + destruct (aget _ _); try discriminate. injection E as <-. now left.
    + injection E as <-. now left.
Qed.
Lemma run_poison : forall acts s ans s', inv s ans -> run acts s = Some (Ok s') -> r_poisoned s' = true -> r_poisoned s = true \/ refused acts.
Proof.
  induction acts as [|a t IH]; intros s ans s' IV E P; cbn [run] in E; [injection E as <-; now left|]. destruct (step a s) as [q|] eqn:ES; [|discriminate].
  destruct (step_inv a s ans q IV ES) as (s1 & -> & I1). destruct (IH s1 _ s' I1 E P) as [P1|(i & R)]; [|right; exists i; destruct R; [left|right]; now right].
  destruct (step_poison a s ans s1 IV ES P1) as [P0|(i & Q)]; [now left|]. right. exists i. destruct Q as [-> | ->]; [left|right]; now left.
Qed.

(** ** Progress *)
Definition weight : nat := 1040.
Definition pot (w : wave) : nat :=
  match w_at w with
  | Submitting s => (w_count w - s) * weight + 3
  | Flushing s ch fl sp => (w_count w - s - fl) * weight + 2 - sp
  | Deducting _ => 2 | Polling _ _ => 1 | _ => 0
  end.
Definition hand_pot (h : option (entry * Z * nat)) : nat := match h with None => 0 | Some (_, O) => 3 | Some (_, S O) => 2 | Some _ => 1 end.
Definition sum_pot (l : list wave) : nat := fold_right (fun w n => pot w + n) 0 l.
Definition work (s : reactor) : nat := sum_pot (r_waves s) + 5 * length (r_kernel s) + 4 * length (r_cq s) + hand_pot (r_hand s).
Lemma sum_upd : forall l i w w', nth_error l i = Some w -> sum_pot (upd l i w') + pot w = sum_pot l + pot w'.
Proof.
  unfold sum_pot. induction l as [|x l IH]; intros [|i] w w' E; try discriminate.
  - injection E as ->. cbn [upd fold_right]. lia.
  - cbn [nth_error] in E. cbn [upd fold_right]. specialize (IH i w w' E). lia.
Qed.
Lemma upd_same_pot l i w w' : nth_error l i = Some w -> pot w' = pot w -> sum_pot (upd l i w') = sum_pot l.
Proof. intros E P. pose proof (sum_upd l i w w' E). lia. Qed.
Lemma step_work a s ans s' : inv s ans -> step a s = Some (Ok s') -> counts a = true -> work s' < work s.
Proof.
  intros IV E CO. unfold work. destruct a as [z|i|i x|i|i|e r0| |]; cbn [step counts] in E, CO; try discriminate.
  - unfold enter in E. destruct (nth_error (r_waves s) i) as [w|] eqn:EW; [|discriminate]. pose proof (wi_place _ _ _ _ (in_waves _ _ IV i w EW)) as PO. unfold place_ok in PO.
    destruct (w_at w) as [sub| | | | |] eqn:PL; try discriminate. destruct (r_lock s) eqn:LK; [discriminate|]. pose proof (in_depth _ _ IV) as [D1 D2].
    set (chunk := Nat.min (w_count w - sub) (r_depth s)) in *. assert (CH : 0 < chunk) by (unfold chunk; lia).
    assert (PW : pot w = (w_count w - sub) * weight + 3) by (unfold pot; now rewrite PL).
    assert (PA : pot (after_chunk w sub chunk 0) = 2) by (unfold after_chunk; rewrite (proj2 (Nat.ltb_lt 0 chunk)) by lia; reflexivity).
    assert (PF : pot (set_place w (Flushing sub chunk 0 0)) = (w_count w - sub) * weight + 2) by (unfold pot, set_place; cbn [w_at]; change (w_count {| w_sizes := w_sizes w; w_results := w_results w; w_remaining := w_remaining w; w_failures := w_failures w; w_at := Flushing sub chunk 0 0 |}) with (w_count w); rewrite !Nat.sub_0_r; reflexivity).
    unfold weight in *.
    destruct (r_poisoned s); [|destruct (_ <=? _)]; injection E as <-; cbn [put_wave with_waves with_ring r_waves r_kernel r_cq r_hand].
    + pose proof (sum_upd _ i w (after_chunk w sub chunk 0) EW). lia.
    + pose proof (sum_upd _ i w (set_place w (Flushing sub chunk 0 0)) EW). lia.
    + pose proof (sum_upd _ i w (after_chunk w sub chunk 0) EW). lia.
  - unfold submit in E. destruct (nth_error (r_waves s) i) as [w|] eqn:EW; [|discriminate]. pose proof (wi_place _ _ _ _ (in_waves _ _ IV i w EW)) as PO. unfold place_ok in PO.
    destruct (w_at w) as [|sub ch fl sp| | | |] eqn:PL; try discriminate. destruct PO as (C1 & C2 & C3 & LK & PS & SQ). unfold retries in *.
    assert (PW : pot w = (w_count w - sub - fl) * weight + 2 - sp) by (unfold pot; now rewrite PL).
    assert (PP : forall p, pot (set_place w p) = match p with Submitting s => (w_count w - s) * weight + 3 | Flushing s ch fl sp => (w_count w - s - fl) * weight + 2 - sp | Deducting _ => 2 | Polling _ _ => 1 | _ => 0 end) by (intros []; reflexivity).
    unfold weight in *.
    assert (PD : pot (after_chunk w sub ch fl) = 2) by (unfold after_chunk; rewrite (proj2 (Nat.ltb_lt fl ch)) by lia; reflexivity).
    destruct x as [n| | |]; try discriminate.
    + destruct (Nat.ltb_spec 0 n); cbn [andb] in E; [|discriminate]. destruct (Nat.leb_spec n (length (r_sq s))) as [NL|]; [|discriminate]. injection E as <-. cbn [put_wave with_waves with_ring r_waves r_kernel r_cq r_hand].
      rewrite app_length, firstn_length_le by exact NL. rewrite SQ, map_length, seq_length in NL.
      match goal with |- context [upd (r_waves s) i ?x] => pose proof (sum_upd _ i w x EW) as SU end. destruct (Nat.ltb_spec (fl + n) ch) as [MO|NM].
      * rewrite PP in SU. lia.
      * unfold after_chunk in *. rewrite (proj2 (Nat.ltb_ge (fl + n) ch)) in * by lia. destruct (Nat.ltb_spec (sub + (fl + n)) (w_count w)); rewrite PP in SU; lia.
    + destruct (Nat.ltb_spec (S sp) 1024); injection E as <-; cbn [put_wave with_waves with_ring r_waves r_kernel r_cq r_hand].
      * pose proof (sum_upd _ i w (set_place w (Flushing sub ch fl (S sp))) EW) as SU. rewrite PP in SU. lia.
      * pose proof (sum_upd _ i w (after_chunk w sub ch fl) EW) as SU. lia.
    + injection E as <-. cbn [put_wave with_waves with_ring r_waves r_kernel r_cq r_hand]. pose proof (sum_upd _ i w (after_chunk w sub ch fl) EW) as SU. lia.
  - unfold deduct in E. destruct (nth_error (r_waves s) i) as [w|] eqn:EW; [|discriminate]. destruct (w_at w) as [| |sub| | |] eqn:PL; try discriminate. injection E as <-. cbn [put_wave with_waves r_waves r_kernel r_cq r_hand].
    match goal with |- context [upd (r_waves s) i ?x] => pose proof (sum_upd _ i w x EW) as SU end. assert (pot w = 2) by (unfold pot; now rewrite PL). unfold pot at 2 in SU. cbn [w_at] in SU. lia.
  - unfold resume in E. destruct (nth_error (r_waves s) i) as [w|] eqn:EW; [|discriminate]. destruct (w_at w) as [| | |sub failed| |] eqn:PL; try discriminate. destruct (N.eqb _ _); [|discriminate]. injection E as <-. cbn [put_wave with_waves r_waves r_kernel r_cq r_hand].
    match goal with |- context [upd (r_waves s) i ?x] => pose proof (sum_upd _ i w x EW) as SU end. assert (pot w = 1) by (unfold pot; now rewrite PL). assert (P0 : pot (set_place w (if failed then Thrown else Returned (w_failures w))) = 0) by (destruct failed; reflexivity). rewrite P0 in SU. lia.
  - unfold complete in E. destruct (drop_entry e (r_kernel s)) as [k|] eqn:DE; [|discriminate]. injection E as <-. apply drop_perm, Permutation_length in DE. cbn [with_cq r_waves r_kernel r_cq r_hand length] in *. rewrite app_length. cbn [length]. lia.
  - unfold reap in E. destruct (r_hand s); [discriminate|]. destruct (r_cq s) as [|[e r0] t]; [discriminate|]. injection E as <-. cbn [with_cq r_waves r_kernel r_cq r_hand length hand_pot]. lia.
  - unfold dispatch in E. destruct (r_hand s) as [[[[i k] r0] p]|] eqn:HA; [|discriminate]. destruct (hand_alive s ans i k r0 p IV HA) as (w & EW & EN & LK & IN).
    assert (FR : in_frame s i = Ok w) by (unfold in_frame, aget; rewrite Nnat.Nat2N.id, EW; cbn [bind]; now rewrite EN). rewrite FR in E. cbn [bind] in E.
    destruct p as [|[|p]].
    + destruct (aput _ _ _); try discriminate. injection E as <-. cbn [put_wave with_waves with_cq r_waves r_kernel r_cq r_hand hand_pot]. rewrite (upd_same_pot _ i w) by auto. lia.
    + destruct (aget _ _); try discriminate. injection E as <-. cbn [put_wave with_waves with_cq r_waves r_kernel r_cq r_hand hand_pot]. rewrite (upd_same_pot _ i w) by auto. lia.
    + injection E as <-. cbn [put_wave with_waves with_cq r_waves r_kernel r_cq r_hand hand_pot]. rewrite (upd_same_pot _ i w) by auto. lia.
Qed.
Lemma run_work : forall more s ans s', inv s ans -> run more s = Some (Ok s') -> forallb counts more = true -> length more + work s' <= work s.
Proof.
  induction more as [|a t IH]; intros s ans s' IV E C; cbn [run forallb length] in *; [injection E as <-; lia|]. apply andb_prop in C. destruct C as [C1 C2].
  destruct (step a s) as [q|] eqn:ES; [|discriminate]. destruct (step_inv a s ans q IV ES) as (s1 & -> & I1). pose proof (step_work a s ans s1 IV ES C1). specialize (IH s1 _ s' I1 E C2). lia.
Qed.
Lemma can_step s ans i w : inv s ans -> nth_error (r_waves s) i = Some w -> ended w = false -> exists a, counts a = true /\ step a s <> None.
Proof.
  intros IV EW EN. destruct (r_hand s) as [[[[j k] r] p]|] eqn:HA.
  { exists Dispatch. split; [reflexivity|]. cbn [step]. unfold dispatch. rewrite HA. destruct p as [|[|p]]; discriminate. }
  destruct (r_cq s) as [|[e r] t] eqn:CQ; [|exists Reap; split; [reflexivity|]; cbn [step]; unfold reap; rewrite HA, CQ; discriminate].
  destruct (r_kernel s) as [|e t] eqn:KE; [|exists (Complete e 0%Z); split; [reflexivity|]; cbn [step]; unfold complete; rewrite KE, drop_head; discriminate].
  assert (FL : forall j wj sub ch fl sp, nth_error (r_waves s) j = Some wj -> w_at wj = Flushing sub ch fl sp -> exists a, counts a = true /\ step a s <> None).
  { intros j wj sub ch fl sp Ej Pj. exists (Submit j (Took 1)). split; [reflexivity|]. cbn [step]. unfold submit. rewrite Ej, Pj. pose proof (wi_place _ _ _ _ (in_waves _ _ IV j wj Ej)) as PO. unfold place_ok in PO. rewrite Pj in PO.
    destruct PO as (_ & C2 & _ & _ & _ & SQ). assert (LS : 1 <= length (r_sq s)) by (rewrite SQ, map_length, seq_length; lia). rewrite (proj2 (Nat.leb_le _ _) LS). discriminate. }
  pose proof (in_waves _ _ IV i w EW) as WI. destruct (w_at w) as [sub|sub ch fl sp|sub|sub failed|f|] eqn:PL.
  - destruct (r_lock s) as [j|] eqn:LK; [destruct (in_lock _ _ IV j LK) as (wj & s' & ch & fl & sp & Ej & Pj); exact (FL j wj s' ch fl sp Ej Pj)|].
    exists (Enter i). split; [reflexivity|]. cbn [step]. unfold enter. rewrite EW, PL, LK. destruct (r_poisoned s); [discriminate|]. destruct (_ <=? _); discriminate.
  - exact (FL i w sub ch fl sp EW PL).
  - exists (Deduct i). split; [reflexivity|]. cbn [step]. unfold deduct. rewrite EW, PL. discriminate.
  - exists (Resume i). split; [reflexivity|]. cbn [step]. unfold resume. rewrite EW, PL. destruct (sent_total _ _ _ _ WI) as (m & SM & _ & LM). unfold sent in SM. rewrite PL in SM. subst m.
    pose proof (wi_remaining _ _ _ _ WI EN) as F. pose proof (wi_place _ _ _ _ WI) as C. unfold place_ok in C. rewrite PL in C. unfold deducted in F. rewrite PL, HA, CQ in F. rewrite KE in LM. cbn in F, LM.
    assert (R0 : w_remaining w = 0%N) by (destruct failed; lia). rewrite R0. discriminate.
  - unfold ended in EN. rewrite PL in EN. discriminate.
  - unfold ended in EN. rewrite PL in EN. discriminate.
Qed.
