(** Lemmas about the files of shards. *)
From Verif Require Import ShardSpec ShardProofs GraphFileProofs.
Import ListNotations.

(** ** Rows of a block *)
Lemma rows_of_concat w : forall l r, (forall v, In v l -> length v = w) -> rows_of (length l) w (concat l ++ r) = l.
Proof.
  induction l as [|v l IH]; intros r H; cbn [length rows_of concat]; [reflexivity|].
  assert (Lv : length v = w) by (apply H; now left). rewrite <- app_assoc. rewrite firstn_app, skipn_app, Lv, Nat.sub_diag.
  rewrite <- Lv, firstn_all, skipn_all. cbn [firstn skipn app]. rewrite app_nil_r. rewrite Lv, IH by (intros; apply H; now right). reflexivity.
Qed.
Lemma concat_length w : forall l : list bytes, (forall v, In v l -> length v = w) -> length (concat l) = length l * w.
Proof. induction l as [|v l IH]; intros H; cbn; [reflexivity|]. rewrite app_length, (H v) by now left. rewrite IH by (intros; apply H; now right). reflexivity. Qed.

Lemma skip_skip {A} : forall (l : list A) a b, skipn b (skipn a l) = skipn (a + b) l.
Proof. induction l as [|x l IH]; intros a b; [now rewrite !skipn_nil|]. destruct a; [reflexivity|]. cbn [skipn Nat.add]. apply IH. Qed.

(** ** Scattering *)
Section Scatter.
Variable vecs : list bytes.
Variable dist : nat -> bytes -> list fl.
Variable k centers : nat.
Hypothesis Hcenters : 0 < centers.
Hypothesis Hdist : forall g v, nth_error vecs g = Some v -> length (dist g v) = centers.

Definition near (g : nat) : list nat := closest k (dist g (nth g vecs [])).
Lemma near_safe g : g < length vecs -> length (near g) = k /\ Forall (fun s => s < centers) (near g).
Proof using Hcenters Hdist.
  intros Hg. assert (L : length (dist g (nth g vecs [])) = centers) by (apply Hdist; now apply nth_error_nth').
  unfold near. rewrite <- L. apply closest_safe. intros E. rewrite E in L. cbn in L. lia.
Qed.

(** The streams of a shard that was given vectors [log]. *)
Definition mk (log : list nat) : output :=
  {| o_data := flat_map (fun g => nth g vecs []) log; o_ids := flat_map (fun g => le_enc 4 (N.of_nat g)) log;
     o_count := (N.of_nat (length log) mod 2 ^ 32)%N |}.
Lemma mk_append log g : append (nth g vecs []) (N.of_nat g) (mk log) = mk (log ++ [g]).
Proof using.
  clear. unfold append, mk. cbn [o_data o_ids o_count]. rewrite !flat_map_app. cbn [flat_map]. rewrite !app_nil_r. f_equal.
  rewrite app_length. cbn [length]. rewrite N.add_mod_idemp_l by discriminate. f_equal. lia.
Qed.
Fixpoint add (g : nat) (ids : list nat) (logs : list (list nat)) : list (list nat) :=
  match ids with [] => logs | s :: ids' => add g ids' (upd logs s (nth s logs [] ++ [g])) end.
Lemma map_upd {A B} (f : A -> B) : forall l i x, map f (upd l i x) = upd (map f l) i (f x).
Proof using. clear. induction l as [|y l IH]; intros [|i] x; cbn; congruence. Qed.
Lemma add_length g : forall ids logs, length (add g ids logs) = length logs.
Proof using. clear. induction ids as [|s ids IH]; intros logs; cbn; [reflexivity|]. now rewrite IH, upd_length. Qed.
Lemma scatter_point_ok g : (N.of_nat g < 2 ^ 32)%N -> forall ids logs, Forall (fun s => s < length logs) ids ->
  scatter_point (nth g vecs []) (N.of_nat g) ids (map mk logs) = Ok (map mk (add g ids logs)).
Proof using.
  clear. intros Hg. induction ids as [|s ids IH]; intros logs HF; [reflexivity|]. inversion HF; subst. cbn [scatter_point add].
  rewrite (aget_nth _ _ (mk [])) by (rewrite map_length; lia). rewrite Nat2N.id. cbn [bind].
  rewrite aput_ok by (rewrite map_length; lia). cbn [bind]. rewrite Nat2N.id.
  rewrite (map_nth mk logs []), mk_append, <- map_upd. apply IH. now rewrite upd_length.
Qed.
Lemma add_nth g : forall ids logs s, Forall (fun s => s < length logs) ids ->
  nth s (add g ids logs) [] = nth s logs [] ++ repeat g (count_occ Nat.eq_dec ids s).
Proof using.
  clear. induction ids as [|t ids IH]; intros logs s HF; cbn [add count_occ]; [cbn [repeat]; now rewrite app_nil_r|].
  inversion HF; subst. rewrite IH by now rewrite upd_length. rewrite nth_upd by assumption.
  destruct (Nat.eqb_spec t s) as [->|]; destruct (Nat.eq_dec _ s); try congruence. now rewrite <- app_assoc.
Qed.
Lemma total_upd : forall (logs : list (list nat)) s g, s < length logs ->
  list_sum (map (@length nat) (upd logs s (nth s logs [] ++ [g]))) = S (list_sum (map (@length nat) logs)).
Proof using.
  clear. induction logs as [|l logs IH]; intros [|s] g H; cbn [length] in H; try lia.
  - cbn [upd nth map list_sum fold_right]. rewrite app_length. cbn [length]. lia.
  - cbn [upd nth map list_sum fold_right]. unfold list_sum in IH. rewrite IH by lia. lia.
Qed.
Lemma add_total g : forall ids logs, Forall (fun s => s < length logs) ids ->
  list_sum (map (@length nat) (add g ids logs)) = list_sum (map (@length nat) logs) + length ids.
Proof using.
  clear. induction ids as [|s ids IH]; intros logs HF; cbn [add length]; [lia|]. inversion HF; subst.
  rewrite IH by now rewrite upd_length. rewrite total_upd by assumption. lia.
Qed.

(** What shard [s] was given of the first [n] vectors. *)
Definition log (s n : nat) : list nat := flat_map (fun g => repeat g (count_occ Nat.eq_dec (near g) s)) (seq 0 n).
Definition logs (n : nat) : list (list nat) := map (fun s => log s n) (seq 0 centers).
Lemma logs_length n : length (logs n) = centers.
Proof using. clear. unfold logs. now rewrite map_length, seq_length. Qed.
Lemma nth_logs n s : s < centers -> nth s (logs n) [] = log s n.
Proof using.
  clear. intros Hs. unfold logs. rewrite (nth_indep _ [] (log 0 n)) by (rewrite map_length, seq_length; exact Hs).
  rewrite (map_nth (fun s => log s n) (seq 0 centers) 0). now rewrite seq_nth.
Qed.
Lemma log_S s n : log s (S n) = log s n ++ repeat n (count_occ Nat.eq_dec (near n) s).
Proof using. clear. unfold log. rewrite seq_S, flat_map_app. cbn [flat_map Nat.add]. now rewrite app_nil_r. Qed.
Lemma logs_step g : g < length vecs -> add g (near g) (logs g) = logs (S g).
Proof using Hcenters Hdist.
  intros Hg. destruct (near_safe g Hg) as [_ HF].
  apply list_eq_nth; [now rewrite add_length, !logs_length|]. intros s Hs. rewrite add_length, logs_length in Hs.
  rewrite !(nth_error_nth' _ []) by (rewrite ?add_length, logs_length; exact Hs). f_equal.
  rewrite add_nth by now rewrite logs_length. rewrite !nth_logs by exact Hs. now rewrite log_S.
Qed.
Hypothesis Hn : (N.of_nat (length vecs) < 2 ^ 32)%N.
Lemma scatter_block_ok : forall l g, skipn g vecs = l ++ skipn (g + length l) vecs -> g + length l <= length vecs ->
  scatter_block dist k g l (map mk (logs g)) = Ok (map mk (logs (g + length l))).
Proof using Hcenters Hdist Hn.
  induction l as [|v l IH]; intros g HE HL; cbn [scatter_block length] in *; [now rewrite Nat.add_0_r|].
  assert (Hv : nth_error vecs g = Some v).
  { rewrite <- (firstn_skipn g vecs), nth_error_app2 by (rewrite firstn_length; lia). rewrite firstn_length.
    replace (g - Nat.min g (length vecs)) with 0 by lia. rewrite HE. reflexivity. }
  assert (Ev : v = nth g vecs []) by (symmetry; now apply nth_error_nth).
  assert (Sg : (N.of_nat g < 2 ^ 32)%N) by lia. rewrite N.mod_small by exact Sg.
  assert (EN : closest k (dist g v) = near g) by (unfold near; now rewrite <- Ev). rewrite EN. rewrite Ev.
  rewrite (scatter_point_ok g Sg) by (rewrite logs_length; apply near_safe; lia). cbn [bind].
  rewrite logs_step by lia. replace (g + S (length l)) with (S g + length l) by lia. apply IH; [|lia].
  replace (S g + length l) with (g + S (length l)) by lia. rewrite (skipn_nth _ _ _ Hv) in HE. now inversion HE.
Qed.

Variable w : nat.
Hypothesis Hw : forall v, In v vecs -> length v = w.
Lemma shard_loop_ok block : 0 < block -> forall fuel g r, length vecs - g < fuel -> g <= length vecs ->
  shard_loop fuel dist k w block (length vecs) g (concat (skipn g vecs) ++ r) (map mk (logs g)) = Done (Ok (map mk (logs (length vecs)))).
Proof using Hcenters Hdist Hn Hw.
  intros Hb. induction fuel as [|fuel IH]; intros g r Hf Hg; [lia|]. cbn [shard_loop].
  destruct (Nat.ltb_spec g (length vecs)) as [Lg|]; [|now replace g with (length vecs) by lia].
  set (cur := Nat.min block (length vecs - g)). set (l := firstn cur (skipn g vecs)).
  assert (Ll : length l = cur) by (unfold l; rewrite firstn_length, skipn_length; unfold cur; lia).
  assert (Es : skipn g vecs = l ++ skipn (g + cur) vecs).
  { rewrite <- skip_skip. symmetry. apply firstn_skipn. }
  assert (Il : forall v, In v l -> length v = w).
  { intros v Hv. apply Hw. rewrite <- (firstn_skipn g vecs). apply in_or_app. right. rewrite Es. apply in_or_app. now left. }
  rewrite Es, concat_app, <- app_assoc. rewrite take_bytes_app by now rewrite (concat_length w l Il), Ll.
  assert (ER : rows_of cur w (concat l) = l) by (rewrite <- Ll, <- (app_nil_r (concat l)); apply rows_of_concat, Il). rewrite ER.
  rewrite (scatter_block_ok l g); [rewrite Ll|rewrite Ll; exact Es|rewrite Ll; unfold cur; lia].
  apply IH; unfold cur; lia.
Qed.
Lemma logs_0 : map mk (logs 0) = repeat empty_output centers.
Proof using.
  clear. unfold logs. rewrite map_map. generalize 0 at 2. induction centers as [|c IH]; intros i; cbn [seq map repeat]; [reflexivity|].
  f_equal. apply IH.
Qed.
Lemma logs_total : forall n, n <= length vecs -> list_sum (map (@length nat) (logs n)) = n * k.
Proof using Hcenters Hdist Hn Hw.
  induction n as [|n IH]; intros Hl.
  - unfold logs. rewrite map_map. generalize (seq 0 centers). induction l as [|s l IHl]; [reflexivity|exact IHl].
  - rewrite <- logs_step by lia. destruct (near_safe n ltac:(lia)) as [L F]. rewrite add_total by now rewrite logs_length. rewrite IH, L by lia. lia.
Qed.
End Scatter.

(** ** The whole assignment *)
Lemma fbin_read dim l r : (0 < dim < 2 ^ 32)%N -> (N.of_nat (length l) < 2 ^ 32)%N ->
  (let* (num, r1) := read_u32 (fbin dim l ++ r) in
   let* (d, r2) := read_u32 r1 in
   if N.eqb num 0 || N.eqb d 0 then Throws else Ok (num, d, r2))
  = if N.eqb (N.of_nat (length l)) 0 then Throws else Ok (N.of_nat (length l), dim, concat l ++ r).
Proof.
  intros [D0 D1] Hl. unfold fbin. rewrite <- !app_assoc. rewrite read_u32_enc by exact Hl. cbn [bind].
  rewrite read_u32_enc by exact D1. cbn [bind]. rewrite (proj2 (N.eqb_neq dim 0)) by lia. now rewrite orb_false_r.
Qed.
Section Whole.
Variable dim : N.
Variable vecs : list bytes.
Hypothesis HV : vectors dim vecs.
Variable dist : nat -> bytes -> list fl.
Variable k centers block fuel : nat.
Hypothesis Hk : 0 < k <= centers.
Hypothesis Hblock : 0 < block.
Hypothesis Hfuel : length vecs < fuel.
Hypothesis Hdist : forall g v, nth_error vecs g = Some v -> length (dist g v) = centers.

Lemma finalize_holds l : (N.of_nat (length l) < 2 ^ 32)%N -> holds_shard dim vecs l (finalize dim (mk vecs l)).
Proof using.
  clear. intros H. unfold finalize, mk. cbn [o_data o_ids o_count]. rewrite N.mod_small by exact H.
  split; cbn [f_data f_ids f_count]; [|reflexivity|reflexivity]. unfold fbin. rewrite map_length. now rewrite (flat_map_concat_map (fun g => nth g vecs []) l).
Qed.
Lemma shard_data_run : (forall s, s < centers -> (N.of_nat (length (log vecs dist k s (length vecs))) < 2 ^ 32)%N) ->
  forall r, shard_data fuel dist (fbin dim vecs ++ r) centers k block
  = Done (Ok (map (fun s => finalize dim (mk vecs (log vecs dist k s (length vecs)))) (seq 0 centers))).
Proof using HV Hk Hblock Hfuel Hdist.
  intros HB r. unfold shard_data. rewrite (proj2 (Nat.eqb_neq centers 0)), (proj2 (Nat.eqb_neq k 0)) by lia.
  destruct (Nat.ltb_spec centers k) as [|_]; [lia|]. cbn [orb]. pose proof HV as [[D0 D1] SV CV WV].
  rewrite (fbin_read dim vecs r (conj D0 D1) CV). rewrite (proj2 (N.eqb_neq _ 0)) by (destruct vecs; [congruence|cbn; lia]).
  rewrite Nat2N.id. assert (L0 : 0 < length vecs) by (destruct vecs; [congruence|cbn; lia]).
  assert (Hw : forall v, In v vecs -> length v = N.to_nat dim * 4) by (intros v Hv; rewrite WV by exact Hv; lia).
  pose proof (shard_loop_ok vecs dist k centers ltac:(lia) Hdist CV _ Hw (Nat.min block (length vecs)) ltac:(lia) fuel 0 r ltac:(lia) ltac:(lia)) as E.
  cbn [skipn] in E. rewrite logs_0 in E. rewrite E. clear E.
  assert (EM : map (finalize dim) (map (mk vecs) (logs vecs dist k centers (length vecs)))
               = map (fun s => finalize dim (mk vecs (log vecs dist k s (length vecs)))) (seq 0 centers))
    by (unfold logs; rewrite !map_map; reflexivity).
  rewrite EM. match goal with |- (if ?b then _ else _) = _ => assert (b = true) as -> end; [|reflexivity].
  apply N.eqb_eq. rewrite <- EM.
  pose proof (logs_total vecs dist k centers ltac:(lia) Hdist CV _ Hw (length vecs) ltac:(lia)) as T.
  assert (G : forall l a, (forall x, In x l -> (N.of_nat (length x) < 2 ^ 32)%N) ->
    fold_left (fun t f => t + f_count f)%N (map (finalize dim) (map (mk vecs) l)) a = (a + N.of_nat (list_sum (map (@length nat) l)))%N).
  { clear. induction l as [|x l IH]; intros a H; cbn [map fold_left]; [cbn; lia|]. rewrite IH by (intros; apply H; now right).
    cbn [f_count finalize o_count mk]. rewrite N.mod_small by (apply H; now left). unfold list_sum. cbn [map fold_right]. lia. }
  rewrite G; [rewrite T; lia|]. intros x Hx. unfold logs in Hx. apply in_map_iff in Hx. destruct Hx as (s & <- & Hs). apply in_seq in Hs. apply HB. lia.
Qed.
End Whole.

(** Only complete files are taken apart. *)
Lemma shard_loop_complete dist k w block num : forall fuel g inp outs r,
  shard_loop fuel dist k w block num g inp outs = Done (Ok r) -> (num - g) * w <= length inp.
Proof.
  induction fuel as [|fuel IH]; intros g inp outs r H; [discriminate|]. cbn [shard_loop] in H.
  destruct (Nat.ltb_spec g num); [|replace (num - g) with 0 by lia; cbn; lia].
  set (cur := Nat.min block (num - g)) in *. destruct (take_bytes (cur * w) inp) as [[b rest]|] eqn:E; [|discriminate].
  apply take_bytes_Some in E. destruct E as [-> Lb]. rewrite app_length, Lb.
  destruct (scatter_block dist k g (rows_of cur w b) outs); try discriminate. apply IH in H.
  replace (num - g) with (cur + (num - (g + cur))) by lia. lia.
Qed.
Lemma shard_data_complete fuel dist file centers k block files : Forall is_byte file -> shard_data fuel dist file centers k block = Done (Ok files) ->
  exists num dim rest, file = le_enc 4 num ++ le_enc 4 dim ++ rest /\ (0 < num < 2 ^ 32)%N /\ (0 < dim < 2 ^ 32)%N
    /\ N.to_nat num * (4 * N.to_nat dim) <= length rest.
Proof.
  intros HB H. unfold shard_data in H. destruct (Nat.eqb centers 0 || Nat.eqb k 0 || Nat.ltb centers k); [discriminate|].
  destruct (read_u32 file) as [[num r1]| | |] eqn:E1; cbn [bind] in H; try discriminate.
  destruct (read_u32_inv _ _ _ HB E1) as (-> & S1 & B1).
  destruct (read_u32 r1) as [[dim r2]| | |] eqn:E2; cbn [bind] in H; try discriminate.
  destruct (read_u32_inv _ _ _ B1 E2) as (-> & S2 & B2).
  destruct (N.eqb_spec num 0); [discriminate|]. destruct (N.eqb_spec dim 0); [discriminate|]. cbn [orb] in H.
  destruct (shard_loop fuel dist k (N.to_nat dim * 4) (Nat.min block (N.to_nat num)) (N.to_nat num) 0 r2 (repeat empty_output centers)) as [|[outs| | |]] eqn:E; try discriminate.
  apply shard_loop_complete in E. exists num, dim, r2. unfold small32 in *. repeat split; try lia.
Qed.
(** Blocks of no rows: the loop does not end. *)
Lemma shard_loop_stuck dist k w num inp : 0 < num -> forall fuel outs, shard_loop fuel dist k w 0 num 0 inp outs = OutOfFuel.
Proof.
  intros Hn. induction fuel as [|fuel IH]; intros outs; [reflexivity|]. cbn [shard_loop]. destruct (Nat.ltb_spec 0 num); [|lia].
  cbn [Nat.min Nat.mul]. unfold take_bytes. cbn [Nat.leb firstn skipn rows_of scatter_block Nat.add]. apply IH.
Qed.
