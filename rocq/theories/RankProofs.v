(** Proofs about exact ranking. *)
From Verif Require Import ScalarDataSpec ScalarDataProofs FilterProofs StorageProofs StorageQueryProofs MatcherProofs PoolProofs FrontierProofs.
From Verif Require Import RankSpec FilterModel StorageSpec.

(** ** The order *)
Lemma cand_less_closer a b : cand_less a b = true <-> closer a b.
Proof.
  unfold cand_less, closer. destruct (Z.eqb_spec (snd a) (snd b)); cbn [negb].
  - rewrite N.ltb_lt. lia.
  - rewrite Z.ltb_lt. lia.
Qed.
Lemma cand_less_false a b : cand_less a b = false <-> ~ closer a b.
Proof. rewrite <- cand_less_closer. destruct (cand_less a b); split; congruence. Qed.
Lemma closer_trans a b c : closer a b -> closer b c -> closer a c.
Proof. unfold closer. lia. Qed.
Lemma closer_irrefl a : ~ closer a a.
Proof. unfold closer. lia. Qed.
Lemma not_closer_trans a b c : ~ closer a b -> ~ closer b c -> ~ closer a c.
Proof. unfold closer. lia. Qed.
Lemma closer_not a b : closer a b -> ~ closer b a.
Proof. unfold closer. lia. Qed.
Lemma not_closer_dist a b : ~ closer b a -> (snd a <= snd b)%Z.
Proof. unfold closer. lia. Qed.

(** The first element of a heap is the largest. *)
Lemma heap_front x l : heap (x :: l) -> forall y, In y (x :: l) -> ~ closer x y.
Proof.
  intros H. assert (G : forall i y, nth_error (x :: l) i = Some y -> ~ closer x y).
  { induction i as [i IH] using lt_wf_ind. intros y Hy. destruct i as [|i].
    - injection Hy as <-. apply closer_irrefl.
    - assert (Hp : (S i - 1) / 2 < S i) by (apply Nat.div_lt_upper_bound; lia).
      assert (Hl : S i < length (x :: l)) by (apply nth_error_Some; congruence).
      destruct (nth_error (x :: l) ((S i - 1) / 2)) as [p|] eqn:E; [|apply nth_error_None in E; lia].
      apply (not_closer_trans _ p); [now apply (IH _ Hp)|]. apply (H (S i)); [lia|assumption|assumption]. }
  intros y Hy. apply In_nth_error in Hy as (i & Hi). eauto.
Qed.
Lemma heap_nil : heap [].
Proof. intros i a b _ _ H. destruct i; discriminate. Qed.

(** ** Keeping the best *)
Definition kbest (k : nat) (all l : list candidate) : Prop :=
  length l <= k /\ exists rest, Permutation all (l ++ rest) /\ (rest <> [] -> length l = k)
    /\ forall x y, In x l -> In y rest -> ~ closer y x.
Lemma kbest_nil k : kbest k [] [].
Proof. split; [cbn; lia|]. exists []. split; [constructor|]. split; [congruence|]. intros ? ? []. Qed.
Lemma kbest_length k all l : kbest k all l -> length l = Nat.min k (length all).
Proof.
  intros (L & rest & P & F & _). apply Permutation_length in P. rewrite app_length in P.
  destruct rest; cbn [length] in P; [lia|]. specialize (F ltac:(discriminate)). lia.
Qed.
Lemma kbest_perm k all l l' : kbest k all l -> Permutation l l' -> kbest k all l'.
Proof.
  intros (L & rest & P & F & B) Q. pose proof (Permutation_length Q) as QL. split; [lia|]. exists rest. split; [|split].
  - rewrite P. now apply Permutation_app_tail.
  - intros H. rewrite <- QL. auto.
  - intros x y Hx. apply B. eapply Permutation_in; [symmetry; eassumption|assumption].
Qed.
Lemma kbest_perm_all k all all' l : kbest k all l -> Permutation all all' -> kbest k all' l.
Proof. intros (L & rest & P & F & B) Q. split; [assumption|]. exists rest. split; [now rewrite <- Q|auto]. Qed.
(** A candidate that is no closer than all of a full list is left out. *)
Lemma kbest_skip k all l y : kbest k all l -> length l = k -> (forall x, In x l -> ~ closer y x) -> kbest k (all ++ [y]) l.
Proof.
  intros (L & rest & P & F & B) E H. split; [assumption|]. exists (rest ++ [y]). split; [|split].
  - rewrite app_assoc. now apply Permutation_app_tail.
  - auto.
  - intros x z Hx Hz. apply in_app_or in Hz as [Hz|[<-|[]]]; auto.
Qed.

Section Lib.
Variable lib : heap_lib.
Hypothesis LOK : heap_lib_ok lib.

Lemma insert_kbest k all l c : 0 < k -> heap l -> kbest k all l ->
  exists l', insert_candidate lib l c k = Ok l' /\ heap l' /\ kbest k (all ++ [c]) l'.
Proof.
  intros Hk H K. unfold insert_candidate. destruct (Nat.eqb_spec k 0); [lia|].
  pose proof K as (L & rest & P & F & B). destruct (Nat.ltb_spec (length l) k) as [Lt|Ge].
  - destruct (push_ok lib LOK l c H) as [P' H']. eexists. split; [reflexivity|]. split; [assumption|].
    apply kbest_perm with (l := l ++ [c]); [|assumption].
    assert (rest = []) by (destruct rest as [|r rest]; [reflexivity|]; specialize (F ltac:(discriminate)); lia). subst rest.
    rewrite app_nil_r in P. split; [rewrite app_length; cbn; lia|]. exists []. rewrite app_nil_r.
    split; [now apply Permutation_app_tail|]. split; [congruence|]. intros ? ? ? [].
  - destruct l as [|front l]; [cbn in Ge; lia|]. pose proof (heap_front front l H) as Top.
    destruct (cand_less c front) eqn:C; cbn [negb].
    + apply cand_less_closer in C. destruct (pop_ok lib LOK front l H) as (l1 & -> & P1 & H1).
      assert (E : l1 ++ [front] <> []) by (destruct l1; discriminate).
      destruct (l1 ++ [front]) as [|z zs] eqn:Ez; [congruence|]. rewrite <- Ez. clear E Ez z zs.
      rewrite removelast_last. destruct (push_ok lib LOK l1 c H1) as [P2 H2].
      eexists. split; [reflexivity|]. split; [assumption|]. apply kbest_perm with (l := l1 ++ [c]); [|assumption].
      pose proof (Permutation_length P1) as Q1. cbn [length] in *. split; [rewrite app_length; cbn; lia|].
      exists (front :: rest). split; [|split].
      * rewrite P. transitivity ((front :: l1 ++ rest) ++ [c]).
        -- apply Permutation_app_tail. cbn [app]. constructor. now apply Permutation_app_tail.
        -- cbn [app]. apply Permutation_cons_app. rewrite <- !app_assoc. apply Permutation_app_head. apply Permutation_app_comm.
      * intros _. rewrite app_length. cbn. lia.
      * intros x y Hx Hy. apply in_app_or in Hx as [Hx|[<-|[]]].
        -- assert (Hx' : In x (front :: l)) by (right; eapply Permutation_in; [symmetry; exact P1|assumption]).
           destruct Hy as [<-|Hy]; [now apply Top|now apply B].
        -- apply (not_closer_trans _ front); [|now apply closer_not].
           destruct Hy as [<-|Hy]; [apply closer_irrefl|]. apply B; [now left|assumption].
    + apply cand_less_false in C. eexists. split; [reflexivity|]. split; [assumption|]. apply kbest_skip; [assumption|lia|].
      intros x Hx. apply (not_closer_trans _ front); [assumption|]. now apply Top.
Qed.
Lemma inserts_kbest k cs : 0 < k -> forall all l, heap l -> kbest k all l ->
  exists l', insert_candidates lib l cs k = Ok l' /\ heap l' /\ kbest k (all ++ cs) l'.
Proof.
  intros Hk. induction cs as [|c cs IH]; intros all l H K; cbn [insert_candidates].
  - exists l. rewrite app_nil_r. auto.
  - destruct (insert_kbest k all l c Hk H K) as (l1 & -> & H1 & K1). cbn [bind].
    destruct (IH _ _ H1 K1) as (l2 & -> & H2 & K2). exists l2. rewrite <- app_assoc in K2. auto.
Qed.
(** Inserting the best of [part] is as good as inserting all of it. *)
Lemma merge_kbest k all part best l' : 0 < k -> NoDup best -> kbest k part best -> kbest k (all ++ best) l' -> kbest k (all ++ part) l'.
Proof.
  intros Hk ND (L & rest & P & F & B) K.
  assert (G : forall r done, (forall y, In y r -> In y rest) -> kbest k (all ++ best ++ done) l' -> kbest k (all ++ best ++ done ++ r) l').
  { induction r as [|y r IH]; intros done Hr Kd; [now rewrite app_nil_r|].
    specialize (IH (done ++ [y]) (fun z Hz => Hr z (or_intror Hz))). rewrite <- (app_assoc done) in IH. apply IH. clear IH.
    rewrite !app_assoc. apply kbest_skip; [now rewrite <- app_assoc| |].
    - pose proof (kbest_length _ _ _ Kd) as Q. rewrite !app_length in Q.
      assert (length best = k) by (apply F; intros E; specialize (Hr y (or_introl eq_refl)); rewrite E in Hr; exact Hr). lia.
    - intros x Hx C. specialize (Hr y (or_introl eq_refl)).
      assert (Lb : length best = k) by (apply F; intros E; rewrite E in Hr; exact Hr).
      assert (Bx : forall z, In z best -> closer z x).
      { intros z Hz. specialize (B z y Hz Hr). revert B C. unfold closer. lia. }
      destruct Kd as (Ld & rd & Pd & Fd & Bd).
      assert (I : forall z, In z best -> In z l').
      { intros z Hz. assert (In z (l' ++ rd)) as Hz'.
        { apply (Permutation_in z Pd). apply in_or_app. right. apply in_or_app. now left. }
        apply in_app_or in Hz' as [|Hz']; [assumption|]. exfalso. exact (Bd x z Hx Hz' (Bx z Hz)). }
      apply in_split in Hx as (l1 & l2 & El). assert (NX : ~ In x best) by (intros Hb; exact (closer_irrefl x (Bx x Hb))).
      assert (Q : length best <= length (l1 ++ l2)).
      { apply NoDup_incl_length; [assumption|]. intros z Hz. specialize (I z Hz). rewrite El in I. apply in_app_or in I as [I|[<-|I]].
        - apply in_or_app. now left.
        - contradiction.
        - apply in_or_app. now right. }
      rewrite El, app_length in Ld. cbn [length] in Ld. rewrite app_length in Q. lia. }
  specialize (G rest [] (fun y Hy => Hy)). cbn [app] in G. rewrite app_nil_r in G. specialize (G K).
  eapply kbest_perm_all; [exact G|]. apply Permutation_app_head. now symmetry.
Qed.
Lemma sort_kbest k all l : kbest k all l ->
  kbest k all (sort_all lib l) /\ StronglySorted (fun a b => ~ closer b a) (sort_all lib l).
Proof. intros K. destruct (sort_ok lib LOK l) as [P S]. split; [now apply kbest_perm with (l := l)|assumption]. Qed.

Lemma sorted_map_dist (dist : N -> Z) l : (forall c, In c l -> snd c = dist (fst c)) ->
  StronglySorted (fun a b => ~ closer b a) l -> StronglySorted (fun a b => (dist a <= dist b)%Z) (map fst l).
Proof.
  intros H S. induction S as [|c l S IH F]; cbn [map]; constructor.
  - apply IH. intros d Hd. apply H. now right.
  - apply Forall_forall. intros b Hb. apply in_map_iff in Hb as (d & <- & Hd). rewrite Forall_forall in F. specialize (F d Hd).
    apply not_closer_dist in F. rewrite (H c), (H d) in F; [assumption|now right|now left].
Qed.
Lemma rerank_lemma src dist topk : exists ids dists, rerank lib src dist topk = Ok (ids, dists) /\ reranked src dist topk ids dists.
Proof.
  unfold rerank. destruct (Nat.eqb_spec topk 0) as [->|Hk].
  - exists [], []. split; [reflexivity|]. exists [], src. cbn. repeat split; auto; try constructor. intros ? ? [].
  - destruct (inserts_kbest topk (map (fun id => (id, dist id)) src) ltac:(lia) [] [] heap_nil (kbest_nil topk)) as (h & -> & _ & K).
    cbn [app bind] in *. destruct (sort_kbest _ _ _ K) as [K' S]. set (best := sort_all lib h) in *.
    assert (HL : length h = length best) by (apply Permutation_length; apply (sort_ok lib LOK)).
    pose proof (kbest_length _ _ _ K') as BL. rewrite map_length in BL. rewrite HL, firstn_all2 by lia.
    eexists _, _. split; [reflexivity|]. destruct K' as (L & rest & P & F & B).
    assert (D : forall c, In c (best ++ rest) -> snd c = dist (fst c)).
    { intros c Hc. apply (Permutation_in c (Permutation_sym P)) in Hc. apply in_map_iff in Hc as (i & <- & _). reflexivity. }
    exists (map fst best), (map fst rest). rewrite map_length. split; [|split; [assumption|split; [|split; [|split]]]].
    + rewrite <- map_app. apply (Permutation_map fst) in P. rewrite map_map, map_id in P. exact P.
    + apply sorted_map_dist; [|assumption]. intros c Hc. apply D. apply in_or_app. now left.
    + intros a b Ha Hb. apply in_map_iff in Ha as (c & <- & Hc). apply in_map_iff in Hb as (d & <- & Hd).
      rewrite <- !D by (apply in_or_app; auto). apply not_closer_dist. auto.
    + unfold pad_ids. now rewrite map_length.
    + unfold pad_distances. rewrite map_length, map_map. f_equal. apply map_ext_in. intros c Hc. apply D. apply in_or_app. now left.
Qed.
End Lib.

(** ** From kept candidates to nearest members *)
Lemma nodup_app_l {A} (a b : list A) : NoDup (a ++ b) -> NoDup a.
Proof. induction a as [|x a IH]; cbn; intros H; constructor; inversion H; subst; auto. intros X. apply H2. apply in_or_app. now left. Qed.
Lemma knn_of (member : N -> Prop) dist k found res rest :
  NoDup found -> (forall id, In id found <-> member id) ->
  Permutation (map (fun id => (id, dist id)) found) (res ++ rest) -> length res <= k -> (rest <> [] -> length res = k) ->
  (forall x y, In x res -> In y rest -> (snd x <= snd y)%Z) ->
  StronglySorted (fun a b => (snd a <= snd b)%Z) res ->
  knn member dist k (map fst res ++ repeat kInvalidId (k - length res)).
Proof.
  intros ND M P L F B S. exists res.
  assert (D : forall c, In c (res ++ rest) -> member (fst c) /\ snd c = dist (fst c)).
  { intros c Hc. apply (Permutation_in c (Permutation_sym P)) in Hc. apply in_map_iff in Hc as (i & <- & Hi).
    split; [now apply M|reflexivity]. }
  split; [|split; [|reflexivity]].
  - constructor; auto.
    + apply (nodup_app_l _ (map fst rest)). rewrite <- map_app. apply (Permutation_map fst) in P. rewrite map_map, map_id in P.
      now apply (Permutation_NoDup P).
    + intros id d H. apply (D (id, d)). apply in_or_app. now left.
  - intros id Hid. apply M in Hid. assert (H : In (id, dist id) (res ++ rest)).
    { apply (Permutation_in _ P). apply in_map_iff. eauto. }
    apply in_app_or in H as [H|H]; [now left|]. right. split; [apply F; intros ->; destruct H|].
    intros y Hy. apply (B y (id, dist id)); assumption.
Qed.
Lemma knn_of_kbest (member : N -> Prop) dist k found res :
  NoDup found -> (forall id, In id found <-> member id) -> kbest k (map (fun id => (id, dist id)) found) res ->
  StronglySorted (fun a b => ~ closer b a) res -> knn member dist k (pad_ids k (map fst res)).
Proof.
  intros ND M (L & rest & P & F & B) S. unfold pad_ids. rewrite map_length.
  apply (knn_of member dist k found res rest); auto.
  - intros x y Hx Hy. apply not_closer_dist. auto.
  - clear - S. induction S as [|a l S IH Fa]; constructor; auto. apply Forall_forall. intros b Hb. rewrite Forall_forall in Fa.
    apply not_closer_dist. auto.
Qed.

(** ** The search buffer *)
Definition unmarked (p : pool) : Prop := forall c, In c (firstn (p_size p) (p_data p)) -> (c_id c < 2 ^ 31)%N.
Lemma insert_ids_spec cap dist ids : 0 < cap -> (forall id, In id ids -> (id < 2 ^ 31)%N /\ (dist id <= float_max)%Z) ->
  forall p all, pool_inv cap p -> unmarked p -> keeps_closest cap all (kept p) ->
  exists p', insert_ids p dist ids = Ok p' /\ pool_inv cap p' /\ unmarked p'
    /\ keeps_closest cap (all ++ map (fun id => (id, dist id)) ids) (kept p').
Proof.
  intros Hc. induction ids as [|id ids IH]; intros Hid p all I U K; cbn [insert_ids].
  - exists p. cbn [map]. rewrite app_nil_r. auto.
  - destruct (Hid id (or_introl eq_refl)) as [Hi Hd]. pose proof (sb_insert_spec cap p id (dist id) Hc I Hi Hd) as D.
    destruct (insert_closest cap p id (dist id) _ all Hc I Hi D K) as (b & p1 & E & I1 & K1).
    assert (U1 : unmarked p1).
    { destruct D as [(E' & _)|(p2 & lo & E' & _ & Pl & Q)]; rewrite E in E'; injection E' as -> ->; [assumption|].
      intros c Hcc. rewrite Q in Hcc. apply firstn_in in Hcc. unfold ins_at in Hcc.
      apply in_app_or in Hcc as [Hcc|[<-|Hcc]]; [|assumption|].
      - apply U. now apply firstn_in in Hcc.
      - apply U. rewrite <- (firstn_skipn lo). apply in_or_app. now right. }
    rewrite E. cbn [bind]. destruct (IH (fun i Hi => Hid i (or_intror Hi)) p1 _ I1 U1 K1) as (p2 & E2 & I2 & U2 & K2).
    exists p2. rewrite <- app_assoc in K2. cbn [app map] in *. auto.
Qed.
Lemma insert_ids_app dist a b : forall p, insert_ids p dist (a ++ b) = (let* p' := insert_ids p dist a in insert_ids p' dist b).
Proof.
  induction a as [|x a IH]; intros p; cbn [app insert_ids bind]; [reflexivity|].
  destruct (sb_insert p x (dist x)) as [[bb p']| | |]; cbn [bind]; auto.
Qed.
Lemma pool_ids_kept cap p : pool_inv cap p -> unmarked p -> pool_ids p cap = map fst (kept p).
Proof.
  intros I U. unfold pool_ids. rewrite Nat.min_l by apply (pi_size _ _ I). rewrite kept_map, map_map. apply map_ext_in.
  intros c Hc. cbn. symmetry. apply N.mod_small. now apply U.
Qed.
Lemma pool_new_unmarked cap : unmarked (pool_new cap).
Proof. intros c []. Qed.
Lemma pool_new_closest cap : keeps_closest cap [] (kept (pool_new cap)).
Proof. split; [cbn; lia|]. exists []. split; [constructor|]. split; [congruence|]. intros ? ? []. Qed.
Lemma matching_filter (g : N -> bool) ids : matching ids (map g ids) = List.filter g ids.
Proof. induction ids as [|i ids IH]; cbn; [reflexivity|]. destruct (g i); now rewrite IH. Qed.

Section Rows.
Variables (s : storage) (t : table) (f : FilterModel.filter) (n : nat) (dist : N -> Z).
Hypothesis R : represents s t.
Hypothesis Bound : forall id r, row t id = Some r -> (id < N.of_nat n)%N.
Hypothesis Small : (N.of_nat n <= 2 ^ 31)%N.
Hypothesis Safe : forall c, single_condition f c ->
  cond_values_ok c /\ (In (field c) (indexed_fields s) -> separated (indexed_fields s) /\ index_safe s c).
Hypothesis Finite : forall id, (id < N.of_nat n)%N -> (dist id <= float_max)%Z.

Local Lemma small32 : (N.of_nat n <= 2 ^ 32)%N.
Proof. lia. Qed.

Lemma all_ids_In from upto id : In id (all_ids from upto) <-> (N.of_nat from <= id < N.of_nat upto)%N.
Proof.
  unfold all_ids. rewrite in_map_iff. split.
  - intros (i & <- & Hi). apply in_seq in Hi. lia.
  - intros H. exists (N.to_nat id). split; [lia|]. apply in_seq. lia.
Qed.
Lemma all_ids_nodup from upto : NoDup (all_ids from upto).
Proof. unfold all_ids. apply FinFun.Injective_map_NoDup; [intros ? ? ?; lia|apply seq_NoDup]. Qed.

Lemma full_scan_good x : good s t f n x -> forall fuel p from, (n < from + fuel)%nat ->
  full_scan fuel x dist p from = insert_ids p dist (List.filter (answer t f) (all_ids from n)).
Proof.
  intros G. assert (Dn : data_num x = n) by apply G.
  induction fuel as [|k IH]; intros p from Hf; cbn [full_scan].
  - unfold all_ids. replace (n - from) with 0 by lia. reflexivity.
  - rewrite Dn. destruct (Nat.leb_spec n from) as [Hl|Hl].
    + unfold all_ids. replace (n - from) with 0 by lia. reflexivity.
    + rewrite (id_range_small n small32) by lia. unfold eval_offsets.
      rewrite (blocked_for_good s t f n R Bound small32) by (try exact G; intros id Hi; apply all_ids_In in Hi; lia).
      cbn [bind]. unfold blocked_of. rewrite map_map.
      assert (Em : matching (all_ids from (Nat.min n (from + 1024))) (map (fun y => negb (negb (answer t f y))) (all_ids from (Nat.min n (from + 1024))))
        = List.filter (answer t f) (all_ids from (Nat.min n (from + 1024)))).
      { rewrite <- matching_filter. f_equal. apply map_ext. intros y. apply negb_involutive. }
      rewrite Em.
      rewrite (all_ids_split n small32 from (Nat.min n (from + 1024)) n) by lia. rewrite filter_app, insert_ids_app.
      destruct (insert_ids p dist (List.filter (answer t f) (all_ids from (Nat.min n (from + 1024))))) as [p'| | |]; cbn [bind]; auto.
      rewrite IH by lia. f_equal. f_equal. destruct (Nat.le_gt_cases n (from + 1024)).
      * rewrite Nat.min_l by lia. unfold all_ids. replace (n - (from + 1024)) with 0 by lia. replace (n - n) with 0 by lia. reflexivity.
      * rewrite Nat.min_r by lia. reflexivity.
Qed.

Lemma brute_force_good topk : 0 < topk ->
  exists ids, brute_force_search s n f dist topk = Ok ids
    /\ knn (fun id => (id < N.of_nat n)%N /\ answer t f id = true) dist topk ids.
Proof.
  intros Hk. unfold brute_force_search. destruct (Nat.eqb_spec topk 0); [lia|].
  destruct (make_good s t f n R Bound Safe) as (x & -> & G). cbn [bind]. unfold execute_brute_force_filter.
  assert (H : exists found, NoDup found /\ (forall id, In id found <-> (id < N.of_nat n)%N /\ answer t f id = true)
    /\ match indexed_ids x with
       | Some ids => insert_ids (pool_new topk) dist ids
       | None => full_scan (S (data_num x)) x dist (pool_new topk) 0
       end = insert_ids (pool_new topk) dist found).
  { pose proof G as (_ & _ & Dn & Hx). destruct (indexed_ids x) as [ids|].
    - destruct Hx as (ND & NE & I & _). exists ids. split; [assumption|]. split; [|reflexivity].
      intros id. rewrite I. split; [|tauto]. intros H. split; [|assumption]. eapply answer_bound; eauto.
    - exists (List.filter (answer t f) (all_ids 0 n)). split; [apply NoDup_filter, all_ids_nodup|]. split.
      + intros id. rewrite filter_In, all_ids_In. intuition lia.
      + apply full_scan_good; [assumption|lia]. }
  destruct H as (found & ND & M & ->).
  destruct (insert_ids_spec topk dist found Hk) with (p := pool_new topk) (all := @nil (N * Z)) as (p & -> & I & U & K).
  { intros id Hid. apply M in Hid as [Hid _]. split; [lia|]. now apply Finite. }
  { apply pool_new_inv. } { apply pool_new_unmarked. } { apply pool_new_closest. }
  cbn [bind]. rewrite (pool_ids_kept topk p I U). eexists. split; [reflexivity|]. unfold pad_ids. rewrite map_length.
  destruct K as (L & rest & P & F & B). apply (knn_of _ dist topk found (kept p) rest); auto.
  pose proof (content_sorted topk p I) as S. unfold kept. clear - S. induction S as [|a l S IH Fa]; cbn [map]; constructor; auto.
  apply Forall_forall. intros b Hb. apply in_map_iff in Hb as (e & <- & He). rewrite Forall_forall in Fa. apply (Fa e He).
Qed.

(** ** The materialized view *)
Variable target : bytes.
Hypothesis Named : target <> [].

(** The ids of [l] whose field has the encoded value [k]. *)
Definition has_key (k : bytes) (id : N) : bool :=
  match row t id with
  | Some r => match meta_find target (meta r) with Some v => bytes_eqb (encode_value v) k | None => false end
  | None => false
  end.
Definition members (k : bytes) (l : list N) : list N := List.filter (has_key k) l.
Definition view_inv (ps : list mv_partition) (done : list N) : Prop :=
  forall k, match find_partition ps k with
            | Some p => pt_ids p = members k done
            | None => members k done = []
            end.
Lemma bytes_eqb_refl x : bytes_eqb x x = true.
Proof. now apply bytes_eqb_eq. Qed.
Lemma find_add ps key id k : find_partition (add_to_partition ps key id) k =
  if bytes_eqb key k then Some {| pt_key := key; pt_ids := match find_partition ps key with Some p => pt_ids p ++ [id] | None => [id] end |}
  else find_partition ps k.
Proof.
  unfold find_partition. induction ps as [|p ps IH]; cbn [add_to_partition List.find pt_key pt_ids].
  - reflexivity.
  - destruct (bytes_eqb (pt_key p) key) eqn:E; cbn [List.find pt_key pt_ids].
    + apply bytes_eqb_eq in E. rewrite E. destruct (bytes_eqb key k); reflexivity.
    + rewrite IH. destruct (bytes_eqb key k) eqn:E2; [|reflexivity]. apply bytes_eqb_eq in E2. subst k. now rewrite E.
Qed.
Lemma members_snoc k l id : members k (l ++ [id]) = members k l ++ (if has_key k id then [id] else []).
Proof. unfold members. rewrite filter_app. cbn [List.filter]. reflexivity. Qed.
Lemma collect_good ids : forall ps done, view_inv ps done ->
  exists r, collect_partitions s target ids ps = Ok r /\ match r with None => True | Some ps' => view_inv ps' (done ++ ids) end.
Proof.
  induction ids as [|id ids IH]; intros ps done V; cbn [collect_partitions].
  - eexists. split; [reflexivity|]. cbn beta iota. now rewrite app_nil_r.
  - replace (done ++ id :: ids) with ((done ++ [id]) ++ ids) by (now rewrite <- app_assoc).
    assert (Same : (forall k, has_key k id = false) -> view_inv ps (done ++ [id])).
    { intros Hk k. specialize (V k). rewrite members_snoc, Hk, app_nil_r. exact V. }
    destruct (row t id) as [r|] eqn:Er.
    + destruct (get_data_some s t id r R Er) as (k & -> & _). rewrite single_lemma; [|apply (rp_rows _ _ R _ _ Er)|assumption].
      cbn [bind]. destruct (meta_find target (meta r)) as [v|] eqn:Ev.
      * destruct (Nat.ltb kMaxPartitions (length (add_to_partition ps (encode_value v) id))); [exists None; auto|]. apply IH.
        intros k'. rewrite find_add, members_snoc. unfold has_key. rewrite Er, Ev.
        specialize (V k'). destruct (bytes_eqb (encode_value v) k') eqn:E.
        -- apply bytes_eqb_eq in E. subst k'. cbn [pt_ids]. destruct (find_partition ps (encode_value v)) as [p|]; rewrite V; reflexivity.
        -- rewrite app_nil_r. exact V.
      * apply IH, Same. intros k'. unfold has_key. now rewrite Er, Ev.
    + rewrite (get_data_none s t id R Er). apply IH, Same. intros k'. unfold has_key. now rewrite Er.
Qed.
Lemma rebuild_good : exists view, rebuild_view s n target = Ok view
  /\ match view with None => True | Some ps => view_inv ps (all_ids 0 n) end.
Proof.
  unfold rebuild_view. rewrite (id_range_small n small32) by lia.
  destruct (collect_good (all_ids 0 n) [] []) as (r & -> & V); [intros k; reflexivity|]. cbn [bind app] in *.
  destruct r as [ps|]; [|exists None; auto]. destruct (Nat.leb (length ps) 1); [exists None; auto|exists (Some ps); auto].
Qed.

(** ** Filter analysis *)
Lemma conjunctive_spec g : forall cs, conjunctive g = Some cs ->
  (forall c, In c cs -> has_condition c g) /\ forall m, evaluate g m = forallb (fun c => evaluate_condition c m) cs.
Proof.
  induction g as [l cs0 subs IH] using filter_ind'. intros cs. cbn [conjunctive].
  destruct (is_empty (Filter l cs0 subs)) eqn:Em.
  - intros [= <-]. split; [intros ? []|]. intros m. now apply evaluate_empty.
  - destruct l; try discriminate. intros E.
    assert (G : forall subs' acc cs,
      Forall (fun g => forall cs, conjunctive g = Some cs ->
        (forall c, In c cs -> has_condition c g) /\ forall m, evaluate g m = forallb (fun c => evaluate_condition c m) cs) subs' ->
      fold_left (fun acc g => match acc, conjunctive g with Some l, Some l' => Some (l ++ l') | _, _ => None end) subs' (Some acc) = Some cs ->
      exists extra, cs = acc ++ extra /\ (forall c, In c extra -> exists g, In g subs' /\ has_condition c g)
        /\ forall m, forallb (fun v => v) (map (fun g => evaluate g m) subs') = forallb (fun c => evaluate_condition c m) extra).
    { clear. induction subs' as [|g subs' IHs]; intros acc cs F; cbn [fold_left].
      - intros [= <-]. exists []. rewrite app_nil_r. split; [reflexivity|]. split; [intros ? []|reflexivity].
      - apply Forall_cons_iff in F as [Hg F]. destruct (conjunctive g) as [lg|].
        + intros E. destruct (IHs (acc ++ lg) cs F E) as (extra & -> & C & V). destruct (Hg lg eq_refl) as [C' V'].
          exists (lg ++ extra). rewrite app_assoc. split; [reflexivity|]. split.
          * intros c Hc. apply in_app_or in Hc as [Hc|Hc].
            -- exists g. split; [now left|auto].
            -- destruct (C c Hc) as (h & Hh & X). exists h. split; [now right|assumption].
          * intros m. cbn [map forallb]. now rewrite V, V', forallb_app.
        + intros E. exfalso. clear - E. induction subs' as [|h subs' IHs]; cbn in E; [discriminate|auto]. }
    destruct (G subs cs0 cs IH E) as (extra & -> & C & V). split.
    + intros c Hc. apply in_app_or in Hc as [Hc|Hc]; [now constructor|]. destruct (C c Hc) as (h & Hh & X). econstructor 2; eauto.
    + intros m.
      assert (A : forall l, forallb (fun c => evaluate_condition c m) l = forallb (fun v => v) (map (fun c => evaluate_condition c m) l))
        by (induction l as [|x l IHl]; cbn; congruence).
      assert (RH : forallb (fun c => evaluate_condition c m) (cs0 ++ extra)
        = forallb (fun v => v) (map (fun c => evaluate_condition c m) cs0 ++ map (fun g => evaluate g m) subs)).
      { rewrite !forallb_app, V, A. reflexivity. }
      rewrite RH. cbn [evaluate]. now destruct (map (fun c => evaluate_condition c m) cs0 ++ map (fun s0 => evaluate s0 m) subs).
Qed.

Lemma value_eqb_sym a b : value_eqb a b = value_eqb b a.
Proof.
  destruct a as [a|a|a|a], b as [b|b|b|b]; cbn [value_eqb]; try reflexivity.
  - apply Z.eqb_sym.
  - unfold dbl_eqb. rewrite Z.eqb_sym. now destruct (dbl_is_nan a), (dbl_is_nan b).
  - destruct (bytes_eqb_spec a b), (bytes_eqb_spec b a); congruence.
  - now destruct a, b.
Qed.
Lemma eqb_safe v w : lookup_safe v -> value_ok w -> (value_eqb w v = true <-> w = v).
Proof. intros [Hv S] Hw. apply value_eqb_exact; auto. Qed.
Lemma exists_safe l w : Forall lookup_safe l -> value_ok w -> (existsb (fun x => value_eqb x w) l = true <-> In w l).
Proof.
  intros F Hw. rewrite existsb_exists. rewrite Forall_forall in F. split.
  - intros (x & Hx & E). rewrite value_eqb_sym in E. apply eqb_safe in E; [congruence|auto|assumption].
  - intros H. exists w. split; [assumption|]. apply eqb_safe; auto.
Qed.
Definition vals_ok (l : list value) : Prop := NoDup l /\ Forall lookup_safe l.
Lemma append_unique_ok l v : vals_ok l -> lookup_safe v -> vals_ok (append_unique l v) /\ forall w, In w (append_unique l v) <-> In w l \/ w = v.
Proof.
  intros [ND F] S. unfold append_unique. pose proof (exists_safe l v F (proj1 S)) as H.
  destruct (existsb (fun w => value_eqb w v) l).
  - assert (In v l) by now apply H. split; [split; assumption|]. intros w. intuition congruence.
  - split.
    + split; [|apply Forall_app; auto]. apply (Permutation_NoDup (l := v :: l)); [apply Permutation_cons_append|]. constructor; [|assumption]. intros X. apply H in X. discriminate.
    + intros w. rewrite in_app_iff. cbn. intuition congruence.
Qed.
Lemma append_all_ok vs : forall l, vals_ok l -> Forall lookup_safe vs ->
  vals_ok (fold_left append_unique vs l) /\ forall w, In w (fold_left append_unique vs l) <-> In w l \/ In w vs.
Proof.
  induction vs as [|v vs IH]; intros l V F; cbn [fold_left In]; [tauto|]. apply Forall_cons_iff in F as [S F].
  destruct (append_unique_ok l v V S) as [V' I]. destruct (IH _ V' F) as [V'' I']. split; [assumption|].
  intros w. rewrite I', I. intuition congruence.
Qed.
Lemma intersect_ok a b : vals_ok a -> vals_ok b -> vals_ok (intersect_values a b) /\ forall w, In w (intersect_values a b) <-> In w a /\ In w b.
Proof.
  intros [_ Fa] [_ Fb]. unfold intersect_values.
  assert (G : forall l acc, vals_ok acc -> Forall lookup_safe l ->
    let r := fold_left (fun acc v => if existsb (fun w => value_eqb w v) b then append_unique acc v else acc) l acc in
    vals_ok r /\ forall w, In w r <-> In w acc \/ In w l /\ In w b).
  { induction l as [|v l IH]; intros acc V F; cbn [fold_left In]; [tauto|]. apply Forall_cons_iff in F as [S F].
    pose proof (exists_safe b v Fb (proj1 S)) as H. destruct (existsb (fun w => value_eqb w v) b).
    - destruct (append_unique_ok acc v V S) as [V' I]. destruct (IH _ V' F) as [V'' I']. split; [assumption|].
      assert (In v b) by now apply H. intros w. rewrite I', I. intuition congruence.
    - destruct (IH _ V F) as [V'' I']. split; [assumption|]. intros w. rewrite I'.
      assert (~ In v b) by (intros X; apply H in X; discriminate). intuition congruence. }
  destruct (G a [] (conj (NoDup_nil _) (Forall_nil _)) Fa) as [V I]. split; [exact V|]. intros w. rewrite I. cbn. tauto.
Qed.
Definition opt_ok (o : option (list value)) : Prop := match o with None => True | Some l => vals_ok l end.
Definition allows (o : option (list value)) (v : value) : Prop := match o with None => True | Some l => In v l end.
Lemma analyze_spec cs : forall allowed covered values covered',
  (forall c, In c cs -> field c = target -> condition_safe c) -> opt_ok allowed ->
  analyze_conditions target cs allowed covered = Some (values, covered') ->
  opt_ok values
  /\ (forall m v, meta_find target m = Some v -> value_ok v ->
      (allows values v <-> allows allowed v /\ forall c, In c cs -> field c = target -> evaluate_condition c m = true))
  /\ (covered' = true -> forall c, In c cs -> field c = target)
  /\ (values <> None -> allowed <> None \/ exists c, In c cs /\ field c = target).
Proof.
  induction cs as [|c cs IH]; intros allowed covered values covered' Sf O; cbn [analyze_conditions].
  - intros [= <- <-]. split; [assumption|]. split; [intros; cbn; intuition|]. split; [intros _ ? []|]. auto.
  - destruct (bytes_eqb (field c) target) eqn:Ef; cbn [negb].
    + apply bytes_eqb_eq in Ef. destruct (Sf c (or_introl eq_refl) Ef) as [S1 S2].
      assert (G : forall vals, vals_ok vals ->
         (forall m v, meta_find target m = Some v -> value_ok v -> (In v vals <-> evaluate_condition c m = true)) ->
         analyze_conditions target cs (Some (match allowed with None => vals | Some l => intersect_values l vals end)) covered = Some (values, covered') ->
         opt_ok values
         /\ (forall m v, meta_find target m = Some v -> value_ok v ->
             (allows values v <-> allows allowed v /\ forall c', In c' (c :: cs) -> field c' = target -> evaluate_condition c' m = true))
         /\ (covered' = true -> forall c', In c' (c :: cs) -> field c' = target)
         /\ (values <> None -> allowed <> None \/ exists c', In c' (c :: cs) /\ field c' = target)).
      { intros vals V Ev E.
        set (new := match allowed with None => vals | Some l => intersect_values l vals end) in *.
        assert (N : vals_ok new /\ forall w, In w new <-> allows allowed w /\ In w vals).
        { unfold new. destruct allowed as [l|]; [now apply intersect_ok|]. split; [assumption|]. cbn. tauto. }
        destruct N as [N I]. destruct (IH (Some new) covered values covered') as (A1 & A2 & A3 & A4); auto.
        { intros c' Hc'. apply Sf. now right. }
        split; [assumption|]. split; [|split].
        - intros m v Hm Hv. rewrite (A2 m v Hm Hv). cbn [allows In]. rewrite I, (Ev m v Hm Hv). split.
          + intros ((X & Y) & Z). split; [assumption|]. intros c' [<-|Hc'] Fc'; auto.
          + intros (X & Y). split; [split; [assumption|apply Y; auto]|]. intros c' Hc' Fc'. apply Y; auto.
        - intros Hc c' [<-|Hc']; auto.
        - intros _. right. exists c. split; [now left|assumption]. }
      destruct (FilterModel.op c) eqn:Eo; try discriminate; intros E; revert E; apply G.
      * apply (append_unique_ok [] (operand c)); [split; constructor|assumption].
      * intros m v Hm Hv. destruct (append_unique_ok [] (operand c)) as [_ I]; [split; constructor|assumption|]. rewrite I.
        unfold evaluate_condition. rewrite Ef, Hm, Eo, (eqb_safe _ _ S1 Hv). cbn. tauto.
      * apply append_all_ok; [split; constructor|assumption].
      * intros m v Hm Hv. destruct (append_all_ok (operands c) []) as [_ I]; [split; constructor|assumption|]. rewrite I.
        unfold evaluate_condition. rewrite Ef, Hm, Eo, (exists_safe _ _ S2 Hv). cbn. tauto.
    + intros E. assert (Nf : field c <> target) by (intros X; apply bytes_eqb_eq in X; congruence).
      destruct (IH allowed false values covered') as (A1 & A2 & A3 & A4); auto. { intros c' Hc'. apply Sf. now right. }
      split; [assumption|]. split; [|split].
      * intros m v Hm Hv. rewrite (A2 m v Hm Hv). split; intros (X & Y); (split; [assumption|]).
        -- intros c' [<-|Hc'] Fc'; [contradiction|auto].
        -- intros c' Hc' Fc'. apply Y; auto. now right.
      * intros Hc. exfalso. revert E Hc. clear. revert allowed. induction cs as [|d cs IHc]; intros allowed; cbn [analyze_conditions].
        -- intros [= _ <-]. discriminate.
        -- destruct (bytes_eqb (field d) target); cbn [negb]; [|apply IHc]. destruct (FilterModel.op d); try discriminate; apply IHc.
      * intros Hv. destruct (A4 Hv) as [?|(c' & Hc' & Fc')]; [now left|]. right. exists c'. split; [now right|assumption].
Qed.
Lemma encode_inj v w : value_ok v -> value_ok w -> encode_value v = encode_value w -> v = w.
Proof.
  intros Hv Hw E.
  assert (A : looks_like v w) by (apply (encode_prefix v w 0 (dec 0)); auto; now rewrite E).
  assert (B : looks_like w v) by (apply (encode_prefix w v 0 (dec 0)); auto; now rewrite E).
  destruct A as [A|A]; [congruence|]. destruct B as [B|B]; [congruence|].
  destruct v; try contradiction. destruct w; try contradiction. apply starts_with_iff in A as (x & A). apply starts_with_iff in B as (y & B).
  apply (f_equal (@length N)) in A, B. rewrite !app_length in *. cbn in *. lia.
Qed.

(** ** The merged search *)
Lemma kbest_weaken k' k all l : kbest k' all l -> k' <= k -> (length all <= k' \/ k' = k) -> kbest k all l.
Proof.
  intros K Hk [H|<-]; [|assumption]. pose proof (kbest_length _ _ _ K) as L. destruct K as (L' & rest & P & F & B). split; [lia|].
  exists rest. split; [assumption|]. split; [|assumption]. intros NE. apply Permutation_length in P. rewrite app_length in P.
  destruct rest; [congruence|]. cbn in P. lia.
Qed.
Lemma kbest_nodup k all l : kbest k all l -> NoDup all -> NoDup l.
Proof. intros (_ & rest & P & _) H. apply (Permutation_NoDup P) in H. now apply nodup_app_l in H. Qed.

Variable lib : heap_lib.
Hypothesis LOK : heap_lib_ok lib.
Variable topk : nat.
Hypothesis Hk : 0 < topk.
Variable view : list mv_partition.
Hypothesis View : view_inv view (all_ids 0 n).

(** The ids a value's partition contributes. *)
Definition ids_of (covered : bool) (v : value) : list N :=
  List.filter (fun id => covered || answer t f id) (members (encode_value v) (all_ids 0 n)).
Definition with_dist (l : list N) : list candidate := map (fun id => (id, dist id)) l.
Lemma with_dist_nodup l : NoDup l -> NoDup (with_dist l).
Proof. apply FinFun.Injective_map_NoDup. intros a b [= E _]. exact E. Qed.
Lemma members_nodup k : NoDup (members k (all_ids 0 n)).
Proof. apply NoDup_filter, all_ids_nodup. Qed.
Definition right_executor (covered : bool) (x : option executor) : Prop :=
  if covered then x = None else exists x', x = Some x' /\ good s t f n x'.

Lemma partition_good covered x v p : right_executor covered x -> find_partition view (encode_value v) = Some p ->
  exists found, partition_search lib x p dist topk = Ok found /\ NoDup found /\ kbest topk (with_dist (ids_of covered v)) found.
Proof.
  intros Hx Hp. pose proof (View (encode_value v)) as V. rewrite Hp in V. unfold ids_of. rewrite <- V. unfold partition_search.
  assert (Bd : forall id, In id (pt_ids p) -> (id < N.of_nat n)%N).
  { intros id Hid. rewrite V in Hid. apply filter_In in Hid as [Hid _]. apply all_ids_In in Hid. lia. }
  assert (ND : NoDup (pt_ids p)) by (rewrite V; apply members_nodup).
  destruct (pt_ids p) as [|i0 ids0]; [exists []; split; [reflexivity|]; split; [constructor|apply kbest_nil]|].
  set (ids := i0 :: ids0) in *.
  set (cands := List.filter (fun id => covered || answer t f id) ids).
  assert (G : exists found, insert_candidates lib [] (with_dist cands) (Nat.min topk (length ids)) = Ok found
     /\ NoDup found /\ kbest topk (with_dist cands) found).
  { destruct (inserts_kbest lib LOK (Nat.min topk (length ids)) (with_dist cands)) with (all := @nil candidate) (l := @nil candidate)
      as (found & E & _ & K); [unfold ids; cbn; lia|apply heap_nil|apply kbest_nil|].
    exists found. cbn [app] in K. split; [exact E|]. split.
    - apply (kbest_nodup _ _ _ K). apply with_dist_nodup. now apply NoDup_filter.
    - apply (kbest_weaken _ _ _ _ K); [lia|]. unfold with_dist. rewrite map_length.
      assert (length cands <= length ids) by (unfold cands; clear; induction ids as [|a l IH]; cbn; [lia|]; destruct (covered || answer t f a); cbn; lia). lia. }
  destruct covered; cbn [right_executor] in Hx.
  - subst x. cbn [bind unblocked]. assert (Ec : cands = ids) by (unfold cands; clear; induction ids as [|a l IH]; cbn in *; congruence).
    rewrite Ec in *. exact G.
  - destruct Hx as (x' & -> & Gx). rewrite (blocked_for_good s t f n R Bound small32) by assumption. cbn [bind].
    destruct (Nat.eqb_spec (length (List.filter (answer t f) ids)) 0) as [Z|NZ].
    + exists []. split; [reflexivity|]. split; [constructor|]. apply length_zero_iff_nil in Z. unfold cands. cbn [orb].
      replace (List.filter (fun id => answer t f id) ids) with (@nil N) by (symmetry; exact Z). apply kbest_nil.
    + cbn [unblocked]. unfold blocked_of. rewrite map_map.
      assert (Em : matching ids (map (fun y => negb (negb (answer t f y))) ids) = cands).
      { unfold cands. cbn [orb]. rewrite <- matching_filter. f_equal. apply map_ext. intros y. apply negb_involutive. }
      rewrite Em. exact G.
Qed.
Lemma search_values_good covered x values : right_executor covered x -> forall all l, heap l -> kbest topk (with_dist all) l ->
  exists l', search_values lib view x values dist topk l = Ok l' /\ kbest topk (with_dist (all ++ flat_map (ids_of covered) values)) l'.
Proof.
  intros Hx. induction values as [|v values IH]; intros all l H K; cbn [search_values flat_map].
  - exists l. rewrite app_nil_r. auto.
  - destruct (find_partition view (encode_value v)) as [p|] eqn:Ep.
    + destruct (partition_good covered x v p Hx Ep) as (found & -> & ND & Kf). cbn [bind].
      destruct (inserts_kbest lib LOK topk found Hk _ _ H K) as (l1 & -> & H1 & K1). cbn [bind].
      apply (merge_kbest topk _ (with_dist (ids_of covered v)) found l1 Hk ND Kf) in K1.
      unfold with_dist in K1 at 1 2. rewrite <- map_app in K1. destruct (IH _ _ H1 K1) as (l2 & -> & K2). exists l2. rewrite app_assoc. auto.
    + assert (E : ids_of covered v = []).
      { unfold ids_of. pose proof (View (encode_value v)) as V. rewrite Ep in V. rewrite V. reflexivity. }
      rewrite E. cbn [app]. eauto.
Qed.

Lemma row_of_answer id : is_empty f = false -> answer t f id = true -> exists r, row t id = Some r /\ evaluate f (meta r) = true.
Proof. unfold answer. intros ->. cbn [orb]. destruct (row t id) as [r|]; [eauto|discriminate]. Qed.

Lemma view_search_good : (forall c, has_condition c f -> field c = target -> condition_safe c) ->
  exists r, view_search lib (Some view) target s n f dist topk = Ok r
    /\ match r with
       | None => True
       | Some ids => knn (fun id => (id < N.of_nat n)%N /\ answer t f id = true) dist topk ids
       end.
Proof.
  intros Sf. unfold view_search. destruct (analyze_filter f target) as [[values covered]|] eqn:A; [|exists None; auto].
  unfold analyze_filter in A. destruct (is_empty f) eqn:NE; [discriminate|]. cbn [orb] in A.
  destruct target as [|b0 tg] eqn:Et; [discriminate|]. rewrite <- Et in *. clear b0 tg Et.
  destruct (conjunctive f) as [cs|] eqn:C; [|discriminate]. destruct (conjunctive_spec f cs C) as [Cc Cv].
  destruct (analyze_conditions target cs None true) as [[[vs|] cov]|] eqn:E; try discriminate. injection A as -> ->.
  destruct (analyze_spec cs None true (Some values) covered) as ((ND & Fs) & Al & Cov & Ex); auto; [exact I|].
  cbn [allows] in Al. destruct (Ex ltac:(discriminate)) as [?|(c0 & Hc0 & Fc0)]; [congruence|].
  assert (X : exists x, (if covered then Ok None else let* x := make_executor f s n in Ok (Some x)) = Ok x /\ right_executor covered x).
  { destruct covered; [exists None; split; reflexivity|]. destruct (make_good s t f n R Bound Safe) as (x & -> & G).
    eexists. split; [reflexivity|]. exists x. auto. }
  destruct X as (x & -> & Hx). cbn [bind].
  destruct (search_values_good covered x values Hx [] [] heap_nil (kbest_nil topk)) as (l & -> & K). cbn [bind app] in *.
  eexists. split; [reflexivity|]. destruct (sort_kbest lib LOK _ _ _ K) as [K' St].
  apply (knn_of_kbest _ dist topk (flat_map (ids_of covered) values)); auto.
  - (* different values have different rows *)
    clear - ND Fs Small. induction values as [|v vs IH]; cbn [flat_map]; [constructor|].
    inversion ND as [|? ? Nv ND']; subst. apply Forall_cons_iff in Fs as [Sv Fs].
    assert (D : forall l1 l2 : list N, NoDup l1 -> NoDup l2 -> (forall i, In i l1 -> ~ In i l2) -> NoDup (l1 ++ l2)).
    { clear. induction l1 as [|a l1 IH]; intros l2 N1 N2 D; cbn; [assumption|]. inversion N1; subst. constructor.
      - intros H. apply in_app_or in H as [H|H]; [contradiction|]. now apply (D a (or_introl eq_refl)).
      - apply IH; auto. intros i Hi. apply D. now right. }
    apply D; auto.
    + apply NoDup_filter, members_nodup.
    + intros i Hi Hj. apply in_flat_map in Hj as (w & Hw & Hj).
      apply filter_In in Hi as [Hi _], Hj as [Hj _]. apply filter_In in Hi as [_ Hi], Hj as [_ Hj].
      unfold has_key in Hi, Hj. destruct (row t i) as [r|]; [|discriminate]. destruct (meta_find target (meta r)) as [u|]; [|discriminate].
      apply bytes_eqb_eq in Hi, Hj. rewrite Hi in Hj. rewrite Forall_forall in Fs.
      apply encode_inj in Hj; [|apply Sv|apply (Fs w Hw)]. congruence.
  - intros id. rewrite in_flat_map. rewrite Forall_forall in Fs. split.
    + intros (v & Hv & Hid). apply filter_In in Hid as [Hid Ha]. apply filter_In in Hid as [Hid Hkey].
      apply all_ids_In in Hid. split; [lia|]. destruct covered; [|exact Ha].
      unfold has_key in Hkey. unfold answer. rewrite NE. cbn [orb].
      destruct (row t id) as [r|] eqn:Er; [|discriminate]. destruct (meta_find target (meta r)) as [u|] eqn:Em; [|discriminate].
      apply bytes_eqb_eq in Hkey. pose proof (row_value s t R id r target u Er Em) as Vu.
      apply encode_inj in Hkey; [|assumption|apply (Fs v Hv)]. subst u.
      rewrite Cv. apply forallb_forall. intros c Hc. apply (Al (meta r) v Em Vu); auto.
    + intros (Hid & Ha). destruct (row_of_answer id NE Ha) as (r & Er & Ev). rewrite Cv in Ev.
      assert (Each : forall c, In c cs -> evaluate_condition c (meta r) = true) by now apply forallb_forall.
      destruct (meta_find target (meta r)) as [u|] eqn:Em.
      * pose proof (row_value s t R id r target u Er Em) as Vu. exists u. split; [apply (Al (meta r) u Em Vu); auto|].
        apply filter_In. split; [|rewrite Ha; apply orb_true_r]. apply filter_In. split; [apply all_ids_In; lia|].
        unfold has_key. rewrite Er, Em. apply bytes_eqb_refl.
      * specialize (Each c0 Hc0). unfold evaluate_condition in Each. rewrite Fc0, Em in Each. discriminate.
Qed.
End Rows.

Lemma answer_accepted s t f : represents s t -> forall id, answer t f id = true <-> accepted s f id.
Proof.
  intros R id. unfold answer, accepted. rewrite orb_true_iff. split.
  - intros [H|H]; [now left|]. destruct (row t id) as [r|] eqn:E; [|discriminate]. right. exists r. split; [|assumption].
    now apply (live_row s t R).
  - intros [H|(r & H & E)]; [now left|]. right. apply (live_row s t R) in H. now rewrite H.
Qed.
Lemma knn_ext (m m' : N -> Prop) dist k ids : (forall id, m id <-> m' id) -> knn m dist k ids -> knn m' dist k ids.
Proof.
  intros E (res & [] & Ne & ->). exists res. split; [|split; [|reflexivity]].
  - constructor; auto. intros id d H. rewrite <- E. auto.
  - intros id H. apply Ne. now apply E.
Qed.
Lemma knn_answer s t : represents s t -> forall f n dist k ids,
  knn (fun id => (id < N.of_nat n)%N /\ answer t f id = true) dist k ids ->
  knn (fun id => (id < N.of_nat n)%N /\ accepted s f id) dist k ids.
Proof. intros R f n dist k ids. apply knn_ext. intros id. now rewrite (answer_accepted s t f R). Qed.
