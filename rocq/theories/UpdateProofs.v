(** Proofs about insertions into and removals from a graph. *)
From Verif Require Import PoolProofs FrontierProofs SearchProofs.
From Verif Require Export UpdateSpec.

(** ** Maps, sets, rows *)
Lemma add_In l x y : In y (add l x) <-> In y l \/ y = x.
Proof.
  unfold add. destruct (existsb (N.eqb x) l) eqn:E.
  - apply existsb_exists in E as (z & Hz & Ez). apply N.eqb_eq in Ez. subst z. split; [auto|]. intros [H| -> ]; auto.
  - rewrite in_app_iff. cbn. split; intros [H|H]; auto. destruct H as [->|[]]. auto.
Qed.
Lemma existsb_In x l : existsb (N.eqb x) l = true <-> In x l.
Proof.
  split.
  - intros E. apply existsb_exists in E as (z & Hz & Ez). apply N.eqb_eq in Ez. now subst z.
  - intros H. apply existsb_exists. exists x. split; [assumption|apply N.eqb_refl].
Qed.
Lemma add_NoDup l x : NoDup l -> NoDup (add l x).
Proof.
  unfold add. intros H. destruct (existsb (N.eqb x) l) eqn:E; [assumption|].
  apply (Permutation_NoDup (Permutation_cons_append l x)). constructor; [|assumption]. intros X. apply existsb_In in X. congruence.
Qed.
Lemma fold_add_In l : forall acc y, In y (fold_left add l acc) <-> In y acc \/ In y l.
Proof.
  induction l as [|x l IH]; intros acc y; cbn [fold_left]; [cbn; tauto|]. rewrite IH, add_In. cbn. split; intuition.
Qed.
Lemma fold_add_NoDup l : forall acc, NoDup acc -> NoDup (fold_left add l acc).
Proof. induction l as [|x l IH]; intros acc H; cbn [fold_left]; [assumption|]. apply IH. now apply add_NoDup. Qed.

Lemma push_find m k x k' : nfind (push m k x) k' =
  if N.eqb k' k then Some (match nfind m k with Some l => l ++ [x] | None => [x] end) else nfind m k'.
Proof.
  induction m as [|[a l] m IH]; cbn [push nfind]; [now destruct (N.eqb_spec k' k)|].
  destruct (N.eqb_spec k a) as [<-|Na]; cbn [nfind].
  - now destruct (N.eqb_spec k' k).
  - rewrite IH. destruct (N.eqb_spec k' a) as [->|]; [|reflexivity]. destruct (N.eqb_spec a k); [congruence|reflexivity].
Qed.
Lemma nfind_None m k : nfind m k = None <-> ~ In k (map fst m).
Proof.
  induction m as [|[a l] m IH]; cbn; [tauto|]. destruct (N.eqb_spec k a) as [->|Na]; [split; [discriminate|intros H; exfalso; auto]|].
  rewrite IH. split; [intros H [E|X]; [congruence|auto]|auto].
Qed.
Lemma nfind_Some m k l : nfind m k = Some l -> In k (map fst m).
Proof. intros H. destruct (in_dec N.eq_dec k (map fst m)) as [|n]; [assumption|]. apply nfind_None in n. congruence. Qed.
Lemma push_keys m k x y : In y (map fst (push m k x)) <-> In y (map fst m) \/ y = k.
Proof.
  induction m as [|[a l] m IH]; cbn [push map fst In]; [split; intuition|].
  destruct (N.eqb_spec k a) as [<-|Na]; cbn [map fst In]; [split; intuition|]. rewrite IH. split; intuition.
Qed.
Lemma push_NoDup m k x : NoDup (map fst m) -> NoDup (map fst (push m k x)).
Proof.
  induction m as [|[a l] m IH]; cbn [push map fst]; intros H; [repeat constructor; auto|].
  destruct (N.eqb_spec k a) as [<-|Na]; [assumption|]. cbn [map fst]. inversion H; subst. constructor; [|auto].
  rewrite push_keys. intros [X|X]; [auto|congruence].
Qed.

(** The ids of a row up to the first -1. *)
Fixpoint until (l : list N) : list N :=
  match l with [] => [] | x :: r => if N.eqb x kInvalidId then [] else x :: until r end.
Lemma until_listed l y : In y (until l) <-> exists i, nth_error l i = Some y /\ forall j, j <= i -> nth_error l j <> Some kInvalidId.
Proof.
  induction l as [|x l IH]; cbn [until].
  - split; [intros []|]. intros (i & E & _). destruct i; discriminate E.
  - destruct (N.eqb_spec x kInvalidId) as [->|Nx].
    + split; [intros []|]. intros (i & _ & H). exfalso. exact (H 0 (Nat.le_0_l _) eq_refl).
    + cbn [In]. rewrite IH. split.
      * intros [<-|(i & E & H)].
        -- exists 0. split; [reflexivity|]. intros j Hj. assert (j = 0) by lia. subst j. cbn. congruence.
        -- exists (S i). split; [exact E|]. intros [|j] Hj; cbn; [congruence|]. apply H. lia.
      * intros ([|i] & E & H); cbn in E; [left; congruence|]. right. exists i. split; [exact E|]. intros j Hj. apply (H (S j)). lia.
Qed.
Definition ids_in (max : nat) (row : list N) : list N := until (firstn max row).
Lemma ids_in_listed max row y : In y (ids_in max row) <-> listed (N.of_nat max) row y.
Proof.
  unfold ids_in, listed. rewrite until_listed, Nat2N.id. split; intros (i & H).
  - destruct H as [E H]. rewrite nth_error_firstn in E. destruct (Nat.ltb_spec i max) as [L|]; [|discriminate E].
    exists i. split; [assumption|]. split; [assumption|]. intros j Hj. specialize (H j Hj). rewrite nth_error_firstn in H.
    destruct (Nat.ltb_spec j max); [assumption|lia].
  - destruct H as (L & E & H). exists i. split.
    + rewrite nth_error_firstn. destruct (Nat.ltb_spec i max); [assumption|lia].
    + intros j Hj. rewrite nth_error_firstn. destruct (Nat.ltb_spec j max); [auto|discriminate].
Qed.
Lemma until_app_pad l k : (forall x, In x l -> x <> kInvalidId) -> until (l ++ repeat kInvalidId k) = l.
Proof.
  induction l as [|x l IH]; cbn [app until]; intros H.
  - destruct k; cbn [repeat until]; [reflexivity|]. now rewrite N.eqb_refl.
  - destruct (N.eqb_spec x kInvalidId) as [E|_]; [exfalso; apply (H x); auto; now left|]. f_equal. apply IH. intros y Hy. apply H. now right.
Qed.
Lemma until_all l : (forall x, In x l -> x <> kInvalidId) -> until l = l.
Proof. intros H. pose proof (until_app_pad l 0 H) as E. cbn in E. now rewrite app_nil_r in E. Qed.
Lemma until_incl l x : In x (until l) -> In x l.
Proof. rewrite until_listed. intros (i & E & _). eapply nth_error_In; eauto. Qed.

(** The loops over a row are loops over these ids. *)
Fixpoint cand_list (s : state) (l acc : list N) : res (list N) :=
  match l with
  | [] => Ok acc
  | v :: r => let* acc' := if existsb (N.eqb v) (u_removed s)
                           then match nfind (u_second s) v with Some l' => Ok (fold_left add l' acc) | None => Throws end
                           else Ok acc in
              cand_list s r (add acc' v)
  end.
Lemma cand_row_list s row : forall left i acc, i + left <= length row ->
  cand_row s row left (N.of_nat i) acc = cand_list s (until (firstn left (skipn i row))) acc.
Proof.
  induction left as [|k IH]; intros i acc L; [reflexivity|]. cbn [cand_row]. unfold aget. rewrite Nat2N.id.
  destruct (nth_error row i) as [v|] eqn:E; [|apply nth_error_None in E; lia]. cbn [bind].
  assert (Sk : skipn i row = v :: skipn (S i) row).
  { clear - E. revert row E. induction i as [|i IH]; intros [|x row] E; cbn in *; try discriminate E; [congruence|]. now apply IH. }
  rewrite Sk. cbn [firstn until]. destruct (N.eqb v kInvalidId); [reflexivity|]. cbn [cand_list].
  destruct (existsb (N.eqb v) (u_removed s)); [destruct (nfind (u_second s) v)|]; cbn [bind]; auto.
  all: replace (N.of_nat i + 1)%N with (N.of_nat (S i)) by lia; apply IH; lia.
Qed.
Lemma record_row_list node row : forall left i m, i + left <= length row ->
  record_row m node row left (N.of_nat i) = Ok (fold_left (fun m v => push m node v) (until (firstn left (skipn i row))) m).
Proof.
  induction left as [|k IH]; intros i m L; [reflexivity|]. cbn [record_row]. unfold aget. rewrite Nat2N.id.
  destruct (nth_error row i) as [v|] eqn:E; [|apply nth_error_None in E; lia]. cbn [bind].
  assert (Sk : skipn i row = v :: skipn (S i) row).
  { clear - E. revert row E. induction i as [|i IH]; intros [|x row] E; cbn in *; try discriminate E; [congruence|]. now apply IH. }
  rewrite Sk. cbn [firstn until]. destruct (N.eqb v kInvalidId); [reflexivity|]. cbn [fold_left].
  replace (N.of_nat i + 1)%N with (N.of_nat (S i)) by lia. apply IH. lia.
Qed.
Lemma cand_list_spec s : forall l acc,
  (exists v, In v l /\ sink s v) /\ cand_list s l acc = Throws
  \/ exists out, cand_list s l acc = Ok out /\ (forall v, In v l -> ~ sink s v) /\ (NoDup acc -> NoDup out)
     /\ forall y, In y out <-> In y acc \/ exists z, In z l /\ (y = z \/ (In z (u_removed s) /\ exists l', nfind (u_second s) z = Some l' /\ In y l')).
Proof.
  induction l as [|v l IH]; intros acc; cbn [cand_list].
  - right. exists acc. split; [reflexivity|]. split; [intros v []|]. split; [auto|]. intros y. split; [auto|]. intros [H|(z & [] & _)]; assumption.
  - assert (HV : sink s v /\ (if existsb (N.eqb v) (u_removed s)
          then match nfind (u_second s) v with Some l' => Ok (fold_left add l' acc) | None => Throws end else Ok acc) = Throws
       \/ ~ sink s v /\ exists acc', (if existsb (N.eqb v) (u_removed s)
          then match nfind (u_second s) v with Some l' => Ok (fold_left add l' acc) | None => Throws end else Ok acc) = Ok acc'
          /\ (NoDup acc -> NoDup acc')
          /\ forall y, In y acc' <-> In y acc \/ (In v (u_removed s) /\ exists l', nfind (u_second s) v = Some l' /\ In y l')).
    { unfold sink. destruct (existsb (N.eqb v) (u_removed s)) eqn:Ev.
      - apply existsb_In in Ev. destruct (nfind (u_second s) v) as [l'|] eqn:El; [|left; auto]. right.
        split; [intros [_ X]; discriminate X|]. exists (fold_left add l' acc). split; [reflexivity|]. split; [apply fold_add_NoDup|].
        intros y. rewrite fold_add_In. split; intros [H|H]; auto; [right; eauto|]. destruct H as (_ & l2 & E2 & H). injection E2 as ->. auto.
      - right. assert (NI : ~ In v (u_removed s)) by (intros X; apply existsb_In in X; congruence).
        split; [tauto|]. exists acc. split; [reflexivity|]. split; [auto|]. intros y. tauto. }
    destruct HV as [[Sv ->]|[Sv (acc' & -> & ND & M)]]; cbn [bind].
    + left. split; [exists v; split; [now left|assumption]|reflexivity].
    + destruct (IH (add acc' v)) as [[(w & Hw & Sw) ->]|(out & -> & NS & NDo & Mo)].
      * left. split; [exists w; split; [now right|assumption]|reflexivity].
      * right. exists out. split; [reflexivity|]. split.
        { intros w [<-|Hw]; auto. }
        split; [intros H; apply NDo, add_NoDup; auto|]. intros y. rewrite Mo, add_In, M. split.
        -- intros [[[H|H]|H]|(z & Hz & H)]; [auto|right; exists v; split; [now left|auto]|right; exists v; split; [now left|auto]|].
           right. exists z. split; [now right|assumption].
        -- intros [H|(z & [<-|Hz] & H)]; [auto|destruct H as [->|H]; auto|]. right. eauto.
Qed.

(** ** The pool *)
Lemma pool_all_spec cap dist ids : 0 < cap -> (forall id, In id ids -> (id < 2 ^ 31)%N) ->
  forall p all, pool_inv cap p -> keeps_closest cap all (kept p) ->
  exists p', pool_all dist p ids = Ok p' /\ pool_inv cap p' /\ keeps_closest cap (all ++ map (fun id => (id, dist id)) ids) (kept p').
Proof.
  intros Hc. induction ids as [|id ids IH]; intros Hid p all I K; cbn [pool_all].
  - exists p. cbn [map]. rewrite app_nil_r. auto.
  - pose proof (Hid id (or_introl eq_refl)) as Hi. pose proof (lp_insert_spec cap p id (dist id) Hc I Hi) as D.
    destruct (insert_closest cap p id (dist id) _ all Hc I Hi D K) as (b & p1 & -> & I1 & K1). cbn [bind].
    destruct (IH (fun i Hi => Hid i (or_intror Hi)) p1 _ I1 K1) as (p2 & E2 & I2 & K2).
    exists p2. rewrite <- app_assoc in K2. cbn [app map] in *. auto.
Qed.
Lemma pool_ids_results p : forall count i r, pool_results p i count = Ok r -> pool_ids_at p i count = Ok (map fst r).
Proof.
  induction count as [|k IH]; intros i r H; cbn [pool_results pool_ids_at] in *; [injection H as <-; reflexivity|].
  destruct (lp_id p i) as [id| | |]; cbn [bind] in *; try discriminate H.
  destruct (lp_dist p i) as [d| | |]; cbn [bind] in *; try discriminate H.
  destruct (pool_results p (i + 1) k) as [rest| | |] eqn:E; cbn [bind] in *; try discriminate H.
  injection H as <-. rewrite (IH _ _ E). reflexivity.
Qed.
Lemma pool_row cap dist ids : 0 < cap -> NoDup ids -> (forall id, In id ids -> (id < 2 ^ 31)%N) ->
  exists p hits, pool_all dist (pool_new cap) ids = Ok p /\ pool_ids_at p 0 (Nat.min cap (p_size p)) = Ok (map fst hits)
    /\ Nat.min cap (p_size p) = length hits
    /\ ranked (fun id => In id ids) dist cap hits /\ nearest (fun id => In id ids) dist cap hits.
Proof.
  intros Hc ND Hf.
  destruct (pool_all_spec cap dist ids Hc Hf (pool_new cap) [] (pool_new_inv _)) as (p & E & I & K).
  { split; [cbn; lia|]. exists []. split; [constructor|]. split; [congruence|]. intros x y []. }
  cbn [app] in K. pose proof K as (L & rest & P & F & B).
  pose proof (content_length _ _ I) as CL. pose proof (pi_size _ _ I) as Sz.
  exists p, (kept p). split; [assumption|].
  assert (Ls : length (kept p) = p_size p) by (unfold kept; rewrite map_length; assumption).
  rewrite Nat.min_r by lia. split.
  { apply pool_ids_results. rewrite (pool_results_spec 0%N (fun _ => False) dist cap ltac:(discriminate) ltac:(intros ? []) Hc p I) by lia. cbn [skipn].
    rewrite firstn_all2 by lia. reflexivity. }
  split; [now symmetry|].
  assert (S : StronglySorted (fun a b => (snd a <= snd b)%Z) (kept p)).
  { pose proof (content_sorted cap p I) as S. unfold kept. clear - S. induction S as [|a l S IH Fa]; cbn [map]; constructor; auto.
    apply Forall_forall. intros b Hb. apply in_map_iff in Hb as (e & <- & He). rewrite Forall_forall in Fa. apply (Fa e He). }
  assert (D : forall x, In x (kept p ++ rest) -> In (fst x) ids /\ snd x = dist (fst x)).
  { intros x Hx. apply (Permutation_in x (Permutation_sym P)) in Hx. apply in_map_iff in Hx as (i & <- & Hi). auto. }
  split.
  - constructor; auto.
    + apply (nodup_app_l _ (map fst rest)). rewrite <- map_app. apply (Permutation_map fst) in P. rewrite map_map, map_id in P.
      now apply (Permutation_NoDup P).
    + intros id d H. apply (D (id, d)). apply in_or_app. now left.
  - intros id Hid. assert (H : In (id, dist id) (kept p ++ rest)).
    { apply (Permutation_in _ P). apply in_map_iff. eauto. }
    apply in_app_or in H as [H|H]; [now left|]. right. split; [apply F; intros ->; destruct H|].
    intros y Hy. apply (B y (id, dist id)); assumption.
Qed.
Lemma ranked_iff (P Q : N -> Prop) dist k hits : (forall x, P x <-> Q x) -> ranked P dist k hits -> ranked Q dist k hits.
Proof. intros H [A B C D]. constructor; auto. intros id d Hi. destruct (C id d Hi). split; [now apply H|assumption]. Qed.
Lemma nearest_iff (P Q : N -> Prop) dist k hits : (forall x, P x <-> Q x) -> nearest P dist k hits -> nearest Q dist k hits.
Proof. intros H A x Hx. apply A. now apply H. Qed.

(** ** The invariant *)
Record inv (c : conf) (s : state) : Prop := {
  iv_max : 0 < k_max c;
  iv_cap : size s <= k_cap c;
  iv_width : (N.of_nat (k_cap c) <= 2 ^ 31)%N;
  iv_rows : length (u_rows s) = size s;
  iv_full : forall row, In row (u_rows s) -> k_max c <= length row;
  iv_ids : forall row y, In row (u_rows s) -> In y (ids_in (k_max c) row) -> (y < N.of_nat (size s))%N;
  iv_linked : length (u_linked s) = size s;
  iv_live : length (u_live s) = size s;
  iv_items : u_items s = N.of_nat (size s);
  iv_second : forall x l y, nfind (u_second s) x = Some l -> In y l -> (y < N.of_nat (size s))%N;
  iv_ins_nodup : NoDup (map fst (u_inserted s));
  iv_ins : forall x l y, nfind (u_inserted s) x = Some l -> (x < N.of_nat (size s))%N /\ (In y l -> (y < N.of_nat (size s))%N);
  iv_starts : match k_overlay c with
              | None => forall x, In x (k_eps c) -> (x < N.of_nat (size s))%N
              | Some o => overlay_ok (N.of_nat (size s)) o /\ k_cap c <= length (ov_levels o) /\ k_cap c <= length (ov_lists o)
              end;
  iv_removed : forall z, In z (u_removed s) -> (z < N.of_nat (size s))%N /\ flag (u_linked s) z = false
    /\ (nfind (u_second s) z = None -> exists row, row_of s z row /\ ids_in (k_max c) row = []);
}.
Lemma built_inv c s : built c s -> inv c s.
Proof.
  intros [M C W R L1 L2 It (Re & Se & Is) St]. destruct R as [R1 R2 R3]. cbn [g_rows g_max_nbrs graph_of] in *. constructor; auto.
  - rewrite R1. lia.
  - intros row Hr. specialize (R2 row Hr). lia.
  - intros row y Hr Hy. apply ids_in_listed in Hy. apply In_nth_error in Hr as (i & Ei).
    apply (R3 (N.of_nat i) y).
    + assert (i < length (u_rows s)) by (apply nth_error_Some; congruence). rewrite R1 in H. lia.
    + unfold leads_to. cbn [g_rows g_max_nbrs]. exists row. rewrite Nat2N.id. auto.
  - rewrite Se. intros x l y H. discriminate H.
  - rewrite Is. constructor.
  - rewrite Is. intros x l y H. discriminate H.
  - rewrite Re. intros z [].
Qed.
Lemma inv_rows_ok c s removed : inv c s -> (forall x l y, removed x = Some l -> In y l -> (y < N.of_nat (size s))%N) ->
  rows_ok (N.of_nat (size s)) (graph_of c s) removed.
Proof.
  intros I R. constructor; cbn [g_rows g_max_nbrs graph_of].
  - rewrite (iv_rows _ _ I). lia.
  - intros row Hr. pose proof (iv_full _ _ I row Hr). lia.
  - intros x y Hx. unfold leads_to. destruct (removed x) as [l|] eqn:E; [eauto|]. cbn [g_rows g_max_nbrs].
    intros (row & Er & Ly). apply ids_in_listed in Ly. apply (iv_ids _ _ I row y); [eapply nth_error_In; eauto|assumption].
Qed.
Lemma inv_search fuel c s removed dist topk ef : inv c s -> (forall x l y, removed x = Some l -> In y l -> (y < N.of_nat (size s))%N) ->
  enough c fuel -> topk <= ef -> 0 < ef ->
  exists u hits e, search_solo fuel (graph_of c s) removed (u_items s) dist topk ef = Done (Ok (hits ++ repeat (kInvalidId, float_max) (topk - length hits), e))
    /\ ranked (fun x => (x < N.of_nat (size s))%N) dist topk hits
    /\ settled (leads_to (graph_of c s) removed) (start_of c u) dist topk hits
    /\ (at_most ef (reachable (leads_to (graph_of c s) removed) (start_of c u)) -> nearest (reachable (leads_to (graph_of c s) removed) (start_of c u)) dist topk hits)
    /\ (forall x, start_of c u x -> (x < N.of_nat (size s))%N).
Proof.
  intros I R F Hk He. rewrite (iv_items _ _ I). pose proof (inv_rows_ok c s removed I R) as RO.
  pose proof (iv_starts _ _ I) as St. unfold enough in F. pose proof (iv_cap _ _ I) as Cp. pose proof (iv_width _ _ I) as Wd.
  assert (Weak : forall start : N -> Prop, (forall x, start x -> (x < N.of_nat (size s))%N) -> forall hits,
      ranked (reachable (leads_to (graph_of c s) removed) start) dist topk hits -> ranked (fun x => (x < N.of_nat (size s))%N) dist topk hits).
  { intros start Hst hits [A B C D]. constructor; auto. intros id d Hid. destruct (C id d Hid) as [X Y]. split; [|assumption].
    now apply (reach_below _ _ _ start RO Hst). }
  unfold start_of. destruct (k_overlay c) as [o|] eqn:Ov.
  - destruct St as (St & _ & _).
    destruct (solo_overlay_lemma _ (graph_of c s) removed dist topk ef fuel o RO ltac:(lia) Ov St Hk He ltac:(lia)) as (u & s' & I' & E & hits & Ru & Bu & _ & _ & _ & _ & _ & Sr & Rk & Nn & Iu & Ri & _ & _ & Se & Ex).
    exists u, hits, E. split; [exact Sr|]. split; [|split; [|split]].
    + apply (Weak (eq u)); [|assumption]. now intros x <-.
    + intros y [-> |Hy]; apply Se; [now left|now right].
    + assert (Q : forall y, reachable (leads_to (graph_of c s) removed) (fun x => x = u) y <-> reachable (leads_to (graph_of c s) removed) (eq u) y).
      { intros y. split; intros H; induction H as [x Hx|x y Hx IH Hy]; [apply reach_start; congruence|eapply reach_edge; eauto|apply reach_start; congruence|eapply reach_edge; eauto]. }
      intros (l & Ll & Hl) y Hy. apply Ex; [|now apply Q]. exists l. split; [assumption|]. intros z Hz. apply Hl. now apply Q.
    + now intros x ->.
  - destruct (solo_eps_lemma _ (graph_of c s) removed dist topk ef fuel RO ltac:(lia) Ov St Hk He ltac:(lia)) as (s' & I' & E & hits & _ & _ & _ & Sr & Rk & _ & _ & _ & _ & _ & Se & Ex).
    exists 0%N, hits, E. split; [exact Sr|]. split; [now apply (Weak (fun x => In x (g_eps (graph_of c s))))|]. split; [exact Se|]. split; [exact Ex|exact St].
Qed.

Lemma computer_measured c s q : measured c s q (computer c s q).
Proof.
  split.
  - intros y v [_ Fl] E. unfold computer. now rewrite E, Fl.
  - intros y H. unfold computer. destruct (nth_error (u_vecs s) (N.to_nat y)) as [v|] eqn:E; [|reflexivity].
    destruct (flag (u_live s) y) eqn:Fl; [|reflexivity]. exfalso. apply H. split; [|assumption]. unfold size. apply nth_error_Some. congruence.
Qed.

(** ** One update *)
Definition new_row (c : conf) (h : hash_order) (s : state) (node : N) : res (list N) :=
  let* row := aget (u_rows s) node in
  let* cands := candidate_nbrs c s row node in
  let* v := aget (u_vecs s) node in
  let* p := pool_all (computer c s v) (pool_new (k_max c)) (o_cands h cands) in
  let count := Nat.min (k_max c) (p_size p) in
  let* ids := pool_ids_at p 0 count in
  Ok (ids ++ repeat 0%N (k_max c - count)).
Lemma update_new_row c h s node : update c h s node = (let* r := new_row c h s node in
  if flag (u_linked s) node then let* rows := aput (u_rows s) node r in Ok (with_rows s rows) else Ok s).
Proof.
  unfold update, new_row. destruct (aget (u_rows s) node) as [row| | |]; cbn [bind]; try reflexivity.
  destruct (candidate_nbrs c s row node) as [cands| | |]; cbn [bind]; try reflexivity.
  destruct (aget (u_vecs s) node) as [v| | |]; cbn [bind]; try reflexivity.
  destruct (pool_all _ _ _) as [p| | |]; cbn [bind]; try reflexivity.
  destruct (pool_ids_at _ _ _) as [ids| | |]; cbn [bind]; reflexivity.
Qed.
Lemma cand_row_ext s t row : u_removed s = u_removed t -> u_second s = u_second t ->
  forall left i acc, cand_row s row left i acc = cand_row t row left i acc.
Proof.
  intros A B. induction left as [|k IH]; intros i acc; cbn [cand_row]; [reflexivity|]. destruct (aget row i) as [v| | |]; cbn [bind]; try reflexivity.
  rewrite A, B. destruct (N.eqb v kInvalidId); [reflexivity|]. destruct (existsb (N.eqb v) (u_removed t)); [destruct (nfind (u_second t) v)|]; cbn [bind]; auto.
Qed.
(** The new row of a node depends on no other row. *)
Lemma new_row_ext c h s rows node : nth_error rows (N.to_nat node) = nth_error (u_rows s) (N.to_nat node) ->
  new_row c h (with_rows s rows) node = new_row c h s node.
Proof.
  intros E. unfold new_row, aget. cbn [u_rows with_rows u_vecs]. rewrite E. destruct (nth_error (u_rows s) (N.to_nat node)) as [row|]; cbn [bind]; [|reflexivity].
  unfold candidate_nbrs. cbn [u_inserted with_rows]. rewrite (cand_row_ext (with_rows s rows) s) by reflexivity. reflexivity.
Qed.
(** The ids that compete for the row of [node]. *)
Definition competes (c : conf) (s : state) (node y : N) : Prop :=
  (exists l, nfind (u_inserted s) node = Some l /\ In y l)
  \/ exists row z, row_of s node row /\ listed (N.of_nat (k_max c)) row z
    /\ (y = z \/ (In z (u_removed s) /\ exists l, nfind (u_second s) z = Some l /\ In y l)).
Lemma new_row_spec c h s node : inv c s -> order_ok h -> (node < N.of_nat (size s))%N ->
  (exists row z, row_of s node row /\ listed (N.of_nat (k_max c)) row z /\ sink s z) /\ new_row c h s node = Throws
  \/ exists r dist, new_row c h s node = Ok r /\ dist_from c s node dist /\ closest_row (competes c s node) dist (k_max c) r
     /\ (forall row z, row_of s node row -> listed (N.of_nat (k_max c)) row z -> ~ sink s z).
Proof.
  intros I [_ OC] Hn. unfold new_row, aget. assert (LR : N.to_nat node < length (u_rows s)) by (rewrite (iv_rows _ _ I); lia).
  assert (LV : N.to_nat node < length (u_vecs s)) by (unfold size in Hn; lia).
  destruct (nth_error (u_rows s) (N.to_nat node)) as [row|] eqn:Er; [|apply nth_error_None in Er; lia].
  destruct (nth_error (u_vecs s) (N.to_nat node)) as [v|] eqn:Ev; [|apply nth_error_None in Ev; lia].
  cbn [bind]. unfold candidate_nbrs. pose proof (nth_error_In _ _ Er) as Ir. pose proof (iv_full _ _ I row Ir) as Fr.
  pose proof (cand_row_list s row (k_max c) 0 [] ltac:(lia)) as CR. cbn [N.of_nat skipn] in CR. rewrite CR. clear CR.
  change (until (firstn (k_max c) row)) with (ids_in (k_max c) row).
  destruct (cand_list_spec s (ids_in (k_max c) row) []) as [[(z & Hz & Sz) ->]|(out & -> & NS & ND & M)]; cbn [bind].
  - left. split; [|reflexivity]. exists row, z. split; [assumption|]. split; [now apply ids_in_listed|assumption].
  - right. set (cands := match nfind (u_inserted s) node with Some l => fold_left add l out | None => out end).
    assert (NDc : NoDup cands).
    { unfold cands. specialize (ND (NoDup_nil _)). destruct (nfind (u_inserted s) node); [now apply fold_add_NoDup|assumption]. }
    assert (Mc : forall y, In y cands <-> competes c s node y).
    { intros y. assert (Mo : In y out <-> exists row0 z, row_of s node row0 /\ listed (N.of_nat (k_max c)) row0 z
          /\ (y = z \/ (In z (u_removed s) /\ exists l, nfind (u_second s) z = Some l /\ In y l))).
      { rewrite M. split.
        - intros [[]|(z & Hz & H)]. exists row, z. split; [assumption|]. split; [now apply ids_in_listed|assumption].
        - intros (row0 & z & E0 & Lz & H). unfold row_of in E0. rewrite Er in E0. injection E0 as <-. right. exists z. split; [now apply ids_in_listed|assumption]. }
      unfold competes, cands. destruct (nfind (u_inserted s) node) as [l|].
      - rewrite fold_add_In, Mo. split; [intros [H|H]; eauto|]. intros [(l' & El & H)|H]; auto. injection El as <-. auto.
      - rewrite Mo. split; [auto|]. intros [(l' & El & H)|H]; [discriminate El|assumption]. }
    assert (Bc : forall y, In y (o_cands h cands) -> (y < 2 ^ 31)%N).
    { intros y Hy. apply (Permutation_in _ (OC cands)) in Hy. apply Mc in Hy. pose proof (iv_cap _ _ I). pose proof (iv_width _ _ I).
      assert (y < N.of_nat (size s))%N; [|lia]. destruct Hy as [(l & El & Hy)|(row0 & z & E0 & Lz & Hy)].
      - now apply (iv_ins _ _ I node l y El).
      - unfold row_of in E0. rewrite Er in E0. injection E0 as <-. destruct Hy as [->|(_ & l & El & Hy)].
        + apply (iv_ids _ _ I row); [assumption|now apply ids_in_listed].
        + now apply (iv_second _ _ I z l). }
    destruct (pool_row (k_max c) (computer c s v) (o_cands h cands) (iv_max _ _ I) (Permutation_NoDup (Permutation_sym (OC cands)) NDc) Bc)
      as (p & hits & -> & Ep & Lh & R & Nn). cbn [bind]. rewrite Ep. cbn [bind]. rewrite Lh.
    eexists. exists (computer c s v). split; [reflexivity|]. split; [exists v; split; [assumption|apply computer_measured]|]. split.
    + assert (MM : forall y, In y (o_cands h cands) <-> competes c s node y).
      { intros y. rewrite <- Mc. split; intros H; [now apply (Permutation_in _ (OC cands))|now apply (Permutation_in _ (Permutation_sym (OC cands)))]. }
      exists hits. split; [reflexivity|]. split; [exact (ranked_iff _ _ _ _ _ MM R)|exact (nearest_iff _ _ _ _ _ MM Nn)].
    + intros row0 z E0 Lz. unfold row_of in E0. rewrite Er in E0. injection E0 as <-. apply NS. now apply ids_in_listed.
Qed.
Lemma closest_row_length member dist max row : closest_row member dist max row -> length row = max.
Proof. intros (hits & -> & R & _). rewrite app_length, map_length, repeat_length. pose proof (rk_count _ _ _ _ R). lia. Qed.

Lemma upd_In {A} (l : list A) : forall i x y, In y (upd l i x) -> In y l \/ y = x.
Proof. induction l as [|a l IH]; intros [|i] x y; cbn; intros H; auto. - destruct H; auto. - destruct H as [H|H]; auto. apply IH in H as [H|H]; auto. Qed.
Lemma ids_in_In max row y : In y (ids_in max row) -> In y row.
Proof. unfold ids_in. intros H. apply until_incl in H. rewrite <- (firstn_skipn max row). apply in_or_app. now left. Qed.
(** Replacing a row by ids of vectors keeps the invariant. *)
Lemma inv_with_row c s node r : inv c s -> flag (u_linked s) node = true -> k_max c <= length r -> (forall y, In y r -> (y < N.of_nat (size s))%N) ->
  inv c (with_rows s (upd (u_rows s) (N.to_nat node) r)).
Proof.
  intros I Fl Lr Br. destruct I as [i1 i2 i3 i4 i5 i6 i7 i8 i9 i10 i11 i12 i13 i14]. constructor; cbn [u_rows with_rows u_linked u_live u_items u_second u_inserted size u_vecs u_removed]; auto.
  - now rewrite upd_length.
  - intros row Hr. apply upd_In in Hr as [Hr|Hr]; [auto|now subst row].
  - intros row y Hr Hy. apply upd_In in Hr as [Hr|Hr]; [eauto|]. subst row. apply Br. now apply ids_in_In in Hy.
  - intros z Hz. destruct (i14 z Hz) as (A & B & C). split; [assumption|]. split; [assumption|]. intros H. destruct (C H) as (row & Er & X).
    exists row. split; [|assumption]. unfold row_of in *. cbn [u_rows with_rows].
    assert (N.to_nat node <> N.to_nat z) by (intros E; apply N2Nat.inj in E; congruence).
    destruct (Nat.lt_ge_cases (N.to_nat node) (length (u_rows s))).
    + rewrite nth_error_upd by assumption. destruct (Nat.eqb_spec (N.to_nat node) (N.to_nat z)); [contradiction|assumption].
    + now rewrite upd_out by assumption.
Qed.
Lemma competes_bound c s node y : inv c s -> (node < N.of_nat (size s))%N -> competes c s node y -> (y < N.of_nat (size s))%N.
Proof.
  intros I Hn [(l & El & Hy)|(row & z & Er & Lz & Hy)]; [now apply (iv_ins _ _ I node l y El)|].
  destruct Hy as [->|(_ & l & El & Hy)]; [|now apply (iv_second _ _ I z l)].
  apply (iv_ids _ _ I row); [eapply nth_error_In; eauto|now apply ids_in_listed].
Qed.
Lemma closest_row_bound (member : N -> Prop) dist max row n : (0 < n)%N -> (forall y, member y -> (y < n)%N) -> closest_row member dist max row ->
  forall y, In y row -> (y < n)%N.
Proof.
  intros Hn Hm (hits & -> & R & _) y Hy. apply in_app_or in Hy as [Hy|Hy].
  - apply in_map_iff in Hy as ((id & d) & <- & Hy). apply Hm. now apply (rk_true _ _ _ _ R id d).
  - apply repeat_spec in Hy. now subst y.
Qed.

(** ** The updates of an insertion *)
(** The rows of [s'] are those of [s] except for the linked nodes among [keys],
    which have their new rows. *)
Definition updated (c : conf) (h : hash_order) (s : state) (keys : list N) (s' : state) : Prop :=
  exists rows, s' = with_rows s rows /\ length rows = length (u_rows s)
    /\ forall x, N.to_nat x < length rows ->
       nth_error rows (N.to_nat x) = if existsb (N.eqb x) keys && flag (u_linked s) x
         then match new_row c h s x with Ok r => Some r | _ => None end else nth_error (u_rows s) (N.to_nat x).
Lemma with_rows_twice s a b : with_rows (with_rows s a) b = with_rows s b.
Proof. reflexivity. Qed.
Lemma with_rows_same s : with_rows s (u_rows s) = s.
Proof. now destruct s. Qed.
Lemma update_all_spec c h : order_ok h -> forall keys s, inv c s -> NoDup keys -> (forall k, In k keys -> (k < N.of_nat (size s))%N) ->
  exists fine s', update_all c h s keys = Ok (fine, s') /\ inv c s'
    /\ (exists rows, s' = with_rows s rows)
    /\ (fine = true -> updated c h s keys s' /\ forall k, In k keys -> exists r, new_row c h s k = Ok r)
    /\ (fine = false -> exists k row z, In k keys /\ row_of s k row /\ row_of s' k row /\ listed (N.of_nat (k_max c)) row z /\ sink s z).
Proof.
  intros Ho. induction keys as [|k keys IH]; intros s I ND Bk; cbn [update_all].
  - exists true, s. split; [reflexivity|]. split; [assumption|]. split; [exists (u_rows s); symmetry; apply with_rows_same|]. split; [|discriminate].
    intros _. split; [|intros k []]. exists (u_rows s). split; [symmetry; apply with_rows_same|]. split; [reflexivity|]. intros x _. reflexivity.
  - inversion ND as [|? ? Nk ND']; subst. pose proof (Bk k (or_introl eq_refl)) as Hk. rewrite update_new_row.
    destruct (new_row_spec c h s k I Ho Hk) as [[(row & z & A) ->]|(r & dist & Er & Df & Cl & NS)]; cbn [bind].
    + exists false, s. split; [reflexivity|]. split; [assumption|]. split; [exists (u_rows s); symmetry; apply with_rows_same|]. split; [discriminate|].
      intros _. exists k, row, z. split; [now left|]. destruct A as (A1 & A2 & A3). auto.
    + rewrite Er. cbn [bind]. pose proof (closest_row_length _ _ _ _ Cl) as Lr.
      assert (Br : forall y, In y r -> (y < N.of_nat (size s))%N).
      { apply (closest_row_bound _ _ _ _ (N.of_nat (size s)) ltac:(lia) (fun y => competes_bound c s k y I Hk) Cl). }
      destruct (flag (u_linked s) k) eqn:Fk.
      * unfold aput. destruct (N.ltb_spec k (N.of_nat (length (u_rows s)))) as [Lk|Lk]; [|rewrite (iv_rows _ _ I) in Lk; lia]. cbn [bind].
        set (s1 := with_rows s (upd (u_rows s) (N.to_nat k) r)).
        assert (I1 : inv c s1) by (apply inv_with_row; auto; lia).
        destruct (IH s1 I1 ND' (fun x Hx => Bk x (or_intror Hx))) as (fine & s' & -> & I' & (rows' & E') & Ft & Ff).
        exists fine, s'. split; [reflexivity|]. split; [assumption|]. split; [exists rows'; exact E'|].
        assert (Other : forall x, x <> k -> nth_error (u_rows s1) (N.to_nat x) = nth_error (u_rows s) (N.to_nat x)).
        { intros x Nx. unfold s1. cbn [u_rows with_rows]. rewrite nth_error_upd by lia.
          destruct (Nat.eqb_spec (N.to_nat k) (N.to_nat x)) as [E|]; [|reflexivity]. exfalso. apply Nx. lia. }
        split.
        -- intros Fi. destruct (Ft Fi) as [(rows & Es & Ln & Rw) Al]. split.
           ++ exists rows. split; [exact Es|]. unfold s1 in Ln. cbn [u_rows with_rows] in Ln. rewrite upd_length in Ln. split; [assumption|].
              intros x Hx. rewrite (Rw x Hx). cbn [existsb]. change (u_linked s1) with (u_linked s).
              destruct (N.eqb_spec x k) as [->|Nx]; cbn [orb].
              ** assert (Ex : existsb (N.eqb k) keys = false).
                 { destruct (existsb (N.eqb k) keys) eqn:Ex; [|reflexivity]. apply existsb_In in Ex. contradiction. }
                 rewrite Ex, Fk, Er. cbn [andb]. unfold s1. cbn [u_rows with_rows]. rewrite nth_error_upd by lia. now rewrite Nat.eqb_refl.
              ** destruct (existsb (N.eqb x) keys && flag (u_linked s) x); [|now apply Other].
                 unfold s1. rewrite new_row_ext; [reflexivity|]. now apply Other.
           ++ intros x [<-|Hx]; [eauto|]. destruct (Al x Hx) as (r' & E). exists r'. rewrite <- E. symmetry. unfold s1. apply new_row_ext.
              apply Other. intros ->. contradiction.
        -- intros Fi. destruct (Ff Fi) as (x & row & z & Hx & Rx & Rx' & Lz & Sk). exists x, row, z. split; [now right|]. split; [|auto].
           unfold row_of in *. rewrite Other in Rx; [assumption|]. intros ->. contradiction.
      * destruct (IH s I ND' (fun x Hx => Bk x (or_intror Hx))) as (fine & s' & -> & I' & E' & Ft & Ff).
        exists fine, s'. split; [reflexivity|]. split; [assumption|]. split; [assumption|]. split.
        -- intros Fi. destruct (Ft Fi) as [(rows & Es & Ln & Rw) Al]. split.
           ++ exists rows. split; [exact Es|]. split; [assumption|]. intros x Hx. rewrite (Rw x Hx). cbn [existsb].
              destruct (N.eqb_spec x k) as [->|Nx]; cbn [orb]; [|reflexivity]. rewrite Fk, !andb_false_r. reflexivity.
           ++ intros x [<-|Hx]; [eauto|auto].
        -- intros Fi. destruct (Ff Fi) as (x & row & z & Hx & A). exists x, row, z. split; [now right|assumption].
Qed.

(** ** Insertion *)
Lemma reverse_edges_spec node k : forall ids m, NoDup ids -> (forall x, In x ids -> x <> kInvalidId) ->
  forall x, nfind (reverse_edges m (ids ++ repeat kInvalidId k) node) x =
    if existsb (N.eqb x) ids then Some (match nfind m x with Some l => l ++ [node] | None => [node] end) else nfind m x.
Proof.
  assert (Pad : forall k m, reverse_edges m (repeat kInvalidId k) node = m).
  { clear. induction k as [|k IH]; intros m; cbn [repeat reverse_edges]; [reflexivity|]. now rewrite N.eqb_refl. }
  induction ids as [|y ids IH]; intros m ND Ni x; cbn [app reverse_edges existsb].
  - now rewrite Pad.
  - inversion ND as [|? ? Ny ND']; subst. destruct (N.eqb_spec y kInvalidId) as [E|_]; [exfalso; apply (Ni y); [now left|assumption]|].
    rewrite IH; [|assumption|intros z Hz; apply Ni; now right]. rewrite push_find. destruct (N.eqb_spec x y) as [->|Nx]; cbn [orb].
    + destruct (existsb (N.eqb y) ids) eqn:Ex; [apply existsb_In in Ex; contradiction|reflexivity].
    + reflexivity.
Qed.
Lemma reverse_edges_NoDup node : forall l m, NoDup (map fst m) -> NoDup (map fst (reverse_edges m l node)).
Proof. induction l as [|x l IH]; intros m H; cbn [reverse_edges]; [assumption|]. apply IH. destruct (N.eqb x kInvalidId); [assumption|now apply push_NoDup]. Qed.
Lemma reverse_edges_key node x : forall l m, In x (map fst m) -> In x (map fst (reverse_edges m l node)).
Proof. induction l as [|y l IH]; intros m H; cbn [reverse_edges]; [assumption|]. apply IH. destruct (N.eqb y kInvalidId); [assumption|]. rewrite push_keys. now left. Qed.

Lemma flag_app l b x : flag (l ++ [b]) x = if N.ltb x (N.of_nat (length l)) then flag l x else if N.eqb x (N.of_nat (length l)) then b else false.
Proof.
  unfold flag. destruct (N.ltb_spec x (N.of_nat (length l))); [rewrite app_nth1 by lia; reflexivity|]. rewrite app_nth2 by lia.
  destruct (N.eqb_spec x (N.of_nat (length l))) as [->|]; [now rewrite Nat2N.id, Nat.sub_diag|].
  destruct (N.to_nat x - length l) as [|[|]] eqn:E; cbn; try reflexivity; lia.
Qed.
Lemma overlay_ok_grow n m o : overlay_ok n o -> (n <= m)%N -> N.to_nat m <= length (ov_levels o) -> N.to_nat m <= length (ov_lists o) -> overlay_ok m o.
Proof.
  intros [A B C D E] H L1 L2. constructor; auto; [lia|]. intros level x y lx Hl Ex Hle Oe. destruct (E level x y lx Hl Ex Hle Oe) as [Y Z].
  split; [lia|assumption].
Qed.
(** The state after both storages took the new node. *)
Definition grown (s : state) (found : list N) (v : vec) : state :=
  {| u_rows := u_rows s ++ [found]; u_linked := u_linked s ++ [true]; u_vecs := u_vecs s ++ [v]; u_live := u_live s ++ [true]; u_items := (u_items s + 1)%N;
     u_removed := u_removed s; u_second := u_second s; u_inserted := u_inserted s |}.
Lemma grown_size s found v : size (grown s found v) = size s + 1.
Proof. unfold size, grown. cbn [u_vecs]. rewrite app_length. reflexivity. Qed.
Lemma grown_row s found v x row : length (u_rows s) = size s -> (x < N.of_nat (size s))%N -> row_of (grown s found v) x row <-> row_of s x row.
Proof. intros L H. unfold row_of, grown. cbn [u_rows]. rewrite nth_error_app1 by lia. reflexivity. Qed.
Lemma grown_stored c s found v : inv c s -> stored s v (grown s found v).
Proof.
  intros I. unfold stored, keeps_vectors, live, grown, size. cbn [u_vecs u_live]. rewrite app_length. cbn [length]. split; [split|split; [reflexivity|split; [|split]]].
  - intros id w E. rewrite nth_error_app1; [assumption|]. apply nth_error_Some. congruence.
  - intros id Hid. rewrite flag_app, (iv_live _ _ I). unfold size in *. destruct (N.ltb_spec id (N.of_nat (length (u_vecs s)))); [reflexivity|lia].
  - rewrite nth_error_app2, Nat.sub_diag by lia. reflexivity.
  - lia.
  - rewrite flag_app, (iv_live _ _ I). unfold size. destruct (N.ltb_spec (N.of_nat (length (u_vecs s))) (N.of_nat (length (u_vecs s)))); [lia|]. now rewrite N.eqb_refl.
Qed.
Lemma grown_inv c s found v : inv c s -> size s < k_cap c -> k_max c <= length found ->
  (forall y, In y (ids_in (k_max c) found) -> (y < N.of_nat (size s))%N) -> inv c (grown s found v).
Proof.
  intros I Hc Lf Bf. pose proof (grown_size s found v) as GS. destruct I as [i1 i2 i3 i4 i5 i6 i7 i8 i9 i10 i11 i12 i13 i14].
  constructor; rewrite ?GS; cbn [u_rows grown u_linked u_live u_items u_second u_inserted u_removed]; auto.
  - lia.
  - rewrite app_length. cbn. lia.
  - intros row Hr. apply in_app_or in Hr as [Hr|[<-|[]]]; auto.
  - intros row y Hr Hy. apply in_app_or in Hr as [Hr|[<-|[]]]; [specialize (i6 row y Hr Hy); lia|]. specialize (Bf y Hy). lia.
  - rewrite app_length. cbn. lia.
  - rewrite app_length. cbn. lia.
  - lia.
  - intros x l y E Hy. specialize (i10 x l y E Hy). lia.
  - intros x l y E. destruct (i12 x l y E) as [A B]. split; [lia|]. intros Hy. specialize (B Hy). lia.
  - destruct (k_overlay c) as [o|].
    + destruct i13 as (A & B & C). split; [|auto]. apply (overlay_ok_grow (N.of_nat (size s))); auto; lia.
    + intros x Hx. specialize (i13 x Hx). lia.
  - intros z Hz. destruct (i14 z Hz) as (A & B & C). split; [lia|]. split.
    + rewrite flag_app, i7. destruct (N.ltb_spec z (N.of_nat (size s))); [assumption|lia].
    + intros H. destruct (C H) as (row & Er & X). exists row. split; [|assumption]. now apply grown_row.
Qed.
(** Clearing a validity bit of the graph *)
Lemma inv_unlink c s id : inv c s -> inv c (graph_remove s id).
Proof.
  intros [i1 i2 i3 i4 i5 i6 i7 i8 i9 i10 i11 i12 i13 i14]. unfold graph_remove. constructor; cbn [u_rows u_linked u_live u_items u_second u_inserted u_removed]; auto.
  - now rewrite upd_length.
  - intros z Hz. destruct (i14 z Hz) as (A & B & C). split; [assumption|]. split; [|exact C]. unfold flag in *.
    destruct (Nat.lt_ge_cases (N.to_nat id) (length (u_linked s))); [rewrite nth_upd by assumption; now destruct (Nat.eqb (N.to_nat id) (N.to_nat z))|now rewrite upd_out].
Qed.
Lemma inv_with_inserted c s m : inv c s -> NoDup (map fst m) ->
  (forall x l y, nfind m x = Some l -> (x < N.of_nat (size s))%N /\ (In y l -> (y < N.of_nat (size s))%N)) -> inv c (with_inserted s m).
Proof. intros [i1 i2 i3 i4 i5 i6 i7 i8 i9 i10 i11 i12 i13 i14] A B. constructor; auto. Qed.
(** An earlier update failed and will fail again. *)
Definition stuck (c : conf) (s : state) : Prop :=
  exists k row z, In k (map fst (u_inserted s)) /\ row_of s k row /\ listed (N.of_nat (k_max c)) row z /\ sink s z.
Definition pending_ok (c : conf) (s : state) : Prop := u_inserted s = [] \/ stuck c s.

Lemma insert_spec fuel c h s v ef sc : inv c s -> pending_ok c s -> order_ok h -> enough c fuel ->
  exists out s', insert_and_update fuel c h s v ef sc = Done (Ok (out, s')) /\ inv c s' /\ pending_ok c s' /\ insert_answer c s v ef sc out s'
    /\ (stuck c s -> stuck c s' /\ forall id, out <> Inserted id) /\ (out = Raised -> sc = Accepts -> k_max c <= ef -> stuck c s')
    /\ (forall id, out = Inserted id -> exists u hits, ranked (fun x => (x < N.of_nat (size s))%N) (computer c s v) (k_max c) hits
          /\ settled (leads_to (graph_of c s) (nfind (u_second s))) (start_of c u) (computer c s v) (k_max c) hits
          /\ rows_after c s hits s' /\ u_inserted s' = [] /\ u_removed s' = u_removed s /\ u_second s' = u_second s
          /\ u_linked s' = u_linked s ++ [true]).
Proof.
  intros I Pk Ho F. unfold insert_and_update.
  assert (Same : forall out, (out = Full /\ size s = k_cap c \/ out = Raised /\ (sc = Duplicate \/ ef < k_max c)) ->
     exists out' s', Done (Ok (out, s)) = Done (Ok (out', s')) /\ inv c s' /\ pending_ok c s' /\ insert_answer c s v ef sc out' s'
    /\ (stuck c s -> stuck c s' /\ forall id, out' <> Inserted id) /\ (out' = Raised -> sc = Accepts -> k_max c <= ef -> stuck c s')
    /\ (forall id, out' = Inserted id -> exists u hits, ranked (fun x => (x < N.of_nat (size s))%N) (computer c s v) (k_max c) hits
          /\ settled (leads_to (graph_of c s) (nfind (u_second s))) (start_of c u) (computer c s v) (k_max c) hits
          /\ rows_after c s hits s' /\ u_inserted s' = [] /\ u_removed s' = u_removed s /\ u_second s' = u_second s
          /\ u_linked s' = u_linked s ++ [true])).
  { intros out Ho'. exists out, s. split; [reflexivity|]. split; [assumption|]. split; [assumption|].
    destruct Ho' as [[-> E]|[-> E]]; (split; [cbn; auto|]); (split; [intros St; split; [assumption|discriminate]|]); (split; [|discriminate]).
    - discriminate.
    - intros _ Ea He. exfalso. destruct E as [E|E]; [congruence|lia]. }
  assert (Main : sc <> Duplicate -> exists out s',
    match search_solo fuel (graph_of c s) (nfind (u_second s)) (u_items s) (computer c s v) (k_max c) ef with
    | OutOfFuel => OutOfFuel
    | Done Throws => Done (Ok (Raised, s))
    | Done OutOfBounds => Done OutOfBounds
    | Done InvalidBool => Done InvalidBool
    | Done (Ok (results, _)) =>
        if Nat.leb (k_cap c) (length (u_rows s)) then Done (Ok (Full, s))
        else
          let found := map fst results in
          let node := N.of_nat (length (u_rows s)) in
          let (id, s1) := space_insert c (graph_insert s found) v in
          match sc with
          | Fails => Done (Ok (Raised, graph_remove s1 node))
          | _ =>
            if negb (N.eqb id node)
            then Done (Ok (Raised, graph_remove (if N.eqb id kInvalidId then s1 else space_remove s1 id) node))
            else
              let s2 := with_inserted s1 (reverse_edges (u_inserted s1) found node) in
              Done (let* (fine, s3) := update_all c h s2 (o_keys h (map fst (u_inserted s2))) in
                    Ok (if (fine : bool) then (Inserted node, with_inserted s3 []) else (Raised, s3)))
          end
    end = Done (Ok (out, s')) /\ inv c s' /\ pending_ok c s' /\ insert_answer c s v ef sc out s'
    /\ (stuck c s -> stuck c s' /\ forall id, out <> Inserted id) /\ (out = Raised -> sc = Accepts -> k_max c <= ef -> stuck c s')
    /\ (forall id, out = Inserted id -> exists u hits, ranked (fun x => (x < N.of_nat (size s))%N) (computer c s v) (k_max c) hits
          /\ settled (leads_to (graph_of c s) (nfind (u_second s))) (start_of c u) (computer c s v) (k_max c) hits
          /\ rows_after c s hits s' /\ u_inserted s' = [] /\ u_removed s' = u_removed s /\ u_second s' = u_second s
          /\ u_linked s' = u_linked s ++ [true])).
  { intros Nd. destruct (Nat.lt_ge_cases ef (k_max c)) as [Lt|Ge].
    { assert (E : search_solo fuel (graph_of c s) (nfind (u_second s)) (u_items s) (computer c s v) (k_max c) ef = Done Throws).
      { unfold search_solo, solo_pool. destruct (Nat.ltb_spec ef (k_max c)); [reflexivity|lia]. }
      rewrite E. apply Same. auto. }
    pose proof (iv_max _ _ I) as Mx.
    destruct (inv_search fuel c s (nfind (u_second s)) (computer c s v) (k_max c) ef I (iv_second _ _ I) F Ge ltac:(lia)) as (u & hits & e & -> & R & Se & _ & _).
    rewrite (iv_rows _ _ I). destruct (Nat.leb_spec (k_cap c) (size s)) as [Le|Lt].
    { apply Same. left. split; [reflexivity|]. pose proof (iv_cap _ _ I). lia. }
    unfold space_insert. change (u_vecs (graph_insert s (map fst (hits ++ repeat (kInvalidId, float_max) (k_max c - length hits))))) with (u_vecs s).
    fold (size s). destruct (Nat.leb_spec (k_cap c) (size s)) as [|_]; [lia|].
    set (found := map fst (hits ++ repeat (kInvalidId, float_max) (k_max c - length hits))).
    assert (Ef : found = map fst hits ++ repeat kInvalidId (k_max c - length hits)).
    { unfold found. rewrite map_app. f_equal. clear. induction (k_max c - length hits) as [|k IH]; cbn; congruence. }
    assert (Bh : forall y, In y (map fst hits) -> (y < N.of_nat (size s))%N).
    { intros y Hy. apply in_map_iff in Hy as ((id & d) & <- & Hy). apply (rk_true _ _ _ _ R id d Hy). }
    pose proof (iv_width _ _ I) as Wd.
    assert (Nh : forall y, In y (map fst hits) -> y <> kInvalidId).
    { intros y Hy Ei. specialize (Bh y Hy). unfold kInvalidId in Ei. change (2 ^ 31)%N with 2147483648%N in Wd. lia. }
    assert (Lf : length found = k_max c).
    { rewrite Ef, app_length, map_length, repeat_length. pose proof (rk_count _ _ _ _ R). lia. }
    assert (Bf : forall y, In y (ids_in (k_max c) found) -> (y < N.of_nat (size s))%N).
    { intros y Hy. unfold ids_in in Hy. rewrite firstn_all2 in Hy by lia. rewrite Ef, until_app_pad in Hy by assumption. auto. }
    cbv zeta.
    match goal with |- context [graph_remove ?x _] => change x with (grown s found v) end.
    match goal with |- context [with_inserted ?x _] => change x with (grown s found v) end.
    pose proof (grown_inv c s found v I Lt ltac:(lia) Bf) as I1. set (s1 := grown s found v) in *.
    assert (GS : size s1 = size s + 1) by apply grown_size.
    assert (St1 : stuck c s -> stuck c s1).
    { intros (k & row & z & A & B & C & D). exists k, row, z. split; [exact A|]. split; [|auto]. apply grown_row; [apply I| |assumption].
      unfold row_of in B. assert (N.to_nat k < length (u_rows s)) by (apply nth_error_Some; congruence). rewrite (iv_rows _ _ I) in H. lia. }
    assert (Pk1 : pending_ok c s1) by (destruct Pk as [Pk|Pk]; [left; exact Pk|right; auto]).
    destruct sc; [congruence| |].
    2:{ exists Raised, (graph_remove s1 (N.of_nat (size s))). split; [reflexivity|]. split; [now apply inv_unlink|]. split; [exact Pk1|].
        split; [right; split; [exact (grown_stored c s found v I)|now left]|]. split; [intros Sk; split; [exact (St1 Sk)|discriminate]|]. split; discriminate. }
    rewrite N.eqb_refl. cbn [negb]. set (s2 := with_inserted s1 (reverse_edges (u_inserted s1) found (N.of_nat (size s)))).
    assert (NDh : NoDup (map fst hits)) by apply R.
    assert (Fi : forall x, nfind (u_inserted s2) x = if existsb (N.eqb x) (map fst hits)
       then Some (match nfind (u_inserted s) x with Some l => l ++ [N.of_nat (size s)] | None => [N.of_nat (size s)] end) else nfind (u_inserted s) x).
    { intros x. unfold s2. cbn [u_inserted with_inserted]. rewrite Ef. now apply reverse_edges_spec. }
    assert (I2 : inv c s2).
    { apply inv_with_inserted; [assumption| |].
      - apply reverse_edges_NoDup. apply I.
      - intros x l y E. change (nfind (u_inserted s2) x = Some l) in E. rewrite Fi in E. rewrite GS.
        destruct (existsb (N.eqb x) (map fst hits)) eqn:Ex.
        + apply existsb_In in Ex. split; [specialize (Bh x Ex); lia|]. intros Hy. injection E as <-. destruct (nfind (u_inserted s) x) as [l'|] eqn:El.
          * apply in_app_or in Hy as [Hy|[<-|[]]]; [|lia]. destruct (iv_ins _ _ I x l' y El) as [_ B]. specialize (B Hy). lia.
          * destruct Hy as [<-|[]]. lia.
        + destruct (iv_ins _ _ I x l y E) as [A B]. split; [lia|]. intros Hy. specialize (B Hy). lia. }
    destruct Ho as [HK HC].
    assert (NDk : NoDup (o_keys h (map fst (u_inserted s2)))) by (apply (Permutation_NoDup (Permutation_sym (HK _))); apply I2).
    assert (Ink : forall x, In x (o_keys h (map fst (u_inserted s2))) <-> In x (map fst (u_inserted s2))).
    { intros x. split; intros H; [now apply (Permutation_in _ (HK _))|now apply (Permutation_in _ (Permutation_sym (HK _)))]. }
    assert (Bk : forall k, In k (o_keys h (map fst (u_inserted s2))) -> (k < N.of_nat (size s2))%N).
    { intros k Hk. apply Ink in Hk. destruct (nfind (u_inserted s2) k) as [l|] eqn:El; [|apply nfind_None in El; contradiction].
      apply (iv_ins _ _ I2 k l 0%N El). }
    destruct (update_all_spec c h (conj HK HC) _ s2 I2 NDk Bk) as (fine & s3 & -> & I3 & (rows3 & E3) & Ft & Ff). cbn [bind].
    assert (Sto : stored s v s3) by (rewrite E3; exact (grown_stored c s found v I)).
    assert (StF : stuck c s -> fine = false).
    { intros Sk. destruct fine; [|reflexivity]. exfalso. destruct (Ft eq_refl) as [_ Al].
      destruct (St1 Sk) as (k & row & z & A & B & C & D).
      destruct (Al k) as (r & Er).
      { apply Ink. unfold s2. cbn [u_inserted with_inserted]. apply reverse_edges_key. exact A. }
      destruct (new_row_spec c h s2 k I2 (conj HK HC)) as [[_ En]|(r2 & dist & En & _ & _ & NS)].
      { apply Bk. apply Ink. unfold s2. cbn [u_inserted with_inserted]. apply reverse_edges_key. exact A. }
      { congruence. }
      exact (NS row z B C D). }
    destruct fine.
    - assert (Clean : u_inserted s = []) by (destruct Pk as [Pk|Pk]; [assumption|specialize (StF Pk); discriminate StF]).
      destruct (Ft eq_refl) as [(rows & Es & Ln & Rw) Al].
      exists (Inserted (N.of_nat (size s))), (with_inserted s3 []). split; [reflexivity|]. split.
      { apply inv_with_inserted; [assumption|constructor|intros x l y E; discriminate E]. }
      split; [now left|]. split; [split; [assumption|split; [reflexivity|exact Sto]]|]. split; [intros Sk; specialize (StF Sk); discriminate StF|]. split; [discriminate|].
      intros id _. exists u, hits. split; [assumption|]. split; [assumption|].
      assert (L2 : length (u_rows s2) = size s + 1) by (rewrite <- GS; apply I2).
      assert (Key : forall x, existsb (N.eqb x) (o_keys h (map fst (u_inserted s2))) = existsb (N.eqb x) (map fst hits)).
      { intros x. apply eq_true_iff_eq. rewrite !existsb_In, Ink. specialize (Fi x). rewrite Clean in Fi. cbn [nfind] in Fi.
        destruct (existsb (N.eqb x) (map fst hits)) eqn:Ex.
        - apply existsb_In in Ex. split; [auto|]. intros _. eapply nfind_Some; eauto.
        - apply nfind_None in Fi. split; [contradiction|]. intros H. apply existsb_In in H. congruence. }
      assert (Lk2 : forall x, (x < N.of_nat (size s))%N -> flag (u_linked s2) x = flag (u_linked s) x).
      { intros x Hx. unfold s2, s1, grown. cbn [u_linked with_inserted]. rewrite flag_app, (iv_linked _ _ I).
        destruct (N.ltb_spec x (N.of_nat (size s))); [reflexivity|lia]. }
      split; [split|].
      + exists found. split; [|assumption]. unfold row_of. rewrite Es. cbn [u_rows with_inserted with_rows]. rewrite Rw by lia.
        rewrite Key. assert (Ex : existsb (N.eqb (N.of_nat (size s))) (map fst hits) = false).
        { destruct (existsb (N.eqb (N.of_nat (size s))) (map fst hits)) eqn:Ex; [|reflexivity]. apply existsb_In in Ex. specialize (Bh _ Ex). lia. }
        rewrite Ex. cbn [andb]. unfold s2, s1, grown. cbn [u_rows with_inserted]. rewrite nth_error_app2 by (rewrite (iv_rows _ _ I); lia).
        rewrite (iv_rows _ _ I), Nat2N.id, Nat.sub_diag. reflexivity.
      + intros x Hx. assert (Rx : nth_error (u_rows (with_inserted s3 [])) (N.to_nat x) = if existsb (N.eqb x) (map fst hits) && flag (u_linked s) x
           then match new_row c h s2 x with Ok r => Some r | _ => None end else nth_error (u_rows s2) (N.to_nat x)).
        { rewrite Es. cbn [u_rows with_inserted with_rows]. rewrite Rw by lia. now rewrite Key, Lk2. }
        assert (R2 : forall row, row_of s2 x row <-> row_of s x row) by (intros row; apply grown_row; [apply I|assumption]).
        destruct (existsb (N.eqb x) (map fst hits) && flag (u_linked s) x) eqn:Ex.
        * apply andb_true_iff in Ex as [Ex _]. destruct (Al x) as (r & Er).
          { apply existsb_In. now rewrite Key. }
          destruct (new_row_spec c h s2 x I2 (conj HK HC)) as [[_ En]|(r2 & dist & En & Df & Cl & _)].
          { change (size s2) with (size s1). lia. } { congruence. }
          rewrite En in Er. injection Er as <-. exists dist, r2. split; [unfold row_of; rewrite Rx, En; reflexivity|]. split.
          -- rewrite Es. exact Df.
          -- destruct Cl as (hs & E1 & C1 & C2). exists hs. split; [assumption|].
             assert (MM : forall y, competes c s2 x y <-> candidate c s (N.of_nat (size s)) x y).
             { intros y. unfold competes, candidate. rewrite Fi, Ex, Clean. cbn [nfind]. split.
               - intros [(l & El & Hy)|(row & z & Er & H)]; [injection El as <-; destruct Hy as [<-|[]]; now left|].
                 right. exists row, z. split; [now apply R2|exact H].
               - intros [->|(row & z & Er & H)]; [left; eexists; split; [reflexivity|now left]|]. right. exists row, z. split; [now apply R2|exact H]. }
             split; [exact (ranked_iff _ _ _ _ _ MM C1)|exact (nearest_iff _ _ _ _ _ MM C2)].
        * intros row. rewrite <- R2. unfold row_of. rewrite Rx. reflexivity.
      + rewrite Es. auto.
    - destruct (Ff eq_refl) as (k & row & z & Hk & Rk & Rk' & Lz & Sk).
      assert (S3 : stuck c s3).
      { exists k, row, z. split; [rewrite E3; apply Ink; exact Hk|]. split; [assumption|]. split; [assumption|]. rewrite E3. exact Sk. }
      exists Raised, s3. split; [reflexivity|]. split; [assumption|]. split; [now right|]. split.
      { right. split; [assumption|]. right. exists z. exact Sk. }
      split; [intros _; split; [assumption|discriminate]|]. split; [auto|discriminate]. }
  destruct sc; [apply Same; auto|apply Main; discriminate|apply Main; discriminate].
Qed.

(** ** Removal *)
Lemma push_all_find node : forall l m k, nfind (fold_left (fun m v => push m node v) l m) k =
  if N.eqb k node then match l with [] => nfind m node | _ => Some (match nfind m node with Some o => o ++ l | None => l end) end else nfind m k.
Proof.
  induction l as [|x l IH]; intros m k; cbn [fold_left]; [now destruct (N.eqb_spec k node) as [->|]|].
  rewrite IH, !push_find, N.eqb_refl. destruct (N.eqb_spec k node) as [->|]; [|reflexivity].
  destruct l; [reflexivity|]. destruct (nfind m node); [now rewrite <- app_assoc|reflexivity].
Qed.
Lemma flag_upd l i x : flag (upd l (N.to_nat i) false) x = if N.eqb x i then false else flag l x.
Proof.
  unfold flag. destruct (Nat.lt_ge_cases (N.to_nat i) (length l)) as [L|L].
  - rewrite nth_upd by assumption. destruct (Nat.eqb_spec (N.to_nat i) (N.to_nat x)), (N.eqb_spec x i); try reflexivity; lia.
  - rewrite upd_out by assumption. destruct (N.eqb_spec x i) as [->|]; [now rewrite nth_overflow|reflexivity].
Qed.
Lemma remove_spec c s id : inv c s -> pending_ok c s -> N.to_nat id < size s ->
  exists s', remove_node c s id = Ok (Removed, s') /\ inv c s' /\ pending_ok c s' /\ (stuck c s -> stuck c s')
    /\ u_vecs s' = u_vecs s /\ u_rows s' = u_rows s
    /\ (forall x, flag (u_live s') x = if N.eqb x id then false else flag (u_live s) x).
Proof.
  intros I Pk Hid. unfold remove_node, aget. destruct (nth_error (u_rows s) (N.to_nat id)) as [row|] eqn:Er.
  2:{ apply nth_error_None in Er. rewrite (iv_rows _ _ I) in Er. lia. }
  pose proof (nth_error_In _ _ Er) as Ir. cbn [bind]. pose proof (record_row_list id row (k_max c) 0 (u_second s)) as RR.
  cbn [N.of_nat skipn Nat.add] in RR. rewrite RR by now apply (iv_full _ _ I). clear RR. cbn [bind]. change (until (firstn (k_max c) row)) with (ids_in (k_max c) row).
  eexists. split; [reflexivity|]. set (m := fold_left (fun m v => push m id v) (ids_in (k_max c) row) (u_second s)).
  match goal with |- inv c ?x /\ _ => set (s' := x) end.
  assert (SkP : forall z, sink s z -> sink s' z).
  { intros z [A B]. split; [cbn [s' u_removed]; apply add_In; now left|]. cbn [s' u_second]. unfold m. rewrite push_all_find.
    destruct (N.eqb_spec z id) as [->|]; [|assumption]. destruct (iv_removed _ _ I id A) as (_ & _ & C). destruct (C B) as (row' & Er' & X).
    unfold row_of in Er'. rewrite Er in Er'. injection Er' as <-. now rewrite X. }
  assert (StP : stuck c s -> stuck c s').
  { intros (k & row' & z & A & B & C & D). exists k, row', z. split; [exact A|]. split; [exact B|]. split; [exact C|auto]. }
  split; [|split; [destruct Pk as [Pk|Pk]; [left; exact Pk|right; auto]|split; [exact StP|split; [reflexivity|split; [reflexivity|]]]]].
  2:{ intros x. cbn [s' u_live]. apply flag_upd. }
  destruct I as [i1 i2 i3 i4 i5 i6 i7 i8 i9 i10 i11 i12 i13 i14]. constructor; cbn [s' u_rows u_linked u_live u_items u_second u_inserted u_removed size u_vecs]; auto.
  - now rewrite upd_length.
  - now rewrite upd_length.
  - intros x l y E Hy. unfold m in E. rewrite push_all_find in E. destruct (N.eqb_spec x id) as [->|]; [|eapply i10; eauto].
    destruct (ids_in (k_max c) row) as [|a r] eqn:Ea; [eapply i10; eauto|]. injection E as <-.
    destruct (nfind (u_second s) id) as [o|] eqn:Eo; [apply in_app_or in Hy as [Hy|Hy]; [eapply i10; eauto|]|]; apply (i6 row); auto; now rewrite Ea.
  - intros z Hz. apply add_In in Hz. rewrite flag_upd. unfold row_of. cbn [u_rows]. destruct (N.eqb_spec z id) as [->|Nz].
    + split; [change (size s') with (size s); lia|]. split; [reflexivity|]. unfold m. rewrite push_all_find, N.eqb_refl. intros H. exists row. split; [assumption|].
      destruct (ids_in (k_max c) row) as [|a r]; [reflexivity|discriminate H].
    + destruct Hz as [Hz|Hz]; [|contradiction]. destruct (i14 z Hz) as (A & B & C). split; [exact A|]. split; [assumption|].
      unfold m. rewrite push_all_find. destruct (N.eqb_spec z id) as [|_]; [contradiction|]. exact C.
Qed.

(** ** Histories *)
Lemma step_spec fuel c s o : inv c s -> pending_ok c s -> allowed s o -> enough c fuel ->
  exists out s', step fuel c s o = Done (Ok (out, s')) /\ inv c s' /\ pending_ok c s' /\ (stuck c s -> stuck c s' /\ forall id, out <> Inserted id).
Proof.
  intros I P A F. destruct o as [v ef sc h|id]; cbn [step allowed] in *.
  - destruct (insert_spec fuel c h s v ef sc I P A F) as (out & s' & E & I' & P' & _ & St & _). exists out, s'. auto.
  - destruct (remove_spec c s id I P A) as (s' & -> & I' & P' & St & _). exists Removed, s'. split; [reflexivity|]. split; [assumption|]. split; [assumption|].
    intros Sk. split; [auto|discriminate].
Qed.
Lemma reached_inv fuel c s0 : built c s0 -> enough c fuel -> forall h s, reached fuel c s0 h s -> inv c s /\ pending_ok c s.
Proof.
  intros B F h s R. induction R as [|h s o out s' R IH A E].
  - split; [now apply built_inv|]. left. apply (bu_context _ _ B).
  - destruct IH as [I P]. destruct (step_spec fuel c s o I P A F) as (out' & s'' & E' & I' & P' & _). rewrite E in E'. injection E' as -> ->. auto.
Qed.
