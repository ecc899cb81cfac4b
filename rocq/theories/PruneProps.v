(** Property C29: robust prune returns a valid adjacency list. *)
From Coq Require Import Permutation Sorting.Sorted.
From Verif Require Import PruneModel PruneSpec PruneProofs.

(** Pruning ends: 489 steps of the ramp suffice for every legal alpha. *)
Theorem prune_terminates : forall fuel dist location pool alpha degree maxc,
  489 <= fuel -> alpha_ok alpha -> exists r, prune_neighbors fuel dist location pool alpha degree maxc = Some r.
Proof.
  intros fuel dist location pool alpha degree maxc Hf [_ A]. unfold prune_neighbors, occlude_list.
  destruct pool as [|c pool]; [eauto|]. destruct (std_sort (c :: pool)) as [|s l]; [eauto|].
  destruct (ramp_terminates dist location alpha degree A (if Nat.ltb maxc (length (s :: l)) then firstn maxc (s :: l) else s :: l) fuel 0
    (repeat fzero (length (if Nat.ltb maxc (length (s :: l)) then firstn maxc (s :: l) else s :: l))) []) as [r [E|E]]; [lia| |lia].
  exists r. exact E.
Qed.
Print Assumptions prune_terminates.

(** At most [degree] distinct candidates of the pool. *)
Theorem prune_result_valid : forall fuel dist location pool alpha degree maxc r,
  NoDup (map c_id pool) -> (forall c, In c pool -> not_nan (c_dist c)) -> alpha_ok alpha ->
  prune_neighbors fuel dist location pool alpha degree maxc = Some r ->
  length r <= degree /\ NoDup r /\ incl r (map c_id pool) /\ ~ In location r.
Proof.
  intros fuel dist location pool alpha degree maxc r ND NN A E.
  destruct pool as [|c0 pool0] eqn:Ep.
  { injection E as <-. split; [apply Nat.le_0_l|]. split; [constructor|]. split; [intros x []|intros []]. }
  rewrite <- Ep in *. destruct (prune_result fuel dist location pool alpha degree maxc r ND NN A) as (P & fs & (I & N & _ & L & _) & -> & _); auto; [congruence|].
  assert (PI : incl P pool).
  { intros x Hx. apply (Permutation_in _ (Permutation_sym (sort_perm pool))). rewrite <- (firstn_skipn maxc (std_sort pool)). apply in_or_app. left. auto. }
  split; [assumption|]. split; [|split].
  - unfold ids. assert (NF : NoDup (filter (fun c => negb (N.eqb (c_id c) location)) P)) by now apply NoDup_filter.
    assert (FI : incl (filter (fun c => negb (N.eqb (c_id c) location)) P) pool) by (intros x Hx; apply filter_In in Hx; apply PI; tauto).
    clear - NF FI ND. induction NF as [|x l Hx NF IH]; cbn; constructor.
    + intros H. apply in_map_iff in H as (y & Ey & Hy).
      assert (x = y); [|congruence]. assert (Ix : In x pool) by (apply FI; now left). assert (Iy : In y pool) by (apply FI; now right).
      clear - ND Ix Iy Ey. induction pool as [|z pool IH]; [destruct Ix|]. inversion ND as [|? ? N1 N2]; subst.
      destruct Ix as [->|Ix], Iy as [->|Iy]; auto; exfalso; apply N1; [rewrite <- Ey|rewrite Ey]; now apply in_map.
    + apply IH. intros y Hy. apply FI. now right.
  - intros x Hx. unfold ids in Hx. apply in_map_iff in Hx as (y & <- & Hy). apply filter_In in Hy. apply in_map, PI. tauto.
  - intros Hx. unfold ids in Hx. apply in_map_iff in Hx as (y & Ey & Hy). apply filter_In in Hy as [_ Hy]. rewrite Ey, N.eqb_refl in Hy. discriminate.
Qed.
Print Assumptions prune_result_valid.

(** The closest candidate is kept, in first place. *)
Theorem prune_keeps_closest : forall fuel dist location pool alpha degree maxc r c,
  pool_ok location pool -> alpha_ok alpha -> 0 < degree -> 0 < maxc ->
  prune_neighbors fuel dist location pool alpha degree maxc = Some r ->
  In c pool -> (forall k, In k pool -> k = c \/ closer c k) -> hd_error r = Some (c_id c).
Proof.
  intros fuel dist location pool alpha degree maxc r c (ND & NL & NN) A Hd Hm E Hc Min.
  destruct (prune_result fuel dist location pool alpha degree maxc r ND NN A) as (P & fs & (I & _ & _ & _ & _) & -> & _ & H); auto; [intros ->; destruct Hc|].
  pose proof (sort_perm pool) as PM. pose proof (sort_sorted pool ND NN) as S.
  destruct (std_sort pool) as [|s l]; [apply Permutation_sym, Permutation_nil in PM; subst; destruct Hc|].
  destruct maxc as [|maxc]; [lia|]. cbn [firstn] in H. specialize (H Hd).
  assert (s = c).
  { destruct (Min s) as [|C]; [apply (Permutation_in _ (Permutation_sym PM)); now left|assumption|].
    apply (Permutation_in _ PM) in Hc as [Hc|Hc]; [assumption|]. exfalso. inversion S as [|? ? _ F]; subst. rewrite Forall_forall in F.
    apply (closer_irrefl c). eapply closer_trans; eauto. }
  subst s. destruct P as [|p P]; [discriminate|]. injection H as ->. unfold ids. cbn [filter].
  destruct (N.eqb_spec (c_id c) location) as [El|El]; [|reflexivity]. exfalso. apply NL. rewrite <- El. now apply in_map.
Qed.
Print Assumptions prune_keeps_closest.

(** A candidate is dropped only if the list is full, if [maxc] candidates are
    closer, or if a closer kept candidate occludes it at the last level. *)
Theorem prune_drops_only_occluded : forall fuel dist location pool alpha degree maxc r c,
  pool_ok location pool -> alpha_ok alpha ->
  prune_neighbors fuel dist location pool alpha degree maxc = Some r ->
  In c pool -> ~ In (c_id c) r ->
  length r = degree
  \/ (exists l, NoDup l /\ incl l pool /\ length l = maxc /\ forall k, In k l -> closer k c)
  \/ (exists k lv, In k pool /\ In (c_id k) r /\ closer k c /\ last_level alpha lv /\ occludes dist lv k c).
Proof.
  intros fuel dist location pool alpha degree maxc r c (ND & NL & NN) A E Hc Hr.
  destruct (prune_result fuel dist location pool alpha degree maxc r ND NN A) as (P & fs & (I & N & _ & L & F) & -> & D & _); auto; [intros ->; destruct Hc|].
  pose proof (sort_perm pool) as PM. pose proof (sort_sorted pool ND NN) as S. set (pool1 := firstn maxc (std_sort pool)) in *.
  assert (P1 : incl pool1 pool).
  { intros x Hx. apply (Permutation_in _ (Permutation_sym PM)). rewrite <- (firstn_skipn maxc (std_sort pool)). apply in_or_app. now left. }
  assert (RI : ids location P = map c_id P).
  { apply ids_all. intros k Hk Ek. apply NL. rewrite <- Ek. apply in_map. auto. }
  rewrite RI in *. pose proof Hc as Hc'. apply (Permutation_in _ PM) in Hc. rewrite <- (firstn_skipn maxc (std_sort pool)) in Hc. apply in_app_or in Hc as [Hc|Hc].
  - destruct D as [D|(lv & Lv & D)]; [left; lia|]. right. right.
    assert (NP : ~ In c P) by (intros X; apply Hr; now apply in_map).
    destruct (forall2_in _ _ _ c F Hc) as (f & Hf & (Enn & _ & Ew & _)).
    pose proof (forall2_combine _ _ _ _ _ D Hf) as [X|Lf]; [contradiction|].
    destruct (Ew NP) as [->|(k & Hk & Ck & W)].
    { destruct Lv as (n & -> & Ln & _). rewrite (level_nonneg alpha n) in Lf; [discriminate|apply A|assumption]. }
    exists k, lv. split; [auto|]. split; [now apply in_map|]. split; [assumption|]. split; [assumption|].
    destruct W as [(W & _)|W]; [left; exact W|right]. fold (ratio dist c k). now rewrite <- W.
  - right. left. exists pool1. split; [|split; [assumption|split]].
    + assert (NS : NoDup (std_sort pool)) by (apply (Permutation_NoDup PM); eapply NoDup_map_inv; exact ND).
      rewrite <- (firstn_skipn maxc (std_sort pool)) in NS. clear - NS. unfold pool1. induction (firstn maxc (std_sort pool)) as [|x l IH]; constructor.
      * inversion NS; subst. intros H. apply H1, in_or_app. now left.
      * inversion NS; subst. auto.
    + unfold pool1. rewrite firstn_length. destruct (Nat.le_ge_cases maxc (length (std_sort pool))); [lia|]. rewrite skipn_all2 in Hc by assumption. destruct Hc.
    + intros k Hk. eapply sorted_split; eauto.
Qed.
Print Assumptions prune_drops_only_occluded.

(** A kept candidate is not occluded, at level alpha, by a closer candidate
    that was kept before it. *)
Theorem prune_kept_not_occluded : forall fuel dist location pool alpha degree maxc r pre k mid c post,
  pool_ok location pool -> alpha_ok alpha ->
  prune_neighbors fuel dist location pool alpha degree maxc = Some r ->
  r = pre ++ c_id k :: mid ++ c_id c :: post -> In k pool -> In c pool -> closer k c -> ~ occludes dist alpha k c.
Proof.
  intros fuel dist location pool alpha degree maxc r pre k mid c post (ND & NL & NN) A E Er Hk Hc Ck.
  destruct (prune_result fuel dist location pool alpha degree maxc r ND NN A) as (P & fs & (I & _ & K & _ & _) & -> & _); auto; [intros ->; destruct Hc|].
  pose proof (sort_perm pool) as PM.
  assert (PI : incl P pool).
  { intros x Hx. apply (Permutation_in _ (Permutation_sym PM)). rewrite <- (firstn_skipn maxc (std_sort pool)). apply in_or_app. left. auto. }
  assert (Inj : forall x y, In x pool -> In y pool -> c_id x = c_id y -> x = y).
  { clear - ND. induction pool as [|z pool IH]; intros x y Ix Iy Exy; [destruct Ix|]. inversion ND as [|? ? N1 N2]; subst.
    destruct Ix as [->|Ix], Iy as [->|Iy]; auto; exfalso; apply N1; [rewrite Exy|rewrite <- Exy]; now apply in_map. }
  rewrite ids_all in Er by (intros x Hx Ex; apply NL; rewrite <- Ex; apply in_map; auto).
  apply map_eq_app in Er as (p1 & p2 & -> & _ & Er). apply map_eq_cons in Er as (k' & p3 & -> & Ek & Er).
  apply map_eq_app in Er as (p4 & p5 & -> & _ & Er). apply map_eq_cons in Er as (c' & p6 & -> & Ec & _).
  assert (k' = k) by (apply Inj; auto; apply PI, in_or_app; right; now left). subst k'.
  assert (c' = c) by (apply Inj; auto; apply PI, in_or_app; right; right; apply in_or_app; right; now left). subst c'.
  clear - K Ck. induction p1 as [|x p1 IH]; cbn [app] in K; inversion K as [|? ? F K']; subst; auto.
  rewrite Forall_forall in F. apply (F c); [|assumption]. apply in_or_app. right. now left.
Qed.
Print Assumptions prune_kept_not_occluded.

(** Five candidates on a line at 1, 1.5, 2, -3 and -3.5 around node 0: with
    alpha = 1.2 and degree 3, the closest (1) and -3 are kept, the others are
    occluded. *)
Definition ex_pos (i : N) : spec_float :=
  match i with
  | 1%N => S754_finite false 8388608 (-23) | 2%N => S754_finite false 12582912 (-23) | 3%N => S754_finite false 8388608 (-22)
  | 4%N => S754_finite true 12582912 (-22) | 5%N => S754_finite true 14680064 (-22) | _ => fzero end.
Definition ex_dist (i j : N) : spec_float := SFabs (SFsub 24 128 (ex_pos i) (ex_pos j)).
Definition ex_pool : list pcand := map (fun i => {| c_id := i; c_dist := ex_dist i 0 |}) [5; 3; 1; 4; 2]%N.
Example prune_example : pool_ok 0 ex_pool /\ alpha_ok f1_2 /\ prune_neighbors 489 ex_dist 0 ex_pool f1_2 3 10 = Some [1; 4]%N.
Proof.
  split; [|split; [split; vm_compute; reflexivity|vm_compute; reflexivity]]. split; [|split].
  - vm_compute. repeat constructor; cbn; intuition discriminate.
  - vm_compute. intuition discriminate.
  - intros c H. cbn in H. repeat destruct H as [<-|H]; try destruct H; vm_compute; discriminate.
Qed.

(** With an infinite alpha the level reaches infinity, where selected entries
    are no longer recognised, and the list repeats ids. *)
Theorem prune_infinite_alpha_refuted : exists r,
  prune_neighbors 500 ex_dist 0 ex_pool (S754_infinity false) 10 10 = Some r /\ ~ NoDup r.
Proof.
  eexists. split; [vm_compute; reflexivity|]. intros N. repeat (inversion N as [|? ? H N']; subst; clear N; rename N' into N; try (apply H; cbn; tauto)).
Qed.
Print Assumptions prune_infinite_alpha_refuted.
