(** Lemmas about the page cache. *)
From Coq Require Import Permutation.
From Verif Require Export CacheSpec.
Local Open Scope N_scope.

(** ** Association lists *)
Lemma lookup_in off e ps : lookup off ps = Some e -> In (off, e) ps.
Proof.
  induction ps as [|[k x] ps IH]; cbn; [discriminate|]. destruct (N.eqb_spec k off) as [->|]; [intros [= ->]; now left|]. intros H. right. auto.
Qed.
Lemma lookup_none off ps : lookup off ps = None <-> ~ In off (map fst ps).
Proof.
  induction ps as [|[k x] ps IH]; cbn; [tauto|]. destruct (N.eqb_spec k off) as [->|NE]; [split; [discriminate|intros H; exfalso; apply H; now left]|].
  rewrite IH. intuition.
Qed.
Lemma lookup_key off e ps : lookup off ps = Some e -> In off (map fst ps).
Proof. intros H. apply lookup_in in H. now apply (in_map fst) in H. Qed.
Lemma lookup_drop off x ps : lookup x (drop off ps) = if N.eqb x off then None else lookup x ps.
Proof.
  induction ps as [|[k e] ps IH]; cbn [drop filter lookup fst]; [now destruct (N.eqb x off)|]. fold (drop off ps).
  destruct (N.eqb_spec k off) as [->|NE]; cbn [negb lookup fst].
  - rewrite IH. destruct (N.eqb_spec x off) as [->|NE2]; [reflexivity|]. destruct (N.eqb_spec off x); [congruence|reflexivity].
  - rewrite IH. destruct (N.eqb_spec k x) as [->|]; [|reflexivity]. destruct (N.eqb_spec x off); [congruence|reflexivity].
Qed.
Lemma keys_replace off e ps : map fst (replace off e ps) = map fst ps.
Proof. unfold replace. rewrite map_map. apply map_ext. intros [k x]. cbn [fst]. destruct (N.eqb_spec k off) as [->|]; reflexivity. Qed.
Lemma lookup_replace off e ps x : lookup off ps <> None -> lookup x (replace off e ps) = if N.eqb x off then Some e else lookup x ps.
Proof.
  intros H. destruct (N.eqb_spec x off) as [->|NE].
  - revert H. induction ps as [|[k y] ps IH]; cbn; [congruence|]. destruct (N.eqb_spec k off) as [->|NE2]; cbn; [now rewrite N.eqb_refl|].
    destruct (N.eqb_spec k off); [congruence|auto].
  - clear H. induction ps as [|[k y] ps IH]; [reflexivity|]. cbn. destruct (N.eqb_spec k off) as [->|NE2]; cbn.
    + destruct (N.eqb_spec off x); [congruence|]. exact IH.
    + destruct (N.eqb k x); [reflexivity|exact IH].
Qed.
Lemma keys_drop off ps : map fst (drop off ps) = filter (fun x => negb (N.eqb x off)) (map fst ps).
Proof. induction ps as [|[k x] ps IH]; [reflexivity|]. cbn [drop filter map fst]. fold (drop off ps). destruct (N.eqb k off); cbn [negb map fst]; [exact IH|now rewrite IH]. Qed.
Lemma filter_out (x : N) l : ~ In x l -> filter (fun y => negb (N.eqb y x)) l = l.
Proof. induction l as [|a l IH]; intros H; [reflexivity|]. cbn. destruct (N.eqb_spec a x) as [->|]; [exfalso; apply H; now left|]. cbn. f_equal. apply IH. intros X. apply H. now right. Qed.
Lemma perm_filter (f : N -> bool) l1 l2 : Permutation l1 l2 -> Permutation (filter f l1) (filter f l2).
Proof.
  induction 1; cbn; auto.
  - destruct (f x); auto.
  - destruct (f y), (f x); auto. apply perm_swap.
  - eapply Permutation_trans; eauto.
Qed.
Lemma touch_perm off l keys : In off keys -> NoDup keys -> Permutation l keys -> Permutation (touch off l) keys.
Proof.
  intros H ND P. unfold touch. apply Permutation_in with (l' := l) in H as H2; [|now apply Permutation_sym].
  apply in_split in H2 as (l1 & l2 & ->). assert (NDl : NoDup (l1 ++ off :: l2)) by (eapply Permutation_NoDup; [apply Permutation_sym, P|exact ND]).
  apply NoDup_remove_2 in NDl. rewrite filter_app. cbn [filter]. rewrite N.eqb_refl. cbn [negb].
  rewrite !filter_out by (intros X; apply NDl, in_or_app; auto). eapply Permutation_trans; [apply Permutation_middle|exact P].
Qed.
Lemma back_split lru v : back lru = Ok v -> exists l, lru = l ++ [v] /\ removelast lru = l.
Proof.
  destruct lru as [|x r]; cbn [back]; [discriminate|]. intros [= <-]. exists (removelast (x :: r)). split; [|reflexivity].
  pose proof (@app_removelast_last N (x :: r) x ltac:(discriminate)) as E. etransitivity; [exact E|]. f_equal. f_equal.
  now destruct r.
Qed.

(** ** The invariant *)
Record shard_ok (k : io_conf) (s : N) (sd : shard) : Prop := {
  so_nd : NoDup (map fst (sd_pages sd));
  so_lru : Permutation (sd_lru sd) (map fst (sd_pages sd));
  so_cap : N.of_nat (length (sd_pages sd)) <= k_cap k;
  so_own : forall off, In off (map fst (sd_pages sd)) -> shard_of k off = s;
}.
Definition found (k : io_conf) (w : world) (off : N) : option entry := lookup off (sd_pages (w_shards w (shard_of k off))).
Record cinv (k : io_conf) (w : world) (m : memory) : Prop := {
  ci_shard : forall s, shard_ok k s (w_shards w s);
  ci_known : k_cap k <> 0 -> forall off, m off <> None;
  ci_cached : forall off p d, found k w off = Some (p, d) -> m off = Some p /\ (d = false -> w_disk w off = p);
  ci_disk : forall off p, found k w off = None -> m off = Some p -> w_disk w off = p;
  ci_fetch : forall t f, w_fetch w t = Some f -> ft_ver f <= w_ver w (ft_off f)
    /\ (ft_ver f = w_ver w (ft_off f) -> forall p, m (ft_off f) = Some p ->
        (forall q, found k w (ft_off f) <> Some (q, true)) /\ w_count w (ft_off f) = ft_count f /\ (forall b, ft_buf f = Some b -> b = p));
}.
(** Everything but the shards is the same. *)
Definition same_rest (w w' : world) : Prop :=
  w_disk w' = w_disk w /\ w_ver w' = w_ver w /\ w_count w' = w_count w /\ w_fetch w' = w_fetch w.

Lemma found_set k w s sd off : found k (set_shard w s sd) off = if N.eqb (shard_of k off) s then lookup off (sd_pages sd) else found k w off.
Proof. unfold found. cbn [set_shard w_shards]. now destruct (N.eqb (shard_of k off) s). Qed.
Lemma found_own k w m s off : cinv k w m -> lookup off (sd_pages (w_shards w s)) <> None -> shard_of k off = s.
Proof.
  intros I H. destruct (lookup off (sd_pages (w_shards w s))) eqn:E; [|congruence]. apply lookup_key in E. exact (so_own _ _ _ (ci_shard _ _ _ I s) off E).
Qed.
Lemma cap0_found k w m off : cinv k w m -> k_cap k = 0 -> found k w off = None.
Proof.
  intros I Z. unfold found. pose proof (so_cap _ _ _ (ci_shard _ _ _ I (shard_of k off))) as L. rewrite Z in L.
  destruct (sd_pages _); [reflexivity|cbn in L; lia].
Qed.
(** The invariant only depends on what is found where. *)
Lemma cinv_ext k w w' m : cinv k w m -> (forall s, shard_ok k s (w_shards w' s)) -> (forall off, found k w' off = found k w off) ->
  same_rest w w' -> cinv k w' m.
Proof.
  intros I SO F (E1 & E2 & E3 & E4). constructor; auto.
  - apply I.
  - intros off p d H. rewrite F in H. rewrite E1. now apply I.
  - intros off p H. rewrite F in H. rewrite E1. now apply I.
  - intros t f H. rewrite E4 in H. rewrite E2, E3. destruct (ci_fetch _ _ _ I t f H) as [A B]. split; [exact A|]. intros V p Hp. destruct (B V p Hp) as (B1 & B2 & B3).
    split; [|auto]. intros q. rewrite F. apply B1.
Qed.
Lemma cinv_fetch_none k w m t : cinv k w m -> cinv k (set_fetch w t None) m.
Proof.
  intros I. constructor; cbn [set_fetch w_shards w_disk w_ver w_count w_fetch]; try apply I.
  intros u f. destruct (N.eqb u t); [discriminate|]. apply (ci_fetch _ _ _ I).
Qed.

(** ** Evicting *)
Lemma pwrite_dirty k w m v q w1 ok : cinv k w m -> found k w v = Some (q, true) -> pwrite w v q = (w1, ok) ->
  cinv k w1 m /\ w_shards w1 = w_shards w /\ w_ver w1 = w_ver w /\ w_fetch w1 = w_fetch w /\ (ok = true -> w_disk w1 v = q)
  /\ (forall x, x <> v -> w_disk w1 x = w_disk w x /\ w_count w1 x = w_count w x).
Proof.
  intros I F E.
  assert (G : w_shards w1 = w_shards w /\ w_ver w1 = w_ver w /\ w_fetch w1 = w_fetch w /\ (ok = true -> w_disk w1 v = q)
    /\ (forall x, x <> v -> w_disk w1 x = w_disk w x /\ w_count w1 x = w_count w x)).
  { unfold pwrite in E. destruct (w_io w) as [|[junk|] io]; injection E as <- <-; cbn [w_shards w_ver w_fetch w_disk w_count];
      (split; [reflexivity|split; [reflexivity|split; [reflexivity|split; [try discriminate; intros _; now rewrite N.eqb_refl|
        intros x Hx; destruct (N.eqb_spec x v); [congruence|auto]]]]]). }
  split; [|exact G]. destruct G as (G1 & G2 & G3 & G4 & G5).
  assert (FF : forall x, found k w1 x = found k w x) by (intros x; unfold found; now rewrite G1).
  constructor.
  - rewrite G1. apply I.
  - apply I.
  - intros x p d H. rewrite FF in H. destruct (ci_cached _ _ _ I x p d H) as [A B]. split; [exact A|]. intros ->.
    assert (x <> v) by (intros ->; congruence). destruct (G5 x H0) as [-> _]. now apply B.
  - intros x p H Hm. rewrite FF in H. assert (x <> v) by (intros ->; congruence). destruct (G5 x H0) as [-> _]. now apply (ci_disk _ _ _ I).
  - intros t f H. rewrite G3 in H. rewrite G2. destruct (ci_fetch _ _ _ I t f H) as [A B]. split; [exact A|]. intros V p Hp. destruct (B V p Hp) as (B1 & B2 & B3).
    assert (ft_off f <> v) by (intros X; apply (B1 q); rewrite X; exact F). destruct (G5 _ H0) as [_ ->]. split; [|auto]. intros q'. rewrite FF. apply B1.
Qed.
Lemma drop_ok k w m s v q d : cinv k w m -> back (sd_lru (w_shards w s)) = Ok v -> lookup v (sd_pages (w_shards w s)) = Some (q, d) -> w_disk w v = q ->
  cinv k (set_shard w s {| sd_lru := removelast (sd_lru (w_shards w s)); sd_pages := drop v (sd_pages (w_shards w s)) |}) m
  /\ (length (drop v (sd_pages (w_shards w s))) < length (sd_pages (w_shards w s)))%nat.
Proof.
  intros I EB EL ED. pose proof (ci_shard _ _ _ I s) as [ND P C O]. destruct (back_split _ _ EB) as (l & El & ER).
  assert (Sv : shard_of k v = s) by (apply O; eapply lookup_key; exact EL).
  assert (NDl : NoDup (l ++ [v])) by (rewrite <- El; eapply Permutation_NoDup; [apply Permutation_sym, P|exact ND]).
  assert (NV : ~ In v l) by (apply NoDup_remove_2 in NDl; rewrite app_nil_r in NDl; exact NDl).
  assert (P2 : Permutation l (map fst (drop v (sd_pages (w_shards w s))))).
  { rewrite keys_drop. apply (perm_filter (fun x => negb (N.eqb x v))) in P. rewrite El, filter_app in P. cbn [filter] in P. rewrite N.eqb_refl in P. cbn [negb] in P.
    rewrite app_nil_r, filter_out in P by exact NV. exact P. }
  assert (LL : (length (drop v (sd_pages (w_shards w s))) < length (sd_pages (w_shards w s)))%nat).
  { apply Permutation_length in P, P2. rewrite map_length in P, P2. rewrite El, app_length in P. cbn [length] in P. lia. }
  split; [|exact LL].
  assert (FF : forall x, found k (set_shard w s {| sd_lru := removelast (sd_lru (w_shards w s)); sd_pages := drop v (sd_pages (w_shards w s)) |}) x = if N.eqb x v then None else found k w x).
  { intros x. rewrite found_set. cbn [sd_pages]. rewrite lookup_drop. destruct (N.eqb_spec (shard_of k x) s) as [E|NE].
    - unfold found. now rewrite E.
    - destruct (N.eqb_spec x v) as [->|]; [congruence|reflexivity]. }
  constructor.
  - intros s'. cbn [set_shard w_shards]. destruct (N.eqb_spec s' s) as [->|]; [|apply I]. constructor; cbn [sd_lru sd_pages].
    + rewrite keys_drop. apply NoDup_filter. exact ND.
    + rewrite ER. exact P2.
    + lia.
    + intros x Hx. rewrite keys_drop in Hx. apply filter_In in Hx as [Hx _]. now apply O.
  - apply I.
  - intros x p d' H. rewrite FF in H. destruct (N.eqb x v); [discriminate|]. now apply (ci_cached _ _ _ I).
  - intros x p H Hm. rewrite FF in H. cbn [set_shard w_disk]. destruct (N.eqb_spec x v) as [->|]; [|now apply (ci_disk _ _ _ I)].
    assert (Fv : found k w v = Some (q, d)) by (unfold found; rewrite Sv; exact EL). destruct (ci_cached _ _ _ I v q d Fv) as [A _]. congruence.
  - intros t f H. destruct (ci_fetch _ _ _ I t f H) as [A B]. split; [exact A|]. intros V p Hp. destruct (B V p Hp) as (B1 & B2 & B3). split; [|auto].
    intros q'. rewrite FF. destruct (N.eqb (ft_off f) v); [discriminate|apply B1].
Qed.

(** ** Writing into the cache *)
(** [w'] is [w1] with page [off] cached as [(p, d)]. *)
Definition installed (k : io_conf) (w1 w' : world) (off : N) (p : page) (d : bool) : Prop :=
  (forall s, shard_ok k s (w_shards w' s)) /\ (forall x, found k w' x = if N.eqb x off then Some (p, d) else found k w1 x) /\ same_rest w1 w'.
Lemma installed_fresh k w1 m off p d lru : cinv k w1 m -> found k w1 off = None -> Permutation lru (map fst (sd_pages (w_shards w1 (shard_of k off)))) ->
  N.of_nat (length (sd_pages (w_shards w1 (shard_of k off)))) < k_cap k ->
  installed k w1 (set_shard w1 (shard_of k off) {| sd_lru := off :: lru; sd_pages := (off, (p, d)) :: sd_pages (w_shards w1 (shard_of k off)) |}) off p d.
Proof.
  intros I F P L. set (s := shard_of k off) in *. pose proof (ci_shard _ _ _ I s) as [ND _ _ O]. split; [|split; [|now split]].
  - intros s'. cbn [set_shard w_shards]. destruct (N.eqb_spec s' s) as [->|]; [|apply I]. constructor; cbn [sd_lru sd_pages map fst length].
    + constructor; [now apply lookup_none|exact ND].
    + now apply perm_skip.
    + lia.
    + intros x [<-|Hx]; [reflexivity|now apply O].
  - intros x. rewrite found_set. cbn [sd_pages lookup]. rewrite (N.eqb_sym off x). destruct (N.eqb_spec x off) as [->|NE].
    + destruct (N.eqb_spec (shard_of k off) s); [reflexivity|now destruct n].
    + unfold found. destruct (N.eqb_spec (shard_of k x) s) as [->|]; reflexivity.
Qed.
Lemma c_write_ok k w m off p dirty : cinv k w m -> k_cap k <> 0 ->
  exists w' ok, c_write (k_cap k) w (shard_of k off) off p dirty = Ok (w', ok)
    /\ w_ver w' = w_ver w /\ w_fetch w' = w_fetch w
    /\ (ok = false -> cinv k w' m)
    /\ (ok = true -> exists w1, cinv k w1 m /\ installed k w1 w' off p (dirty || match found k w off with Some (_, d) => d | None => false end)
         /\ found k w1 off = found k w off /\ w_disk w1 off = w_disk w off /\ w_ver w1 = w_ver w).
Proof.
  intros I NZ. unfold c_write. destruct (N.eqb_spec (k_cap k) 0); [contradiction|]. set (s := shard_of k off).
  pose proof (ci_shard _ _ _ I s) as [ND P C O]. unfold found at 1. fold s.
  destruct (lookup off (sd_pages (w_shards w s))) as [[q d]|] eqn:EL.
  { eexists _, true. split; [reflexivity|]. split; [reflexivity|]. split; [reflexivity|]. split; [discriminate|]. intros _. exists w. split; [exact I|].
    unfold found. fold s. rewrite EL. split; [|auto]. split; [|split; [|now split]].
    - intros s'. cbn [set_shard w_shards]. destruct (N.eqb_spec s' s) as [->|]; [|apply I]. constructor; cbn [sd_lru sd_pages].
      + now rewrite keys_replace.
      + rewrite keys_replace. apply touch_perm; auto. eapply lookup_key; exact EL.
      + unfold replace. now rewrite map_length.
      + intros x. rewrite keys_replace. apply O.
    - intros x. rewrite found_set. cbn [sd_pages]. rewrite lookup_replace by congruence. unfold found. destruct (N.eqb_spec x off) as [->|].
      + destruct (N.eqb_spec (shard_of k off) s); [|now destruct n0]. now rewrite orb_comm.
      + destruct (N.eqb_spec (shard_of k x) s) as [->|]; reflexivity. }
  assert (Fn : found k w off = None) by exact EL. rewrite Fn, orb_false_r.
  destruct (N.leb_spec (k_cap k) (N.of_nat (length (sd_pages (w_shards w s))))) as [Full|Room].
  2:{ eexists _, true. split; [reflexivity|]. split; [reflexivity|]. split; [reflexivity|]. split; [discriminate|]. intros _. exists w. split; [exact I|].
      split; [|auto]. apply installed_fresh with (m := m); auto. }
  assert (EE : forall n, evict_excess n (k_cap k) w s = Ok (w, true)).
  { intros n0. destruct n0; cbn [evict_excess]; [reflexivity|]. destruct (N.leb_spec (N.of_nat (length (sd_pages (w_shards w s)))) (k_cap k)); [reflexivity|lia]. }
  rewrite EE. cbn [bind negb].
  destruct (sd_lru (w_shards w s)) as [|x0 r0] eqn:Elru.
  { exfalso. apply Permutation_length in P. rewrite map_length in P. cbn in P. lia. }
  destruct (back (x0 :: r0)) as [v| | |] eqn:EB; try discriminate. cbn [bind]. rewrite <- Elru in EB |- *.
  assert (Hv : In v (map fst (sd_pages (w_shards w s)))).
  { destruct (back_split _ _ EB) as (l & El & _). eapply Permutation_in; [exact P|]. rewrite <- Elru, El. apply in_or_app. right. now left. }
  destruct (lookup v (sd_pages (w_shards w s))) as [[q d]|] eqn:EV; [|apply lookup_none in EV; contradiction].
  assert (Sv : shard_of k v = s) by now apply O. assert (Fv : found k w v = Some (q, d)) by (unfold found; rewrite Sv; exact EV).
  assert (NE : off <> v) by (intros ->; congruence).
  assert (Step : exists w1 ok, (if d then pwrite w v q else (w, true)) = (w1, ok) /\ cinv k w1 m /\ w_shards w1 = w_shards w /\ w_ver w1 = w_ver w /\ w_fetch w1 = w_fetch w
    /\ (ok = true -> w_disk w1 v = q) /\ w_disk w1 off = w_disk w off).
  { destruct d.
    - destruct (pwrite w v q) as [w1 ok] eqn:E1. exists w1, ok. destruct (pwrite_dirty _ _ _ _ _ _ _ I Fv E1) as (A & B & C1 & D & E & F). split; [reflexivity|].
      destruct (F off NE) as [F1 _]. auto 8.
    - exists w, true. destruct (ci_cached _ _ _ I v q false Fv) as [_ B]. auto 10. }
  destruct Step as (w1 & ok & -> & I1 & S1 & V1 & F1 & D1 & D2). destruct ok; cbn [negb].
  2:{ exists w1, false. split; [reflexivity|]. split; [exact V1|]. split; [exact F1|]. split; [auto|discriminate]. }
  eexists _, true. split; [reflexivity|]. split; [exact V1|]. split; [exact F1|]. split; [discriminate|]. intros _. rewrite <- S1 in EB, EV |- *.
  destruct (drop_ok k w1 m s v q d I1 EB EV (D1 eq_refl)) as [I2 LL]. rewrite <- S1 in Elru.
  set (w2 := set_shard w1 s {| sd_lru := removelast (sd_lru (w_shards w1 s)); sd_pages := drop v (sd_pages (w_shards w1 s)) |}) in *.
  assert (W2 : w_shards w2 s = {| sd_lru := removelast (sd_lru (w_shards w1 s)); sd_pages := drop v (sd_pages (w_shards w1 s)) |}) by (cbn; now rewrite N.eqb_refl).
  assert (F2 : found k w2 off = None).
  { unfold found. fold s. rewrite W2. cbn [sd_pages]. rewrite lookup_drop. destruct (N.eqb_spec off v); [congruence|]. now rewrite S1. }
  exists w2. split; [exact I2|]. split; [|split; [exact F2|split; [exact D2|exact V1]]].
  pose proof (installed_fresh k w2 m off p dirty (removelast (sd_lru (w_shards w1 s))) I2 F2) as Q. fold s in Q. rewrite W2 in Q. cbn [sd_pages] in Q.
  destruct Q as (Q1 & Q2 & Q3 & Q4 & Q5 & Q6).
  - pose proof (so_lru _ _ _ (ci_shard _ _ _ I2 s)) as Q. rewrite W2 in Q. exact Q.
  - rewrite S1 in LL |- *. lia.
  - split; [|split; [|split; [|split; [|split]]]]; try assumption.
    + intros s'. specialize (Q1 s'). cbn [set_shard w_shards] in Q1 |- *. destruct (N.eqb_spec s' s) as [?|NS]; [exact Q1|].
      subst w2. cbn [set_shard w_shards] in Q1. destruct (N.eqb_spec s' s); [contradiction|exact Q1].
    + intros x. rewrite <- Q2. rewrite !found_set. destruct (N.eqb_spec (shard_of k x) s) as [|NS]; [reflexivity|]. subst w2. rewrite found_set.
      destruct (N.eqb_spec (shard_of k x) s); [contradiction|reflexivity].
Qed.
Lemma install_clean k w1 w' m off p : cinv k w1 m -> installed k w1 w' off p false -> m off = Some p -> w_disk w1 off = p -> cinv k w' m.
Proof.
  intros I (SO & F & E1 & E2 & E3 & E4) Hm Hd. constructor; auto.
  - apply I.
  - intros x q d H. rewrite F in H. rewrite E1. destruct (N.eqb_spec x off) as [->|]; [|now apply (ci_cached _ _ _ I)]. injection H as <- <-. auto.
  - intros x q H. rewrite F in H. rewrite E1. destruct (N.eqb x off); [discriminate|]. now apply (ci_disk _ _ _ I).
  - intros t f H. rewrite E4 in H. rewrite E2, E3. destruct (ci_fetch _ _ _ I t f H) as [A B]. split; [exact A|]. intros V q Hq. destruct (B V q Hq) as (B1 & B2 & B3).
    split; [|auto]. intros q'. rewrite F. destruct (N.eqb (ft_off f) off); [discriminate|apply B1].
Qed.
Lemma install_dirty k w1 w' m off p : cinv k w1 m -> installed k w1 w' off p true -> cinv k (bump w' off) (put m off (Some p)).
Proof.
  intros I (SO & F & E1 & E2 & E3 & E4).
  assert (FB : forall x, found k (bump w' off) x = found k w' x) by reflexivity.
  constructor.
  - exact SO.
  - intros NZ x. unfold put. destruct (N.eqb x off); [discriminate|now apply I].
  - intros x q d H. rewrite FB, F in H. cbn [bump w_disk]. rewrite E1. unfold put. destruct (N.eqb_spec x off) as [->|]; [|now apply (ci_cached _ _ _ I)].
    injection H as <- <-. split; [reflexivity|discriminate].
  - intros x q H. rewrite FB, F in H. cbn [bump w_disk]. rewrite E1. unfold put. destruct (N.eqb x off); [discriminate|]. now apply (ci_disk _ _ _ I).
  - intros t f H. cbn [bump w_fetch] in H. rewrite E4 in H. cbn [bump w_ver w_count]. rewrite E2, E3. destruct (ci_fetch _ _ _ I t f H) as [A B]. unfold put.
    destruct (N.eqb_spec (ft_off f) off) as [Eo|NE]; [split; [lia|intros X; lia]|]. split; [exact A|]. intros V q Hq. destruct (B V q Hq) as (B1 & B2 & B3).
    split; [|auto]. intros q'. rewrite FB, F. destruct (N.eqb_spec (ft_off f) off); [contradiction|apply B1].
Qed.

(** ** The steps *)
Lemma c_read_ok k w m off : cinv k w m ->
  match c_read (k_cap k) (w_shards w (shard_of k off)) off with
  | Some (p, sd) => cinv k (set_shard w (shard_of k off) sd) m /\ m off = Some p
  | None => found k w off = None
  end.
Proof.
  intros I. unfold c_read. destruct (N.eqb_spec (k_cap k) 0) as [Z|NZ]; [now apply cap0_found with (m := m)|].
  destruct (lookup off (sd_pages (w_shards w (shard_of k off)))) as [[p d]|] eqn:E; [|exact E].
  destruct (ci_cached _ _ _ I off p d E) as [Hm _]. split; [|exact Hm]. pose proof (ci_shard _ _ _ I (shard_of k off)) as [ND P C O].
  apply cinv_ext with (w := w); auto; [| |now split].
  - intros s. cbn [set_shard w_shards]. destruct (N.eqb_spec s (shard_of k off)) as [->|]; [|apply I]. constructor; cbn [sd_lru sd_pages]; auto.
    apply touch_perm; auto. eapply lookup_key; exact E.
  - intros x. rewrite found_set. cbn [sd_pages]. unfold found. destruct (N.eqb_spec (shard_of k x) (shard_of k off)) as [->|]; reflexivity.
Qed.
Lemma cinv_io k w m io : cinv k w m -> cinv k {| w_disk := w_disk w; w_shards := w_shards w; w_ver := w_ver w; w_io := io; w_count := w_count w; w_fetch := w_fetch w |} m.
Proof. intros I. apply cinv_ext with (w := w); auto; [apply I|now split]. Qed.
(** Installing bytes that are what the page should hold. *)
Lemma fill_ok k w m off p : cinv k w m -> found k w off = None -> (forall q, m off = Some q -> p = q) ->
  exists w' ok, c_write (k_cap k) w (shard_of k off) off p false = Ok (w', ok) /\ cinv k w' m.
Proof.
  intros I F H. destruct (N.eq_dec (k_cap k) 0) as [Z|NZ].
  - unfold c_write. rewrite Z. cbn [N.eqb]. exists w, true. auto.
  - destruct (c_write_ok k w m off p false I NZ) as (w' & ok & E & _ & _ & Bad & Good). exists w', ok. split; [exact E|].
    destruct ok; [|now apply Bad]. destruct (Good eq_refl) as (w1 & I1 & Ins & F1 & D1 & _). rewrite F in Ins. cbn [orb] in Ins.
    destruct (m off) as [q|] eqn:Hm; [|exfalso; exact (ci_known _ _ _ I NZ off Hm)]. specialize (H q eq_refl). subst q.
    apply install_clean with (w1 := w1) (off := off) (p := p); auto. rewrite D1. now apply (ci_disk _ _ _ I).
Qed.
Lemma read_locked_ok k w m off : cinv k w m -> exists w' r, read_locked k w off = Ok (w', r) /\ cinv k w' m /\ forall p, r = Some p -> forall q, m off = Some q -> p = q.
Proof.
  intros I. unfold read_locked. pose proof (c_read_ok k w m off I) as R.
  destruct (c_read (k_cap k) (w_shards w (shard_of k off)) off) as [[p sd]|].
  - destruct R as [I' Hm]. eexists _, _. split; [reflexivity|]. split; [exact I'|]. intros p' [= <-] q Hq. congruence.
  - destruct (pread w off) as [w1 r] eqn:EP.
    assert (I1 : cinv k w1 m) by (unfold pread in EP; destruct (w_io w) as [|[?|] ?]; injection EP as <- _; now apply cinv_io).
    destruct r as [p|]; [|exists w1, None; split; [reflexivity|split; [exact I1|discriminate]]].
    assert (Hp : p = w_disk w off) by (unfold pread in EP; destruct (w_io w) as [|[?|] ?]; congruence).
    assert (F1 : found k w1 off = None) by (unfold pread in EP; destruct (w_io w) as [|[?|] ?]; injection EP as <- _; exact R).
    assert (HH : forall q, m off = Some q -> p = q) by (intros q Hq; rewrite Hp; now apply (ci_disk _ _ _ I)).
    destruct (fill_ok k w1 m off p I1 F1 HH) as (w2 & ok & -> & I2). cbn [bind]. eexists _, _. split; [reflexivity|]. split; [exact I2|].
    intros p' Hp'. destruct ok; [|discriminate]. injection Hp' as <-. exact HH.
Qed.
Lemma write_locked_ok k w m off p : cinv k w m -> exists w' ok, write_locked k w off p = Ok (w', ok)
  /\ cinv k w' (if ok then put m off (Some p) else if N.eqb (k_cap k) 0 then put m off None else m).
Proof.
  intros I. unfold write_locked. destruct (N.eqb_spec (k_cap k) 0) as [Z|NZ].
  - destruct (pwrite w off p) as [w1 ok] eqn:E. cbn [bind]. eexists _, ok. split; [reflexivity|].
    assert (G : w_shards w1 = w_shards w /\ w_ver w1 = w_ver w /\ w_fetch w1 = w_fetch w /\ (ok = true -> w_disk w1 off = p)
      /\ (forall x, x <> off -> w_disk w1 x = w_disk w x /\ w_count w1 x = w_count w x)).
    { unfold pwrite in E. destruct (w_io w) as [|[junk|] io]; injection E as <- <-; cbn [w_shards w_ver w_fetch w_disk w_count];
        (split; [reflexivity|split; [reflexivity|split; [reflexivity|split; [try discriminate; intros _; now rewrite N.eqb_refl|
          intros x Hx; destruct (N.eqb_spec x off); [congruence|auto]]]]]). }
    destruct G as (G1 & G2 & G3 & G4 & G5).
    assert (N1 : forall x, found k w1 x = None) by (intros x; unfold found; rewrite G1; exact (cap0_found k w m x I Z)).
    set (w' := if ok then bump w1 off else w1).
    assert (X : w_shards w' = w_shards w1 /\ w_disk w' = w_disk w1 /\ w_count w' = w_count w1 /\ w_fetch w' = w_fetch w1) by (subst w'; destruct ok; cbn; auto).
    destruct X as (X1 & X2 & X3 & X4). assert (N2 : forall x, found k w' x = None) by (intros x; unfold found; rewrite X1; apply N1).
    constructor.
    + rewrite X1, G1. apply I.
    + intros NZ. contradiction.
    + intros x q d H. rewrite N2 in H. discriminate.
    + intros x q _ Hm. rewrite X2. destruct (N.eq_dec x off) as [->|NE].
      * destruct ok; unfold put in Hm; rewrite N.eqb_refl in Hm; [|discriminate]. injection Hm as <-. now apply G4.
      * destruct (G5 x NE) as [-> _]. apply (ci_disk _ _ _ I); [now apply cap0_found with (m := m)|].
        destruct ok; unfold put in Hm; destruct (N.eqb_spec x off); try contradiction; exact Hm.
    + intros t f H. rewrite X4, G3 in H. rewrite X3. destruct (ci_fetch _ _ _ I t f H) as [A B].
      destruct (N.eq_dec (ft_off f) off) as [Eo|NE].
      * subst w'. destruct ok.
        -- cbn [bump w_ver]. rewrite Eo, N.eqb_refl, G2, <- Eo. split; [lia|intros V; lia].
        -- rewrite G2. split; [exact A|]. intros _ q Hq. unfold put in Hq. rewrite Eo, N.eqb_refl in Hq. discriminate.
      * destruct (G5 _ NE) as [_ ->]. assert (EV : w_ver w' (ft_off f) = w_ver w (ft_off f)).
        { subst w'. destruct ok; [|now rewrite G2]. cbn [bump w_ver]. destruct (N.eqb_spec (ft_off f) off); [contradiction|now rewrite G2]. }
        rewrite EV. split; [exact A|]. intros V q Hq.
        assert (Hq2 : m (ft_off f) = Some q) by (destruct ok; unfold put in Hq; destruct (N.eqb_spec (ft_off f) off); try contradiction; exact Hq).
        destruct (B V q Hq2) as (_ & B2 & B3). split; [|auto]. intros q'. rewrite N2. discriminate.
  - destruct (c_write_ok k w m off p true I NZ) as (w' & ok & -> & _ & _ & Bad & Good). cbn [bind]. eexists _, ok. split; [reflexivity|].
    destruct ok; [|now apply Bad]. destruct (Good eq_refl) as (w1 & I1 & Ins & _). cbn [orb] in Ins. eapply install_dirty; eauto.
Qed.
Lemma flush_dirty_ok k m s order : forall w w' ok, cinv k w m -> flush_dirty w s order = (w', ok) -> cinv k w' m
  /\ (forall off p d, found k w off = Some (p, d) -> exists d', found k w' off = Some (p, d') /\ (d = false -> d' = false) /\ (ok = true -> shard_of k off = s -> In off order -> d' = false))
  /\ (forall off, found k w off = None -> found k w' off = None).
Proof.
  induction order as [|off order IH]; intros w w' ok I E; cbn [flush_dirty] in E.
  - injection E as <- <-. split; [exact I|]. split; [|auto]. intros off p d H. exists d. split; [exact H|]. split; [auto|]. intros _ _ [].
  - assert (Skip : forall d0 w1, flush_dirty w s order = (w1, ok) -> w1 = w' -> (lookup off (sd_pages (w_shards w s)) = d0) -> (forall q, d0 <> Some (q, true)) ->
       cinv k w' m /\ (forall off0 p d, found k w off0 = Some (p, d) -> exists d', found k w' off0 = Some (p, d') /\ (d = false -> d' = false) /\ (ok = true -> shard_of k off0 = s -> In off0 (off :: order) -> d' = false))
       /\ (forall off0, found k w off0 = None -> found k w' off0 = None)).
    { intros d0 w1 E1 -> Hd ND. destruct (IH w w' ok I E1) as (A & B & C). split; [exact A|]. split; [|exact C]. intros x p d H. destruct (B x p d H) as (d' & B1 & B2 & B3). exists d'. split; [exact B1|]. split; [exact B2|].
      intros T Sx [<-|Hx]; [|auto]. apply B2. destruct d; [|reflexivity]. exfalso. apply (ND p). rewrite <- Hd. unfold found in H. rewrite Sx in H. exact H. }
    destruct (lookup off (sd_pages (w_shards w s))) as [[p [|]]|] eqn:EL; [|eapply Skip; eauto; discriminate|eapply Skip; eauto; discriminate]. clear Skip.
    destruct (pwrite w off p) as [w1 ok1] eqn:EP.
    assert (So : shard_of k off = s) by (eapply found_own; [exact I|]; rewrite EL; discriminate).
    assert (Fo : found k w off = Some (p, true)) by (unfold found; rewrite So; exact EL).
    destruct (pwrite_dirty _ _ _ _ _ _ _ I Fo EP) as (I1 & S1 & V1 & F1 & D1 & O1).
    assert (FF : forall x, found k w1 x = found k w x) by (intros x; unfold found; now rewrite S1).
    destruct ok1; cbn [negb] in E.
    + set (w2 := set_shard w1 s {| sd_lru := sd_lru (w_shards w s); sd_pages := replace off (p, false) (sd_pages (w_shards w s)) |}) in *.
      assert (F2 : forall x, found k w2 x = if N.eqb x off then Some (p, false) else found k w x).
      { intros x. subst w2. rewrite found_set. cbn [sd_pages]. rewrite lookup_replace by congruence. destruct (N.eqb_spec x off) as [->|].
        - destruct (N.eqb_spec (shard_of k off) s); [reflexivity|contradiction].
        - rewrite FF. unfold found. destruct (N.eqb_spec (shard_of k x) s) as [->|]; reflexivity. }
      assert (I2 : cinv k w2 m).
      { pose proof (ci_shard _ _ _ I s) as [ND P C O]. destruct (ci_cached _ _ _ I off p true Fo) as [Hm _]. constructor.
        - intros s'. subst w2. cbn [set_shard w_shards]. destruct (N.eqb_spec s' s) as [->|]; [|apply I1]. constructor; cbn [sd_lru sd_pages]; rewrite ?keys_replace; auto.
          unfold replace. now rewrite map_length.
        - apply I.
        - intros x q d H. rewrite F2 in H. change (w_disk w2 x) with (w_disk w1 x). destruct (N.eqb_spec x off) as [->|NE].
          + injection H as <- <-. auto.
          + apply (ci_cached _ _ _ I1 x q d). now rewrite FF.
        - intros x q H. rewrite F2 in H. change (w_disk w2 x) with (w_disk w1 x). destruct (N.eqb x off); [discriminate|]. apply (ci_disk _ _ _ I1). now rewrite FF.
        - intros t f H. change (w_fetch w2 t) with (w_fetch w1 t) in H. change (w_ver w2) with (w_ver w1). change (w_count w2) with (w_count w1).
          destruct (ci_fetch _ _ _ I1 t f H) as [A B]. split; [exact A|]. intros V q Hq. destruct (B V q Hq) as (B1 & B2 & B3). split; [|auto].
          intros q'. rewrite F2. destruct (N.eqb (ft_off f) off); [discriminate|]. rewrite <- FF. apply B1. }
      destruct (IH w2 w' ok I2 E) as (A & B & C). split; [exact A|]. split.
      * intros x q d H. destruct (N.eq_dec x off) as [->|NE].
        -- rewrite Fo in H. injection H as <- <-. destruct (B off p false) as (d' & B1 & B2 & B3); [rewrite F2, N.eqb_refl; reflexivity|].
           exists d'. split; [exact B1|]. split; [intros _; now apply B2|]. intros _ _ _. now apply B2.
        -- destruct (B x q d) as (d' & B1 & B2 & B3); [rewrite F2; destruct (N.eqb_spec x off); [contradiction|exact H]|]. exists d'. split; [exact B1|]. split; [exact B2|].
           intros T Sx [X|Hx]; [congruence|auto].
      * intros x H. apply C. rewrite F2. destruct (N.eqb_spec x off) as [->|]; [congruence|exact H].
    + injection E as <- <-. split; [exact I1|]. split; [|intros x; now rewrite FF]. intros x q d H. exists d. rewrite FF. split; [exact H|]. split; [auto|discriminate].
Qed.

(** ** Whole histories *)
Definition mem_step (k : io_conf) := remember (negb (N.eqb (k_cap k) 0)).
Lemma cstep_ok k w m o : cinv k w m -> exists w' a, cstep k w o = Ok (w', a) /\ cinv k w' (mem_step k m (o, a))
  /\ forall off p q, a = Page off p -> m off = Some q -> p = q.
Proof.
  intros I. destruct o as [off|off p|s order|t off|t torn|t]; cbn [cstep].
  - destruct (read_locked_ok k w m off I) as (w' & r & -> & I' & R). cbn [bind]. eexists _, _. split; [reflexivity|]. split; [exact I'|].
    intros off' p q. destruct r as [p'|]; [|discriminate]. intros [= <- <-]. now apply R.
  - destruct (write_locked_ok k w m off p I) as (w' & ok & -> & I'). cbn [bind]. eexists _, _. split; [reflexivity|]. split.
    + unfold mem_step. destruct ok; cbn [remember]; [exact I'|]. destruct (N.eqb (k_cap k) 0); exact I'.
    + destruct ok; discriminate.
  - destruct (flush_dirty w s order) as [w' ok] eqn:E. destruct (flush_dirty_ok k m s order w w' ok I E) as (I' & _). eexists _, _. split; [reflexivity|].
    split; [exact I'|destruct ok; discriminate].
  - pose proof (c_read_ok k w m off I) as R. destruct (c_read (k_cap k) (w_shards w (shard_of k off)) off) as [[p sd]|].
    + destruct R as [I' Hm]. eexists _, _. split; [reflexivity|]. split; [exact I'|]. intros off' p' q [= <- <-] Hq. congruence.
    + eexists _, _. split; [reflexivity|]. split; [|discriminate]. change (mem_step k m (CPeek t off, Missed)) with m.
      constructor; cbn [set_fetch w_shards w_disk w_ver w_count w_fetch]; try apply I.
      intros u f. destruct (N.eqb u t); [|apply (ci_fetch _ _ _ I)]. intros [= <-]. cbn [ft_ver ft_off ft_count ft_buf]. split; [lia|]. intros _ p Hp.
      split; [intros q; change (found k (set_fetch w t (Some {| ft_off := off; ft_ver := w_ver w off; ft_count := w_count w off; ft_buf := None |})) off) with (found k w off); congruence|].
      split; [reflexivity|discriminate].
  - destruct (w_fetch w t) as [f|] eqn:Ef; [|eexists _, _; split; [reflexivity|]; split; [exact I|discriminate]].
    eexists _, _. split; [reflexivity|]. split; [|discriminate]. destruct (ci_fetch _ _ _ I t f Ef) as [A B].
    constructor; cbn [set_fetch w_shards w_disk w_ver w_count w_fetch]; try apply I.
    intros u g. destruct (N.eqb u t); [|apply (ci_fetch _ _ _ I)]. intros [= <-]. cbn [ft_ver ft_off ft_count ft_buf]. split; [exact A|]. intros V p Hp.
    change (m (ft_off f) = Some p) in Hp. destruct (B V p Hp) as (B1 & B2 & B3). split; [exact B1|]. split; [exact B2|]. intros b [= <-]. rewrite B2, N.eqb_refl.
    destruct (found k w (ft_off f)) as [[q [|]]|] eqn:Ff.
    + exfalso. now apply (B1 q).
    + destruct (ci_cached _ _ _ I _ _ _ Ff) as [Hm Hd]. rewrite (Hd eq_refl). congruence.
    + now apply (ci_disk _ _ _ I).
  - destruct (w_fetch w t) as [[off ver cnt [buf|]]|] eqn:Ef; [|eexists _, _; split; [reflexivity|]; split; [exact I|discriminate]|eexists _, _; split; [reflexivity|]; split; [exact I|discriminate]].
    destruct (ci_fetch _ _ _ I t _ Ef) as [A B]. cbn [ft_ver ft_off ft_count ft_buf] in A, B.
    pose proof (cinv_fetch_none k w m t I) as I0. set (w0 := set_fetch w t None) in *.
    pose proof (c_read_ok k w0 m off I0) as R. destruct (c_read (k_cap k) (w_shards w0 (shard_of k off)) off) as [[p sd]|].
    + destruct R as [I' Hm]. eexists _, _. split; [reflexivity|]. split; [exact I'|]. intros off' p' q [= <- <-] Hq. congruence.
    + destruct (N.eqb_spec (w_ver w0 off) ver) as [V|NV]; cbn [negb].
      * assert (HH : forall q, m off = Some q -> buf = q) by (intros q Hq; destruct (B (eq_sym V) q Hq) as (_ & _ & B3); now apply B3).
        destruct (fill_ok k w0 m off buf I0 R HH) as (w' & ok & -> & I'). cbn [bind]. eexists _, _. split; [reflexivity|]. split; [exact I'|].
        intros off' p q. destruct ok; [|discriminate]. intros [= <- <-]. apply HH.
      * destruct (read_locked_ok k w0 m off I0) as (w' & r & -> & I' & Rd). cbn [bind]. eexists _, _. split; [reflexivity|]. split; [exact I'|].
        intros off' p q. destruct r as [p'|]; [|discriminate]. intros [= <- <-]. now apply Rd.
Qed.
Lemma crun_ok k : forall ops w m, cinv k w m -> exists w' answers, crun k w ops = Ok (w', answers) /\ length answers = length ops
  /\ cinv k w' (fold_left (mem_step k) (combine ops answers) m)
  /\ forall i off p q, nth_error answers i = Some (Page off p) -> fold_left (mem_step k) (combine (firstn i ops) (firstn i answers)) m off = Some q -> p = q.
Proof.
  induction ops as [|o ops IH]; intros w m I; cbn [crun].
  - exists w, []. split; [reflexivity|]. split; [reflexivity|]. split; [exact I|]. intros [|i]; discriminate.
  - destruct (cstep_ok k w m o I) as (w1 & a & -> & I1 & R). cbn [bind]. destruct (IH w1 _ I1) as (w2 & answers & -> & L & I2 & R2). cbn [bind].
    exists w2, (a :: answers). split; [reflexivity|]. split; [cbn; congruence|]. split; [exact I2|].
    intros [|i] off p q; cbn [nth_error firstn combine fold_left].
    + intros [= ->]. now apply R.
    + apply R2.
Qed.
Lemma world0_ok k disk io : cinv k (world0 disk io) (fun off => Some (disk off)).
Proof.
  constructor; cbn [world0 w_shards w_disk w_ver w_fetch].
  - intros s. constructor; cbn; [constructor|constructor|lia|intros off []].
  - discriminate.
  - intros off p d H. discriminate.
  - intros off p _ [= <-]. reflexivity.
  - discriminate.
Qed.
