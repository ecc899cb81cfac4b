(** C42, C43: the page cache of the disk index. *)
From Coq Require Import Permutation.
From Verif Require Import CacheProofs.
Local Open Scope N_scope.

(** A history from an opened index: page size, cache capacity, disk content,
    outcome of every device access and steps of all threads are arbitrary. *)
Definition history (page_size capacity : N) (disk : N -> page) (io : list (option page)) (ops : list cop) (w : world) (answers : list answer) : Prop :=
  0 < page_size /\ crun (io_new page_size capacity) (world0 disk io) ops = Ok (w, answers).

Lemma history_inv page_size capacity disk io ops w answers : history page_size capacity disk io ops w answers ->
  let k := io_new page_size capacity in
  cinv k w (memory_after (negb (N.eqb (k_cap k) 0)) disk ops answers) /\ length answers = length ops
  /\ forall i off p q, nth_error answers i = Some (Page off p) ->
      memory_after (negb (N.eqb (k_cap k) 0)) disk (firstn i ops) (firstn i answers) off = Some q -> p = q.
Proof.
  intros [_ E] k. destruct (crun_ok k ops _ _ (world0_ok k disk io)) as (w' & a' & E' & L & I & R). fold k in E. rewrite E in E'. injection E' as <- <-.
  split; [exact I|]. split; [exact L|exact R].
Qed.
Lemma cap_zero page_size capacity : N.eqb (k_cap (io_new page_size capacity)) 0 = N.eqb capacity 0.
Proof. unfold io_new. cbn [k_cap]. destruct (N.eqb_spec capacity 0); [reflexivity|]. apply N.eqb_neq. lia. Qed.

(** ** C42 *)
(** No history gets stuck on an empty cache. *)
Theorem cache_safe page_size capacity disk io ops : 0 < page_size -> exists w answers, history page_size capacity disk io ops w answers /\ length answers = length ops.
Proof.
  intros H. destruct (crun_ok (io_new page_size capacity) ops _ _ (world0_ok (io_new page_size capacity) disk io)) as (w & a & E & L & _). exists w, a. now split.
Qed.
(** Bytes handed out for a page, by whatever thread, are the content last
    written to it by an acknowledged write at that moment. *)
Theorem reads_latest page_size capacity disk io ops w answers : history page_size capacity disk io ops w answers -> capacity <> 0 ->
  forall i off p, nth_error answers i = Some (Page off p) -> memory_after true disk (firstn i ops) (firstn i answers) off = Some p.
Proof.
  intros H NZ i off p E. destruct (history_inv _ _ _ _ _ _ _ H) as (I & L & R). specialize (R i off p). cbv zeta in R. rewrite cap_zero in R. apply N.eqb_neq in NZ. rewrite NZ in R. cbn [negb] in R.
  assert (K : forall l m, (forall x, m x <> None) -> fold_left (remember true) l m off <> None).
  { clear. induction l as [|[o a] l IH]; intros m Hm; [apply Hm|]. cbn [fold_left]. apply IH. intros x. destruct o, a; cbn [remember]; auto. unfold put. destruct (N.eqb x off0); [discriminate|apply Hm]. }
  destruct (memory_after true disk (firstn i ops) (firstn i answers) off) as [q|] eqn:M; [rewrite (R q E eq_refl); reflexivity|].
  exfalso. revert M. apply K. discriminate.
Qed.
(** Without a cache a failed write leaves the page in doubt; all others read
    back exactly. *)
Theorem reads_latest_uncached page_size disk io ops w answers : history page_size 0 disk io ops w answers ->
  forall i off p, nth_error answers i = Some (Page off p) ->
  memory_after false disk (firstn i ops) (firstn i answers) off = Some p \/ memory_after false disk (firstn i ops) (firstn i answers) off = None.
Proof.
  intros H i off p E. destruct (history_inv _ _ _ _ _ _ _ H) as (I & L & R). specialize (R i off p). cbn [io_new k_cap N.eqb negb] in R.
  destruct (memory_after false disk (firstn i ops) (firstn i answers) off) as [q|] eqn:M; [|now right]. left. f_equal. symmetry. now apply R.
Qed.
(** A locked read gives the bytes of the page asked for or throws, and throws
    only after a device error. *)
Theorem reads_answer page_size capacity disk io ops w answers i off : history page_size capacity disk io ops w answers ->
  nth_error ops i = Some (CRead off) -> exists a, nth_error answers i = Some a /\ ((exists p, a = Page off p) \/ a = Threw).
Proof.
  intros [_ E]. revert i w answers E. generalize (world0 disk io). induction ops as [|o ops IH]; intros w0 i w answers E Hi; [now destruct i|]. cbn [crun] in E.
  destruct (cstep (io_new page_size capacity) w0 o) as [[w1 a]| | |] eqn:Es; try discriminate E. cbn [bind] in E.
  destruct (crun (io_new page_size capacity) w1 ops) as [[w2 l]| | |] eqn:Er; try discriminate E. cbn [bind] in E. injection E as <- <-.
  destruct i as [|i]; [|cbn [nth_error] in Hi |- *; now apply (IH w1 i w2 l)]. cbn [nth_error] in Hi |- *. injection Hi as ->. exists a. split; [reflexivity|].
  cbn [cstep] in Es. destruct (read_locked (io_new page_size capacity) w0 off) as [[w3 [p|]]| | |]; try discriminate Es; cbn [bind] in Es; injection Es as _ <-; eauto.
Qed.
Lemma io_pwrite w off p w' ok : w_io w = [] -> pwrite w off p = (w', ok) -> w_io w' = [] /\ ok = true.
Proof. intros H. unfold pwrite. rewrite H. intros [= <- <-]. auto. Qed.
Lemma io_evict n : forall cap w s w' ok, w_io w = [] -> evict_excess n cap w s = Ok (w', ok) -> w_io w' = [] /\ ok = true.
Proof.
  induction n as [|n IH]; intros cap w s w' ok H; cbn [evict_excess]; [intros [= <- <-]; auto|]. destruct (N.leb _ _); [intros [= <- <-]; auto|].
  destruct (back _) as [v| | |]; cbn [bind]; try discriminate.
  destruct (match lookup v (sd_pages (w_shards w s)) with Some (q, true) => pwrite w v q | _ => (w, true) end) as [w1 ok1] eqn:E1.
  assert (G : w_io w1 = [] /\ ok1 = true) by (destruct (lookup v _) as [[q [|]]|]; [eapply io_pwrite; eassumption|injection E1 as <- <-; auto|injection E1 as <- <-; auto]).
  destruct G as [G1 ->]. cbn [negb]. apply IH. exact G1.
Qed.
Lemma io_cwrite cap w s off p d w' ok : w_io w = [] -> c_write cap w s off p d = Ok (w', ok) -> w_io w' = [] /\ ok = true.
Proof.
  intros H. unfold c_write. destruct (N.eqb cap 0); [intros [= <- <-]; auto|]. destruct (lookup off _) as [[? ?]|]; [intros [= <- <-]; auto|].
  destruct (N.leb _ _); [|intros [= <- <-]; auto]. destruct (evict_excess _ _ _ _) as [[w1 ok1]| | |] eqn:E1; cbn [bind]; try discriminate.
  destruct (io_evict _ _ _ _ _ _ H E1) as [H1 ->]. cbn [negb]. destruct (back _) as [v| | |]; cbn [bind]; try discriminate.
  destruct (lookup v _) as [[q d']|]; [|intros [= <- <-]; auto].
  destruct (if d' then pwrite w1 v q else (w1, true)) as [w2 ok2] eqn:E2.
  assert (G : w_io w2 = [] /\ ok2 = true) by (destruct d'; [eapply io_pwrite; eassumption|injection E2 as <- <-; auto]). destruct G as [G ->]. cbn [negb]. intros [= <- <-]. auto.
Qed.
Lemma io_read k w off w' r : w_io w = [] -> read_locked k w off = Ok (w', r) -> w_io w' = [] /\ r <> None.
Proof.
  intros H. unfold read_locked. destruct (c_read _ _ _) as [[p sd]|]; [intros [= <- <-]; split; [exact H|discriminate]|].
  unfold pread. rewrite H. destruct (c_write _ _ _ _ _ _) as [[w2 ok]| | |] eqn:E; cbn [bind]; try discriminate. apply io_cwrite in E; [|reflexivity]. destruct E as [E ->].
  intros [= <- <-]. split; [exact E|discriminate].
Qed.
Lemma io_flush s order : forall w w' ok, w_io w = [] -> flush_dirty w s order = (w', ok) -> w_io w' = [] /\ ok = true.
Proof.
  induction order as [|off order IH]; intros w w' ok H; cbn [flush_dirty]; [intros [= <- <-]; auto|].
  destruct (lookup off _) as [[p [|]]|]; [|now apply IH|now apply IH]. destruct (pwrite w off p) as [w1 ok1] eqn:E. destruct (io_pwrite _ _ _ _ _ H E) as [H1 ->]. cbn [negb]. apply IH. exact H1.
Qed.
Lemma io_step k w o w' a : w_io w = [] -> cstep k w o = Ok (w', a) -> w_io w' = [] /\ a <> Threw.
Proof.
  intros H. destruct o as [off|off p|s order|t off|t torn|t]; cbn [cstep].
  - destruct (read_locked k w off) as [[w1 r]| | |] eqn:E; cbn [bind]; try discriminate. destruct (io_read _ _ _ _ _ H E) as [H1 H2]. intros [= <- <-]. split; [exact H1|]. destruct r; [discriminate|congruence].
  - unfold write_locked. destruct (N.eqb (k_cap k) 0).
    + destruct (pwrite w off p) as [w1 ok] eqn:E. destruct (io_pwrite _ _ _ _ _ H E) as [H1 ->]. cbn [bind]. intros [= <- <-]. split; [exact H1|discriminate].
    + destruct (c_write _ _ _ _ _ _) as [[w1 ok]| | |] eqn:E; cbn [bind]; try discriminate. destruct (io_cwrite _ _ _ _ _ _ _ _ H E) as [H1 ->]. intros [= <- <-]. split; [exact H1|discriminate].
  - destruct (flush_dirty w s order) as [w1 ok] eqn:E. destruct (io_flush _ _ _ _ _ H E) as [H1 ->]. intros [= <- <-]. split; [exact H1|discriminate].
  - destruct (c_read _ _ _) as [[p sd]|]; intros [= <- <-]; (split; [exact H|discriminate]).
  - destruct (w_fetch w t); intros [= <- <-]; (split; [exact H|discriminate]).
  - destruct (w_fetch w t) as [[off ver cnt [buf|]]|]; [|intros [= <- <-]; split; [exact H|discriminate]|intros [= <- <-]; split; [exact H|discriminate]].
    destruct (c_read _ _ _) as [[p sd]|]; [intros [= <- <-]; split; [exact H|discriminate]|].
    destruct (negb _).
    + destruct (read_locked k (set_fetch w t None) off) as [[w1 r]| | |] eqn:E; cbn [bind]; try discriminate. apply io_read in E; [|exact H]. destruct E as [H1 H2]. intros [= <- <-]. split; [exact H1|]. destruct r; [discriminate|congruence].
    + destruct (c_write _ _ _ _ _ _) as [[w1 ok]| | |] eqn:E; cbn [bind]; try discriminate. apply io_cwrite in E; [|exact H]. destruct E as [H1 ->]. intros [= <- <-]. split; [exact H1|discriminate].
Qed.
Theorem no_error_no_throw page_size capacity disk ops w answers : history page_size capacity disk [] ops w answers -> ~ In Threw answers.
Proof.
  intros [_ E]. assert (H : w_io (world0 disk []) = []) by reflexivity. revert E H. generalize (world0 disk []). revert w answers.
  induction ops as [|o ops IH]; intros w answers w0 E H; cbn [crun] in E; [injection E as _ <-; tauto|].
  destruct (cstep (io_new page_size capacity) w0 o) as [[w1 a]| | |] eqn:Es; try discriminate E. cbn [bind] in E.
  destruct (crun (io_new page_size capacity) w1 ops) as [[w2 l]| | |] eqn:Er; try discriminate E. cbn [bind] in E. injection E as <- <-.
  destruct (io_step _ _ _ _ _ H Es) as [H1 Ha]. intros [->|X]; [now apply Ha|]. exact (IH w2 l w1 Er H1 X).
Qed.
(** The capacity: all the shards together hold at most [capacity] pages, none
    twice. *)
Theorem cache_size page_size capacity disk io ops w answers : history page_size capacity disk io ops w answers ->
  NoDup (concat (map (fun s => cached_pages w (N.of_nat s)) (seq 0 64)))
  /\ N.of_nat (length (concat (map (fun s => cached_pages w (N.of_nat s)) (seq 0 64)))) <= capacity
  /\ forall s, 64 <= s -> cached_pages w s = [].
Proof.
  intros H. destruct (history_inv _ _ _ _ _ _ _ H) as (I & _). destruct H as [Hp _]. set (k := io_new page_size capacity) in *.
  pose proof (ci_shard _ _ _ I) as SO.
  assert (KS : 0 < k_shards k <= 64 /\ k_shards k * k_cap k <= capacity).
  { subst k. unfold io_new. cbn [k_shards k_cap]. destruct (N.eqb_spec capacity 0) as [->|NZ]; [lia|].
    set (n := N.min (N.max capacity 1) 64). assert (0 < n <= 64 /\ n <= capacity) by lia. clearbody n. split; [lia|].
    assert (Q : 1 <= capacity / n) by (apply N.div_le_lower_bound; lia). rewrite N.max_r by lia. apply N.mul_div_le. lia. }
  assert (Out : forall s, k_shards k <= s -> cached_pages w s = []).
  { intros s Hs. unfold cached_pages. destruct (sd_pages (w_shards w s)) as [|[off e] r] eqn:E; [reflexivity|]. exfalso.
    assert (X : shard_of k off = s) by (apply (so_own _ _ _ (SO s)); rewrite E; now left).
    unfold shard_of in X. pose proof (N.mod_lt (off / k_page k) (k_shards k)). lia. }
  assert (Len : forall s, N.of_nat (length (cached_pages w s)) <= k_cap k) by (intros s; unfold cached_pages; rewrite map_length; apply SO).
  split; [|split].
  - assert (G : forall l, NoDup l -> NoDup (concat (map (fun s => cached_pages w (N.of_nat s)) l))).
    { induction l as [|s l IH]; intros ND; cbn [map concat]; [constructor|]. inversion ND as [|? ? NI ND']; subst.
      assert (X : forall a b : list N, NoDup a -> NoDup b -> (forall x, In x a -> ~ In x b) -> NoDup (a ++ b)).
      { clear. induction a as [|x a IHa]; intros b Ha Hb D; [exact Hb|]. inversion Ha; subst. cbn [app]. constructor.
        - intros X. apply in_app_or in X as [X|X]; [contradiction|]. apply (D x); [now left|exact X].
        - apply IHa; auto. intros y Hy. apply D. now right. }
      apply X; [apply (so_nd _ _ _ (SO _))|now apply IH|]. intros x Hx Hc. apply in_concat in Hc as (c & Hc & Hxc). apply in_map_iff in Hc as (s' & <- & Hs').
      apply (so_own _ _ _ (SO _)) in Hx, Hxc. assert (s = s') by lia. subst. contradiction. }
    apply G, seq_NoDup.
  - destruct KS as [[K1 K2] K3].
    assert (G : forall n : nat, N.of_nat (length (concat (map (fun s => cached_pages w (N.of_nat s)) (seq 0 n)))) <= N.min (N.of_nat n) (k_shards k) * k_cap k).
    { induction n as [|n IH]; [cbn; lia|]. rewrite seq_S, map_app, concat_app, app_length. cbn [map concat Nat.add]. rewrite app_nil_r.
      specialize (Len (N.of_nat n)). destruct (N.ltb_spec (N.of_nat n) (k_shards k)) as [Lt|Ge].
      - rewrite N.min_l in * by lia. replace (N.of_nat (S n)) with (N.of_nat n + 1) by lia. rewrite N.mul_add_distr_r. lia.
      - rewrite (Out (N.of_nat n) Ge). cbn [length]. rewrite N.min_r in * by lia. lia. }
    specialize (G 64%nat). rewrite N.min_r in G by lia. lia.
  - intros s Hs. apply Out. lia.
Qed.
(** Flushing every shard puts the latest content of every page on the disk. *)
Theorem flush_reaches_disk page_size capacity disk io ops w answers order w' flushed : history page_size capacity disk io ops w answers ->
  (forall s off, In off (cached_pages w s) -> In off (order s)) ->
  crun (io_new page_size capacity) w (map (fun s => CFlush (N.of_nat s) (order (N.of_nat s))) (seq 0 (N.to_nat (k_shards (io_new page_size capacity))))) = Ok (w', flushed) ->
  (forall a, In a flushed -> a = Acked) ->
  forall off p, memory_after (negb (N.eqb capacity 0)) disk ops answers off = Some p -> w_disk w' off = p.
Proof.
  intros H Cov E All off p Hm. destruct (history_inv _ _ _ _ _ _ _ H) as (I & _). rewrite cap_zero in I. destruct H as [Hp _]. set (k := io_new page_size capacity) in *.
  set (m := memory_after (negb (N.eqb capacity 0)) disk ops answers) in *.
  assert (G : forall l w0, cinv k w0 m -> (forall s x, In x (cached_pages w0 s) -> In x (order s)) -> forall w1 fl,
    crun k w0 (map (fun s => CFlush (N.of_nat s) (order (N.of_nat s))) l) = Ok (w1, fl) -> (forall a, In a fl -> a = Acked) ->
    cinv k w1 m /\ forall x q d, found k w1 x = Some (q, d) -> (In (N.to_nat (shard_of k x)) l \/ (exists d0, found k w0 x = Some (q, d0) /\ d0 = false)) -> d = false).
  { clear E All. induction l as [|s l IH]; intros w0 I0 C0 w1 fl E1 A1; cbn [map crun] in E1.
    - injection E1 as <- <-. split; [exact I0|]. intros x q d F [[]|(d0 & F0 & ->)]. congruence.
    - cbn [cstep bind] in E1. destruct (flush_dirty w0 (N.of_nat s) (order (N.of_nat s))) as [w2 ok] eqn:EF. cbn [bind] in E1.
      destruct (crun k w2 _) as [[w3 l3]| | |] eqn:Er; try discriminate E1. cbn [bind] in E1. injection E1 as <- <-.
      assert (ok = true) by (specialize (A1 _ (or_introl eq_refl)); now destruct ok). subst ok.
      destruct (flush_dirty_ok k m _ _ w0 w2 true I0 EF) as (I2 & B & C).
      assert (C2 : forall s0 x, In x (cached_pages w2 s0) -> In x (order s0)).
      { intros s0 x Hx. apply C0. assert (Sx : shard_of k x = s0) by (apply (so_own _ _ _ (ci_shard _ _ _ I2 s0)); exact Hx).
        destruct (found k w0 x) as [[q d]|] eqn:F0; [unfold found in F0; rewrite Sx in F0; now apply lookup_key in F0|].
        apply C in F0. unfold found in F0. rewrite Sx in F0. apply lookup_none in F0. contradiction. }
      destruct (IH w2 I2 C2 w3 l3 Er) as [I3 R3]; [intros a Ha; apply A1; now right|]. split; [exact I3|].
      assert (X : forall x q, (exists d0, found k w0 x = Some (q, d0) /\ d0 = false) -> exists d0, found k w2 x = Some (q, d0) /\ d0 = false).
      { intros x q (d0 & F0 & ->). destruct (B x q false F0) as (d' & F2 & D2 & _). exists d'. auto. }
      intros x q d F [[Hs|Hl]|Hd]; [|eapply R3; [exact F|now left]|eapply R3; [exact F|right; now apply X]].
      (* the shard flushed now *)
      destruct (found k w2 x) as [[q2 d2]|] eqn:F2.
      + destruct (found k w0 x) as [[q0 d0]|] eqn:F0; [|apply C in F0; congruence]. destruct (B x q0 d0 F0) as (d' & F2' & _ & D2).
        assert (Sx : shard_of k x = N.of_nat s) by lia.
        assert (d' = false) by (apply D2; auto; apply C0; unfold found in F0; rewrite Sx in F0; now apply lookup_key in F0). subst d'.
        destruct (ci_cached _ _ _ I2 x q0 false F2') as [M2 _]. destruct (ci_cached _ _ _ I3 x q d F) as [M3 _]. assert (q0 = q) by congruence. subst q0.
        eapply R3; [exact F|]. right. exists false. auto.
      + (* not cached, and flushing never caches *)
        exfalso. assert (N3 : forall l' wa wb fl', cinv k wa m -> crun k wa (map (fun s => CFlush (N.of_nat s) (order (N.of_nat s))) l') = Ok (wb, fl') -> found k wa x = None -> found k wb x = None).
        { clear - C. induction l' as [|s' l' IH']; intros wa wb fl' Ia; cbn [map crun]; [intros [= <- <-]; auto|]. cbn [cstep bind].
          destruct (flush_dirty wa (N.of_nat s') (order (N.of_nat s'))) as [wc okc] eqn:Ec. cbn [bind]. destruct (crun k wc _) as [[wd fd]| | |] eqn:Ed; try discriminate. cbn [bind]. intros [= <- <-] Fa.
          destruct (flush_dirty_ok k m _ _ wa wc okc Ia Ec) as (Ic & _ & Cc). eapply IH'; [exact Ic|exact Ed|now apply Cc]. }
        specialize (N3 l w2 w3 l3 I2 Er F2). congruence. }
  destruct (G _ w I Cov w' flushed E All) as [I' R]. destruct (found k w' off) as [[q d]|] eqn:F; [|exact (ci_disk _ _ _ I' off p F Hm)].
  destruct (ci_cached _ _ _ I' off q d F) as [Hq Hd]. assert (q = p) by congruence. subst q. apply Hd. apply (R off p d F). left. apply in_seq. split; [lia|].
  unfold shard_of. assert (k_shards k <> 0) by (subst k; unfold io_new; cbn [k_shards]; destruct (N.eqb capacity 0); lia).
  pose proof (N.mod_lt (off / k_page k) (k_shards k) H). lia.
Qed.

(** ** C43 *)
(** What a search installs or gets when its device read is over is the latest
    content at that moment, whatever happened since the read began. *)
Theorem fill_latest page_size capacity disk io ops w answers : history page_size capacity disk io ops w answers -> capacity <> 0 ->
  forall i t off p, nth_error ops i = Some (CFill t) -> nth_error answers i = Some (Page off p) ->
  memory_after true disk (firstn i ops) (firstn i answers) off = Some p.
Proof. intros H NZ i t off p _. exact (reads_latest _ _ _ _ _ _ _ H NZ i off p). Qed.
(** After every step, the installed copy of a page is its latest content, and a
    copy not marked for writing back is on the disk. *)
Theorem cache_never_stale page_size capacity disk io ops w answers : history page_size capacity disk io ops w answers ->
  forall s off p dirty, In (off, (p, dirty)) (sd_pages (w_shards w s)) ->
  memory_after (negb (N.eqb capacity 0)) disk ops answers off = Some p /\ (dirty = false -> w_disk w off = p).
Proof.
  intros H s off p d Hin. destruct (history_inv _ _ _ _ _ _ _ H) as (I & _). rewrite cap_zero in I. pose proof (ci_shard _ _ _ I s) as [ND _ _ O].
  assert (Sx : shard_of (io_new page_size capacity) off = s) by (apply O; now apply (in_map fst) in Hin).
  assert (L : lookup off (sd_pages (w_shards w s)) = Some (p, d)).
  { clear - ND Hin. induction (sd_pages (w_shards w s)) as [|[x e] l IH]; [destruct Hin|]. cbn [map fst] in ND. inversion ND as [|? ? NI ND']; subst. cbn [lookup]. destruct Hin as [[= -> ->]|Hin]; [now rewrite N.eqb_refl|].
    destruct (N.eqb_spec x off) as [->|]; [exfalso; apply NI; now apply (in_map fst) in Hin|now apply IH]. }
  apply (ci_cached _ _ _ I off p d). unfold found. now rewrite Sx.
Qed.

(** ** Cases *)
(** Two shards of one page each (capacity 2, pages of 10 bytes); a search reads
    page 0 from the disk while it is rewritten, evicted and written back. *)
Definition ex_disk (off : N) : page := [off; 0].
Definition ex_ops : list cop :=
  [ CPeek 1 0; CWrite 0 [7; 7]; CFetch 1 [9; 9]; CWrite 20 [8; 8]; CFill 1; CRead 20; CRead 10; CPeek 2 0;
    CFlush 0 [20; 0]; CFetch 2 [1; 2]; CFill 2; CRead 0 ].
Example ex_run : exists w answers, history 10 2 ex_disk [] ex_ops w answers
  /\ answers = [Missed; Acked; Idle; Acked; Page 0 [7; 7]; Page 20 [8; 8]; Page 10 [10; 0]; Missed; Acked; Idle; Page 0 [7; 7]; Page 0 [7; 7]].
Proof. eexists _, _. split; [split; [reflexivity|vm_compute; reflexivity]|reflexivity]. Qed.
(** A failed write back: the write throws and both pages keep their content. *)
Example ex_fail : exists w answers, history 10 2 ex_disk [Some [3; 3]] [CWrite 0 [7; 7]; CWrite 20 [8; 8]; CRead 0; CRead 20] w answers
  /\ answers = [Acked; Threw; Page 0 [7; 7]; Page 20 [20; 0]].
Proof. eexists _, _. split; [split; [reflexivity|vm_compute; reflexivity]|reflexivity]. Qed.
Example ex_flush : exists w answers w' flushed, history 10 2 ex_disk [] [CWrite 0 [7; 7]; CWrite 10 [8; 8]] w answers
  /\ w_disk w 0 = [0; 0]
  /\ crun (io_new 10 2) w [CFlush 0 [0]; CFlush 1 [10]] = Ok (w', flushed) /\ flushed = [Acked; Acked] /\ w_disk w' 0 = [7; 7] /\ w_disk w' 10 = [8; 8].
Proof. eexists _, _, _, _. split; [split; [reflexivity|vm_compute; reflexivity]|]. split; [reflexivity|]. split; [vm_compute; reflexivity|]. repeat split. Qed.

Print Assumptions cache_safe.
Print Assumptions reads_latest.
Print Assumptions reads_latest_uncached.
Print Assumptions reads_answer.
Print Assumptions no_error_no_throw.
Print Assumptions cache_size.
Print Assumptions flush_reaches_disk.
Print Assumptions fill_latest.
Print Assumptions cache_never_stale.
