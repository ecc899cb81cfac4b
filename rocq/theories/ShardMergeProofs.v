(** Lemmas about building shard by shard, the medoid and the number of parts. *)
From Verif Require Import ShardSpec ShardProofs ShardFileProofs GraphFileProofs.
Import ListNotations.

Lemma nth_error_seq n : forall i s t, nth_error (seq i n) s = Some t -> t = i + s.
Proof.
  induction n as [|n IH]; intros i [|s] t H; cbn [seq nth_error] in H; try discriminate H; [inversion H; lia|]. apply IH in H. lia.
Qed.

(** ** Which vectors a shard holds *)
Lemma count_nodup (l : list nat) s : NoDup l -> count_occ Nat.eq_dec l s = if existsb (Nat.eqb s) l then 1 else 0.
Proof.
  intros H. destruct (existsb (Nat.eqb s) l) eqn:E.
  - apply existsb_exists in E. destruct E as (x & Hx & Ex). apply Nat.eqb_eq in Ex. subst x. now apply NoDup_count_occ'.
  - apply count_occ_not_In. intros Hs. assert (existsb (Nat.eqb s) l = true) by (apply existsb_exists; exists s; now rewrite Nat.eqb_refl). congruence.
Qed.
Lemma log_members vecs dist k near s : 0 < k ->
  (forall g v, nth_error vecs g = Some v -> measured k (dist g v) /\ nearest_k k (dist g v) (near g)) ->
  log vecs dist k s (length vecs) = members near (length vecs) s.
Proof.
  intros Hk H. unfold log, members. assert (G : forall l, (forall g, In g l -> g < length vecs) ->
    flat_map (fun g => repeat g (count_occ Nat.eq_dec (ShardFileProofs.near vecs dist k g) s)) l = filter (fun g => existsb (Nat.eqb s) (near g)) l).
  { induction l as [|g l IH]; intros Hl; [reflexivity|]. cbn [flat_map filter]. rewrite IH by (intros; apply Hl; now right).
    pose proof (nth_error_nth' vecs [] (Hl g (or_introl eq_refl))) as Ev. destruct (H g _ Ev) as [M NK].
    assert (E : ShardFileProofs.near vecs dist k g = near g) by (apply (nearest_k_unique k _ _ _ (closest_nearest k _ Hk M) NK)).
    rewrite E, (count_nodup (near g)) by exact (sorted_nodup _ (before_irrefl _) _ (nk_sorted _ _ _ NK)).
    destruct (existsb (Nat.eqb s) (near g)); reflexivity. }
  apply G. intros g Hg. apply in_seq in Hg. lia.
Qed.
Lemma members_in near n s g : In g (members near n s) <-> g < n /\ In s (near g).
Proof.
  unfold members. rewrite filter_In, in_seq, existsb_exists. split.
  - intros [Hg (x & Hx & E)]. apply Nat.eqb_eq in E. subst x. split; [lia|exact Hx].
  - intros [Hg Hs]. split; [lia|]. exists s. now rewrite Nat.eqb_refl.
Qed.
Lemma members_sorted near n s : StronglySorted Nat.lt (members near n s).
Proof.
  unfold members. assert (G : forall f m i, StronglySorted Nat.lt (filter f (seq i m))).
  { intros f. induction m as [|m IH]; intros i; cbn [seq filter]; [constructor|]. destruct (f i); [|apply IH]. constructor; [apply IH|].
    apply Forall_forall. intros x Hx. apply filter_In in Hx. destruct Hx as [Hx _]. apply in_seq in Hx. unfold Nat.lt. lia. }
  apply G.
Qed.
Lemma members_length near n s : length (members near n s) <= n.
Proof. unfold members. rewrite <- (seq_length n 0) at 2. generalize (seq 0 n). induction l as [|x l IH]; cbn; [lia|]. destruct existsb; cbn; lia. Qed.

(** ** Loading the shards *)
Lemma load_fbin_fbin dim (l : list bytes) : (0 < dim < 2 ^ 32)%N -> (N.of_nat (length l) < 2 ^ 32)%N -> (forall v, In v l -> length v = 4 * N.to_nat dim) ->
  load_fbin (fbin dim l) = if N.eqb (N.of_nat (length l)) 0 then Throws else Ok (l, dim).
Proof.
  intros Hd Hl Hw. unfold load_fbin, fbin. rewrite read_u32_enc by exact Hl. cbn [bind]. rewrite read_u32_enc by exact (proj2 Hd). cbn [bind].
  rewrite (proj2 (N.eqb_neq dim 0)) by lia. rewrite orb_false_r. destruct (N.eqb_spec (N.of_nat (length l)) 0); [reflexivity|]. rewrite Nat2N.id.
  assert (Hw' : forall v, In v l -> length v = N.to_nat dim * 4) by (intros v Hv; rewrite Hw by exact Hv; lia).
  assert (T : take_bytes (length l * (N.to_nat dim * 4)) (concat l) = Some (concat l, []))
    by (rewrite <- (concat_length _ l Hw'); apply take_bytes_exact).
  rewrite T. rewrite <- (app_nil_r (concat l)), rows_of_concat by exact Hw'. reflexivity.
Qed.

Section Partition.
Variable dim R : N.
Variable vecs : list bytes.
Hypothesis HV : vectors dim vecs.
Variable dist : nat -> bytes -> list fl.
Variable near : nat -> list nat.
Variable parts : nat.
Hypothesis Hdist : forall g v, nth_error vecs g = Some v -> length (dist g v) = parts /\ measured 2 (dist g v) /\ nearest_k 2 (dist g v) (near g).
Hypothesis Hparts : 2 <= parts.
Variable build : nat -> list bytes -> list (list N) * N.

Definition part (s : nat) : list nat := members near (length vecs) s.
Definition part_vecs (s : nat) : list bytes := map (fun g => nth g vecs []) (part s).
Definition part_files (s : nat) : shard_files := finalize dim (mk vecs (part s)).
Lemma part_small s : (N.of_nat (length (part s)) < 2 ^ 32)%N.
Proof using HV. clear -HV. pose proof (members_length near (length vecs) s). pose proof (v_count _ _ HV). unfold part. lia. Qed.
Lemma part_vecs_size s v : In v (part_vecs s) -> length v = 4 * N.to_nat dim.
Proof using HV.
  clear -HV. intros Hv. apply in_map_iff in Hv. destruct Hv as (g & <- & Hg). apply members_in in Hg. apply (v_size _ _ HV). apply nth_In. tauto.
Qed.
Lemma load_part s : load_fbin (f_data (part_files s)) = match part s with [] => Throws | _ => Ok (part_vecs s, dim) end.
Proof using HV.
  clear -HV. unfold part_files. rewrite (hs_data _ _ _ _ (finalize_holds dim vecs (part s) (part_small s))). rewrite load_fbin_fbin.
  - fold (part_vecs s). unfold part_vecs at 1. rewrite map_length. destruct (part s); [reflexivity|]. now rewrite (proj2 (N.eqb_neq _ 0)) by (cbn [length]; lia).
  - exact (v_dim _ _ HV).
  - rewrite map_length. apply part_small.
  - exact (part_vecs_size s).
Qed.
Lemma shard_data_parts fuel block r : length vecs < fuel -> 0 < block ->
  shard_data fuel dist (fbin dim vecs ++ r) parts 2 block = Done (Ok (map part_files (seq 0 parts))).
Proof using HV Hdist Hparts.
  intros Hf Hb. clear build.
  assert (EL : forall s, log vecs dist 2 s (length vecs) = part s) by (intros s; apply log_members; [lia|intros g v Hv; destruct (Hdist g v Hv); tauto]).
  rewrite (shard_data_run dim vecs HV dist 2 parts block fuel ltac:(lia) Hb Hf (fun g v Hv => proj1 (Hdist g v Hv))).
  - do 2 f_equal. apply map_ext. intros s. unfold part_files. now rewrite EL.
  - intros s _. rewrite EL. apply part_small.
Qed.
Lemma build_shards_empty : forall n s, (exists t, s <= t < s + n /\ part t = []) -> build_shards build R dim s (map part_files (seq s n)) = Throws.
Proof using HV.
  clear -HV. induction n as [|n IH]; intros s (t & Ht & E); [lia|]. cbn [seq map build_shards]. rewrite load_part.
  destruct (Nat.eq_dec t s) as [->|]; [now rewrite E|]. destruct (part s); [reflexivity|]. cbn [bind]. rewrite N.eqb_refl. cbn [negb].
  rewrite IH; [reflexivity|]. exists t. split; [lia|exact E].
Qed.

Definition spec_of (s : nat) : shard_graph :=
  {| sg_ids := map N.of_nat (part s); sg_rows := fst (build s (part_vecs s)); sg_medoid := N.to_nat (snd (build s (part_vecs s))); sg_degree := shard_degree R |}.
Lemma build_shards_ok : (forall s, s < parts -> part s <> []) -> forall n s, s + n <= parts ->
  build_shards build R dim s (map part_files (seq s n)) = Ok (map graph_file (map spec_of (seq s n))).
Proof using HV.
  clear -HV. intros NE. induction n as [|n IH]; intros s Hs; [reflexivity|]. cbn [seq map build_shards]. rewrite load_part.
  pose proof (NE s ltac:(lia)) as Hp. destruct (part s) eqn:Ep; [congruence|]. cbn [bind]. rewrite N.eqb_refl. cbn [negb].
  rewrite IH by lia. cbn [bind]. unfold graph_file, spec_of. cbn [sg_rows sg_degree sg_medoid]. now rewrite N2Nat.id.
Qed.
Lemma ids_part s : f_ids (part_files s) = idmap_file (spec_of s).
Proof using HV.
  clear -HV. unfold part_files. rewrite (hs_ids _ _ _ _ (finalize_holds dim vecs (part s) (part_small s))). unfold idfile, idmap_file, spec_of. cbn [sg_ids].
  rewrite map_length. do 2 f_equal. induction (part s) as [|g l IH]; [reflexivity|]. cbn [flat_map map]. now rewrite IH.
Qed.
Hypothesis HR : (R < 2 ^ 32)%N.
Hypothesis Hbuild : forall s, s < parts -> graph_on (length (part s)) (fst (build s (part_vecs s))) (snd (build s (part_vecs s))).
Lemma spec_ok s : s < parts -> shard_ok (spec_of s).
Proof using HV HR Hbuild.
  clear -HV HR Hbuild. intros Hs. destruct (Hbuild s Hs) as [Lr Hm Hrow]. split; cbn [spec_of sg_ids sg_rows sg_medoid sg_degree].
  - apply sorted_map with (R := Nat.lt); [unfold Nat.lt; lia|apply members_sorted].
  - apply Forall_forall. intros g Hg. apply in_map_iff in Hg. destruct Hg as (i & <- & Hi). apply members_in in Hi. pose proof (v_count _ _ HV). lia.
  - now rewrite map_length.
  - rewrite map_length. lia.
  - intros adj Ha. rewrite map_length. exact (Hrow adj Ha).
  - unfold shard_degree. pose proof (N.mod_lt (2 * R) (2 ^ 32) ltac:(discriminate)). lia.
Qed.
Variable shuffle : N -> list N -> list N.
Hypothesis Hshuffle : forall gid l, Permutation l (shuffle gid l).
Hypothesis NE : forall s, s < parts -> part s <> [].
Lemma partition_ok fuel block medoid : length vecs < fuel -> 0 < block ->
  exists rows, partition_merge fuel dist build shuffle (fbin dim vecs) dim R parts block medoid
    = Done (Ok (save_graph rows R medoid 0, le_enc 4 (N.of_nat parts mod 2 ^ 32) ++ le_enc 4 1
        ++ flat_map (le_enc 4) (map (fun s => nth (sg_medoid s) (sg_ids s) 0%N) (map spec_of (seq 0 parts)))))
    /\ merged (map spec_of (seq 0 parts)) R rows /\ length rows = length vecs.
Proof using HV Hdist Hparts HR Hbuild Hshuffle NE.
  intros Hf Hb. set (specs := map spec_of (seq 0 parts)).
  assert (OK : Forall shard_ok specs).
  { apply Forall_forall. intros x Hx. apply in_map_iff in Hx. destruct Hx as (s & <- & Hs). apply in_seq in Hs. apply spec_ok. lia. }
  assert (SN : specs <> []) by (unfold specs; destruct parts; [lia|discriminate]).
  destruct (merge_shards_ok shuffle Hshuffle specs R medoid 0 SN OK) as (rows & E & M). exists rows.
  unfold partition_merge. rewrite <- (app_nil_r (fbin dim vecs)), (shard_data_parts fuel block [] Hf Hb). cbn [bind].
  rewrite (build_shards_ok NE parts 0) by lia. cbn [bind]. fold specs.
  assert (EI : map f_ids (map part_files (seq 0 parts)) = map idmap_file specs).
  { unfold specs. rewrite !map_map. apply map_ext. apply ids_part. }
  assert (EL : length specs = parts) by (unfold specs; now rewrite map_length, seq_length).
  rewrite EI, E, EL. split; [reflexivity|]. split; [exact M|]. destruct M as (Hin & Hlast & _).
  assert (Hold : forall a, holds specs a <-> (a < N.of_nat (length vecs))%N).
  { intros a. split.
    - intros (x & Hx & Ha). apply in_map_iff in Hx. destruct Hx as (s & <- & _). cbn [spec_of sg_ids] in Ha. apply in_map_iff in Ha.
      destruct Ha as (g & <- & Hg). apply members_in in Hg. lia.
    - intros Ha. assert (Hg : N.to_nat a < length vecs) by lia. pose proof (nth_error_nth' vecs [] Hg) as Ev. destruct (Hdist _ _ Ev) as (L & _ & NK).
      destruct (near (N.to_nat a)) as [|s l] eqn:En; [pose proof (nk_length _ _ _ NK); discriminate|].
      assert (Hs : s < parts) by (rewrite <- L; apply (nk_in _ _ _ NK); now left).
      exists (spec_of s). split; [apply in_map_iff; exists s; split; [reflexivity|apply in_seq; lia]|]. cbn [spec_of sg_ids].
      apply in_map_iff. exists (N.to_nat a). split; [lia|]. apply members_in. rewrite En. split; [exact Hg|now left]. }
  assert (L0 : 0 < length vecs) by (pose proof (v_some _ _ HV); destruct vecs; [congruence|cbn; lia]).
  apply Hold in Hlast. assert (HL : holds specs (N.of_nat (length vecs) - 1)%N) by (apply Hold; lia). apply Hin in HL. lia.
Qed.
End Partition.

(** ** The medoid *)
Section Medoid.
Variable dist : nat -> fl.
(** [r] is the outcome of looking at the points [seen]. *)
Definition looked (seen : list nat) (r : fl * nat) : Prop :=
  (r = (Some dbl_max, 0) /\ forall p x, In p seen -> dist p = Some x -> (dbl_max <= x)%Z)
  \/ exists p x, r = (Some x, p) /\ In p seen /\ dist p = Some x /\ (x < dbl_max)%Z /\ forall q y, In q seen -> dist q = Some y -> (x <= y)%Z.
Lemma looked_nil : looked [] (Some dbl_max, 0).
Proof. left. split; [reflexivity|intros ? ? []]. Qed.
Lemma looked_ext a b r : (forall p, In p a <-> In p b) -> looked a r -> looked b r.
Proof.
  intros E [[-> H]|(p & x & -> & Hp & Ed & Hx & H)].
  - left. split; [reflexivity|]. intros p x Hp. apply H. now apply E.
  - right. exists p, x. repeat split; auto; [now apply E|]. intros q y Hq. apply H. now apply E.
Qed.
Lemma looked_point seen r p : looked seen r -> looked (seen ++ [p]) (better (dist p, p) r).
Proof.
  unfold better. cbn [fst]. intros H. assert (Cases : forall q, In q (seen ++ [p]) -> In q seen \/ q = p) by (intros q Hq; apply in_app_or in Hq; cbn in Hq; intuition).
  destruct H as [[-> H]|(q & x & -> & Hq & Ed & Hx & H)]; cbn [fst]; destruct (dist p) as [y|] eqn:Ey; cbn [flt].
  - destruct (Z.ltb_spec y dbl_max).
    + right. exists p, y. repeat split; auto; [apply in_or_app; cbn; auto|]. intros q z Hq Ez. destruct (Cases q Hq) as [Hq'| -> ]; [specialize (H q z Hq' Ez); lia|].
      rewrite Ey in Ez. inversion Ez. lia.
    + left. split; [reflexivity|]. intros q z Hq Ez. destruct (Cases q Hq) as [Hq'| -> ]; [eauto|]. rewrite Ey in Ez. inversion Ez. lia.
  - left. split; [reflexivity|]. intros q z Hq Ez. destruct (Cases q Hq) as [Hq'| -> ]; [eauto|congruence].
  - destruct (Z.ltb_spec y x).
    + right. exists p, y. repeat split; auto; [apply in_or_app; cbn; auto|lia|]. intros q' z Hq' Ez. destruct (Cases q' Hq') as [Hq2| -> ]; [specialize (H q' z Hq2 Ez); lia|].
      rewrite Ey in Ez. inversion Ez. lia.
    + right. exists q, x. repeat split; auto; [apply in_or_app; auto|]. intros q' z Hq' Ez. destruct (Cases q' Hq') as [Hq2| -> ]; [eauto|].
      rewrite Ey in Ez. inversion Ez. lia.
  - right. exists q, x. repeat split; auto; [apply in_or_app; auto|]. intros q' z Hq' Ez. destruct (Cases q' Hq') as [Hq2| -> ]; [eauto|congruence].
Qed.
Lemma looked_both a b r s : looked a r -> looked b s -> looked (a ++ b) (better s r).
Proof.
  unfold better. intros [[-> H]|(p & x & -> & Hp & Ed & Hx & H)] [[-> H']|(q & y & -> & Hq & Eq & Hy & H')]; cbn [fst flt].
  - rewrite Z.ltb_irrefl. left. split; [reflexivity|]. intros p x Hp. apply in_app_or in Hp. destruct Hp; eauto.
  - destruct (Z.ltb_spec y dbl_max); [|lia]. right. exists q, y. repeat split; auto; [apply in_or_app; auto|].
    intros z w Hz Ez. apply in_app_or in Hz. destruct Hz as [Hz|Hz]; [specialize (H z w Hz Ez); lia|eauto].
  - destruct (Z.ltb_spec dbl_max x); [lia|]. right. exists p, x. repeat split; auto; [apply in_or_app; auto|].
    intros z w Hz Ez. apply in_app_or in Hz. destruct Hz as [Hz|Hz]; [eauto|specialize (H' z w Hz Ez); lia].
  - destruct (Z.ltb_spec y x); right; [exists q, y|exists p, x]; (repeat split; auto; [apply in_or_app; auto|]);
      intros z w Hz Ez; apply in_app_or in Hz; destruct Hz as [Hz|Hz]; [specialize (H z w Hz Ez)|specialize (H' z w Hz Ez)|specialize (H z w Hz Ez)|specialize (H' z w Hz Ez)]; lia.
Qed.
Lemma looked_share : forall share seen r, looked seen r -> looked (seen ++ share) (fold_left (fun b p => better (dist p, p) b) share r).
Proof.
  induction share as [|p share IH]; intros seen r H; cbn [fold_left]; [now rewrite app_nil_r|].
  change (p :: share) with ([p] ++ share). rewrite app_assoc. apply IH. now apply looked_point.
Qed.
Lemma looked_block : forall threads seen r, looked seen r ->
  looked (seen ++ concat threads) (fold_left (fun b share => better (scan_share dist share) b) threads r).
Proof.
  induction threads as [|t threads IH]; intros seen r H; cbn [fold_left concat]; [now rewrite app_nil_r|].
  rewrite app_assoc. apply IH. apply looked_both; [exact H|]. exact (looked_share t [] _ looked_nil).
Qed.
Lemma looked_blocks : forall blocks seen r, looked seen r ->
  looked (seen ++ concat (map (@concat nat) blocks)) (fold_left (fun b threads => better (scan_block dist threads) b) blocks r).
Proof.
  induction blocks as [|t blocks IH]; intros seen r H; cbn [fold_left map concat]; [now rewrite app_nil_r|].
  rewrite app_assoc. apply IH. apply looked_both; [exact H|]. exact (looked_block t [] _ looked_nil).
Qed.
End Medoid.

(** ** The number of parts *)
Lemma max_ram_fits B : forall rams m, (forall r, In r rams -> r <> None) -> 
  fge (Some B) (fold_left (fun m r => if flt m r then r else m) rams (Some m)) = true <-> (m <= B)%Z /\ forall x, In (Some x) rams -> (x <= B)%Z.
Proof.
  induction rams as [|r rams IH]; intros m H; cbn [fold_left]; [cbn; rewrite Z.leb_le; intuition|].
  destruct r as [x|]; [|destruct (H None (or_introl eq_refl) eq_refl)]. cbn [flt].
  destruct (Z.ltb_spec m x); rewrite IH by (intros; apply H; now right); split; intros [A B'].
  - split; [lia|]. intros y [[= <-]|Hy]; auto.
  - split; [apply B'; now left|]. intros y Hy. apply B'. now right.
  - split; [lia|]. intros y [[= <-]|Hy]; [lia|auto].
  - split; [lia|]. intros y Hy. apply B'. now right.
Qed.
(** The first number of parts that fits. *)
Lemma grow_parts_ok rams num_train max_parts B : (0 <= B)%Z -> (forall n r, In r (rams n) -> r <> None) -> forall fuel p, 0 < fuel -> max_parts + 1 < p + fuel ->
  match grow_parts fuel rams num_train max_parts (Some B) p with
  | Done (Ok q) => (exists i, q = p + 2 * i) /\ q <= max_parts /\ q <= num_train /\ (forall x, In (Some x) (rams q) -> (x <= B)%Z)
      /\ forall i, p + 2 * i < q -> exists x, In (Some x) (rams (p + 2 * i)) /\ (B < x)%Z
  | Done Throws => forall i, p + 2 * i <= max_parts -> p + 2 * i <= num_train -> exists x, In (Some x) (rams (p + 2 * i)) /\ (B < x)%Z
  | _ => False
  end.
Proof.
  intros HB HN. assert (D : forall l : list fl, (forall r, In r l -> r <> None) -> fge (Some B) (max_ram l) = false -> exists x, In (Some x) l /\ (B < x)%Z).
  { intros l Hl E. destruct (Exists_dec (fun r : fl => match r with Some x => (B < x)%Z | None => False end) l) as [H|H].
    - intros [x|]; [destruct (Z_lt_dec B x); [now left|now right]|now right].
    - apply Exists_exists in H. destruct H as ([x|] & Hx & L); [eauto|destruct L].
    - exfalso. assert (fge (Some B) (max_ram l) = true); [|congruence]. apply max_ram_fits; [exact Hl|]. split; [exact HB|].
      intros x Hx. destruct (Z_lt_dec B x) as [L|]; [|lia]. exfalso. apply H. apply Exists_exists. eauto. }
  induction fuel as [|fuel IH]; intros p H0 Hf; cbn [grow_parts]; [lia|].
  destruct (Nat.leb_spec p max_parts); [|intros i; lia].
  destruct (Nat.ltb_spec num_train p); [intros i; lia|].
  destruct (fge (Some B) (max_ram (rams p))) eqn:E.
  - split; [exists 0; lia|]. split; [assumption|]. split; [assumption|]. split.
    + apply max_ram_fits in E; [exact (proj2 E)|apply HN].
    + intros i; lia.
  - specialize (IH (p + 2) ltac:(lia) ltac:(lia)). pose proof (D _ (HN p) E) as W.
    destruct (grow_parts fuel rams num_train max_parts (Some B) (p + 2)) as [|[q| | |]] eqn:Eg; try (exfalso; exact IH).
    + destruct IH as ((i & ->) & A1 & A2 & A3 & A4). split; [exists (S i); lia|]. split; [assumption|]. split; [assumption|]. split; [exact A3|].
      intros [|j] Hj; [now rewrite Nat.mul_0_r, Nat.add_0_r|]. replace (p + 2 * S j) with (p + 2 + 2 * j) in * by lia. auto.
    + intros [|j] Hj Hk; [now rewrite Nat.mul_0_r, Nat.add_0_r|]. replace (p + 2 * S j) with (p + 2 + 2 * j) in * by lia. auto.
Qed.
