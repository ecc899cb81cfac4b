(** Lemmas about the disk layout. *)
From Verif Require Import LayoutSpec GraphFileProofs StoreProofs.
Local Open Scope N_scope.

(** ** Geometry *)

Record geo (dim degree : N) (g : geometry) : Prop := {
  geo_dim : g_dim g = dim;
  geo_degree : g_degree g = degree;
  geo_len : g_len g = 4 * dim + 4 + 4 * degree;
  geo_per : 1 <= g_per g;
  geo_room : g_per g * g_len g <= g_page g;
  geo_sectors : exists k, g_page g = k * kSectorLen;
  geo_page : g_page g <= g_len g + kSectorLen;
  geo_small : g_len g <= kSectorLen -> g_page g = kSectorLen;
  geo_large : kSectorLen < g_len g -> g_per g = 1;
}.
Lemma compute_ok dim degree n : layout_fits dim degree n -> 0 < n -> exists g, compute dim degree = Ok g /\ geo dim degree g.
Proof.
  intros (D & R & F) Hn. unfold kSectorLen in F.
  assert (L : 4096 + (4 * dim + 4 + 4 * degree + 4096) < 2 ^ 64) by nia.
  unfold compute. destruct (N.eqb_spec dim 0); [lia|]. unfold w64.
  rewrite (N.mod_small (dim * 4)) by lia. rewrite (N.mod_small (dim * 4 + 4 + degree * 4)) by lia.
  destruct (N.eqb_spec (dim * 4 + 4 + degree * 4) 0); [lia|].
  set (len := dim * 4 + 4 + degree * 4) in *. unfold kSectorLen.
  assert (Len : 0 < len) by lia. assert (LenB : len + 8192 < 2 ^ 64) by lia.
  set (per := N.max 1 (4096 / len)).
  assert (P : 1 <= per /\ (len <= 4096 -> per * len <= 4096) /\ (4096 < len -> per = 1)).
  { subst per. split; [lia|]. split.
    - intros H. assert (1 <= 4096 / len) by (apply N.div_le_lower_bound; lia). rewrite N.max_r by lia.
      rewrite N.mul_comm. apply N.mul_div_le. lia.
    - intros H. now rewrite N.div_small by lia. }
  destruct P as (P1 & P2 & P3).
  assert (PL : per * len <= len + 4096) by (destruct (N.le_gt_cases len 4096) as [H|H]; [specialize (P2 H); lia|rewrite (P3 H); lia]).
  assert (PL1 : len <= per * len) by nia.
  assert (PLs : len <= 4096 -> per * len <= 4096) by exact P2.
  assert (PLb : 4096 < len -> per * len = len) by (intros H; rewrite (P3 H); lia).
  rewrite (N.mod_small (per * len)) by lia. rewrite N.mod_small by lia.
  set (pl := per * len) in *. set (q := (pl + 4096 - 1) / 4096).
  assert (Q : q * 4096 <= pl + 4095 /\ pl <= q * 4096) by (subst q; lia).
  eexists. split; [reflexivity|].
  split; cbn [g_dim g_degree g_len g_per g_page]; unfold kSectorLen in *; try reflexivity; try lia.
  now exists q.
Qed.

(** The position of a record, without wrapping. *)
Definition at_node (g : geometry) (node : N) : N := kSectorLen + g_page g * (node / g_per g) + node mod g_per g * g_len g.

Lemma in_page dim degree g node : geo dim degree g -> node mod g_per g * g_len g + g_len g <= g_page g.
Proof.
  intros G. pose proof (geo_room _ _ _ G) as R. pose proof (geo_per _ _ _ G) as P.
  pose proof (N.mod_lt node (g_per g) ltac:(lia)). nia.
Qed.
Lemma page_of_le g node n : 1 <= g_per g -> node < n -> node / g_per g + 1 <= (n + g_per g - 1) / g_per g.
Proof.
  intros P H. replace (node / g_per g + 1) with ((node + 1 * g_per g) / g_per g) by (rewrite N.div_add by lia; reflexivity).
  apply N.div_le_mono; lia.
Qed.
Lemma pages_le g n : 1 <= g_per g -> (n + g_per g - 1) / g_per g <= n.
Proof.
  intros P. destruct (N.eq_dec n 0) as [->|NZ]; [rewrite N.div_small; lia|].
  apply N.lt_succ_r. rewrite <- N.add_1_r. apply N.div_lt_upper_bound; [lia|]. nia.
Qed.
Lemma total_ok dim degree n g : layout_fits dim degree n -> geo dim degree g -> 0 < n ->
  num_pages g n = (n + g_per g - 1) / g_per g
  /\ total_file_size g n = kSectorLen + num_pages g n * g_page g
  /\ kSectorLen + num_pages g n * g_page g < 2 ^ 64 /\ num_pages g n <= n /\ n < 2 ^ 64.
Proof.
  intros (D & R & F) G Hn. pose proof (geo_per _ _ _ G) as P. pose proof (geo_page _ _ _ G) as PG. pose proof (geo_len _ _ _ G) as L.
  pose proof (geo_room _ _ _ G) as RM.
  pose proof (pages_le g n P) as PN. unfold kSectorLen in *.
  assert (PB : g_per g <= 8192 + g_len g) by nia.
  assert (NB : n * (g_len g + 4096) + 4096 < 2 ^ 64) by (rewrite L; lia).
  assert (nsmall : n + g_per g < 2 ^ 64).
  { assert (n * (g_len g + 4096) >= n + g_len g + 4095) by nia.
    assert (g_per g <= 4096 + g_len g) by nia. nia. }
  assert (NP : num_pages g n = (n + g_per g - 1) / g_per g).
  { unfold num_pages. destruct (N.eqb_spec n 0); [lia|]. unfold w64. now rewrite N.mod_small by lia. }
  rewrite NP. assert (TB : (n + g_per g - 1) / g_per g * g_page g <= n * (g_len g + 4096)) by (apply N.mul_le_mono; lia).
  split; [reflexivity|]. split; [|split; [lia|split; [exact PN|lia]]].
  unfold total_file_size. rewrite NP. unfold w64, kSectorLen. rewrite (N.mod_small (_ * _)) by lia. now rewrite N.mod_small by lia.
Qed.
Lemma offset_ok dim degree n g node : layout_fits dim degree n -> geo dim degree g -> node < n ->
  file_offset g node = at_node g node /\ page_offset g node = kSectorLen + g_page g * (node / g_per g)
  /\ offset_to_node g node = node mod g_per g * g_len g /\ at_node g node + g_len g <= kSectorLen + num_pages g n * g_page g.
Proof.
  intros F G H. destruct (total_ok dim degree n g F G ltac:(lia)) as (NP & _ & TB & _ & _).
  pose proof (in_page _ _ _ node G) as IP. pose proof (page_of_le g node n (geo_per _ _ _ G) H) as PO. rewrite <- NP in PO.
  assert (g_page g * (node / g_per g) + g_page g <= num_pages g n * g_page g) by nia.
  unfold file_offset, page_offset, offset_to_node, w64, at_node, kSectorLen in *.
  assert (LP : 1 <= g_len g) by (rewrite (geo_len _ _ _ G); lia).
  set (mo := node mod g_per g * g_len g) in *. set (pp := g_page g * (node / g_per g)) in *. set (tt := num_pages g n * g_page g) in *.
  clearbody mo pp tt. clear PO NP G F H.
  rewrite (N.mod_small pp) by lia. rewrite (N.mod_small mo) by lia.
  rewrite (N.mod_small (4096 + _)) by lia. rewrite N.mod_small by lia. repeat split; lia.
Qed.
Lemma mod_same p i j : 1 <= p -> i / p = j / p -> i mod p + (j - i) = j mod p + (i - j).
Proof.
  intros P E. rewrite !N.mod_eq by lia. pose proof (N.mul_div_le i p ltac:(lia)) as Li. pose proof (N.mul_div_le j p ltac:(lia)) as Lj.
  rewrite E in *. generalize dependent (p * (j / p)). intros q ? ?. lia.
Qed.
Lemma at_node_disjoint dim degree g i j : geo dim degree g -> i < j -> at_node g i + g_len g <= at_node g j.
Proof.
  intros G H. pose proof (in_page _ _ _ i G) as IP. pose proof (geo_per _ _ _ G) as P. unfold at_node.
  pose proof (N.div_le_mono i j (g_per g) ltac:(lia) ltac:(lia)) as DM.
  destruct (N.eq_dec (i / g_per g) (j / g_per g)) as [E|NE].
  - rewrite E. pose proof (mod_same _ i j P E) as MS. generalize dependent (i mod g_per g). generalize (j mod g_per g).
    intros mj mi _ MS. assert (mi + 1 <= mj) by lia. nia.
  - assert (g_page g * (i / g_per g) + g_page g <= g_page g * (j / g_per g)) by nia. lia.
Qed.
Lemma at_node_sector dim degree g i : geo dim degree g -> g_len g <= kSectorLen ->
  at_node g i / kSectorLen = (at_node g i + g_len g - 1) / kSectorLen.
Proof.
  intros G L. pose proof (in_page _ _ _ i G) as IP. pose proof (geo_small _ _ _ G L) as PS.
  pose proof (geo_len _ _ _ G) as GL. unfold at_node. rewrite PS in *. unfold kSectorLen in *.
  set (o := i mod g_per g * g_len g) in *. set (q := i / g_per g). lia.
Qed.

(** ** Pages *)

Lemma write_at_app m off a b : write_at m off (a ++ b) = let* m' := write_at m off a in write_at m' (off + N.of_nat (length a)) b.
Proof.
  unfold write_at. rewrite app_length.
  destruct (N.leb_spec (off + N.of_nat (length a + length b)) (N.of_nat (length m))) as [H|H];
    destruct (N.leb_spec (off + N.of_nat (length a)) (N.of_nat (length m))) as [H1|H1]; cbn [bind]; try lia; try reflexivity.
  - assert (Lm : length (firstn (N.to_nat off) m ++ a ++ skipn (N.to_nat off + length a) m) = length m)
      by (rewrite !app_length, firstn_length, skipn_length; lia).
    rewrite Lm. destruct (N.leb_spec (off + N.of_nat (length a) + N.of_nat (length b)) (N.of_nat (length m))); [|lia].
    f_equal. set (X := firstn (N.to_nat off) m). set (Y := skipn (N.to_nat off + length a) m).
    assert (LA : length (X ++ a) = N.to_nat (off + N.of_nat (length a))) by (subst X; rewrite app_length, firstn_length; lia).
    rewrite (app_assoc X a Y). rewrite firstn_app, LA, Nat.sub_diag, firstn_all2 by lia. cbn [firstn]. rewrite app_nil_r.
    rewrite skipn_app, LA, (skipn_all2 (X ++ a)) by lia. cbn [app]. rewrite <- !app_assoc. do 3 f_equal.
    subst Y. rewrite skipn_plus. f_equal. lia.
  - assert (Lm : length (firstn (N.to_nat off) m ++ a ++ skipn (N.to_nat off + length a) m) = length m)
      by (rewrite !app_length, firstn_length, skipn_length; lia).
    rewrite Lm. destruct (N.leb_spec (off + N.of_nat (length a) + N.of_nat (length b)) (N.of_nat (length m))); [lia|reflexivity].
Qed.
Lemma read_split m o n1 n2 b : read_at m o (n1 + n2) = Ok b -> read_at m o n1 = Ok (firstn (N.to_nat n1) b) /\ read_at m (o + n1) n2 = Ok (skipn (N.to_nat n1) b).
Proof.
  unfold read_at. destruct (N.leb_spec (o + (n1 + n2)) (N.of_nat (length m))); [|discriminate]. intros [= <-].
  destruct (N.leb_spec (o + n1) (N.of_nat (length m))); [|lia]. destruct (N.leb_spec (o + n1 + n2) (N.of_nat (length m))); [|lia].
  split; f_equal.
  - rewrite firstn_firstn. f_equal. lia.
  - rewrite skipn_firstn_comm, skipn_plus. f_equal; [lia|f_equal; lia].
Qed.
Lemma read_join m o n1 n2 b1 b2 : read_at m o n1 = Ok b1 -> read_at m (o + n1) n2 = Ok b2 -> read_at m o (n1 + n2) = Ok (b1 ++ b2).
Proof.
  intros H1 H2. assert (L : o + (n1 + n2) <= N.of_nat (length m)) by (unfold read_at in H2; destruct (N.leb_spec (o + n1 + n2) (N.of_nat (length m))); [lia|discriminate]).
  pose proof (read_ok m o (n1 + n2) L) as R. pose proof (read_split _ _ _ _ _ R) as [R1 R2]. rewrite R. f_equal.
  rewrite <- (firstn_skipn (N.to_nat n1) (firstn _ _)). congruence.
Qed.

(** Writing a record whose length is at most [len] into a room of zeros. *)
Lemma write_record page off b len : off + len <= N.of_nat (length page) -> N.of_nat (length b) <= len ->
  read_at page off len = Ok (repeat 0 (N.to_nat len)) ->
  exists page', write_at page off b = Ok page' /\ length page' = length page
    /\ read_at page' off len = Ok (b ++ repeat 0 (N.to_nat len - length b))
    /\ forall o n, o + n <= off \/ off + len <= o -> read_at page' o n = read_at page o n.
Proof.
  intros HP HB HZ. destruct (write_ok page off b ltac:(lia)) as (p & E & L & RB & RO).
  exists p. split; [exact E|]. split; [exact L|]. split; [|intros o n [?|?]; apply RO; lia].
  replace len with (N.of_nat (length b) + (len - N.of_nat (length b))) at 1 by lia. apply read_join; [exact RB|].
  rewrite RO by lia.
  replace len with (N.of_nat (length b) + (len - N.of_nat (length b))) in HZ at 1 by lia.
  apply read_split in HZ. destruct HZ as [_ ->]. f_equal.
  rewrite <- (firstn_skipn (length b) (repeat 0 (N.to_nat len))). rewrite Nat2N.id.
  assert (G : forall k m, skipn k (repeat (0 : N) m) = repeat 0 (m - k)%nat).
  { induction k as [|k IH]; intros [|m]; cbn; try reflexivity. apply IH. }
  rewrite firstn_skipn. apply G.
Qed.
Lemma write_at_inv m off b m' : write_at m off b = Ok m' -> length m' = length m /\ off + N.of_nat (length b) <= N.of_nat (length m).
Proof.
  unfold write_at. destruct (N.leb_spec (off + N.of_nat (length b)) (N.of_nat (length m))); [|discriminate]. intros [= <-].
  rewrite !app_length, firstn_length, skipn_length. lia.
Qed.
Lemma write_at_nil m off : off <= N.of_nat (length m) -> write_at m off [] = Ok m.
Proof.
  intros H. unfold write_at. cbn [length]. destruct (N.leb_spec (off + N.of_nat 0) (N.of_nat (length m))); [|lia].
  rewrite Nat.add_0_r. cbn [app]. now rewrite firstn_skipn.
Qed.
Lemma pack_as_write page off coords nbrs dim : N.of_nat (length coords) = dim -> N.of_nat (length nbrs) < 2 ^ 32 ->
  pack_node_record page off coords nbrs (N.of_nat (length nbrs)) dim
  = write_at page off (u32s coords ++ le_enc 4 (N.of_nat (length nbrs)) ++ u32s nbrs).
Proof.
  intros <- H. unfold pack_node_record. rewrite write_at_app.
  destruct (write_at page off (u32s coords)) as [p1| | |]; cbn [bind]; try reflexivity.
  rewrite u32s_length. replace (N.of_nat (4 * length coords)) with (N.of_nat (length coords) * 4) by lia.
  rewrite write_at_app. destruct (write_at p1 _ (le_enc 4 _)) as [p2| | |] eqn:E; cbn [bind]; try reflexivity.
  rewrite le_enc_length. destruct (N.ltb_spec 0 (N.of_nat (length nbrs))) as [P|Z]; [reflexivity|].
  destruct nbrs; [|cbn in Z; lia]. cbn [u32s flat_map]. apply write_at_inv in E. rewrite le_enc_length in E. now rewrite write_at_nil by lia.
Qed.

(** ** All nodes *)

Lemma read_app_l p r o l : o + l <= N.of_nat (length p) -> read_at (p ++ r) o l = read_at p o l.
Proof.
  intros H. rewrite !read_ok by (try rewrite app_length; lia). f_equal. rewrite skipn_app, firstn_app.
  rewrite skipn_length. replace (N.to_nat l - (length p - N.to_nat o))%nat with 0%nat by lia. cbn [firstn]. apply app_nil_r.
Qed.
Lemma read_app_r p r o l : N.of_nat (length p) <= o -> read_at (p ++ r) o l = read_at r (o - N.of_nat (length p)) l.
Proof.
  intros H. unfold read_at. rewrite app_length.
  destruct (N.leb_spec (o + l) (N.of_nat (length p + length r))), (N.leb_spec (o - N.of_nat (length p) + l) (N.of_nat (length r))); try lia; [|reflexivity].
  f_equal. rewrite skipn_app, skipn_all2 by lia. cbn [app]. do 2 f_equal. lia.
Qed.

Lemma repeat_read m o len : o + len <= N.of_nat m -> read_at (repeat 0 m) o len = Ok (repeat 0 (N.to_nat len)).
Proof.
  intros H. rewrite read_ok by (rewrite repeat_length; lia). f_equal.
  assert (S1 : forall k m, skipn k (repeat (0 : N) m) = repeat 0 (m - k)%nat) by (induction k as [|k IH]; intros [|m']; cbn; try reflexivity; apply IH).
  assert (S2 : forall k m, (k <= m)%nat -> firstn k (repeat (0 : N) m) = repeat 0 k) by (induction k as [|k IH]; intros [|m'] L; cbn; try reflexivity; try lia; f_equal; apply IH; lia).
  rewrite S1. apply S2. lia.
Qed.

Lemma nth_skipn {A} (l : list A) k x rest d : skipn k l = x :: rest -> nth k l d = x /\ rest = skipn (S k) l.
Proof.
  revert k. induction l as [|y l IH]; intros [|k] H; cbn in H; try discriminate.
  - injection H as -> ->. now split.
  - destruct (IH k H) as [E1 E2]. now split.
Qed.


Section Write.
Context (dim degree n : N) (g : geometry) (vs graph : list (list N)).
Context (F : layout_fits dim degree n) (G : geo dim degree g) (Hin : layout_input vs graph dim degree) (Hn : N.of_nat (length graph) = n).

Definition rec_of (j : N) : bytes := record_bytes degree (nth (N.to_nat j) vs []) (nth (N.to_nat j) graph []).
Definition zeros : bytes := repeat 0 (N.to_nat (g_len g)).
Definition slot_at (j : N) : N := j mod g_per g * g_len g.

Lemma floats_ok j : j < n -> floats_at (concat vs) (j * g_dim g) (g_dim g) = Ok (nth (N.to_nat j) vs []).
Proof.
  intros H. unfold floats_at. rewrite (geo_dim _ _ _ G).
  assert (LV : N.of_nat (length vs) = n) by (rewrite (li_vectors _ _ _ _ Hin); exact Hn).
  assert (Row : forall v, In v vs -> N.of_nat (length v) = dim) by (intros v Hv; apply (li_row _ _ _ _ Hin v Hv)).
  clear - H LV Row. revert j n H LV. induction vs as [|v vs' IH]; intros j n H LV; [cbn in LV; lia|].
  cbn [concat]. rewrite app_length.
  assert (Lv : N.of_nat (length v) = dim) by (apply Row; now left).
  destruct (N.eq_dec j 0) as [->|NZ].
  - rewrite N.mul_0_l, N.add_0_l. destruct (N.leb_spec dim (N.of_nat (length v + length (concat vs')))); [|lia].
    cbn [N.to_nat skipn nth]. rewrite firstn_app. replace (N.to_nat dim - length v)%nat with 0%nat by lia. cbn [firstn].
    rewrite app_nil_r. now rewrite firstn_all2 by lia.
  - specialize (IH (fun v Hv => Row v (or_intror Hv)) (j - 1) (n - 1) ltac:(lia) ltac:(cbn in LV; lia)).
    replace (N.to_nat j) with (S (N.to_nat (j - 1))) by lia. cbn [nth].
    replace (j * dim) with ((j - 1) * dim + dim) by nia.
    set (p := (j - 1) * dim) in *.
    destruct (N.leb_spec (p + dim) (N.of_nat (length (concat vs')))) as [B|B]; [|discriminate].
    destruct (N.leb_spec (p + dim + dim) (N.of_nat (length v + length (concat vs')))) as [B2|B2]; [|lia].
    rewrite skipn_app. rewrite (skipn_all2 v) by lia. cbn [app]. injection IH as IH. rewrite <- IH. do 3 f_equal. lia.
Qed.

Lemma rec_length j : j < n -> N.of_nat (length (rec_of j)) = g_len g.
Proof.
  intros H. unfold rec_of, record_bytes. rewrite !app_length, repeat_length, le_enc_length.
  fold (u32s (nth (N.to_nat j) vs [])). fold (u32s (nth (N.to_nat j) graph [])). rewrite !u32s_length.
  assert (Hv : In (nth (N.to_nat j) vs []) vs) by (apply nth_In; rewrite (li_vectors _ _ _ _ Hin); lia).
  assert (Hg : In (nth (N.to_nat j) graph []) graph) by (apply nth_In; lia).
  destruct (li_row _ _ _ _ Hin _ Hv) as [Lv _]. destruct (li_nbrs _ _ _ _ Hin _ Hg) as [Lg _].
  rewrite (geo_len _ _ _ G). lia.
Qed.

(** Node [k]'s page while the nodes before [k] have been packed. *)
Definition page_upto (k : N) (page : bytes) : Prop :=
  N.of_nat (length page) = g_page g
  /\ (forall j, j / g_per g = k / g_per g -> j < k -> read_at page (slot_at j) (g_len g) = Ok (rec_of j))
  /\ (forall j, j / g_per g = k / g_per g -> k <= j -> read_at page (slot_at j) (g_len g) = Ok zeros).

Lemma slot_disjoint i j : i / g_per g = j / g_per g -> i < j -> slot_at i + g_len g <= slot_at j.
Proof.
  intros E H. pose proof (at_node_disjoint _ _ _ i j G H) as D. unfold at_node in D. rewrite E in D. unfold slot_at. lia.
Qed.
Lemma pack_step k page : k < n -> page_upto k page ->
  exists page2, pack_node_record page (k mod g_per g * g_len g) (nth (N.to_nat k) vs []) (nth (N.to_nat k) graph []) (N.of_nat (length (nth (N.to_nat k) graph []))) (g_dim g) = Ok page2
    /\ N.of_nat (length page2) = g_page g
    /\ (forall j, j / g_per g = k / g_per g -> j <= k -> read_at page2 (slot_at j) (g_len g) = Ok (rec_of j))
    /\ (forall j, j / g_per g = k / g_per g -> k < j -> read_at page2 (slot_at j) (g_len g) = Ok zeros).
Proof.
  intros Hk (LP & P1 & P2).
  assert (Hv : In (nth (N.to_nat k) vs []) vs) by (apply nth_In; rewrite (li_vectors _ _ _ _ Hin); lia).
  assert (Hg : In (nth (N.to_nat k) graph []) graph) by (apply nth_In; lia).
  destruct (li_row _ _ _ _ Hin _ Hv) as [Lv _]. destruct (li_nbrs _ _ _ _ Hin _ Hg) as [Lg _].
  destruct F as (_ & DB & _). rewrite (geo_dim _ _ _ G).
  rewrite pack_as_write by (try exact Lv; lia). set (b := u32s _ ++ _ ++ _).
  assert (LB : length b = (4 * length (nth (N.to_nat k) vs []) + 4 + 4 * length (nth (N.to_nat k) graph []))%nat)
    by (subst b; rewrite !app_length, !u32s_length, le_enc_length; lia).
  pose proof (geo_len _ _ _ G) as GL. pose proof (in_page _ _ _ k G) as IP.
  destruct (write_record page (k mod g_per g * g_len g) b (g_len g)) as (p2 & E & L2 & RB & RO).
  - lia.
  - rewrite LB, GL. lia.
  - apply P2; [reflexivity|lia].
  - exists p2. split; [exact E|]. split; [lia|]. split.
    + intros j Ej Hj. destruct (N.eq_dec j k) as [->|NE].
      * unfold slot_at. rewrite RB. unfold rec_of, record_bytes. subst b. rewrite <- !app_assoc. do 4 f_equal. f_equal. rewrite LB. lia.
      * rewrite RO; [now apply P1; [|lia]|]. left. apply slot_disjoint; [exact Ej|lia].
    + intros j Ej Hj. rewrite RO; [apply P2; [exact Ej|lia]|]. right. now apply slot_disjoint.
Qed.

Lemma per_pos : 1 <= g_per g. Proof. exact (geo_per _ _ _ G). Qed.
Lemma page_next k : k mod g_per g = g_per g - 1 -> (k + 1) / g_per g = k / g_per g + 1 /\ (k + 1) mod g_per g = 0.
Proof.
  intros H. pose proof per_pos. pose proof (N.div_mod k (g_per g) ltac:(lia)) as D.
  assert (E : k + 1 = g_per g * (k / g_per g + 1) + 0) by lia.
  split; [symmetry; apply (N.div_unique _ _ _ 0); lia|symmetry; apply (N.mod_unique _ _ (k / g_per g + 1)); lia].
Qed.
Lemma page_same k : k mod g_per g <> g_per g - 1 -> (k + 1) / g_per g = k / g_per g /\ (k + 1) mod g_per g <> 0.
Proof.
  intros H. pose proof per_pos. pose proof (N.div_mod k (g_per g) ltac:(lia)) as D. pose proof (N.mod_lt k (g_per g) ltac:(lia)).
  assert (E : k + 1 = g_per g * (k / g_per g) + (k mod g_per g + 1)) by lia.
  split; [symmetry; apply (N.div_unique _ _ _ (k mod g_per g + 1)); lia|].
  rewrite <- (N.mod_unique (k + 1) (g_per g) (k / g_per g) (k mod g_per g + 1)) by lia. lia.
Qed.
Lemma last_page : 0 < n -> (n - 1) / g_per g + 1 = num_pages g n.
Proof.
  intros H. destruct (total_ok _ _ _ _ F G H) as (-> & _). pose proof per_pos.
  replace (n + g_per g - 1) with (n - 1 + 1 * g_per g) by lia. now rewrite N.div_add by lia.
Qed.

Lemma slot_in j : slot_at j + g_len g <= g_page g.
Proof. exact (in_page _ _ _ j G). Qed.
Lemma last_in_page k j : k mod g_per g = g_per g - 1 -> j / g_per g = k / g_per g -> j <= k.
Proof.
  intros H E. pose proof per_pos as P. pose proof (mod_same _ j k P E) as MS. pose proof (N.mod_lt j (g_per g) ltac:(clear - P; lia)) as ML.
  rewrite H in MS. clear - MS ML P. generalize dependent (j mod g_per g). generalize dependent (g_per g). intros. lia.
Qed.
Lemma page_shift pj pk : pk < pj -> g_page g * (pj - pk) = g_page g + g_page g * (pj - (pk + 1)).
Proof. intros H. replace (pj - pk) with (1 + (pj - (pk + 1))) by (clear - H; lia). now rewrite N.mul_add_distr_l, N.mul_1_r. Qed.

Lemma write_nodes_ok : forall rows k page, rows <> [] -> skipn (N.to_nat k) graph = rows -> k + N.of_nat (length rows) = n ->
  N.of_nat (length page) = g_page g -> (k mod g_per g <> 0 -> page_upto k page) ->
  exists out, write_nodes g n (concat vs) rows k page = Ok out
    /\ N.of_nat (length out) = g_page g * (num_pages g n - k / g_per g)
    /\ forall j, k / g_per g <= j / g_per g -> j < n -> read_at out (g_page g * (j / g_per g - k / g_per g) + slot_at j) (g_len g) = Ok (rec_of j).
Proof.
  induction rows as [|nbrs rest IH]; intros k page NE Hrows Hk LP HP; [congruence|]. clear NE.
  cbn [write_nodes]. cbn [length] in Hk. assert (kn : k < n) by lia.
  destruct (nth_skipn graph (N.to_nat k) nbrs rest [] Hrows) as [Hnb Hrest].
  assert (Hg : In nbrs graph) by (rewrite <- Hnb; apply nth_In; lia).
  destruct (li_nbrs _ _ _ _ Hin _ Hg) as [Lg _]. rewrite (geo_degree _ _ _ G).
  destruct (N.ltb_spec degree (N.of_nat (length nbrs))); [lia|].
  rewrite floats_ok by exact kn. cbn [bind].
  set (page1 := if k mod g_per g =? 0 then repeat 0 (length page) else page).
  assert (P1 : page_upto k page1).
  { subst page1. destruct (N.eqb_spec (k mod g_per g) 0) as [Z|NZ]; [|now apply HP].
    split; [rewrite repeat_length; exact LP|]. split.
    - intros j Ej Hj. exfalso. pose proof per_pos. pose proof (N.div_mod j (g_per g) ltac:(lia)). pose proof (N.div_mod k (g_per g) ltac:(lia)). rewrite Ej in *. lia.
    - intros j _ _. apply repeat_read. pose proof (in_page _ _ _ j G). unfold slot_at. lia. }
  destruct (pack_step k page1 kn P1) as (p2 & E2 & L2 & R1 & R2). rewrite Hnb in E2. rewrite E2. cbn [bind].
  pose proof (last_page ltac:(lia)) as LPg. pose proof per_pos as PP.
  destruct rest as [|nb2 rest'].
  - cbn [write_nodes bind]. assert (k = n - 1) by (cbn in Hk; lia). subst k.
    rewrite N.eqb_refl, orb_true_r. eexists. split; [reflexivity|]. rewrite app_nil_r. split; [nia|].
    intros j Hj Hjn. assert ((n - 1) / g_per g = j / g_per g) by (pose proof (N.div_le_mono j (n - 1) (g_per g) ltac:(lia) ltac:(lia)); lia).
    replace (j / g_per g - (n - 1) / g_per g) with 0 by lia. rewrite N.mul_0_r, N.add_0_l. apply R1; lia.
  - assert (HK : k + 1 + N.of_nat (length (nb2 :: rest')) = n) by (cbn [length] in *; lia).
    assert (HS : skipn (N.to_nat (k + 1)) graph = nb2 :: rest') by (rewrite Hrest; f_equal; lia).
    assert (kn1 : k + 1 < n) by (cbn [length] in HK; lia).
    destruct (N.eqb_spec (k mod g_per g) (g_per g - 1)) as [Last|NL].
    + destruct (page_next k Last) as [D M].
      destruct (IH (k + 1) p2 ltac:(discriminate) HS HK L2 ltac:(intros; congruence)) as (out & E & LO & RO).
      rewrite E. cbn [bind orb]. eexists. split; [reflexivity|].
      pose proof (N.div_le_mono (k + 1) (n - 1) (g_per g) ltac:(clear - PP; lia) ltac:(clear - kn1; lia)) as LE. rewrite D in *.
      split.
      { rewrite app_length, Nat2N.inj_add, L2, LO.
        replace (num_pages g n - k / g_per g) with (1 + (num_pages g n - (k / g_per g + 1))).
        - now rewrite N.mul_add_distr_l, N.mul_1_r.
        - clear - LE LPg. generalize dependent (k / g_per g). generalize dependent ((n - 1) / g_per g). intros. lia. }
      intros j Hj Hjn. destruct (N.eq_dec (j / g_per g) (k / g_per g)) as [Ej|NEj].
      * rewrite Ej, N.sub_diag, N.mul_0_r, N.add_0_l. rewrite read_app_l by (rewrite L2; apply slot_in).
        apply R1; [exact Ej|]. now apply last_in_page.
      * rewrite (page_shift (j / g_per g) (k / g_per g)) by (clear - Hj NEj; generalize dependent (j / g_per g); generalize (k / g_per g); intros; lia).
        rewrite read_app_r by (rewrite L2; clear; generalize (g_page g * (j / g_per g - (k / g_per g + 1))), (slot_at j); intros; lia).
        rewrite L2. rewrite <- (RO j) by (try exact Hjn; clear - Hj NEj; generalize dependent (j / g_per g); generalize (k / g_per g); intros; lia).
        f_equal. clear. generalize (g_page g * (j / g_per g - (k / g_per g + 1))), (slot_at j). intros. lia.
    + destruct (page_same k NL) as [D M].
      destruct (IH (k + 1) p2 ltac:(discriminate) HS HK L2) as (out & E & LO & RO).
      { intros _. split; [exact L2|]. rewrite D. split; intros j Ej Hj; [apply R1|apply R2]; try exact Ej; clear - Hj; lia. }
      rewrite E. cbn [bind]. destruct (N.eqb_spec k (n - 1)) as [EK|_]; [clear - EK kn1; lia|]. cbn [orb]. eexists. split; [reflexivity|]. rewrite D in *. split; [exact LO|exact RO].
Qed.
End Write.

Lemma graph_rows_le (vs graph : list (list N)) dim degree : layout_input vs graph dim degree -> forall adj, In adj graph -> N.of_nat (length adj) <= degree.
Proof. intros H adj Ha. apply (li_nbrs _ _ _ _ H adj Ha). Qed.

Lemma header_length n dim medoid deg g : N.of_nat (length (header_sector n dim medoid deg g)) = kSectorLen.
Proof. unfold header_sector, kSectorLen. rewrite !app_length, repeat_length, !le_enc_length. lia. Qed.

Lemma write_layout_ok vs graph dim degree medoid : layout_fits dim degree (N.of_nat (length graph)) -> layout_input vs graph dim degree ->
  medoid < N.of_nat (length graph) ->
  exists g file, compute dim degree = Ok g /\ geo dim degree g
    /\ write_disk_layout (concat vs) graph (N.of_nat (length graph)) dim degree medoid = Ok file
    /\ file = header_sector (N.of_nat (length graph)) dim medoid degree g ++ skipn (N.to_nat kSectorLen) file
    /\ N.of_nat (length file) = total_file_size g (N.of_nat (length graph))
    /\ forall j, (j < length graph)%nat -> read_at file (file_offset g (N.of_nat j)) (g_len g) = Ok (record_bytes degree (nth j vs []) (nth j graph [])).
Proof.
  intros F I M. set (n := N.of_nat (length graph)) in *.
  destruct (compute_ok dim degree n F ltac:(lia)) as (g & Eg & G). exists g.
  destruct (write_nodes_ok dim degree n g vs graph F G I eq_refl graph 0 (repeat 0 (N.to_nat (g_page g)))) as (out & E & LO & RO).
  - intros ->. cbn in *. lia.
  - reflexivity.
  - subst n. lia.
  - rewrite repeat_length. lia.
  - rewrite N.mod_0_l by (pose proof (geo_per _ _ _ G); lia). congruence.
  - assert (Z : 0 / g_per g = 0) by (apply N.div_0_l; pose proof (geo_per _ _ _ G); lia). rewrite Z in *.
    exists (header_sector n dim medoid degree g ++ out). split; [exact Eg|]. split; [exact G|]. split.
    + unfold write_disk_layout. destruct F as (D & _). destruct (N.eqb_spec dim 0); [lia|]. destruct (N.eqb_spec n 0); [lia|].
      fold n. rewrite N.eqb_refl. cbn [negb]. destruct (N.leb_spec n medoid); [lia|]. rewrite Eg. cbn [bind]. rewrite E. reflexivity.
    + pose proof (header_length n dim medoid degree g) as HL. split.
      { rewrite skipn_app, skipn_all2 by lia. replace (N.to_nat kSectorLen - length (header_sector n dim medoid degree g))%nat with 0%nat by lia. reflexivity. }
      destruct (total_ok _ _ _ _ F G ltac:(lia)) as (_ & T & _). split.
      { rewrite app_length, T. rewrite N.sub_0_r in LO. lia. }
      intros j Hj. destruct (offset_ok _ _ _ _ (N.of_nat j) F G ltac:(lia)) as (O & _). rewrite O. unfold at_node.
      rewrite read_app_r by (rewrite HL, <- N.add_assoc; apply N.le_add_r). rewrite HL.
      specialize (RO (N.of_nat j) (N.le_0_l _) ltac:(clear - Hj; lia)). rewrite N.sub_0_r in RO.
      replace (kSectorLen + g_page g * (N.of_nat j / g_per g) + N.of_nat j mod g_per g * g_len g - kSectorLen)
        with (g_page g * (N.of_nat j / g_per g) + slot_at g (N.of_nat j)) by (unfold slot_at; clear; generalize (g_page g * (N.of_nat j / g_per g)), (N.of_nat j mod g_per g * g_len g); intros; lia).
      rewrite RO. unfold rec_of. now rewrite !Nat2N.id.
Qed.

Lemma read_header_ok n dim medoid degree g file : compute dim degree = Ok g -> geo dim degree g -> layout_fits dim degree n -> medoid < n -> medoid < 2 ^ 32 ->
  file = header_sector n dim medoid degree g ++ skipn (N.to_nat kSectorLen) file ->
  N.of_nat (length file) = total_file_size g n ->
  read_layout_header file = Ok {| h_points := n; h_dim := dim; h_medoid := medoid; h_degree := degree; h_len := g_len g; h_per := g_per g; h_size := total_file_size g n |}.
Proof.
  intros Eg G F M M32 EF L. destruct (total_ok _ _ _ _ F G ltac:(lia)) as (NP & T & TB & _ & NB).
  pose proof (geo_len _ _ _ G) as GL. pose proof (geo_room _ _ _ G) as RM. pose proof (geo_per _ _ _ G) as PP. pose proof (geo_page _ _ _ G) as PGL.
  destruct F as (D & DB & F). unfold kSectorLen in F, PGL.
  assert (SL : g_len g < 2 ^ 64) by (rewrite GL; nia).
  assert (SP : g_per g < 2 ^ 64) by nia.
  unfold read_layout_header. destruct (N.ltb_spec (N.of_nat (length file)) kSectorLen); [lia|]. rewrite L.
  rewrite EF. unfold header_sector. rewrite <- !app_assoc.
  rewrite read_u64_enc by lia. cbn [bind]. rewrite read_u64_enc by nia. cbn [bind].
  rewrite read_u32_enc by exact M32. cbn [bind]. rewrite read_u32_enc by exact DB. cbn [bind].
  rewrite read_u64_enc by exact SL. cbn [bind]. rewrite read_u64_enc by exact SP. cbn [bind].
  rewrite read_u64_enc by (rewrite T; exact TB). cbn [bind].
  destruct (N.eqb_spec n 0); [lia|]. destruct (N.eqb_spec dim 0); [lia|]. cbn [orb]. rewrite Eg. cbn [bind].
  rewrite !N.eqb_refl. cbn [negb]. destruct (N.leb_spec n medoid); [lia|]. reflexivity.
Qed.

Lemma view_record_ok degree dim coords nbrs : N.of_nat (length coords) = dim -> N.of_nat (length nbrs) <= degree -> degree < 2 ^ 32 ->
  Forall (fun x => x < 2 ^ 32) coords -> Forall (fun x => x < 2 ^ 32) nbrs ->
  view_record (record_bytes degree coords nbrs) dim = Ok (coords, nbrs).
Proof.
  intros <- HN HD SC SN. unfold view_record, record_bytes. fold (u32s coords). fold (u32s nbrs).
  rewrite read_app_l by (rewrite u32s_length; lia). rewrite read_ok by (rewrite u32s_length; lia). cbn [N.to_nat skipn bind].
  rewrite firstn_all2 by (rewrite u32s_length; lia). rewrite Nat2N.id. rewrite <- (app_nil_r (u32s coords)), (read_u32s_enc coords SC []). cbn [bind].
  rewrite app_nil_r. rewrite read_app_r by (rewrite u32s_length; lia). rewrite u32s_length.
  replace (N.of_nat (length coords) * 4 - N.of_nat (4 * length coords)) with 0 by lia.
  rewrite read_app_l by (rewrite le_enc_length; lia). rewrite read_ok by (rewrite le_enc_length; lia). cbn [N.to_nat skipn bind].
  rewrite firstn_all2 by (rewrite le_enc_length; lia). rewrite le_dec_enc by (cbn; lia).
  rewrite app_assoc. rewrite read_app_r by (rewrite app_length, u32s_length, le_enc_length; lia). rewrite app_length, u32s_length, le_enc_length.
  replace (N.of_nat (length coords) * 4 + 4 - N.of_nat (4 * length coords + 4)) with 0 by lia.
  rewrite read_app_l by (rewrite u32s_length; lia). rewrite read_ok by (rewrite u32s_length; lia). cbn [N.to_nat skipn bind].
  rewrite firstn_all2 by (rewrite u32s_length; lia). rewrite Nat2N.id. rewrite <- (app_nil_r (u32s nbrs)), (read_u32s_enc nbrs SN []). reflexivity.
Qed.
