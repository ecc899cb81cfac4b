From Coq Require Import Qabs Lqa.
From Verif Require Export FastscanTableProofs.
Local Open Scope nat_scope.

(** ** Rounding *)
Lemma floor_bounds (x : Q) : (inject_Z (Qfloor x) <= x /\ x < inject_Z (Qfloor x) + 1)%Q.
Proof. split; [apply Qfloor_le|]. pose proof (Qlt_floor x) as H. rewrite inject_Z_plus in H. exact H. Qed.
Lemma inj_le_iff a b : (inject_Z a <= inject_Z b)%Q <-> (a <= b)%Z.
Proof. rewrite <- Zle_Qle. reflexivity. Qed.
Lemma inj_lt_iff a b : (inject_Z a < inject_Z b)%Q <-> (a < b)%Z.
Proof. rewrite <- Zlt_Qlt. reflexivity. Qed.
Definition near (z : Z) (x : Q) : Prop := (- (1#2) <= inject_Z z - x <= 1#2)%Q.
Lemma round_away_near x : (0 <= x)%Q -> near (round_away x) x.
Proof.
  intros H. unfold round_away. destruct (Qle_bool 0 x) eqn:E; [|apply Qle_bool_iff in H; congruence].
  destruct (floor_bounds (x + (1#2))) as (A & B). unfold near. split; lra.
Qed.
Lemma round_even_near x : near (round_even x) x.
Proof.
  unfold round_even. destruct (floor_bounds (x + (1#2))) as (A & B). set (f := Qfloor (x + (1#2))) in *. cbv zeta. unfold near.
  destruct (Qeq_bool (inject_Z f) (x + (1#2)) && Z.odd f)%bool eqn:E.
  - apply andb_prop in E. destruct E as (E & _). apply Qeq_bool_iff in E. replace (f - 1)%Z with (f + -1)%Z by lia. rewrite inject_Z_plus. change (inject_Z (-1)) with (-1#1)%Q. split; lra.
  - split; lra.
Qed.
Lemma near_range z x : near z x -> (0 <= x <= 255)%Q -> (0 <= z <= 255)%Z \/ z = (-1)%Z /\ False.
Proof.
  intros (A & B) (C & D). left. split.
  - destruct (Z_lt_le_dec z 0) as [H|H]; [|exact H]. exfalso. assert (K : (z <= -1)%Z) by lia. apply inj_le_iff in K. change (inject_Z (-1)) with (-1#1)%Q in K. lra.
  - destruct (Z_lt_le_dec 255 z) as [H|H]; [|exact H]. exfalso. assert (K : (256 <= z)%Z) by lia. apply inj_le_iff in K. change (inject_Z 256) with (256#1)%Q in K. lra.
Qed.
Definition rounding (lv : level) : Q -> Z := match lv with Avx512 => round_even | _ => round_away end.
Lemma rounding_near lv x : (0 <= x)%Q -> near (rounding lv x) x.
Proof. intros H. destruct lv; [apply round_away_near, H|apply round_away_near, H|apply round_even_near]. Qed.

(** ** Smallest and largest *)
Lemma min_fold l : forall m, (fold_left (fun m y => if Qle_bool m y then m else y) l m <= m)%Q /\ (forall x, In x l -> fold_left (fun m y => if Qle_bool m y then m else y) l m <= x)%Q /\
  (fold_left (fun m y => if Qle_bool m y then m else y) l m = m \/ In (fold_left (fun m y => if Qle_bool m y then m else y) l m) l).
Proof.
  induction l as [|y l IH]; intros m; cbn [fold_left]; [split; [apply Qle_refl|split; [intros x []|left; reflexivity]]|].
  destruct (Qle_bool m y) eqn:E.
  - apply Qle_bool_iff in E. destruct (IH m) as (A & B & C). split; [exact A|]. split.
    + intros x [H|H]; [rewrite <- H; apply Qle_trans with m; assumption|apply B, H].
    + destruct C as [C|C]; [left; exact C|right; right; exact C].
  - assert (L : (y <= m)%Q) by (destruct (Qlt_le_dec m y) as [H|H]; [|exact H]; exfalso; apply Qlt_le_weak, Qle_bool_iff in H; congruence).
    destruct (IH y) as (A & B & C). split; [apply Qle_trans with y; assumption|]. split.
    + intros x [H|H]; [rewrite <- H; exact A|apply B, H].
    + destruct C as [C|C]; [right; left; symmetry; exact C|right; right; exact C].
Qed.
Lemma max_fold l : forall m, (m <= fold_left (fun m y => if Qle_bool y m then m else y) l m)%Q /\ (forall x, In x l -> x <= fold_left (fun m y => if Qle_bool y m then m else y) l m)%Q /\
  (fold_left (fun m y => if Qle_bool y m then m else y) l m = m \/ In (fold_left (fun m y => if Qle_bool y m then m else y) l m) l).
Proof.
  induction l as [|y l IH]; intros m; cbn [fold_left]; [split; [apply Qle_refl|split; [intros x []|left; reflexivity]]|].
  destruct (Qle_bool y m) eqn:E.
  - apply Qle_bool_iff in E. destruct (IH m) as (A & B & C). split; [exact A|]. split.
    + intros x [H|H]; [rewrite <- H; apply Qle_trans with m; assumption|apply B, H].
    + destruct C as [C|C]; [left; exact C|right; right; exact C].
  - assert (L : (m <= y)%Q) by (destruct (Qlt_le_dec y m) as [H|H]; [|exact H]; exfalso; apply Qlt_le_weak, Qle_bool_iff in H; congruence).
    destruct (IH y) as (A & B & C). split; [apply Qle_trans with y; assumption|]. split.
    + intros x [H|H]; [rewrite <- H; exact A|apply B, H].
    + destruct C as [C|C]; [right; left; symmetry; exact C|right; right; exact C].
Qed.
Lemma Qminl_spec l : (forall x, In x l -> Qminl l <= x)%Q /\ (l <> [] -> In (Qminl l) l).
Proof.
  destruct l as [|y l]; [split; [intros x []|intros H; destruct (H eq_refl)]|]. cbn [Qminl]. destruct (min_fold l y) as (A & B & C). split.
  - intros x [H|H]; [rewrite <- H; exact A|apply B, H].
  - intros _. destruct C as [C|C]; [left; symmetry; exact C|right; exact C].
Qed.
Lemma Qmaxl_spec l : (forall x, In x l -> x <= Qmaxl l)%Q /\ (l <> [] -> In (Qmaxl l) l).
Proof.
  destruct l as [|y l]; [split; [intros x []|intros H; destruct (H eq_refl)]|]. cbn [Qmaxl]. destruct (max_fold l y) as (A & B & C). split.
  - intros x [H|H]; [rewrite <- H; exact A|apply B, H].
  - intros _. destruct C as [C|C]; [left; symmetry; exact C|right; exact C].
Qed.

(** ** The entries of the table *)
Lemma code_bits c : c < 16 -> exists b0 b1 b2 b3, c = nib4 b0 b1 b2 b3.
Proof.
  intros H. exists (Nat.testbit c 3), (Nat.testbit c 2), (Nat.testbit c 1), (Nat.testbit c 0). do 16 (destruct c as [|c]; [reflexivity|]). lia.
Qed.
Lemma in_table dim q y : In y (pack_lut Qplus 0%Q dim q) -> exists m b0 b1 b2 b3, m < dim / 4 /\ y = four_set Qplus 0%Q b0 b1 b2 b3 (nth (4 * m) q 0%Q) (nth (4 * m + 1) q 0%Q) (nth (4 * m + 2) q 0%Q) (nth (4 * m + 3) q 0%Q).
Proof.
  intros H. unfold pack_lut in H. apply in_flat_map in H. destruct H as (m & Hm & Hy). apply in_seq in Hm.
  destruct (In_nth _ _ 0%Q Hy) as (c & Hc & E). rewrite lut_len in Hc. destruct (code_bits c Hc) as (b0 & b1 & b2 & b3 & ->). rewrite lut_entry, !nth_skip, Nat.add_0_r in E.
  exists m, b0, b1, b2, b3. split; [lia|symmetry; exact E].
Qed.
Lemma table_in dim q m b0 b1 b2 b3 : m < dim / 4 -> In (four_set Qplus 0%Q b0 b1 b2 b3 (nth (4 * m) q 0%Q) (nth (4 * m + 1) q 0%Q) (nth (4 * m + 2) q 0%Q) (nth (4 * m + 3) q 0%Q)) (pack_lut Qplus 0%Q dim q).
Proof.
  intros Hm. apply in_flat_map. exists m. split; [apply in_seq; lia|].
  pose proof (lut_entry Qplus 0%Q (skipn (4 * m) q) b0 b1 b2 b3) as E. rewrite !nth_skip, Nat.add_0_r in E. rewrite <- E. apply nth_In. rewrite lut_len. apply nib4_small.
Qed.
Lemma within_nth A q i : (0 <= A)%Q -> within A q -> (- A <= nth i q 0 <= A)%Q.
Proof.
  intros HA W. destruct (Nat.ltb_spec i (length q)).
  - unfold within in W. rewrite Forall_nth in W. apply (W i 0%Q). assumption.
  - rewrite nth_overflow by assumption. lra.
Qed.
Lemma entry_within A dim q y : (0 <= A)%Q -> within A q -> In y (pack_lut Qplus 0%Q dim q) -> (- (4 * A) <= y <= 4 * A)%Q.
Proof.
  intros HA W H. destruct (in_table _ _ _ H) as (m & b0 & b1 & b2 & b3 & _ & ->).
  pose proof (within_nth A q (4 * m) HA W). pose proof (within_nth A q (4 * m + 1) HA W). pose proof (within_nth A q (4 * m + 2) HA W). pose proof (within_nth A q (4 * m + 3) HA W).
  unfold four_set. destruct b0, b1, b2, b3; lra.
Qed.
Lemma zero_in dim q : 0 < dim / 4 -> In 0%Q (pack_lut Qplus 0%Q dim q).
Proof. intros H. exact (table_in dim q 0 false false false false H). Qed.
Lemma single_in dim q i : dim mod 8 = 0 -> i < dim -> exists y, In y (pack_lut Qplus 0%Q dim q) /\ (y == nth i q 0)%Q.
Proof.
  intros D8 Hi. pose proof (dim_groups dim D8) as E. pose proof (Nat.div_mod i 4 ltac:(lia)) as Ei. pose proof (Nat.mod_upper_bound i 4 ltac:(lia)) as U.
  assert (Hm : i / 4 < dim / 4) by (apply Nat.div_lt_upper_bound; lia). set (m := i / 4) in *.
  destruct (i mod 4) as [|[|[|[|]]]]; [| | | |lia].
  - eexists. split; [exact (table_in dim q m true false false false Hm)|]. replace i with (4 * m) by lia. unfold four_set. ring.
  - eexists. split; [exact (table_in dim q m false true false false Hm)|]. replace i with (4 * m + 1) by lia. unfold four_set. ring.
  - eexists. split; [exact (table_in dim q m false false true false Hm)|]. replace i with (4 * m + 2) by lia. unfold four_set. ring.
  - eexists. split; [exact (table_in dim q m false false false true Hm)|]. replace i with (4 * m + 3) by lia. unfold four_set. ring.
Qed.

(** ** The rounded table *)
Section Lut.
Context (lv : level) (dim : nat) (q : list Q) (A : Q) (D8 : dim mod 8 = 0) (Lq : length q = dim) (HA : (0 <= A)%Q) (W : within A q) (NZ : Exists (fun x => ~ (x == 0)%Q) q).
Let f := pack_lut Qplus 0%Q dim q.
Let vl := Qminl f.
Let delta := ((Qmaxl f - vl) / 255)%Q.
Lemma dim_pos : 0 < dim / 4.
Proof. pose proof NZ as NZ'. apply Exists_exists in NZ'. destruct NZ' as (x & H & _). destruct q; [destruct H|]. cbn [length] in Lq. pose proof (dim_groups dim D8). lia. Qed.
Lemma f_nonempty : f <> [].
Proof. pose proof (zero_in dim q dim_pos) as H. fold f in H. destruct f; [destruct H|discriminate]. Qed.
Lemma spread_pos : (vl < Qmaxl f)%Q.
Proof.
  pose proof NZ as NZ'. apply Exists_exists in NZ'. destruct NZ' as (x & Hx & N0). destruct (In_nth _ _ 0%Q Hx) as (i & Hi & Ei). destruct (single_in dim q i D8 ltac:(lia)) as (y & Hy & Ey).
  pose proof (proj1 (Qminl_spec f) y Hy). pose proof (proj1 (Qmaxl_spec f) y Hy). pose proof (zero_in dim q dim_pos) as Z.
  pose proof (proj1 (Qminl_spec f) _ Z). pose proof (proj1 (Qmaxl_spec f) _ Z). rewrite Ei in Ey. unfold vl.
  destruct (Qlt_le_dec (Qminl f) (Qmaxl f)) as [L|L]; [exact L|]. exfalso. apply N0. rewrite <- Ey. apply Qle_antisym; lra.
Qed.
Lemma delta_pos : (0 < delta)%Q.
Proof. pose proof spread_pos. unfold delta. apply Qlt_shift_div_l; [reflexivity|]. lra. Qed.
Lemma delta_small : (delta <= 8 * A / 255)%Q.
Proof.
  unfold delta. apply Qle_shift_div_r; [reflexivity|]. setoid_replace (8 * A / 255 * 255)%Q with (8 * A)%Q by (field).
  pose proof (entry_within A dim q _ HA W (proj2 (Qmaxl_spec f) f_nonempty)). pose proof (entry_within A dim q _ HA W (proj2 (Qminl_spec f) f_nonempty)). unfold vl. lra.
Qed.
Definition u8 (v : Q) : N := Z.to_N (Z.modulo (rounding lv ((v - vl) / delta)) 256).
Lemma lut_made : make_lut lv dim q = Ok {| lut_table := map u8 f; lut_delta := delta; lut_sum_vl := (vl * inject_Z (Z.of_nat (4 * dim / 16)))%Q |}.
Proof.
  unfold make_lut. fold f. fold vl. fold delta. destruct (Qeq_bool delta 0) eqn:E; [apply Qeq_bool_iff in E; pose proof delta_pos as H; rewrite E in H; discriminate H|]. unfold u8, rounding. destruct lv; reflexivity.
Qed.
Lemma u8_ok v : In v f -> (u8 v < 256)%N /\ (- (delta * (1#2)) <= inject_Z (Z.of_N (u8 v)) * delta + vl - v <= delta * (1#2))%Q.
Proof.
  intros H. pose proof delta_pos as DP. pose proof (proj1 (Qminl_spec f) v H) as Lo. pose proof (proj1 (Qmaxl_spec f) v H) as Hi. fold vl in Lo.
  set (t := ((v - vl) / delta)%Q). assert (T0 : (0 <= t)%Q) by (apply Qle_shift_div_l; [exact DP|lra]).
  assert (E255 : (delta * 255 == Qmaxl f - vl)%Q) by (unfold delta; field).
  assert (T1 : (t <= 255)%Q) by (apply Qle_shift_div_r; [exact DP|]; lra).
  pose proof (rounding_near lv t T0) as N0. destruct (near_range _ _ N0 (conj T0 T1)) as [R|[_ []]]. unfold u8. fold t. rewrite Z.mod_small by lia.
  split; [lia|]. rewrite Z2N.id by lia. destruct N0 as (N1 & N2). set (z := inject_Z (rounding lv t)) in *.
  assert (Et : (v - vl == t * delta)%Q) by (unfold t; field; intros E0; rewrite E0 in DP; discriminate DP).
  setoid_replace (z * delta + vl - v)%Q with ((z - t) * delta)%Q by (setoid_replace v with (vl + t * delta)%Q by lra; ring).
  split; nra.
Qed.
Lemma table_bytes : bytes (map u8 f).
Proof. apply Forall_forall. intros x Hx. apply in_map_iff in Hx. destruct Hx as (v & <- & H). apply u8_ok, H. Qed.
Lemma sum_close (x : list bool) (n : nat) : n <= dim / 4 -> let idx := fun m => 16 * m + N.to_nat (nibble (pack_binary dim x) m) in
  (sumN n (fun m => nth (idx m) (map u8 f) 0) <= 255 * N.of_nat n)%N /\
  (- (inject_Z (Z.of_nat n) * (delta * (1#2))) <= inject_Z (Z.of_N (sumN n (fun m => nth (idx m) (map u8 f) 0%N))) * delta + vl * inject_Z (Z.of_nat n) - sumQ n (fun m => nth (idx m) f 0%Q) <= inject_Z (Z.of_nat n) * (delta * (1#2)))%Q.
Proof.
  cbv zeta. induction n as [|n IH]; intros Hn.
  - cbn [sumN sumQ]. split; [lia|]. change (inject_Z (Z.of_nat 0)) with 0%Q. change (inject_Z (Z.of_N 0)) with 0%Q. split; lra.
  - destruct (IH ltac:(lia)) as (B & C). cbn [sumN sumQ]. set (i := 16 * n + N.to_nat (nibble (pack_binary dim x) n)).
    assert (Hi : i < length f).
    { unfold f. rewrite pack_lut_len. assert (N.to_nat (nibble (pack_binary dim x) n) < 16) by (rewrite nibble_bits by (rewrite <- dim_quarters by exact D8; lia); apply nib4_small). unfold i. nia. }
    rewrite (nth_map_d u8 f i 0%N 0%Q Hi). destruct (u8_ok (nth i f 0%Q) (nth_In _ _ Hi)) as (U & (V1 & V2)). split; [lia|].
    rewrite N2Z.inj_add, inject_Z_plus. replace (Z.of_nat (S n)) with (Z.of_nat n + 1)%Z by lia. rewrite inject_Z_plus. change (inject_Z 1) with 1%Q. split; lra.
Qed.
End Lut.

(** ** Vectors *)
Lemma Qsum_acc l : forall a, (fold_left Qplus l a == a + Qsum l)%Q.
Proof.
  unfold Qsum. induction l as [|x l IH]; intros a; cbn [fold_left]; [ring|]. rewrite IH, (IH (0 + x)%Q). ring.
Qed.
Lemma Qsum_cons x l : (Qsum (x :: l) == x + Qsum l)%Q.
Proof. unfold Qsum at 1. cbn [fold_left]. rewrite Qsum_acc. ring. Qed.
Lemma dot_inner a : forall b, (dot a b == inner a b)%Q.
Proof.
  induction a as [|x a IH]; intros [|y b]; try reflexivity. unfold dot in *. cbn [combine map inner]. rewrite Qsum_cons, IH. reflexivity.
Qed.
Lemma minus_sub a : forall b, minus a b = sub a b.
Proof. induction a as [|x a IH]; intros [|y b]; try reflexivity. unfold minus in *. cbn [combine map sub]. rewrite IH. reflexivity. Qed.
Lemma sub_len a : forall b, length a = length b -> length (sub a b) = length a.
Proof. induction a as [|x a IH]; intros [|y b] H; try reflexivity; [discriminate H|]. cbn in *. rewrite IH by lia. reflexivity. Qed.
Lemma inner_sym a : forall b, (inner a b == inner b a)%Q.
Proof. induction a as [|x a IH]; intros [|y b]; try reflexivity. cbn [inner]. rewrite IH. ring. Qed.
Definition bits (r : list Q) : list bool := map (fun x => negb (Qle_bool x 0)) r.
Lemma y_bar_signs r : Forall2 Qeq (y_bar (bits r)) (half_signs r).
Proof. induction r as [|x r IH]; cbn [bits map y_bar half_signs]; constructor; [|exact IH]. destruct (Qle_bool x 0); cbn [negb]; reflexivity. Qed.
Lemma inner_eq a a' : Forall2 Qeq a a' -> forall b, (inner a b == inner a' b)%Q.
Proof. induction 1 as [|x y l l' E _ IH]; intros [|z b]; try reflexivity. cbn [inner]. rewrite E, IH. reflexivity. Qed.
Lemma inner_sub_r a : forall b c, length b = length a -> length c = length a -> (inner a (sub b c) == inner a b - inner a c)%Q.
Proof.
  induction a as [|x a IH]; intros [|y b] [|z c] Lb Lc; try discriminate; [reflexivity|]. cbn in Lb, Lc. cbn [sub inner]. rewrite IH by lia. ring.
Qed.
Lemma where_signs r : forall q, length q = length r -> (where_set (bits r) q + Qsum q * - (1#2) == inner (half_signs r) q)%Q.
Proof.
  induction r as [|x r IH]; intros [|y q] L; try discriminate; [reflexivity|]. cbn in L. cbn [bits map where_set half_signs inner]. rewrite Qsum_cons.
  fold (bits r). fold (half_signs r). rewrite <- IH by lia. destruct (Qle_bool x 0); cbn [negb]; ring.
Qed.
Lemma factors_ok d c : (snd (factors d c) == - (2) * scale d c)%Q /\ (fst (factors d c) == inner (sub d c) (sub d c) + 2 * scale d c * inner (half_signs (sub d c)) c)%Q.
Proof.
  unfold factors, scale. cbv zeta. unfold code_of. rewrite minus_sub. set (r := sub d c). fold (bits r).
  assert (E1 : (dot r (y_bar (bits r)) == inner r (half_signs r))%Q) by (rewrite dot_inner, inner_sym, (inner_eq _ _ (y_bar_signs r)); apply inner_sym).
  assert (E2 : (dot c (y_bar (bits r)) == inner (half_signs r) c)%Q) by (rewrite dot_inner, inner_sym; apply inner_eq, y_bar_signs).
  assert (E3 : (dot r r == inner r r)%Q) by apply dot_inner.
  destruct (Qeq_bool (dot r (y_bar (bits r))) 0) eqn:Z; cbn [fst snd].
  - apply Qeq_bool_iff in Z. rewrite E1 in Z. rewrite E3, Z. unfold Qdiv. change (/ 0)%Q with 0%Q. split; ring.
  - assert (NZ : ~ (inner r (half_signs r) == 0)%Q) by (intros H; rewrite <- E1 in H; apply Qeq_bool_iff in H; congruence).
    rewrite E1, E2, E3. split; field; exact NZ.
Qed.

(** ** Distances *)
Lemma inner_scaled r : forall r' k, Forall2 (fun x y => (x == k * y)%Q) r r' -> forall b, (inner r b == k * inner r' b)%Q.
Proof. intros r' k H. induction H as [|x y l l' E _ IH]; intros [|z b]; cbn [inner]; try ring. rewrite E, IH. ring. Qed.
Lemma distance_split q : forall c d, length q = length c -> length d = length c ->
  (distance2 q d == distance2 q c + inner (sub d c) (sub d c) - 2 * inner (sub d c) (sub q c))%Q.
Proof.
  unfold distance2. induction q as [|x q IH]; intros [|y c] [|z d] L1 L2; try discriminate; [reflexivity|]. cbn in L1, L2. cbn [sub inner]. rewrite (IH c d) by lia. ring.
Qed.
Lemma signs_scaled s r : Forall (fun x => x == s \/ x == - s)%Q r -> (0 <= s)%Q -> Forall2 (fun x y => (x == (2 * s) * y)%Q) r (half_signs r).
Proof.
  intros H Hs. induction H as [|x r E _ IH]; cbn [half_signs map]; constructor; [|exact IH]. destruct (Qle_bool x 0) eqn:L.
  - apply Qle_bool_iff in L. destruct E as [E|E]; rewrite E in L |- *; [|ring]. assert (Z : (s == 0)%Q) by lra. rewrite Z. ring.
  - destruct E as [E|E]; [rewrite E; ring|]. exfalso. assert (x <= 0)%Q by lra. apply Qle_bool_iff in H. congruence.
Qed.
Lemma signs_norm r : (inner (half_signs r) (half_signs r) == inject_Z (Z.of_nat (length r)) * (1#4))%Q.
Proof.
  induction r as [|x r IH]; [reflexivity|]. cbn [half_signs map inner length]. fold (half_signs r). rewrite IH. replace (Z.of_nat (S (length r))) with (Z.of_nat (length r) + 1)%Z by lia. rewrite inject_Z_plus.
  destruct (Qle_bool x 0); ring.
Qed.
Lemma scale_even s d c : Forall (fun x => x == s \/ x == - s)%Q (sub d c) -> (0 <= s)%Q -> sub d c <> [] -> (scale d c == 2 * s)%Q.
Proof.
  intros H Hs Ne. pose proof (signs_scaled s _ H Hs) as F. unfold scale. set (r := sub d c) in *. rewrite !(inner_scaled _ _ _ F). rewrite (inner_sym (half_signs r) r), (inner_scaled _ _ _ F), signs_norm.
  set (n := inject_Z (Z.of_nat (length r))). assert (N0 : ~ (n == 0)%Q).
  { unfold n. destruct r as [|y r']; [congruence|]. cbn [length]. intros E. unfold Qeq, inject_Z in E. cbn [Qnum Qden] in E. lia. }
  destruct (Qeq_dec s 0) as [Z|Z]; [rewrite Z; unfold Qdiv; ring|]. field. split; assumption.
Qed.
Lemma estimator_even s d c q : length q = length c -> length d = length c -> Forall (fun x => x == s \/ x == - s)%Q (sub d c) -> (0 <= s)%Q ->
  (estimator d c q (distance2 q c) == distance2 q d)%Q.
Proof.
  intros L1 L2 H Hs. rewrite (distance_split q c d L1 L2). unfold estimator. destruct (sub d c) as [|y r] eqn:E; [cbn [inner half_signs map]; ring|].
  rewrite (scale_even s d c) by (rewrite ?E; try assumption; discriminate). set (r' := y :: r) in *. rewrite (inner_scaled r' (half_signs r') (2 * s) (signs_scaled s r' H Hs) (sub q c)). ring.
Qed.

(** ** All together *)
Lemma fold_len {A} (step : list N -> A -> list N) l : (forall r x, length (step r x) = length r) -> forall r, length (fold_left step l r) = length r.
Proof. intros H. induction l as [|x l IH]; intros r; cbn [fold_left]; [reflexivity|]. rewrite IH. apply H. Qed.
Lemma scalar_len C T dim : length (accumulate_scalar C T dim) = 32.
Proof. unfold accumulate_scalar. rewrite fold_len; [apply repeat_length|]. intros r x. rewrite !scalar_fold_len. reflexivity. Qed.
Lemma add16_len n a b : length a = n -> length b = n -> length (add16 a b) = n.
Proof. intros A B. unfold add16. rewrite map2_len, A, B. apply Nat.min_id. Qed.
Lemma permute_len k a b : length (permute2f128 k a b) = 16.
Proof. reflexivity. Qed.
Lemma blend_len k a b : length (blend_epi32 k a b) = 16.
Proof. reflexivity. Qed.
Lemma shuffle512_len k a b : length (shuffle_i64x2 k a b) = 32.
Proof. reflexivity. Qed.
Lemma accumulate_len lv C T dim : length (accumulate lv C T dim) = 32.
Proof.
  unfold accumulate. destruct (dim mod 16 =? 0); [|apply scalar_len]. destruct lv; [apply scalar_len| |].
  - unfold accumulate_avx2. cbv zeta. rewrite app_length. rewrite !(add16_len 16) by (apply permute_len || apply blend_len). reflexivity.
  - unfold accumulate_avx512. cbv zeta. apply add16_len; [apply add16_len; [apply repeat_length|]|]; apply shuffle512_len.
Qed.
Lemma row_flat {A} (f : A -> list N) n l k d0 : (forall a, In a l -> length (f a) = n) -> k < length l -> row n k (flat_map f l) = f (nth k l d0).
Proof.
  intros H Hk. unfold row. apply (nth_ext _ _ 0%N 0%N).
  - rewrite firstn_length, skipn_length, (flat_uniform_len f n l H), H by (apply nth_In; exact Hk). nia.
  - intros j Hj. rewrite firstn_length in Hj. rewrite nth_first by lia. rewrite nth_skip. apply nth_flat_uniform; [exact H|exact Hk|lia].
Qed.
Lemma nth_combine {A B} (l : list A) (l' : list B) i a b : nth_error l i = Some a -> nth_error l' i = Some b -> nth_error (combine l l') i = Some (a, b).
Proof. revert l' i. induction l as [|x l IH]; intros [|y l'] [|i] H H'; cbn in *; try discriminate; [congruence|]. apply IH; assumption. Qed.
Lemma nth_error_skip {A} (l : list A) s i : nth_error (skipn s l) i = nth_error l (s + i).
Proof. revert l. induction s as [|s IH]; intros l; [reflexivity|]. destruct l as [|x l]; [cbn [skipn]; destruct i; reflexivity|]. cbn [skipn Nat.add nth_error]. apply IH. Qed.

Lemma raw_estimate (fac : list Q -> list Q -> Q * Q) lv dim datas c q g b v A d : dim mod 8 = 0 -> (255 * N.of_nat (dim / 4) < 65536)%N ->
  Forall (fun d => length d = dim) datas -> length c = dim -> length q = dim -> (0 <= A)%Q -> within A q -> Exists (fun x => ~ (x == 0)%Q) q ->
  v < 32 -> nth_error datas (32 * b + v) = Some d ->
  exists r e err, estimates lv dim (skipn (b * (4 * dim)) (batch_codes dim datas c)) (skipn (32 * b) (map (fun d => fac d c) datas)) q g = Ok r /\ nth_error r v = Some e /\
    (e == snd (fac d c) * (err + inner (half_signs (sub d c)) q) + fst (fac d c) + g)%Q /\ (Qabs err <= inject_Z (Z.of_nat dim) * A / 255)%Q.
Proof.
  intros D8 Small Ld Lc Lq HA W NZ Hv Hd. unfold estimates. rewrite (lut_made lv dim q A D8 Lq W NZ). cbn [bind lut_table lut_delta lut_sum_vl].
  assert (Hk : 32 * b + v < length datas) by (apply nth_error_Some; congruence).
  set (T := map (u8 lv dim q) (pack_lut Qplus 0%Q dim q)). set (delta := ((Qmaxl (pack_lut Qplus 0%Q dim q) - Qminl (pack_lut Qplus 0%Q dim q)) / 255)%Q).
  set (vl := Qminl (pack_lut Qplus 0%Q dim q)).
  assert (BT : bytes T) by (apply (table_bytes lv dim q A D8 Lq W NZ)).
  assert (Bc : bytes (flat_map (fun d => pack_binary dim (code_of d c)) datas)) by (apply flat_map_bytes; intros a; apply pack_binary_bytes).
  pose proof (accumulate_ok dim (length datas) (flat_map (fun d => pack_binary dim (code_of d c)) datas) T b D8 Bc BT lv v Hv Hk) as Acc.
  rewrite (row_flat _ _ _ _ []) in Acc by (try exact Hk; intros; apply pack_binary_len). rewrite (nth_error_nth _ _ [] Hd) in Acc.
  set (x := code_of d c) in *. assert (Ldd : length d = dim) by (apply (proj1 (Forall_forall _ _) Ld); apply nth_error_In with (32 * b + v); exact Hd).
  assert (Ex : x = bits (sub d c)) by (unfold x, code_of, bits; rewrite minus_sub; reflexivity).
  assert (Lr : length (sub d c) = dim) by (rewrite sub_len; lia).
  assert (Lx : length x = dim) by (rewrite Ex; unfold bits; rewrite map_length; exact Lr).
  destruct (sum_close lv dim q A D8 Lq W NZ x (dim / 4) (le_n _)) as (B & C1 & C2). fold T in B, C1, C2. fold vl in C1, C2. fold delta in C1, C2.
  fold (selected (pack_binary dim x) T (dim / 4)) in B, C1, C2. set (n := selected (pack_binary dim x) T (dim / 4)) in *.
  rewrite N.mod_small in Acc by lia.
  rewrite (table_sum dim x q D8 Lx Lq) in C1, C2.
  pose proof (delta_small dim q A D8 Lq HA W NZ) as DS. fold vl in DS. fold delta in DS.
  destruct (fac d c) as [f_add f_rescale] eqn:EF. cbn [fst snd].
  eexists. exists (f_rescale * (inject_Z (Z.of_N n) * delta + (vl * inject_Z (Z.of_nat (4 * dim / 16)) + Qsum q * - (1#2))) + f_add + g)%Q.
  exists (inject_Z (Z.of_N n) * delta + vl * inject_Z (Z.of_nat (dim / 4)) - where_set x q)%Q.
  split; [reflexivity|]. split.
  { rewrite nth_error_map. rewrite (nth_combine _ _ v n (f_add, f_rescale)); [reflexivity| |].
    - rewrite <- Acc. apply nth_error_nth'. rewrite accumulate_len. exact Hv.
    - rewrite nth_error_skip, nth_error_map, Hd. cbn [option_map]. rewrite EF. reflexivity. }
  replace (4 * dim / 16) with (dim / 4) by (change 16 with (4 * 4); symmetry; apply Nat.div_mul_cancel_l; lia).
  set (K := inject_Z (Z.of_nat (dim / 4))) in *. assert (KP : (0 <= K)%Q) by (unfold K; change 0%Q with (inject_Z 0); apply inj_le_iff; lia).
  assert (EK : (inject_Z (Z.of_nat dim) == 4 * K)%Q) by (unfold K; rewrite (dim_groups dim D8) at 1; rewrite Nat2Z.inj_mul, inject_Z_mult; reflexivity).
  pose proof (where_signs (sub d c) q ltac:(lia)) as WS. rewrite <- Ex in WS. split; [rewrite <- WS; ring|].
  set (err := (inject_Z (Z.of_N n) * delta + vl * K - where_set x q)%Q) in *.
  apply Qle_trans with (K * (delta * (1#2)))%Q; [apply Qabs_Qle_condition; split; assumption|].
  rewrite EK. setoid_replace (4 * K * A / 255)%Q with (K * ((8 * A / 255) * (1#2)))%Q by field. rewrite !(Qmult_comm K). apply Qmult_le_compat_r; [|exact KP]. apply Qmult_le_compat_r; [exact DS|discriminate].
Qed.
Lemma scaled_error k err B : (Qabs err <= B)%Q -> (Qabs (k * err) <= Qabs k * B)%Q.
Proof. intros H. rewrite Qabs_Qmult, !(Qmult_comm (Qabs k)). apply Qmult_le_compat_r; [exact H|apply Qabs_nonneg]. Qed.
Lemma estimate_ok lv dim datas c q g b v A d : dim mod 8 = 0 -> (255 * N.of_nat (dim / 4) < 65536)%N ->
  Forall (fun d => length d = dim) datas -> length c = dim -> length q = dim -> (0 <= A)%Q -> within A q -> Exists (fun x => ~ (x == 0)%Q) q ->
  v < 32 -> nth_error datas (32 * b + v) = Some d ->
  exists r e, estimates lv dim (skipn (b * (4 * dim)) (batch_codes dim datas c)) (skipn (32 * b) (map (fun d => factors d c) datas)) q g = Ok r /\ nth_error r v = Some e /\
    (Qabs (e - estimator d c q g) <= 2 * Qabs (scale d c) * (inject_Z (Z.of_nat dim) * A / 255))%Q.
Proof.
  intros D8 Small Ld Lc Lq HA W NZ Hv Hd. destruct (raw_estimate factors lv dim datas c q g b v A d D8 Small Ld Lc Lq HA W NZ Hv Hd) as (r & e & err & E & N1 & Ee & B).
  exists r, e. split; [exact E|]. split; [exact N1|]. destruct (factors_ok d c) as (F2 & F1).
  assert (Ldd : length d = dim) by (apply (proj1 (Forall_forall _ _) Ld); apply nth_error_In with (32 * b + v); exact Hd).
  assert (Lr : length (sub d c) = dim) by (rewrite sub_len; lia).
  pose proof (inner_sub_r (half_signs (sub d c)) q c ltac:(unfold half_signs; rewrite map_length; lia) ltac:(unfold half_signs; rewrite map_length; lia)) as IS.
  assert (Eq : (e - estimator d c q g == (- (2) * scale d c) * err)%Q) by (rewrite Ee, F1, F2; unfold estimator; rewrite IS; ring).
  rewrite Eq. change 2%Q with (Qabs (- (2))) at 2. rewrite <- Qabs_Qmult. apply scaled_error, B.
Qed.
(** Inner products *)
Lemma factors_ip_ok d c : (snd (factors_ip d c) == - scale d c)%Q /\ (fst (factors_ip d c) == 1 - inner (sub d c) c + scale d c * inner (half_signs (sub d c)) c)%Q.
Proof.
  unfold factors_ip, scale. cbv zeta. unfold code_of. rewrite minus_sub. set (r := sub d c). fold (bits r).
  assert (E1 : (dot r (y_bar (bits r)) == inner r (half_signs r))%Q) by (rewrite dot_inner, inner_sym, (inner_eq _ _ (y_bar_signs r)); apply inner_sym).
  assert (E2 : (dot c (y_bar (bits r)) == inner (half_signs r) c)%Q) by (rewrite dot_inner, inner_sym; apply inner_eq, y_bar_signs).
  assert (E3 : (dot r r == inner r r)%Q) by apply dot_inner. assert (E4 : (dot r c == inner r c)%Q) by apply dot_inner.
  destruct (Qeq_bool (dot r (y_bar (bits r))) 0) eqn:Z; cbn [fst snd].
  - apply Qeq_bool_iff in Z. rewrite E1 in Z. rewrite E4, Z. unfold Qdiv. change (/ 0)%Q with 0%Q. split; ring.
  - assert (NZ : ~ (inner r (half_signs r) == 0)%Q) by (intros H; rewrite <- E1 in H; apply Qeq_bool_iff in H; congruence).
    rewrite E1, E2, E3, E4. split; field; exact NZ.
Qed.
Lemma estimate_ip_ok lv dim datas c q g b v A d : dim mod 8 = 0 -> (255 * N.of_nat (dim / 4) < 65536)%N ->
  Forall (fun d => length d = dim) datas -> length c = dim -> length q = dim -> (0 <= A)%Q -> within A q -> Exists (fun x => ~ (x == 0)%Q) q ->
  v < 32 -> nth_error datas (32 * b + v) = Some d ->
  exists r e, estimates lv dim (skipn (b * (4 * dim)) (batch_codes dim datas c)) (skipn (32 * b) (map (fun d => factors_ip d c) datas)) q g = Ok r /\ nth_error r v = Some e /\
    (Qabs (e - estimator_ip d c q g) <= Qabs (scale d c) * (inject_Z (Z.of_nat dim) * A / 255))%Q.
Proof.
  intros D8 Small Ld Lc Lq HA W NZ Hv Hd. destruct (raw_estimate factors_ip lv dim datas c q g b v A d D8 Small Ld Lc Lq HA W NZ Hv Hd) as (r & e & err & E & N1 & Ee & B).
  exists r, e. split; [exact E|]. split; [exact N1|]. destruct (factors_ip_ok d c) as (F2 & F1).
  assert (Ldd : length d = dim) by (apply (proj1 (Forall_forall _ _) Ld); apply nth_error_In with (32 * b + v); exact Hd).
  assert (Lr : length (sub d c) = dim) by (rewrite sub_len; lia).
  pose proof (inner_sub_r (half_signs (sub d c)) q c ltac:(unfold half_signs; rewrite map_length; lia) ltac:(unfold half_signs; rewrite map_length; lia)) as IS.
  assert (Eq : (e - estimator_ip d c q g == (- scale d c) * err)%Q) by (rewrite Ee, F1, F2; unfold estimator_ip; rewrite IS; ring).
  rewrite Eq. rewrite <- (Qabs_opp (scale d c)). apply scaled_error, B.
Qed.
Lemma inner_sub_l a : forall b c, length a = length c -> length b = length c -> (inner (sub a b) c == inner a c - inner b c)%Q.
Proof.
  induction a as [|x a IH]; intros [|y b] [|z c] La Lb; try discriminate; [reflexivity|]. cbn in La, Lb. cbn [sub inner]. rewrite IH by lia. ring.
Qed.
Lemma estimator_ip_even s d c q : length q = length c -> length d = length c -> Forall (fun x => x == s \/ x == - s)%Q (sub d c) -> (0 <= s)%Q ->
  (estimator_ip d c q (- inner q c) == 1 - inner q d)%Q.
Proof.
  intros L1 L2 H Hs. assert (E0 : (estimator_ip d c q (- inner q c) == - inner q c + 1 - inner (sub d c) c - inner (sub d c) (sub q c))%Q).
  { unfold estimator_ip. destruct (sub d c) as [|y r] eqn:E; [cbn [inner half_signs map]; ring|].
    rewrite (scale_even s d c) by (rewrite ?E; try assumption; discriminate). set (r' := y :: r) in *. rewrite (inner_scaled r' (half_signs r') (2 * s) (signs_scaled s r' H Hs) (sub q c)). ring. }
  assert (Lr : length (sub d c) = length c) by (rewrite sub_len; lia).
  rewrite E0. rewrite (inner_sub_r (sub d c) q c ltac:(lia) ltac:(lia)). rewrite (inner_sub_l d c q ltac:(lia) ltac:(lia)). rewrite (inner_sym q c), (inner_sym q d). ring.
Qed.
