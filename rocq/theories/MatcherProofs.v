(** Proofs about the metadata filter matcher. *)
From Verif Require Import ScalarDataSpec ScalarDataProofs FilterSpec FilterProofs IndexEncodingProofs StorageProofs StorageQueryProofs.
From Verif Require Import MatcherSpec.

(** ** Required fields *)
Lemma add_field_In f l x : In x (add_field f l) <-> x = f \/ In x l.
Proof.
  unfold add_field. destruct (existsb (bytes_eqb f) l) eqn:E; [|cbn; intuition congruence].
  apply existsb_exists in E as (y & Hy & Ey). apply bytes_eqb_eq in Ey. subst y. intuition congruence.
Qed.
Lemma add_field_nodup f l : NoDup l -> NoDup (add_field f l).
Proof.
  unfold add_field. intros H. destruct (existsb (bytes_eqb f) l) eqn:E; [assumption|]. constructor; [|assumption].
  intros X. assert (existsb (bytes_eqb f) l = true); [|congruence]. apply existsb_exists. exists f. split; [assumption|apply bytes_eqb_refl].
Qed.
Fixpoint mentions (f : filter) (x : bytes) : Prop :=
  match f with
  | Filter _ cs subs => In x (map field cs) \/ fold_right (fun g P => mentions g x \/ P) False subs
  end.
Lemma collect_spec f : forall acc, NoDup acc ->
  NoDup (collect_required_fields f acc) /\ forall x, In x (collect_required_fields f acc) <-> In x acc \/ mentions f x.
Proof.
  induction f as [l cs subs IH] using filter_ind'. intros acc ND. cbn [collect_required_fields mentions].
  assert (A : forall cs acc, NoDup acc -> NoDup (fold_left (fun a c => add_field (field c) a) cs acc)
     /\ forall x, In x (fold_left (fun a c => add_field (field c) a) cs acc) <-> In x acc \/ In x (map field cs)).
  { clear. induction cs as [|c cs IH]; intros acc ND; cbn [fold_left map]; [cbn; intuition|].
    destruct (IH (add_field (field c) acc)) as [H1 H2]; [now apply add_field_nodup|]. split; [assumption|].
    intros x. rewrite H2, add_field_In. cbn. intuition congruence. }
  destruct (A cs acc ND) as [N1 I1]. remember (fold_left (fun a c => add_field (field c) a) cs acc) as a1. clear Heqa1 A.
  assert (B : NoDup (fold_left (fun a g => collect_required_fields g a) subs a1)
     /\ forall x, In x (fold_left (fun a g => collect_required_fields g a) subs a1) <->
        In x a1 \/ fold_right (fun g P => mentions g x \/ P) False subs).
  { clear I1. revert a1 N1. induction IH as [|g subs Hg _ IHs]; intros a1 N1; cbn [fold_left fold_right]; [intuition|].
    destruct (Hg a1 N1) as [N2 I2]. destruct (IHs _ N2) as [N3 I3]. split; [assumption|].
    intros x. rewrite I3, I2. tauto. }
  destruct B as [N2 I2]. split; [assumption|]. intros x. rewrite I2, I1. tauto.
Qed.

Lemma meta_find_selected req m f : In f req -> meta_find f (selected req m) = meta_find f m.
Proof.
  intros H. induction m as [|[k v] m IH]; [reflexivity|]. unfold selected in *. cbn [List.filter fst].
  destruct (contains k req) eqn:E; cbn [meta_find].
  - now rewrite IH.
  - rewrite IH. destruct (bytes_eqb_spec k f) as [->|]; [|reflexivity].
    apply contains_In in H. congruence.
Qed.
Lemma evaluate_condition_local c m m' : meta_find (field c) m = meta_find (field c) m' ->
  evaluate_condition c m = evaluate_condition c m'.
Proof. intros H. unfold evaluate_condition. now rewrite H. Qed.
Lemma evaluate_local f m m' : (forall x, mentions f x -> meta_find x m = meta_find x m') -> evaluate f m = evaluate f m'.
Proof.
  induction f as [l cs subs IH] using filter_ind'. cbn [mentions evaluate]. intros H.
  assert (E1 : map (fun c => evaluate_condition c m) cs = map (fun c => evaluate_condition c m') cs).
  { apply map_ext_in. intros c Hc. apply evaluate_condition_local. apply H. left. now apply in_map. }
  assert (E2 : map (fun s => evaluate s m) subs = map (fun s => evaluate s m') subs).
  { clear E1. induction IH as [|g subs Hg _ IHs]; [reflexivity|]. cbn [map]. f_equal.
    - apply Hg. intros x Hx. apply H. right. now left.
    - apply IHs. intros x [Hx|Hx]; apply H; [now left|right; now right]. }
  now rewrite E1, E2.
Qed.
Lemma evaluate_raw_ok f r : storable r -> evaluate_raw_value f (serialize r) = Ok (evaluate f (meta r)).
Proof.
  intros S. unfold evaluate_raw_value. destruct (collect_spec f [] (NoDup_nil _)) as [N I].
  rewrite selected_lemma by assumption. cbn [bind]. f_equal. apply evaluate_local.
  intros x Hx. apply meta_find_selected. apply I. now right.
Qed.

(** ** Doubles *)
Lemma nonzero_mag b : dbl_val b <> DNum 0 -> dbl_mag b <> 0%N.
Proof.
  intros H M. apply H. destruct (dbl_val_cases b) as [(E & _)|[(E & _)|(_ & _ & ->)]].
  - unfold dbl_is_nan in E. rewrite M in E. discriminate.
  - rewrite M in E. discriminate.
  - apply mnum_zero in M. rewrite M. now destruct (dbl_sign b).
Qed.
Lemma sign_split b : (b < 2 ^ 64)%N -> b = (if dbl_sign b then dbl_mag b + 2 ^ 63 else dbl_mag b)%N.
Proof.
  intros H. unfold dbl_sign, dbl_mag. rewrite N.testbit_eqb.
  assert (D : (b / 2 ^ 63 = 0 \/ b / 2 ^ 63 = 1)%N).
  { assert (b / 2 ^ 63 < 2)%N by (apply N.div_lt_upper_bound; lia). lia. }
  pose proof (N.div_mod b (2 ^ 63)) as E. destruct D as [D|D]; rewrite D in *; cbn [N.eqb]; change (0 mod 2 =? 1)%N with false;
    change (1 mod 2 =? 1)%N with true; cbv iota; lia.
Qed.
Lemma key_inj a b : (a < 2 ^ 64)%N -> (b < 2 ^ 64)%N -> dbl_mag b <> 0%N -> dbl_key a = dbl_key b -> a = b.
Proof.
  intros Ha Hb Z E. rewrite (sign_split a), (sign_split b) by assumption. unfold dbl_key in E.
  destruct (dbl_sign a), (dbl_sign b); lia.
Qed.
Lemma finite_key b z : dbl_val b = DNum z -> dbl_is_nan b = false /\ (dbl_key dbl_lowest <= dbl_key b <= dbl_key dbl_max)%Z.
Proof.
  intros H. destruct (dbl_val_cases b) as [(_ & E)|[(_ & _ & E)|(M & N & _)]]; try congruence. split; [assumption|].
  change (dbl_key dbl_lowest) with (- Z.of_N (dbl_inf_mag - 1))%Z. change (dbl_key dbl_max) with (Z.of_N (dbl_inf_mag - 1)).
  unfold dbl_key. set (I := dbl_inf_mag) in *. clearbody I. destruct (dbl_sign b); lia.
Qed.
Lemma mag_sign_of x (neg : bool) : (x < 2 ^ 63)%N ->
  dbl_mag (if neg then x + 2 ^ 63 else x) = x /\ dbl_sign (if neg then x + 2 ^ 63 else x) = neg.
Proof.
  intros H. unfold dbl_mag, dbl_sign. rewrite N.testbit_eqb. destruct neg.
  - split.
    + symmetry. apply (N.mod_unique _ _ 1); lia.
    + replace ((x + 2 ^ 63) / 2 ^ 63)%N with 1%N; [reflexivity|]. apply (N.div_unique _ _ _ x); lia.
  - split; [now apply N.mod_small|]. rewrite N.div_small by assumption. reflexivity.
Qed.
Lemma nan_mag x : dbl_is_nan x = false <-> (dbl_mag x <= dbl_inf_mag)%N.
Proof. unfold dbl_is_nan. apply N.ltb_ge. Qed.
Lemma inf_mag_lt : (dbl_inf_mag < 2 ^ 63)%N.
Proof. reflexivity. Qed.
Lemma nextafter_up v : (v < 2 ^ 64)%N -> dbl_ltb v dbl_max = true ->
  (nextafter v dbl_max < 2 ^ 64)%N /\ dbl_is_nan (nextafter v dbl_max) = false /\ nextafter v dbl_max <> 0%N
  /\ dbl_key (nextafter v dbl_max) = (dbl_key v + 1)%Z.
Proof.
  intros Hv L. pose proof L as L'. unfold dbl_ltb in L. apply andb_true_iff in L as [L K]. apply andb_true_iff in L as [N _].
  apply negb_true_iff in N. apply Z.ltb_lt in K. change (dbl_key dbl_max) with (Z.of_N (dbl_inf_mag - 1)) in K.
  unfold nextafter. rewrite N. change (dbl_is_nan dbl_max) with false.
  assert (E : dbl_eqb v dbl_max = false).
  { unfold dbl_eqb. destruct (Z.eqb_spec (dbl_key v) (dbl_key dbl_max)) as [E|]; [|now rewrite andb_false_r].
    change (dbl_key dbl_max) with (Z.of_N (dbl_inf_mag - 1)) in E. lia. }
  rewrite E, L'. cbv iota. change (dbl_sign dbl_max) with false. cbv iota.
  pose proof (sign_split v Hv) as S. pose proof inf_mag_lt as I. apply nan_mag in N. unfold dbl_key in K |- * .
  destruct (N.eqb_spec (dbl_mag v) 0) as [Z|Z].
  - split; [reflexivity|]. split; [reflexivity|]. split; [discriminate|]. rewrite Z.
    change (dbl_sign 1) with false. change (dbl_mag 1) with 1%N. cbv iota. destruct (dbl_sign v); lia.
  - destruct (dbl_sign v) eqn:Sv.
    + assert (X : (v - 1 = (dbl_mag v - 1) + 2 ^ 63)%N) by lia. rewrite X.
      destruct (mag_sign_of (dbl_mag v - 1) true) as [M1 M2]; [lia|]. cbv iota in M1, M2. rewrite nan_mag, M1, M2. lia.
    + assert (X : (v + 1 = dbl_mag v + 1)%N) by lia. rewrite X.
      destruct (mag_sign_of (dbl_mag v + 1) false) as [M1 M2]; [lia|]. cbv iota in M1, M2. rewrite nan_mag, M1, M2. lia.
Qed.
Lemma nextafter_down v : (v < 2 ^ 64)%N -> dbl_ltb dbl_lowest v = true ->
  (nextafter v dbl_lowest < 2 ^ 64)%N /\ dbl_is_nan (nextafter v dbl_lowest) = false
  /\ nextafter v dbl_lowest <> (2 ^ 63)%N /\ dbl_key (nextafter v dbl_lowest) = (dbl_key v - 1)%Z.
Proof.
  intros Hv L. pose proof L as L'. unfold dbl_ltb in L. apply andb_true_iff in L as [L K]. apply andb_true_iff in L as [_ N].
  apply negb_true_iff in N. apply Z.ltb_lt in K. change (dbl_key dbl_lowest) with (- Z.of_N (dbl_inf_mag - 1))%Z in K.
  unfold nextafter. rewrite N. change (dbl_is_nan dbl_lowest) with false.
  assert (E : dbl_eqb v dbl_lowest = false).
  { unfold dbl_eqb. destruct (Z.eqb_spec (dbl_key v) (dbl_key dbl_lowest)) as [E|]; [|now rewrite andb_false_r].
    change (dbl_key dbl_lowest) with (- Z.of_N (dbl_inf_mag - 1))%Z in E. lia. }
  rewrite E, (dbl_ltb_asym _ _ L'). cbv iota. change (dbl_sign dbl_lowest) with true. cbv iota.
  pose proof (sign_split v Hv) as S. pose proof inf_mag_lt as I. apply nan_mag in N. unfold dbl_key in K |- * .
  destruct (N.eqb_spec (dbl_mag v) 0) as [Z|Z].
  - split; [reflexivity|]. split; [reflexivity|]. split; [discriminate|]. rewrite Z.
    change (dbl_sign (2 ^ 63 + 1)) with true. change (dbl_mag (2 ^ 63 + 1)) with 1%N. cbv iota. destruct (dbl_sign v); lia.
  - destruct (dbl_sign v) eqn:Sv.
    + assert (X : (v + 1 = (dbl_mag v + 1) + 2 ^ 63)%N) by lia. rewrite X.
      destruct (mag_sign_of (dbl_mag v + 1) true) as [M1 M2]; [lia|]. cbv iota in M1, M2. rewrite nan_mag, M1, M2. lia.
    + assert (X : (v - 1 = dbl_mag v - 1)%N) by lia. rewrite X.
      destruct (mag_sign_of (dbl_mag v - 1) false) as [M1 M2]; [lia|]. cbv iota in M1, M2. rewrite nan_mag, M1, M2. lia.
Qed.

Lemma value_eqb_exact v w : value_ok v -> value_ok w -> operand_safe EQ v -> (value_eqb w v = true <-> w = v).
Proof.
  intros Hv Hw O. destruct v as [z|b|a|b], w as [z'|b'|a'|b']; cbn [value_eqb value_ok] in *; try (split; discriminate).
  - rewrite Z.eqb_eq. split; congruence.
  - destruct O as [N Z]. apply nonzero_mag in Z. apply not_nan_bits in N. split.
    + unfold dbl_eqb. intros E. apply andb_true_iff in E as [_ E]. apply Z.eqb_eq in E. f_equal. now apply key_inj.
    + intros E. inversion E. subst b'. unfold dbl_eqb. rewrite N, Z.eqb_refl. reflexivity.
  - destruct (bytes_eqb_spec a' a); split; congruence.
  - destruct b', b; cbn; split; congruence.
Qed.
Lemma operand_safe_in v : operand_safe IN_SET v -> operand_safe EQ v.
Proof. destruct v; auto. Qed.

(** Comparison results *)
Lemma int_compare z v : compare (VInt z) (VInt v) = Some (if Z.ltb z v then -1 else if Z.ltb v z then 1 else 0)%Z.
Proof. reflexivity. Qed.
Lemma dbl_compare b v : dbl_is_nan b = false -> dbl_is_nan v = false ->
  compare (VDouble b) (VDouble v) =
    Some (if Z.ltb (dbl_key b) (dbl_key v) then -1 else if Z.ltb (dbl_key v) (dbl_key b) then 1 else 0)%Z.
Proof. intros H1 H2. cbn [compare]. unfold dbl_ltb. rewrite H1, H2. reflexivity. Qed.

(** ** Sorting *)
Lemma insert_id_In x l y : In y (insert_id x l) <-> y = x \/ In y l.
Proof.
  induction l as [|z l IH]; cbn [insert_id]; [cbn; intuition|]. destruct (N.leb x z); cbn; [intuition|]. rewrite IH. intuition.
Qed.
Lemma insert_id_sorted x l : Sorted N.le l -> Sorted N.le (insert_id x l).
Proof.
  induction 1 as [|z l S IH H]; cbn [insert_id]; [repeat constructor|].
  destruct (N.leb_spec x z); [constructor; [constructor; assumption|now constructor]|].
  constructor; [assumption|]. destruct l as [|w l]; cbn [insert_id]; [constructor; lia|].
  inversion H; subst. destruct (N.leb x w); constructor; lia.
Qed.
Lemma sort_ids_spec l : Sorted N.le (sort_ids l) /\ forall y, In y (sort_ids l) <-> In y l.
Proof.
  induction l as [|x l [S I]]; cbn [sort_ids fold_right]; [split; [constructor|tauto]|]. fold (sort_ids l).
  split; [now apply insert_id_sorted|]. intros y. rewrite insert_id_In, I. cbn. intuition congruence.
Qed.
Lemma unique_spec l : Sorted N.le l -> StronglySorted N.lt (unique l) /\ (forall y, In y (unique l) <-> In y l).
Proof.
  intros S. apply Sorted_StronglySorted in S; [|intros ? ? ?; lia].
  induction S as [|x l S [IS II] F]; cbn [unique]; [split; [constructor|tauto]|].
  destruct (unique l) as [|y u] eqn:E.
  - split; [repeat constructor|]. intros z. cbn. rewrite <- II. cbn. tauto.
  - assert (Hy : (x <= y)%N) by (rewrite Forall_forall in F; apply F; apply II; now left).
    destruct (N.eqb_spec x y) as [->|Hn].
    + split; [assumption|]. intros z. cbn [In]. rewrite <- (II z). cbn. intuition.
    + split.
      * constructor; [assumption|]. constructor; [lia|]. apply StronglySorted_inv in IS as [_ IF].
        rewrite Forall_forall in *. intros z Hz. specialize (IF z Hz). lia.
      * intros z. cbn [In]. rewrite <- (II z). cbn. tauto.
Qed.
Lemma strict_nodup l : StronglySorted N.lt l -> NoDup l.
Proof.
  induction 1 as [|x l S IH F]; constructor; [|assumption]. intros H. rewrite Forall_forall in F. apply F in H. lia.
Qed.

(** ** Lookups *)
Section Lookup.
Variables (s : storage) (t : table).
Hypothesis R : represents s t.
Hypothesis Sep : separated (indexed_fields s).

Definition exact_for (c : condition) (ids : list N) : Prop :=
  NoDup ids /\ forall id, In id ids <-> exists r, row t id = Some r /\ evaluate_condition c (meta r) = true.

Lemma row_value id r f w : row t id = Some r -> meta_find f (meta r) = Some w -> value_ok w.
Proof. intros H E. eapply value_ok_row; eauto. Qed.
Lemma safe_stored c v : index_safe s c -> (op c = IN_SET /\ In v (operands c) \/ op c <> IN_SET /\ v = operand c) ->
  operand_safe (op c) v /\
  forall id r w, row t id = Some r -> meta_find (field c) (meta r) = Some w -> stored_safe (op c) v w.
Proof.
  intros H Hv. destruct (H v Hv) as [H1 H2]. split; [assumption|]. intros id r w Hr Hw. apply (H2 id r w).
  - now apply (live_row s t R).
  - now apply (row_meta s t id r (field c) w R Hr).
Qed.

Lemma looks_exact o v w : value_ok v -> value_ok w -> (o = EQ \/ o = IN_SET) -> operand_safe EQ v -> stored_safe o v w ->
  (looks_like v w <-> value_eqb w v = true).
Proof.
  intros Hv Hw Ho O S. rewrite value_eqb_exact by assumption.
  assert (NE : ~ extends_str v w) by (destruct Ho; subst o; exact S).
  split; [|now left]. intros [E|L]; [assumption|]. exfalso. apply NE. unfold extends_str. destruct v, w; try contradiction.
  apply starts_with_iff in L as [x ->]. exists x. now rewrite <- app_assoc.
Qed.

Lemma lookup_eq c : op c = EQ -> In (field c) (indexed_fields s) -> value_ok (operand c) -> index_safe s c ->
  exists ids, get_ids_by_field_value s (field c) (operand c) = Ok ids /\ exact_for c ids.
Proof.
  intros Ho Hf Hv HS. destruct (safe_stored c (operand c) HS) as [O ST]; [right; rewrite Ho; split; congruence|].
  destruct (eq_lookup_spec s t (field c) (operand c) R Sep Hf Hv) as (ids & E & ND & I). exists ids. split; [exact E|].
  split; [assumption|]. intros id. rewrite I. rewrite Ho in *. split.
  - intros (r & w & Hr & Hm & Hl). exists r. split; [assumption|]. unfold evaluate_condition. rewrite Hm, Ho.
    apply (looks_exact EQ); eauto using row_value.
  - intros (r & Hr & He). unfold evaluate_condition in He. destruct (meta_find (field c) (meta r)) as [w|] eqn:Hm; [|discriminate].
    rewrite Ho in He. exists r, w. split; [assumption|]. split; [assumption|]. apply (looks_exact EQ); eauto using row_value.
Qed.

Lemma lookup_in c : op c = IN_SET -> In (field c) (indexed_fields s) -> Forall value_ok (operands c) -> index_safe s c ->
  exists ids, lookup_values s (field c) (operands c) = Ok ids /\ exact_for c (unique (sort_ids ids)).
Proof.
  intros Ho Hf Hv HS.
  assert (W : forall vs, incl vs (operands c) -> exists ids, lookup_values s (field c) vs = Ok ids /\
    forall id, In id ids <-> exists r w, row t id = Some r /\ meta_find (field c) (meta r) = Some w
        /\ existsb (fun v => value_eqb v w) vs = true).
  { induction vs as [|v vs IH]; intros Hi; cbn [lookup_values].
    - exists []. split; [reflexivity|]. intros id. cbn. split; [tauto|]. intros (? & ? & _ & _ & ?). discriminate.
    - assert (Hvok : value_ok v) by (rewrite Forall_forall in Hv; apply Hv, Hi; now left).
      destruct (safe_stored c v HS) as [O ST]; [left; split; [assumption|apply Hi; now left]|].
      destruct (eq_lookup_spec s t (field c) v R Sep Hf Hvok) as (a & -> & _ & Ia).
      destruct IH as (b & -> & Ib); [intros x Hx; apply Hi; now right|]. cbn [bind]. exists (a ++ b). split; [reflexivity|].
      intros id. rewrite in_app_iff, Ia, Ib. cbn [existsb]. rewrite Ho in *.
      assert (X : forall r w, row t id = Some r -> meta_find (field c) (meta r) = Some w -> (looks_like v w <-> value_eqb v w = true)).
      { intros r w Hr Hm. rewrite (looks_exact IN_SET) by eauto using row_value, operand_safe_in.
        rewrite !value_eqb_spec. apply val_eq_sym. }
      split.
      + intros [(r & w & Hr & Hm & Hl)|(r & w & Hr & Hm & Hl)]; exists r, w; (split; [assumption|split; [assumption|]]);
          apply orb_true_iff; [left; now apply (X r w)|now right].
      + intros (r & w & Hr & Hm & Hl). apply orb_true_iff in Hl as [Hl|Hl]; [left|right]; exists r, w;
          (split; [assumption|split; [assumption|]]); [now apply (X r w)|assumption]. }
  destruct (W (operands c) (incl_refl _)) as (ids & E & I). exists ids. split; [exact E|].
  destruct (sort_ids_spec ids) as [S1 S2]. destruct (unique_spec _ S1) as [U1 U2]. split; [now apply strict_nodup|].
  intros id. rewrite U2, S2, I. unfold evaluate_condition. split.
  - intros (r & w & Hr & Hm & He). exists r. rewrite Hm, Ho. auto.
  - intros (r & Hr & He). destruct (meta_find (field c) (meta r)) as [w|] eqn:Hm; [|discriminate]. rewrite Ho in He. eauto.
Qed.

Lemma int_eval c v r : operand c = VInt v -> (op c = GE \/ op c = GT \/ op c = LE \/ op c = LT) ->
  evaluate_condition c (meta r) = true <->
  exists z, meta_find (field c) (meta r) = Some (VInt z) /\
    match op c with GE => v <= z | GT => v < z | LE => z <= v | LT => z < v | _ => False end%Z.
Proof.
  intros Hv Ho. unfold evaluate_condition. rewrite Hv. destruct (meta_find (field c) (meta r)) as [[z|b|a|b]|].
  - rewrite int_compare. destruct Ho as [E|[E|[E|E]]]; rewrite E; destruct (Z.ltb_spec z v), (Z.ltb_spec v z); split;
      try discriminate; try (intros (z' & Hz & Hl); inversion Hz; subst z'; (reflexivity || lia));
      try (intros _; exists z; split; [reflexivity|lia]).
  - destruct Ho as [E|[E|[E|E]]]; rewrite E; (split; [discriminate|intros (z & Hz & _); discriminate]).
  - destruct Ho as [E|[E|[E|E]]]; rewrite E; (split; [discriminate|intros (z & Hz & _); discriminate]).
  - destruct Ho as [E|[E|[E|E]]]; rewrite E; (split; [discriminate|intros (z & Hz & _); discriminate]).
  - split; [discriminate|intros (z & Hz & _); discriminate].
Qed.
Lemma dbl_eval c v r id : operand c = VDouble v -> dbl_is_nan v = false -> row t id = Some r ->
  (forall w, meta_find (field c) (meta r) = Some w -> stored_safe (op c) (VDouble v) w) ->
  (op c = GE \/ op c = GT \/ op c = LE \/ op c = LT) ->
  evaluate_condition c (meta r) = true <->
  exists b, meta_find (field c) (meta r) = Some (VDouble b) /\
    match op c with GE => dbl_key v <= dbl_key b | GT => dbl_key v < dbl_key b
                  | LE => dbl_key b <= dbl_key v | LT => dbl_key b < dbl_key v | _ => False end%Z.
Proof.
  intros Hv Nv Hr HS Ho. unfold evaluate_condition. rewrite Hv. destruct (meta_find (field c) (meta r)) as [[z|b|a|b]|].
  - destruct Ho as [E|[E|[E|E]]]; rewrite E; (split; [discriminate|intros (x & Hz & _); discriminate]).
  - assert (Nb : dbl_is_nan b = false).
    { specialize (HS _ eq_refl). destruct Ho as [E|[E|[E|E]]]; rewrite E in HS; destruct HS as [x Hx]; eapply finite_key; eauto. }
    rewrite dbl_compare by assumption.
    destruct Ho as [E|[E|[E|E]]]; rewrite E; destruct (Z.ltb_spec (dbl_key b) (dbl_key v)), (Z.ltb_spec (dbl_key v) (dbl_key b)); split;
      try discriminate; try (intros (z' & Hz & Hl); inversion Hz; subst z'; (reflexivity || lia));
      try (intros _; exists b; split; [reflexivity|lia]).
  - destruct Ho as [E|[E|[E|E]]]; rewrite E; (split; [discriminate|intros (z & Hz & _); discriminate]).
  - destruct Ho as [E|[E|[E|E]]]; rewrite E; (split; [discriminate|intros (z & Hz & _); discriminate]).
  - split; [discriminate|intros (z & Hz & _); discriminate].
Qed.

Lemma int_range_exact c v lo hi : operand c = VInt v -> (op c = GE \/ op c = GT \/ op c = LE \/ op c = LT) ->
  In (field c) (indexed_fields s) -> int64_range lo -> int64_range hi ->
  (forall z, int64_range z -> (lo <= z <= hi)%Z <->
    match op c with GE => v <= z | GT => v < z | LE => z <= v | LT => z < v | _ => False end%Z) ->
  exists ids, get_ids_by_int_range s (field c) lo hi = Ok ids /\ exact_for c ids.
Proof.
  intros Hv Ho Hf Hlo Hhi Hz. destruct (int_range_spec s t (field c) lo hi R Sep Hf Hlo Hhi) as (ids & E & ND & I).
  exists ids. split; [exact E|]. split; [assumption|]. intros id. rewrite I. split.
  - intros (r & z & Hr & Hm & Hl). exists r. split; [assumption|]. apply (int_eval c v); try assumption. exists z. split; [assumption|].
    apply Hz; [apply (row_value _ _ _ _ Hr Hm)|assumption].
  - intros (r & Hr & He). apply (int_eval c v) in He; try assumption. destruct He as (z & Hm & Hl). exists r, z.
    split; [assumption|]. split; [assumption|]. apply Hz; [apply (row_value _ _ _ _ Hr Hm)|assumption].
Qed.
Lemma dbl_range_exact c v lo hi : operand c = VDouble v -> (op c = GE \/ op c = GT \/ op c = LE \/ op c = LT) ->
  In (field c) (indexed_fields s) -> (lo < 2 ^ 64)%N -> (hi < 2 ^ 64)%N -> dbl_is_nan v = false ->
  dbl_is_nan lo = false -> dbl_is_nan hi = false -> lo <> 0%N -> hi <> (2 ^ 63)%N -> index_safe s c ->
  (forall b z, dbl_val b = DNum z -> (dbl_key lo <= dbl_key b <= dbl_key hi)%Z <->
    match op c with GE => dbl_key v <= dbl_key b | GT => dbl_key v < dbl_key b
                  | LE => dbl_key b <= dbl_key v | LT => dbl_key b < dbl_key v | _ => False end%Z) ->
  exists ids, get_ids_by_double_range s (field c) lo hi = Ok ids /\ exact_for c ids.
Proof.
  intros Hv Ho Hf Hlo Hhi Nv Nlo Nhi Zlo Zhi HS Hz.
  destruct (safe_stored c (operand c) HS) as [_ ST]; [right; split; [destruct Ho as [E|[E|[E|E]]]; rewrite E; discriminate|reflexivity]|].
  rewrite Hv in ST.
  destruct (dbl_range_spec s t (field c) lo hi R Sep Hf Hlo Hhi) as (ids & E & ND & I).
  exists ids. split; [exact E|]. split; [assumption|]. intros id. rewrite I.
  assert (F : forall r b, row t id = Some r -> meta_find (field c) (meta r) = Some (VDouble b) -> exists z, dbl_val b = DNum z).
  { intros r b Hr Hm. specialize (ST _ _ _ Hr Hm). destruct Ho as [X|[X|[X|X]]]; rewrite X in ST; exact ST. }
  split.
  - intros (r & b & Hr & Hm & Hl). exists r. split; [assumption|]. apply (dbl_eval c v r id); eauto. exists b. split; [assumption|].
    destruct (F _ _ Hr Hm) as [z Fz]. apply (Hz b z Fz). apply (double_between lo hi b) in Hl; try assumption; [|apply (row_value _ _ _ _ Hr Hm)].
    rewrite !dle_key in Hl. intuition.
  - intros (r & Hr & He). apply (dbl_eval c v r id) in He; eauto. destruct He as (b & Hm & Hl). exists r, b.
    split; [assumption|]. split; [assumption|]. destruct (F _ _ Hr Hm) as [z Fz]. apply (Hz b z Fz) in Hl.
    apply (double_between lo hi b); try assumption; [apply (row_value _ _ _ _ Hr Hm)|].
    rewrite !dle_key. destruct (finite_key b z Fz) as [Nb _]. intuition.
Qed.

Lemma lookup_lemma c : value_ok (operand c) -> Forall value_ok (operands c) ->
  In (field c) (indexed_fields s) -> index_safe s c ->
  lookup_indexed_ids s c = Ok None \/ exists ids, lookup_indexed_ids s c = Ok (Some ids) /\ exact_for c ids.
Proof.
  intros V1 V2 Hf HS. unfold lookup_indexed_ids.
  assert (E : is_indexed_field s (field c) = true).
  { apply existsb_exists. exists (field c). split; [assumption|apply bytes_eqb_refl]. }
  rewrite E. cbn [negb].
  assert (Safe : op c <> IN_SET -> operand_safe (op c) (operand c)).
  { intros H. apply (safe_stored c (operand c) HS). now right. }
  assert (I1 : int64_range int64_max) by (unfold int64_range, int64_max; lia).
  assert (I2 : int64_range int64_min) by (unfold int64_range, int64_min; lia).
  assert (D1 : (dbl_max < 2 ^ 64)%N) by reflexivity. assert (D2 : (dbl_lowest < 2 ^ 64)%N) by reflexivity.
  destruct (op c) eqn:Ho; auto.
  - right. destruct (lookup_eq c Ho Hf V1 HS) as (ids & -> & X). exists ids. auto.
  - destruct (operand c) as [v|v|v|v] eqn:Hv; auto.
    + right. destruct (Z.eqb_spec v int64_max) as [->|Hne].
      * exists []. split; [reflexivity|]. split; [constructor|]. intros id. split; [intros []|]. intros (r & Hr & He).
        apply (int_eval c int64_max) in He; [|assumption|auto]. destruct He as (z & Hm & Hl). rewrite Ho in Hl.
        pose proof (row_value _ _ _ _ Hr Hm) as W. cbn in W. unfold int64_range in W. unfold int64_max in Hl. lia.
      * destruct (int_range_exact c v (v + 1) int64_max) as (ids & -> & X); try assumption; auto.
        -- cbn in V1. unfold int64_range, int64_max in *. lia.
        -- intros z Hz. rewrite Ho. unfold int64_range, int64_max in *. lia.
        -- exists ids. auto.
    + right. destruct Safe as [N L]; [discriminate|]. apply dbl_ltb_spec in L. apply not_nan_bits in N. cbn in V1.
      destruct (nextafter_up v V1 L) as (U1 & U2 & U3 & U4).
      destruct (dbl_range_exact c v (nextafter v dbl_max) dbl_max) as (ids & -> & X); try assumption; auto; try discriminate.
      * intros b z Fz. rewrite Ho, U4. destruct (finite_key b z Fz) as [_ K]. lia.
      * exists ids. auto.
  - destruct (operand c) as [v|v|v|v] eqn:Hv; auto.
    + right. destruct (int_range_exact c v v int64_max) as (ids & -> & X); try assumption; auto.
      * intros z Hz. rewrite Ho. unfold int64_range, int64_max in *. lia.
      * exists ids. auto.
    + right. destruct Safe as [N L]; [discriminate|]. apply not_nan_bits in N. cbn in V1.
      destruct (dbl_range_exact c v v dbl_max) as (ids & -> & X); try assumption; auto; try discriminate.
      * intros b z Fz. rewrite Ho. destruct (finite_key b z Fz) as [_ K]. lia.
      * exists ids. auto.
  - destruct (operand c) as [v|v|v|v] eqn:Hv; auto.
    + right. destruct (Z.eqb_spec v int64_min) as [->|Hne].
      * exists []. split; [reflexivity|]. split; [constructor|]. intros id. split; [intros []|]. intros (r & Hr & He).
        apply (int_eval c int64_min) in He; [|assumption|auto]. destruct He as (z & Hm & Hl). rewrite Ho in Hl.
        pose proof (row_value _ _ _ _ Hr Hm) as W. cbn in W. unfold int64_range in W. unfold int64_min in Hl. lia.
      * destruct (int_range_exact c v int64_min (v - 1)) as (ids & -> & X); try assumption; auto.
        -- cbn in V1. unfold int64_range, int64_min in *. lia.
        -- intros z Hz. rewrite Ho. unfold int64_range, int64_min in *. lia.
        -- exists ids. auto.
    + right. destruct Safe as [N L]; [discriminate|]. apply dbl_ltb_spec in L. apply not_nan_bits in N. cbn in V1.
      destruct (nextafter_down v V1 L) as (U1 & U2 & U3 & U4).
      destruct (dbl_range_exact c v dbl_lowest (nextafter v dbl_lowest)) as (ids & -> & X); try assumption; auto; try discriminate.
      * intros b z Fz. rewrite Ho, U4. destruct (finite_key b z Fz) as [_ K]. lia.
      * exists ids. auto.
  - destruct (operand c) as [v|v|v|v] eqn:Hv; auto.
    + right. destruct (int_range_exact c v int64_min v) as (ids & -> & X); try assumption; auto.
      * intros z Hz. rewrite Ho. unfold int64_range, int64_min in *. lia.
      * exists ids. auto.
    + right. destruct Safe as [N L]; [discriminate|]. apply not_nan_bits in N. cbn in V1.
      destruct (dbl_range_exact c v dbl_lowest v) as (ids & -> & X); try assumption; auto; try discriminate.
      * intros b z Fz. rewrite Ho. destruct (finite_key b z Fz) as [_ K]. lia.
      * exists ids. auto.
  - right. destruct (lookup_in c Ho Hf V2 HS) as (ids & -> & X). cbn [bind]. exists (unique (sort_ids ids)). auto.
Qed.
End Lookup.

(** ** The executor *)
Lemma replace_nth_length {A} (l : list A) i x : length (replace_nth l i x) = length l.
Proof. revert i. induction l as [|y l IH]; intros [|i]; cbn; auto. Qed.
Lemma replace_nth_get {A} (l : list A) i x j : i < length l ->
  nth_error (replace_nth l i x) j = if Nat.eqb i j then Some x else nth_error l j.
Proof.
  revert i j. induction l as [|y l IH]; intros i j H; [cbn in H; lia|]. destruct i as [|i], j as [|j]; cbn; auto.
  apply IH. cbn in H. lia.
Qed.
Definition memb (id : N) (ids : list N) : bool := existsb (N.eqb id) ids.
Lemma memb_In id ids : memb id ids = true <-> In id ids.
Proof.
  unfold memb. rewrite existsb_exists. split; [intros (x & Hx & E); apply N.eqb_eq in E; now subst|].
  intros H. exists id. split; [assumption|apply N.eqb_refl].
Qed.
Lemma bits_put_spec x ids : forall b, (forall id, In id ids -> (id < N.of_nat (length b))%N) ->
  exists b', bits_put x b ids = Ok b' /\ length b' = length b
   /\ forall i, (i < length b)%nat -> nth_error b' i = if memb (N.of_nat i) ids then Some x else nth_error b i.
Proof.
  induction ids as [|id ids IH]; intros b H; cbn [bits_put]; [exists b; auto|].
  assert (L : (N.to_nat id < length b)%nat) by (specialize (H id (or_introl eq_refl)); lia).
  unfold bit_put. destruct (Nat.ltb_spec (N.to_nat id) (length b)); [|lia]. cbn [bind].
  destruct (IH (replace_nth b (N.to_nat id) x)) as (b' & E & Lb & G).
  { intros i Hi. rewrite replace_nth_length. apply H. now right. }
  rewrite E. rewrite replace_nth_length in *. exists b'. split; [reflexivity|]. split; [assumption|].
  intros i Hi. rewrite G by assumption. rewrite replace_nth_get by assumption. unfold memb. cbn [existsb].
  destruct (N.eqb_spec (N.of_nat i) id) as [<-|Hn]; cbn [orb].
  - rewrite Nat2N.id, Nat.eqb_refl. now destruct (existsb _ ids).
  - destruct (Nat.eqb_spec (N.to_nat id) i); [lia|]. reflexivity.
Qed.

(** What the answers of the executor must be. *)
Definition answer (t : table) (f : filter) (id : N) : bool :=
  is_empty f || match row t id with Some r => evaluate f (meta r) | None => false end.

Lemma evaluate_empty f m : is_empty f = true -> evaluate f m = true.
Proof. destruct f as [[]  [|] [|]]; cbn; congruence. Qed.
Lemma evaluate_single c m : evaluate (Filter AND [c] []) m = evaluate_condition c m.
Proof. cbn. apply andb_true_r. Qed.
Lemma serialize_nonempty r : serialize r <> [].
Proof.
  intros E. apply (f_equal (@length N)) in E. unfold serialize, serialize_string in E. rewrite !app_length in E.
  unfold le_enc in E. cbn in E. lia.
Qed.

Section Executor.
Variables (s : storage) (t : table) (f : filter) (n : nat).
Hypothesis R : represents s t.
Hypothesis Bound : forall id r, row t id = Some r -> (id < N.of_nat n)%N.
Hypothesis Small : (N.of_nat n <= 2 ^ 32)%N.
Hypothesis Safe : forall c, single_condition f c ->
  cond_values_ok c /\ (In (field c) (indexed_fields s) -> separated (indexed_fields s) /\ index_safe s c).

Lemma fast_path_lemma : index_fast_path s f = Ok None
  \/ exists ids, index_fast_path s f = Ok (Some ids) /\ NoDup ids /\ is_empty f = false
      /\ forall id, In id ids <-> answer t f id = true.
Proof.
  destruct f as [l cs subs] eqn:Ef. unfold index_fast_path.
  destruct l; auto. destruct cs as [|c [|]]; auto. destruct subs as [|]; auto.
  destruct (Safe c eq_refl) as ((V1 & V2) & HI).
  destruct (is_indexed_field s (field c)) eqn:Ei.
  - apply existsb_exists in Ei as (g & Hg & Eg). apply bytes_eqb_eq in Eg. subst g.
    destruct (HI Hg) as [Sep IS].
    destruct (lookup_lemma s t R Sep c V1 V2 Hg IS) as [E|(ids & E & ND & I)]; [auto|]. right. exists ids.
    split; [assumption|]. split; [assumption|]. split; [reflexivity|]. intros id. rewrite I. unfold answer. cbn [is_empty orb].
    split.
    + intros (r & -> & H). now rewrite evaluate_single.
    + destruct (row t id) as [r|]; [|discriminate]. rewrite evaluate_single. intros H. eauto.
  - left. unfold lookup_indexed_ids. now rewrite Ei.
Qed.

Definition good (x : executor) : Prop :=
  exec_filter x = f /\ exec_storage x = s /\ data_num x = n /\
  match indexed_ids x with
  | None => True
  | Some ids => NoDup ids /\ is_empty f = false /\ (forall id, In id ids <-> answer t f id = true)
      /\ length (allow_ids x) = n /\ forall i, (i < n)%nat -> nth_error (allow_ids x) i = Some (answer t f (N.of_nat i))
  end.
Lemma answer_bound id : is_empty f = false -> answer t f id = true -> (id < N.of_nat n)%N.
Proof.
  unfold answer. intros ->. cbn [orb]. destruct (row t id) as [r|] eqn:E; [|discriminate]. intros _. eapply Bound; eauto.
Qed.
Lemma make_good : exists x, make_executor f s n = Ok x /\ good x.
Proof.
  unfold make_executor. destruct fast_path_lemma as [->|(ids & -> & ND & NE & I)]; cbn [bind].
  - cbn [bits_put bind]. eexists. split; [reflexivity|]. unfold good. cbn. auto.
  - destruct (bits_put_spec true ids (repeat false n)) as (b & E & L & G).
    { intros id H. rewrite repeat_length. apply answer_bound; [assumption|]. now apply I. }
    rewrite E. cbn [bind]. eexists. split; [reflexivity|]. unfold good. cbn [exec_filter exec_storage data_num indexed_ids allow_ids].
    rewrite repeat_length in *. repeat (split; [auto; fail|]). intros i Hi. rewrite G by assumption.
    destruct (memb (N.of_nat i) ids) eqn:M.
    + apply memb_In, I in M. congruence.
    + rewrite nth_error_repeat by assumption. f_equal. destruct (answer t f (N.of_nat i)) eqn:A; [|reflexivity].
      apply I, memb_In in A. congruence.
Qed.

Lemma raw_answer id : is_empty f = false -> 
  match get_data_value (db s) id with
  | None => row t id = None
  | Some (raw, _) => raw <> [] /\ evaluate_raw_value f raw = Ok (answer t f id)
  end.
Proof.
  intros NE. destruct (row t id) as [r|] eqn:E.
  - destruct (get_data_some s t id r R E) as (k & -> & _). split; [apply serialize_nonempty|].
    rewrite evaluate_raw_ok by (apply (rp_rows _ _ R _ _ E)). unfold answer. now rewrite NE, E.
  - now rewrite (get_data_none s t id R E).
Qed.
Lemma match_good x id : good x -> (id < N.of_nat n)%N -> match_id x id = Ok (answer t f id).
Proof.
  intros (E1 & E2 & E3 & G) Hid. unfold match_id. rewrite E1. destruct (is_empty f) eqn:NE.
  - unfold answer. now rewrite NE.
  - destruct (indexed_ids x) as [ids|].
    + destruct G as (_ & _ & _ & _ & A). unfold bit_get. rewrite A by lia. f_equal. f_equal. lia.
    + rewrite E2. pose proof (raw_answer id NE) as H. destruct (get_data_value (db s) id) as [[raw k]|].
      * apply H.
      * unfold answer. now rewrite NE, H.
Qed.
Lemma blocked_one_good x id : good x -> is_empty f = false -> (id < N.of_nat n)%N -> blocked_one x id = Ok (negb (answer t f id)).
Proof.
  intros (E1 & E2 & E3 & G) NE Hid. unfold blocked_one. destruct (indexed_ids x) as [ids|].
  - destruct G as (_ & _ & _ & _ & A). unfold bit_get. rewrite A by lia. cbn [bind]. rewrite N2Nat.id. reflexivity.
  - rewrite E1, E2. pose proof (raw_answer id NE) as H. destruct (get_data_value (db s) id) as [[raw k]|].
    + destruct H as [Hr H]. destruct raw; [congruence|]. rewrite H. reflexivity.
    + unfold answer. now rewrite NE, H.
Qed.
Definition blocked_of (ids : list N) : list bool := map (fun id => negb (answer t f id)) ids.
Lemma blocked_for_good x ids : good x -> (forall id, In id ids -> (id < N.of_nat n)%N) ->
  build_blocked_for x ids = Ok (blocked_of ids, length (List.filter (answer t f) ids)).
Proof.
  intros G H. unfold build_blocked_for. assert (E1 : exec_filter x = f) by apply G. rewrite E1.
  destruct (is_empty f) eqn:NE.
  - f_equal. f_equal.
    + unfold blocked_of, answer. rewrite NE. cbn [orb negb]. clear. induction ids; cbn; congruence.
    + unfold answer. rewrite NE. cbn [orb]. clear. induction ids; cbn; congruence.
  - assert (B : blocked_each x ids = Ok (blocked_of ids)).
    { clear - H E1 G NE R Bound Small Safe. induction ids as [|id ids IH]; [reflexivity|]. cbn [blocked_each].
      rewrite blocked_one_good; [|assumption|assumption|apply H; now left]. cbn [bind].
      rewrite IH by (intros i Hi; apply H; now right). reflexivity. }
    rewrite B. cbn [bind]. f_equal. f_equal. unfold count_false, blocked_of. clear.
    induction ids as [|id ids IH]; [reflexivity|]. cbn. rewrite negb_involutive. destruct (answer t f id); cbn; lia.
Qed.
Definition all_ids (from upto : nat) : list N := map N.of_nat (seq from (upto - from)).
Lemma id_range_small from upto : (upto <= n)%nat -> id_range from upto = all_ids from upto.
Proof.
  intros H. unfold id_range, all_ids. apply map_ext_in. intros i Hi. apply in_seq in Hi. apply N.mod_small. lia.
Qed.
Lemma all_ids_split a b c : (a <= b)%nat -> (b <= c)%nat -> all_ids a c = all_ids a b ++ all_ids b c.
Proof.
  intros H1 H2. unfold all_ids. rewrite <- map_app. f_equal. replace (c - a) with ((b - a) + (c - b)) by lia.
  rewrite seq_app. f_equal. f_equal. lia.
Qed.
Lemma batches_good x : good x -> forall fuel from, (n < from + fuel)%nat ->
  blocked_batches fuel x from = Ok (blocked_of (all_ids from n), length (List.filter (answer t f) (all_ids from n))).
Proof.
  intros G. assert (E3 : data_num x = n) by apply G.
  induction fuel as [|k IH]; intros from H; cbn [blocked_batches].
  - unfold all_ids. replace (n - from) with 0 by lia. reflexivity.
  - rewrite E3. destruct (Nat.leb_spec n from).
    + unfold all_ids. replace (n - from) with 0 by lia. reflexivity.
    + rewrite id_range_small by lia. rewrite blocked_for_good; [|assumption|].
      2:{ intros id Hi. unfold all_ids in Hi. apply in_map_iff in Hi as (i & <- & Hi). apply in_seq in Hi. lia. }
      cbn [bind]. rewrite IH by lia. cbn [bind]. f_equal.
      destruct (Nat.le_ge_cases n (from + 1024)) as [L|L].
      * rewrite Nat.min_l by assumption. unfold all_ids at 2 4. replace (n - (from + 1024)) with 0 by lia. cbn [seq map blocked_of List.filter length].
        now rewrite app_nil_r, Nat.add_0_r.
      * rewrite Nat.min_r by assumption. rewrite (all_ids_split from (from + 1024) n) by lia.
        unfold blocked_of. rewrite map_app, filter_app, app_length. reflexivity.
Qed.
Lemma nth_error_ext {A} (a b : list A) : length a = length b -> (forall i, i < length a -> nth_error a i = nth_error b i) -> a = b.
Proof.
  revert b. induction a as [|x a IH]; intros [|y b] L H; try discriminate; [reflexivity|].
  pose proof (H 0 ltac:(cbn; lia)) as H0. cbn in H0. inversion H0. f_equal. apply IH; [cbn in L; congruence|].
  intros i Hi. apply (H (S i)). cbn. lia.
Qed.
Lemma build_blocked_good x : good x ->
  build_blocked x = Ok (blocked_of (all_ids 0 n), length (List.filter (answer t f) (all_ids 0 n))).
Proof.
  intros G. unfold build_blocked. assert (E1 : exec_filter x = f) by apply G. assert (E3 : data_num x = n) by apply G.
  rewrite E1, E3. destruct (is_empty f) eqn:NE.
  - assert (L : length (all_ids 0 n) = n) by (unfold all_ids; rewrite map_length, seq_length; lia).
    pose proof (blocked_for_good x (all_ids 0 n) G) as B. unfold build_blocked_for in B. rewrite E1, NE, L in B. apply B.
    intros id Hi. unfold all_ids in Hi. apply in_map_iff in Hi as (i & <- & Hi). apply in_seq in Hi. lia.
  - destruct (indexed_ids x) as [ids|] eqn:Ei.
    + destruct G as (_ & _ & _ & G). rewrite Ei in G. destruct G as (ND & _ & I & _).
      destruct (bits_put_spec false ids (repeat true n)) as (b & E & L & P).
      { intros id H. rewrite repeat_length. apply answer_bound; [assumption|]. now apply I. }
      rewrite E. cbn [bind]. rewrite repeat_length in *. f_equal. f_equal.
      * apply nth_error_ext; [unfold blocked_of, all_ids; rewrite !map_length, seq_length; lia|].
        intros i Hi. rewrite L in Hi. rewrite P by assumption. rewrite nth_error_repeat by assumption.
        unfold blocked_of, all_ids. rewrite map_map, Nat.sub_0_r.
        assert (Q : nth_error (seq 0 n) i = Some i)
          by (rewrite (nth_error_nth' _ 0) by (rewrite seq_length; lia); f_equal; apply seq_nth; lia).
        rewrite (map_nth_error _ _ _ Q).
        destruct (memb (N.of_nat i) ids) eqn:M.
        -- apply memb_In, I in M. now rewrite M.
        -- destruct (answer t f (N.of_nat i)) eqn:A; [|reflexivity]. apply I, memb_In in A. congruence.
      * apply Nat.le_antisymm.
        -- apply NoDup_incl_length; [assumption|]. intros id Hi. apply I in Hi. apply filter_In. split; [|assumption].
           unfold all_ids. apply answer_bound in Hi; [|assumption]. apply in_map_iff. exists (N.to_nat id). split; [lia|]. apply in_seq. lia.
        -- apply NoDup_incl_length.
           ++ apply NoDup_filter. unfold all_ids. apply FinFun.Injective_map_NoDup; [intros ? ? ?; lia|apply seq_NoDup].
           ++ intros id Hi. apply filter_In in Hi as [_ Hi]. now apply I.
    + apply batches_good; [assumption|lia].
Qed.
End Executor.
