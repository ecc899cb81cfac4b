From Verif Require Import FilterModel FilterSpec ScalarDataProofs.

Lemma bytes_cmp_lt a b : bytes_cmp a b = Lt <-> lex_lt a b.
Proof.
  revert b; induction a as [|x a IH]; intros [|y b]; cbn [bytes_cmp]; split; intros H; try discriminate;
    try (inversion H; fail); try reflexivity; try (apply lex_nil).
  - destruct (N.compare_spec x y) as [->|Hl|Hg]; [|now constructor|discriminate].
    apply lex_tail. now apply IH.
  - inversion H; subst.
    + destruct (N.compare_spec x y); [lia|reflexivity|lia].
    + rewrite N.compare_refl. now apply IH.
Qed.
Lemma bytes_cmp_gt a b : bytes_cmp a b = Gt <-> lex_lt b a.
Proof. rewrite <- bytes_cmp_lt, bytes_cmp_antisym. destruct (bytes_cmp b a); cbn; intuition discriminate. Qed.

Lemma value_eqb_spec a b : value_eqb a b = true <-> val_eq a b.
Proof.
  destruct a, b; cbn; try (intuition discriminate).
  - apply Z.eqb_eq.
  - apply dbl_eqb_spec.
  - apply bytes_eqb_eq.
  - apply Bool.eqb_true_iff.
Qed.
Lemma dval_eq_sym a b : dval_eq a b -> dval_eq b a.
Proof. destruct a, b; cbn; auto. Qed.
Lemma val_eq_sym a b : val_eq a b <-> val_eq b a.
Proof. destruct a, b; cbn; split; auto; apply dval_eq_sym. Qed.

(** Trichotomy away from NaN. *)
Lemma dbl_trich x y : dbl_is_nan x = false -> dbl_is_nan y = false ->
  dbl_eqb x y = negb (dbl_ltb x y) && negb (dbl_ltb y x).
Proof.
  intros Hx Hy. unfold dbl_eqb, dbl_ltb. rewrite Hx, Hy. cbn [negb andb].
  destruct (Z.eqb_spec (dbl_key x) (dbl_key y)), (Z.ltb_spec (dbl_key x) (dbl_key y)),
    (Z.ltb_spec (dbl_key y) (dbl_key x)); cbn; lia.
Qed.
Lemma dbl_ltb_asym x y : dbl_ltb x y = true -> dbl_ltb y x = false.
Proof. unfold dbl_ltb. destruct (dbl_is_nan x), (dbl_is_nan y); cbn; try easy. lia. Qed.

Definition same_type (a b : value) : Prop := compare a b <> None.

Lemma compare_lt a b : match compare a b with Some r => Z.ltb r 0 | None => false end = true <-> val_lt a b.
Proof.
  destruct a, b; cbn; try (intuition discriminate).
  - unfold cascade. destruct (Z.ltb_spec z z0), (Z.ltb_spec z0 z); cbn; intuition (lia || discriminate).
  - rewrite <- dbl_ltb_spec. unfold cascade. destruct (dbl_ltb bits bits0), (dbl_ltb bits0 bits); cbn; intuition discriminate.
  - rewrite <- bytes_cmp_lt. unfold cascade. destruct (bytes_cmp s s0); cbn; intuition discriminate.
  - destruct b0, b; cbn; intuition discriminate.
Qed.
Lemma compare_gt a b : match compare a b with Some r => Z.ltb 0 r | None => false end = true <-> val_lt b a.
Proof.
  destruct a, b; cbn; try (intuition discriminate).
  - unfold cascade. destruct (Z.ltb_spec z z0), (Z.ltb_spec z0 z); cbn; intuition (lia || discriminate).
  - rewrite <- dbl_ltb_spec. unfold cascade. pose proof (dbl_ltb_asym bits bits0).
    destruct (dbl_ltb bits bits0), (dbl_ltb bits0 bits); cbn; intuition discriminate.
  - rewrite <- bytes_cmp_gt. unfold cascade. destruct (bytes_cmp s s0); cbn; intuition discriminate.
  - destruct b0, b; cbn; intuition discriminate.
Qed.

(** Away from NaN a comparison returning 0 is equality. *)
Lemma compare_zero a b : not_nan a -> not_nan b ->
  match compare a b with Some r => Z.eqb r 0 | None => false end = true <-> val_eq a b.
Proof.
  intros Ha Hb. destruct a, b; cbn; try (intuition discriminate).
  - unfold cascade. destruct (Z.ltb_spec z z0), (Z.ltb_spec z0 z); cbn; intuition (lia || discriminate).
  - rewrite <- dbl_eqb_spec, dbl_trich by assumption. unfold cascade.
    destruct (dbl_ltb bits bits0), (dbl_ltb bits0 bits); cbn; intuition discriminate.
  - unfold cascade. destruct (bytes_cmp s s0) eqn:E; cbn.
    + apply bytes_cmp_eq in E. intuition.
    + split; [discriminate|]. intros ->. rewrite bytes_cmp_refl in E. discriminate.
    + split; [discriminate|]. intros ->. rewrite bytes_cmp_refl in E. discriminate.
  - destruct b0, b; cbn; intuition discriminate.
Qed.
Lemma leb_split a b :
  match compare a b with Some r => Z.leb r 0 | None => false end =
  match compare a b with Some r => Z.ltb r 0 | None => false end ||
  match compare a b with Some r => Z.eqb r 0 | None => false end.
Proof. destruct (compare a b); [lia|reflexivity]. Qed.
Lemma geb_split a b :
  match compare a b with Some r => Z.leb 0 r | None => false end =
  match compare a b with Some r => Z.ltb 0 r | None => false end ||
  match compare a b with Some r => Z.eqb r 0 | None => false end.
Proof. destruct (compare a b); [lia|reflexivity]. Qed.

Lemma has_substring_spec p s : has_substring p s = true <-> exists a b, s = a ++ p ++ b.
Proof.
  induction s as [|x s IH]; cbn [has_substring]; rewrite orb_true_iff, starts_with_iff.
  - split.
    + intros [[b H]|H]; [exists [], b; exact H|discriminate].
    + intros (a & b & H). left. symmetry in H. apply app_eq_nil in H as [-> H]. exists b. now symmetry.
  - rewrite IH. split.
    + intros [[b H]|(a & b & H)]; [exists [], b; exact H|exists (x :: a), b; now rewrite H].
    + intros (a & b & H). destruct a as [|y a]; [left; exists b; exact H|].
      right. inversion H; subst. now exists a, b.
Qed.

Lemma condition_lemma c m : NoDup (map fst m) -> cond_no_nan m c ->
  (evaluate_condition c m = true <-> cond_denotes c m).
Proof.
  intros ND NN. unfold evaluate_condition, cond_denotes.
  destruct (meta_find (field c) m) as [v|] eqn:E.
  2:{ split; [discriminate|]. intros (v & HI & _). apply (meta_find_In _ _ _ ND) in HI. congruence. }
  assert (HI : In (field c, v) m) by (now apply meta_find_Some).
  assert (U : forall w, In (field c, w) m -> w = v).
  { intros w Hw. apply (meta_find_In _ _ _ ND) in Hw. congruence. }
  assert (L : (exists w, In (field c, w) m /\ op_holds c w) <-> op_holds c v).
  { split; [intros (w & Hw & Ho); now rewrite <- (U w Hw)|intros Ho; now exists v]. }
  rewrite L. unfold op_holds, cond_no_nan in *. clear L U.
  assert (Ex : existsb (fun w => value_eqb w v) (operands c) = true <-> exists w, In w (operands c) /\ val_eq v w).
  { rewrite existsb_exists. split; intros (w & Hw & H); exists w; (split; [exact Hw|]).
    - apply val_eq_sym. now apply value_eqb_spec.
    - apply value_eqb_spec. now apply val_eq_sym. }
  destruct (op c).
  - apply value_eqb_spec.
  - rewrite negb_true_iff, <- not_true_iff_false, value_eqb_spec. reflexivity.
  - apply compare_gt.
  - destruct NN as [N1 N2]. rewrite geb_split, orb_true_iff, compare_gt, compare_zero by (auto; now apply N2). reflexivity.
  - apply compare_lt.
  - destruct NN as [N1 N2]. rewrite leb_split, orb_true_iff, compare_lt, compare_zero by (auto; now apply N2). reflexivity.
  - exact Ex.
  - rewrite negb_true_iff, <- not_true_iff_false, Ex. reflexivity.
  - destruct v; cbn; try (intuition discriminate). destruct (operand c); cbn; try (intuition discriminate).
    apply has_substring_spec.
Qed.

(** Induction on filter trees. *)
Fixpoint filter_ind' (P : filter -> Prop)
  (H : forall l cs subs, Forall P subs -> P (Filter l cs subs)) (f : filter) : P f :=
  match f with
  | Filter l cs subs => H l cs subs
      ((fix go s : Forall P s := match s with [] => Forall_nil P | x :: s' => Forall_cons x (filter_ind' P H x) (go s') end) subs)
  end.

Lemma Forall2_map_parts {A} (f : A -> bool) (g : A -> Prop) l :
  Forall (fun a => f a = true <-> g a) l -> Forall2 (fun (b : bool) (p : Prop) => b = true <-> p) (map f l) (map g l).
Proof. induction 1; cbn; constructor; auto. Qed.

Lemma combine_and bs ps : Forall2 (fun (b : bool) (p : Prop) => b = true <-> p) bs ps ->
  (forallb (fun v => v) bs = true <-> Forall (fun p => p) ps).
Proof.
  induction 1 as [|b p bs ps H _ IH]; cbn; [intuition constructor|].
  rewrite andb_true_iff, IH, H, Forall_cons_iff. reflexivity.
Qed.
Lemma combine_or bs ps : Forall2 (fun (b : bool) (p : Prop) => b = true <-> p) bs ps ->
  (existsb (fun v => v) bs = true <-> Exists (fun p => p) ps).
Proof.
  induction 1 as [|b p bs ps H _ IH]; cbn; [rewrite Exists_nil; intuition discriminate|].
  rewrite orb_true_iff, IH, H, Exists_cons. reflexivity.
Qed.

Lemma evaluate_lemma m : NoDup (map fst m) -> forall f, well_formed m f ->
  (evaluate f m = true <-> denotes f m).
Proof.
  intros ND f. induction f as [l cs subs IH] using filter_ind'. intros (W1 & W2 & W3).
  cbn [evaluate denotes].
  assert (F2 : Forall2 (fun (b : bool) (p : Prop) => b = true <-> p)
     (map (fun c => evaluate_condition c m) cs ++ map (fun s => evaluate s m) subs)
     (map (fun c => cond_denotes c m) cs ++ map (fun s => denotes s m) subs)).
  { apply Forall2_app; apply Forall2_map_parts.
    - eapply Forall_impl; [|exact W1]. cbn beta. intros c Hc. now apply condition_lemma.
    - clear W2 W1. induction subs as [|s subs IHs]; [constructor|].
      apply Forall_cons_iff in IH as [H1 H2]. destruct W3 as [W3 W4]. constructor; auto. }
  assert (Len : length (map (fun c => cond_denotes c m) cs ++ map (fun s => denotes s m) subs)
     = length cs + length subs) by (now rewrite app_length, !map_length).
  revert F2 Len. generalize (map (fun c => evaluate_condition c m) cs ++ map (fun s => evaluate s m) subs).
  generalize (map (fun c => cond_denotes c m) cs ++ map (fun s => denotes s m) subs).
  intros ps bs F2 Len. destruct F2 as [|b p bs ps H F2]; [intuition|].
  assert (D : forall Q : Prop, (p :: ps = [] \/ Q) <-> Q) by (intros Q; intuition discriminate).
  rewrite D. destruct l.
  - apply combine_and. now constructor.
  - apply combine_or. now constructor.
  - specialize (W2 eq_refl). rewrite <- Len in W2. cbn [length] in W2. destruct ps; [|cbn in W2; lia].
    rewrite negb_true_iff, <- not_true_iff_false, H, Forall_cons_iff. intuition.
Qed.
