(** Text as byte strings: literals, decimal numbers, lines. *)
From Coq Require Import String Ascii.
From Verif Require Export Bytes.

(** ASCII literal as bytes. *)
Definition str (s : string) : bytes := map N_of_ascii (list_ascii_of_string s).
Arguments str s%string.

(** Equality of byte strings (std::string operator==). *)
Fixpoint bytes_eqb (a b : bytes) : bool :=
  match a, b with
  | [], [] => true
  | x :: a', y :: b' => N.eqb x y && bytes_eqb a' b'
  | _, _ => false
  end.

Definition chr_nl : N := 10.
Definition chr_cr : N := 13.
Definition chr_sp : N := 32.
Definition chr_tab : N := 9.
Definition chr_0 : N := 48.

(** Decimal digits of [n], most significant first, prepended to [acc]. *)
Fixpoint dec_acc (fuel : nat) (n : N) (acc : bytes) : bytes :=
  match fuel with
  | O => acc
  | S f => let acc' := (chr_0 + n mod 10)%N :: acc in
           if N.ltb n 10 then acc' else dec_acc f (n / 10) acc'
  end.
(** std::to_string / operator<< of an unsigned integer.  The fuel is never
    exhausted ([parse_digits_dec] below). *)
Definition dec (n : N) : bytes := dec_acc (S (N.size_nat n)) n [].

Definition is_digit (c : N) : bool := N.leb 48 c && N.leb c 57.

(** Value of a digit string, [None] if some character is not a digit. *)
Fixpoint digits_val (acc : N) (l : bytes) : option N :=
  match l with
  | [] => Some acc
  | c :: l' => if is_digit c then digits_val (10 * acc + (c - chr_0)) l' else None
  end.

(** Position of the first [c]: the part before it and the part after it
    (std::string::find). *)
Fixpoint split_at (c : N) (l : bytes) : option (bytes * bytes) :=
  match l with
  | [] => None
  | x :: l' => if N.eqb x c then Some ([], l')
               else match split_at c l' with
                    | None => None
                    | Some (a, b) => Some (x :: a, b)
                    end
  end.

(** The successive results of std::getline: a last line without newline
    counts if it is not empty. *)
Fixpoint getlines_aux (l cur : bytes) : list bytes :=
  match l with
  | [] => match cur with [] => [] | _ => [rev cur] end
  | c :: l' => if N.eqb c chr_nl then rev cur :: getlines_aux l' [] else getlines_aux l' (c :: cur)
  end.
Definition getlines (l : bytes) : list bytes := getlines_aux l [].

(** Lexicographic comparison of byte strings (std::string operator<, RocksDB's
    bytewise comparator). *)
Fixpoint bytes_cmp (a b : bytes) : comparison :=
  match a, b with
  | [], [] => Eq
  | [], _ => Lt
  | _, [] => Gt
  | x :: a', y :: b' => match N.compare x y with Eq => bytes_cmp a' b' | c => c end
  end.

Definition starts_with (p s : bytes) : bool := bytes_eqb (firstn (length p) s) p.

Lemma bytes_eqb_eq a b : bytes_eqb a b = true <-> a = b.
Proof.
  revert b; induction a as [|x a IH]; intros [|y b]; simpl; split; intros H; try discriminate; auto.
  - apply andb_true_iff in H as [H1 H2]. apply N.eqb_eq in H1. apply IH in H2. congruence.
  - inversion H; subst. rewrite N.eqb_refl. simpl. now apply IH.
Qed.
Lemma bytes_eqb_refl a : bytes_eqb a a = true.
Proof. now apply bytes_eqb_eq. Qed.
Lemma bytes_eqb_neq a b : bytes_eqb a b = false <-> a <> b.
Proof. rewrite <- bytes_eqb_eq. destruct (bytes_eqb a b); intuition discriminate. Qed.
Lemma bytes_eqb_spec a b : reflect (a = b) (bytes_eqb a b).
Proof.
  destruct (bytes_eqb a b) eqn:E; constructor.
  - now apply bytes_eqb_eq.
  - now apply bytes_eqb_neq.
Qed.
Lemma bytes_eqb_sym a b : bytes_eqb a b = bytes_eqb b a.
Proof. destruct (bytes_eqb_spec a b) as [->|H]; symmetry; [apply bytes_eqb_refl|apply bytes_eqb_neq; congruence]. Qed.

Lemma digits_val_app acc a b :
  digits_val acc (a ++ b) = match digits_val acc a with None => None | Some v => digits_val v b end.
Proof.
  revert acc; induction a as [|c a IH]; intros acc; simpl; [reflexivity|].
  destruct (is_digit c); [apply IH|reflexivity].
Qed.

Lemma dec_acc_app fuel n acc : dec_acc fuel n acc = dec_acc fuel n [] ++ acc.
Proof.
  revert n acc; induction fuel as [|f IH]; intros n acc; [reflexivity|].
  cbn [dec_acc]. destruct (N.ltb n 10); [reflexivity|].
  rewrite (IH _ (_ :: acc)), (IH _ [_]). now rewrite <- app_assoc.
Qed.

Lemma size_nat_pow n : (n < 2 ^ N.of_nat (N.size_nat n))%N.
Proof.
  replace (N.of_nat (N.size_nat n)) with (N.size n).
  - destruct n; [reflexivity|]. apply N.size_gt.
  - destruct n as [|p]; [reflexivity|]. cbn [N.size N.size_nat].
    induction p as [p IH|p IH|]; cbn [Pos.size Pos.size_nat]; [| |reflexivity];
      rewrite Nat2N.inj_succ, <- IH; reflexivity.
Qed.

Lemma dec_acc_enough fuel n : (n < 2 ^ N.of_nat fuel)%N -> forall acc,
  digits_val acc (dec_acc (S fuel) n []) =
    Some (acc * 10 ^ N.of_nat (length (dec_acc (S fuel) n [])) + n)%N
  /\ dec_acc (S fuel) n [] <> [] /\ Forall (fun c => is_digit c = true) (dec_acc (S fuel) n []).
Proof.
  revert n; induction fuel as [|f IH]; intros n Hn acc.
  - assert (n = 0)%N by (change (2 ^ N.of_nat 0)%N with 1%N in Hn; lia). subst n.
    change (dec_acc 1 0 []) with [48%N]. cbn [length].
    change (digits_val acc [48%N]) with (Some (10 * acc + (48 - chr_0)))%N.
    change (10 ^ N.of_nat 1)%N with 10%N. unfold chr_0.
    repeat split; [f_equal; lia|discriminate|repeat constructor].
  - assert (Hd : is_digit (chr_0 + n mod 10)%N = true).
    { unfold is_digit, chr_0. assert (n mod 10 < 10)%N by (apply N.mod_lt; lia).
      apply andb_true_iff; split; apply N.leb_le; lia. }
    assert (Hone : dec_acc (S (S f)) n [] =
      if N.ltb n 10 then [(chr_0 + n mod 10)%N]
      else dec_acc (S f) (n / 10) [] ++ [(chr_0 + n mod 10)%N]).
    { change (dec_acc (S (S f)) n []) with
        (let acc' := [(chr_0 + n mod 10)%N] in
         if N.ltb n 10 then acc' else dec_acc (S f) (n / 10) acc').
      cbv zeta. destruct (N.ltb n 10); [reflexivity|]. apply dec_acc_app. }
    rewrite Hone. destruct (N.ltb_spec n 10) as [Hlt|Hge].
    + cbn [digits_val length]. rewrite Hd. repeat split.
      * f_equal. change (10 ^ N.of_nat 1)%N with 10%N. rewrite N.mod_small by assumption.
        unfold chr_0. lia.
      * discriminate.
      * repeat constructor. exact Hd.
    + assert (Hn' : (n / 10 < 2 ^ N.of_nat f)%N).
      { replace (N.of_nat (S f)) with (N.succ (N.of_nat f)) in Hn by lia.
        rewrite N.pow_succ_r' in Hn. apply N.div_lt_upper_bound; lia. }
      destruct (IH (n / 10)%N Hn' acc) as (E & _ & F). clear IH.
      set (ds := dec_acc (S f) (n / 10) []) in *. clearbody ds.
      repeat split.
      * rewrite digits_val_app, E. cbn [digits_val]. rewrite Hd. f_equal.
        rewrite app_length. cbn [length]. replace (length ds + 1) with (S (length ds)) by lia.
        replace (N.of_nat (S (length ds))) with (N.succ (N.of_nat (length ds))) by lia.
        rewrite N.pow_succ_r'. set (P := (10 ^ N.of_nat (length ds))%N). clearbody P.
        unfold chr_0. pose proof (N.div_mod n 10 ltac:(lia)) as Hdm.
        set (q := (n / 10)%N) in *. set (r := (n mod 10)%N) in *. clearbody q r.
        rewrite Hdm. lia.
      * destruct ds; discriminate.
      * apply Forall_app. split; [exact F|]. repeat constructor. exact Hd.
Qed.

Lemma parse_digits_dec n : digits_val 0 (dec n) = Some n.
Proof. unfold dec. destruct (dec_acc_enough _ n (size_nat_pow n) 0) as (E & _). rewrite E. reflexivity. Qed.
Lemma dec_nonempty n : dec n <> [].
Proof. unfold dec. apply (dec_acc_enough _ n (size_nat_pow n) 0). Qed.
Lemma dec_digits n : Forall (fun c => is_digit c = true) (dec n).
Proof. unfold dec. apply (dec_acc_enough _ n (size_nat_pow n) 0). Qed.
Lemma dec_inj m n : dec m = dec n -> m = n.
Proof. intros H. pose proof (parse_digits_dec m) as A. rewrite H, parse_digits_dec in A. congruence. Qed.

Lemma digit_neq c d : is_digit c = true -> is_digit d = false -> c <> d.
Proof. intros A B ->. congruence. Qed.
Lemma dec_no c n : is_digit c = false -> ~ In c (dec n).
Proof.
  intros H Hin. pose proof (dec_digits n) as F. rewrite Forall_forall in F.
  specialize (F c Hin). congruence.
Qed.

Lemma split_at_app c a b : ~ In c a -> split_at c (a ++ c :: b) = Some (a, b).
Proof.
  induction a as [|x a IH]; simpl; intros H.
  - now rewrite N.eqb_refl.
  - destruct (N.eqb_spec x c) as [->|_]; [exfalso; auto|]. rewrite IH; auto.
Qed.
Lemma split_at_none c a : ~ In c a -> split_at c a = None.
Proof.
  induction a as [|x a IH]; simpl; intros H; [reflexivity|].
  destruct (N.eqb_spec x c) as [->|_]; [exfalso; auto|]. rewrite IH; auto.
Qed.
Lemma split_at_Some c l a b : split_at c l = Some (a, b) -> l = a ++ c :: b /\ ~ In c a.
Proof.
  revert a b; induction l as [|x l IH]; simpl; intros a b H; [discriminate|].
  destruct (N.eqb_spec x c) as [->|Hne].
  - inversion H; subst. split; [reflexivity|intros []].
  - destruct (split_at c l) as [[a' b']|]; [|discriminate]. inversion H; subst.
    destruct (IH a' b eq_refl) as [-> Hn]. split; [reflexivity|]. intros [->|?]; auto.
Qed.

Lemma getlines_aux_line a r cur :
  ~ In chr_nl a -> getlines_aux (a ++ chr_nl :: r) cur = (rev cur ++ a) :: getlines r.
Proof.
  revert cur; induction a as [|x a IH]; intros cur H; cbn [app getlines_aux].
  - rewrite N.eqb_refl, app_nil_r. reflexivity.
  - destruct (N.eqb_spec x chr_nl) as [->|_]; [exfalso; apply H; now left|].
    rewrite IH by (intros Hi; apply H; now right). cbn [rev]. now rewrite <- app_assoc.
Qed.
Lemma getlines_line a r : ~ In chr_nl a -> getlines (a ++ chr_nl :: r) = a :: getlines r.
Proof. intros H. unfold getlines at 1. now rewrite getlines_aux_line. Qed.
Lemma getlines_nil : getlines [] = [].
Proof. reflexivity. Qed.

Lemma bytes_cmp_refl a : bytes_cmp a a = Eq.
Proof. induction a as [|x a IH]; simpl; [reflexivity|]. now rewrite N.compare_refl. Qed.
Lemma bytes_cmp_eq a b : bytes_cmp a b = Eq <-> a = b.
Proof.
  split; [|intros ->; apply bytes_cmp_refl].
  revert b; induction a as [|x a IH]; intros [|y b]; simpl; try discriminate; auto.
  destruct (N.compare_spec x y) as [->|?|?]; try discriminate. intros H. f_equal. auto.
Qed.
Lemma bytes_cmp_antisym a b : bytes_cmp b a = CompOpp (bytes_cmp a b).
Proof.
  revert b; induction a as [|x a IH]; intros [|y b]; simpl; auto.
  rewrite (N.compare_antisym x y). destruct (N.compare x y); simpl; auto.
Qed.
Lemma bytes_cmp_trans a b c : bytes_cmp a b = Lt -> bytes_cmp b c = Lt -> bytes_cmp a c = Lt.
Proof.
  revert b c; induction a as [|x a IH]; intros [|y b] [|z c]; simpl; try discriminate; auto.
  destruct (N.compare_spec x y) as [->|Hxy|?]; try discriminate.
  - destruct (N.compare y z); try discriminate; auto. apply IH.
  - intros _. destruct (N.compare_spec y z) as [->|Hyz|?]; try discriminate; intros _.
    + destruct (N.compare_spec x z); [lia|reflexivity|lia].
    + destruct (N.compare_spec x z); [lia|reflexivity|lia].
Qed.
Lemma bytes_cmp_app p a b : bytes_cmp (p ++ a) (p ++ b) = bytes_cmp a b.
Proof. induction p as [|x p IH]; simpl; [reflexivity|]. now rewrite N.compare_refl. Qed.

Lemma starts_with_app p s : starts_with p (p ++ s) = true.
Proof.
  unfold starts_with. rewrite firstn_app, Nat.sub_diag, firstn_all. simpl. rewrite app_nil_r.
  apply bytes_eqb_refl.
Qed.
Lemma starts_with_iff p s : starts_with p s = true <-> exists r, s = p ++ r.
Proof.
  split.
  - unfold starts_with. intros H. apply bytes_eqb_eq in H.
    exists (skipn (length p) s). rewrite <- H at 1. symmetry. apply firstn_skipn.
  - intros [r ->]. apply starts_with_app.
Qed.
