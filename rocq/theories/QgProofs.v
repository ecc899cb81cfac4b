(** Proofs about building the quantized graph. *)
From Coq Require Import Lia Permutation.
From Verif Require Export QgModel QgSpec PoolProofs.
Import ListNotations.
Local Open Scope nat_scope.
Local Notation iter := QgModel.iter.

(** ** Outcomes *)
(** No undefined behaviour, and the result, if any, is as stated. *)
Definition post {A} (P : A -> Prop) (m : fuelled A) : Prop := match m with OutOfFuel => True | Done (Ok a) => P a | _ => False end.
Lemma post_bind {A B} (P : A -> Prop) (Q : B -> Prop) m k : post P m -> (forall a, P a -> post Q (k a)) -> post Q (fbind m k).
Proof. destruct m as [|[a| | |]]; cbn; auto; intros []. Qed.
Lemma post_res {A} (P : A -> Prop) a : P a -> post P (Done (Ok a)).
Proof. auto. Qed.
Lemma post_mono {A} (P Q : A -> Prop) m : post P m -> (forall a, P a -> Q a) -> post Q m.
Proof. destruct m as [|[a| | |]]; cbn; auto. Qed.
Lemma each_post {A} (P : nat -> A -> Prop) f : forall left i, (forall k, i <= k < i + left -> post (P k) (f k)) ->
  post (fun l => length l = left /\ forall k a, nth_error l k = Some a -> P (i + k) a) (each f i left).
Proof.
  induction left as [|m IH]; intros i H; cbn [each].
  - cbn. split; [reflexivity|]. intros [|k] a E; discriminate.
  - apply (post_bind (P i)); [apply H; lia|]. intros a Pa. eapply post_bind; [apply IH; intros k Hk; apply H; lia|]. intros l [L E]. cbn. split; [lia|].
    intros [|k] b Eb; cbn in Eb; [injection Eb as <-; now rewrite Nat.add_0_r|]. specialize (E k b Eb). now rewrite Nat.add_succ_r.
Qed.
(** With enough fuel it ends. *)
Definition ends {A} (P : A -> Prop) (m : nat -> fuelled A) : Prop := exists F a, P a /\ forall fuel, F <= fuel -> m fuel = Done (Ok a).
Lemma ends_bind {A B} (P : A -> Prop) (Q : B -> Prop) (m : nat -> fuelled A) (k : nat -> A -> fuelled B) :
  ends P m -> (forall a, P a -> ends Q (fun fuel => k fuel a)) -> ends Q (fun fuel => fbind (m fuel) (k fuel)).
Proof.
  intros (F & a & Pa & E) H. destruct (H a Pa) as (G & b & Qb & E2). exists (Nat.max F G), b. split; [exact Qb|]. intros fuel L.
  rewrite E by lia. cbn [fbind]. apply E2. lia.
Qed.
Lemma ends_ext {A} (P : A -> Prop) (m m' : nat -> fuelled A) : ends P m -> (forall fuel, m fuel = m' fuel) -> ends P m'.
Proof. intros (F & a & Pa & E) H. exists F, a. split; [exact Pa|]. intros fuel L. rewrite <- H. auto. Qed.
Lemma ends_res {A} (P : A -> Prop) a : P a -> ends P (fun _ => Done (Ok a)).
Proof. intros H. exists 0, a. auto. Qed.
Lemma ends_mono {A} (P Q : A -> Prop) m : ends P m -> (forall a, P a -> Q a) -> ends Q m.
Proof. intros (F & a & Pa & E) H. exists F, a. auto. Qed.
Lemma ends_post {A} (P Q : A -> Prop) m : ends P m -> (forall fuel, post Q (m fuel)) -> ends (fun a => P a /\ Q a) m.
Proof. intros (F & a & Pa & E) H. exists F, a. split; [|exact E]. specialize (H F). rewrite E in H by lia. auto. Qed.
Lemma each_ends {A} (P : nat -> A -> Prop) (f : nat -> nat -> fuelled A) : forall left i, (forall k, i <= k < i + left -> ends (P k) (fun fuel => f fuel k)) ->
  ends (fun l => length l = left /\ forall k a, nth_error l k = Some a -> P (i + k) a) (fun fuel => each (f fuel) i left).
Proof.
  induction left as [|m IH]; intros i H; cbn [each].
  - apply ends_res. split; [reflexivity|]. intros [|k] a E; discriminate.
  - apply (ends_bind (P i)); [apply H; lia|]. intros a Pa.
    eapply (ends_bind _ _ (fun fuel => each (f fuel) (S i) m) (fun fuel rest => Done (Ok (a :: rest)))); [apply IH; intros k Hk; apply H; lia|].
    intros l [L E]. apply ends_res. split; [cbn; lia|].
    intros [|k] b Eb; cbn in Eb; [injection Eb as <-; now rewrite Nat.add_0_r|]. specialize (E k b Eb). now rewrite Nat.add_succ_r.
Qed.

(** ** Lists *)
Lemma mem_In x l : mem x l = true <-> In x l.
Proof.
  unfold mem. rewrite existsb_exists. split; [intros (y & H & E); apply N.eqb_eq in E; now subst|]. intros H. exists x. split; [exact H|apply N.eqb_refl].
Qed.
Lemma mem_false x l : mem x l = false <-> ~ In x l.
Proof. rewrite <- mem_In. destruct (mem x l); split; intros H; congruence. Qed.
Lemma nbr_insert_perm x l : Permutation (x :: l) (nbr_insert x l).
Proof. induction l as [|y l IH]; cbn; [reflexivity|]. destruct (nbr_ltb y x); [|reflexivity]. rewrite perm_swap. now apply perm_skip. Qed.
Lemma nbr_sort_perm l : Permutation l (nbr_sort l).
Proof. induction l as [|x l IH]; cbn; [reflexivity|]. etransitivity; [apply perm_skip, IH|apply nbr_insert_perm]. Qed.
Lemma NoDup_app_l {A} (a b : list A) : NoDup (a ++ b) -> NoDup a.
Proof. induction a as [|x a IH]; cbn; intros H; [constructor|]. inversion H; subst. constructor; [|auto]. intros I. apply H2. apply in_or_app. now left. Qed.
Lemma NoDup_firstn {A} n (l : list A) : NoDup l -> NoDup (firstn n l).
Proof. intros H. rewrite <- (firstn_skipn n l) in H. now apply NoDup_app_l in H. Qed.
Lemma In_firstn {A} n (l : list A) x : In x (firstn n l) -> In x l.
Proof. intros H. rewrite <- (firstn_skipn n l). apply in_or_app. now left. Qed.
Lemma NoDup_snoc {A} (l : list A) x : NoDup l -> ~ In x l -> NoDup (l ++ [x]).
Proof. intros H K. apply (Permutation_NoDup (l := x :: l)); [apply Permutation_cons_append|]. now constructor. Qed.
Lemma below_length n (l : list N) : NoDup l -> (forall x, In x l -> (x < N.of_nat n)%N) -> length l <= n.
Proof.
  intros H B. rewrite <- (map_length N.to_nat). rewrite <- (seq_length n 0). apply NoDup_incl_length.
  - apply FinFun.Injective_map_NoDup; [|exact H]. intros a b E. now apply Nnat.N2Nat.inj.
  - intros k Hk. apply in_map_iff in Hk. destruct Hk as (x & <- & Hx). apply in_seq. specialize (B x Hx). lia.
Qed.
Lemma fresh_below n (l : list N) : length l < n -> exists j, (j < N.of_nat n)%N /\ ~ In j l.
Proof.
  intros H. destruct (List.existsb (fun k => negb (mem (N.of_nat k) l)) (seq 0 n)) eqn:E.
  - apply existsb_exists in E. destruct E as (k & Hk & E). apply in_seq in Hk. exists (N.of_nat k). split; [lia|]. apply mem_false. now destruct (mem (N.of_nat k) l).
  - assert (I : incl (map N.of_nat (seq 0 n)) l).
    { intros x Hx. apply in_map_iff in Hx. destruct Hx as (k & <- & Hk). apply mem_In. destruct (mem (N.of_nat k) l) eqn:M; [reflexivity|].
      assert (existsb (fun k => negb (mem (N.of_nat k) l)) (seq 0 n) = true); [|congruence]. apply existsb_exists. exists k. now rewrite M. }
    apply NoDup_incl_length in I; [rewrite map_length, seq_length in I; lia|]. apply FinFun.Injective_map_NoDup; [intros a b; lia|apply seq_NoDup].
Qed.
Lemma aget_in {A} (l : list A) i x : nth_error l i = Some x -> aget l (N.of_nat i) = Ok x.
Proof. intros H. unfold aget. now rewrite Nnat.Nat2N.id, H. Qed.

(** ** Pruning *)
Lemma mark_spec dist sup : forall rest rec rest1 rec1, mark dist sup rest rec = (rest1, rec1) ->
  map fst rest1 = map fst rest /\ (forall e, In e rec1 -> In e rec \/ In e (map fst rest)) /\
  (forall c, In (c, false) rest1 -> In (c, false) rest /\ (snd c <= dist (fst c))%Z) /\
  (forall c, In (c, true) rest1 -> In (c, true) rest \/ (dist (fst c) < snd c)%Z).
Proof.
  induction rest as [|[c [|]] t IH]; intros rec rest1 rec1 E; cbn [mark] in E.
  - injection E as <- <-. split; [reflexivity|]. split; [now left|]. split; intros ? [].
  - destruct (mark dist sup t rec) as [t1 r] eqn:M. injection E as <- <-. destruct (IH _ _ _ M) as (A & B & C & D). cbn [map fst]. split; [now rewrite A|]. split.
    + intros e H. destruct (B e H); [now left|right; now right].
    + split; intros y [Q|H].
      * discriminate.
      * destruct (C y H). split; [now right|assumption].
      * injection Q as ->. left. now left.
      * destruct (D y H); [left; now right|now right].
  - destruct (Z.ltb_spec (dist (fst c)) (snd c)) as [LT|GE].
    + destruct (mark dist sup t (if sup && (length rec <? max_pruned) then rec ++ [c] else rec)) as [t1 r] eqn:M. injection E as <- <-. destruct (IH _ _ _ M) as (A & B & C & D). cbn [map fst]. split; [now rewrite A|]. split.
      * intros e H. destruct (B e H) as [K|K]; [|right; now right]. destruct (sup && _)%bool; [|now left]. apply in_app_or in K. destruct K as [K|[<-|[]]]; [now left|right; now left].
      * split; intros y [Q|H].
        -- discriminate.
        -- destruct (C y H). split; [now right|assumption].
        -- injection Q as ->. right. exact LT.
        -- destruct (D y H); [left; now right|now right].
    + destruct (mark dist sup t rec) as [t1 r] eqn:M. injection E as <- <-. destruct (IH _ _ _ M) as (A & B & C & D). cbn [map fst]. split; [now rewrite A|]. split.
      * intros e H. destruct (B e H); [now left|right; now right].
      * split; intros y [Q|H].
        -- injection Q as ->. split; [now left|exact GE].
        -- destruct (C y H). split; [now right|assumption].
        -- discriminate.
        -- destruct (D y H); [left; now right|now right].
Qed.
Record pruning (bound : nat) (dist : N -> N -> Z) (pool kept : list nbr) (todo : list (nbr * bool)) : Prop := {
  pr_len : length kept <= bound;
  pr_incl : incl kept pool /\ incl (map fst todo) pool;
  pr_nodup : NoDup (map fst pool) -> NoDup (map fst (kept ++ map fst todo));
  pr_pairs : forall a x b y c, kept = a ++ x :: b ++ y :: c -> (snd y <= dist (fst x) (fst y))%Z;
  pr_open : forall x y, In x kept -> In (y, false) todo -> (snd y <= dist (fst x) (fst y))%Z;
  pr_shut : forall y, In (y, true) todo -> exists x, In x kept /\ (dist (fst x) (fst y) < snd y)%Z;
  pr_all : forall y, In y pool -> In y kept \/ In y (map fst todo) \/ exists x, In x kept /\ (dist (fst x) (fst y) < snd y)%Z;
}.
Lemma snoc_pairs kept (c : nbr) a x b y d : kept ++ [c] = a ++ x :: b ++ y :: d -> (exists d', kept = a ++ x :: b ++ y :: d') \/ (y = c /\ In x kept).
Proof.
  intros E. destruct d as [|z d] using rev_ind.
  - right. replace (a ++ x :: b ++ [y]) with ((a ++ x :: b) ++ [y]) in E by (rewrite <- app_assoc; reflexivity). apply app_inj_tail in E. destruct E as [-> ->]. split; [reflexivity|]. apply in_or_app. right. now left.
  - left. replace (a ++ x :: b ++ y :: d ++ [z]) with ((a ++ x :: b ++ y :: d) ++ [z]) in E by (rewrite <- app_assoc; cbn; rewrite <- app_assoc; reflexivity). apply app_inj_tail in E. destruct E as [-> _]. now exists d.
Qed.
Lemma prune_loop_spec bound dist sup pool : forall left todo kept rec kept1 rec1, left = length todo -> pruning bound dist pool kept todo -> prune_loop left bound dist sup todo kept rec = (kept1, rec1) ->
  diverse bound dist pool kept1 /\ (NoDup (map fst pool) -> NoDup (map fst kept1)) /\ (forall e, In e rec1 -> In e rec \/ In e pool).
Proof.
  induction left as [|k IH]; intros todo kept rec kept1 rec1 EL P E.
  - destruct todo; [|discriminate]. cbn in E. injection E as <- <-. destruct P as [A [B B'] C D F G H]. split; [|split; [intros Q; specialize (C Q); now rewrite app_nil_r in C|now left]].
    split; [exact A|]. split; [exact B|]. split; [exact D|]. intros y Hy. destruct (H y Hy) as [K|[[]|K]]; [now left|right; right; exact K].
  - destruct todo as [|[c flag] rest]; [discriminate|]. cbn [length] in EL. cbn [prune_loop] in E. destruct P as [A [B B'] C D F G H].
    destruct (Nat.ltb_spec (length kept) bound) as [LT|GE].
    + destruct flag.
      * apply (IH rest kept rec kept1 rec1); [lia| |exact E]. constructor; auto.
        -- split; [exact B|]. intros e He. apply B'. now right.
        -- intros Q. specialize (C Q). rewrite map_app in C |- *. cbn [map] in C. now apply NoDup_remove_1 in C.
        -- intros x y Hx Hy. apply F; [exact Hx|now right].
        -- intros y Hy. apply G. now right.
        -- intros y Hy. destruct (H y Hy) as [K|[K|K]]; [now left| |right; now right]. cbn [map fst] in K. destruct K as [<-|K]; [|right; now left]. right. right. apply G. now left.
      * destruct (mark (dist (fst c)) sup rest rec) as [rest1 rec2] eqn:M. destruct (mark_spec _ _ _ _ _ _ M) as (MA & MB & MC & MD).
        assert (LR : length rest1 = length rest) by (rewrite <- (map_length fst rest1), MA, map_length; reflexivity).
        destruct (IH rest1 (kept ++ [c]) rec2 kept1 rec1) as (R1 & R2 & R3); [lia| |exact E|].
        -- constructor.
           ++ rewrite app_length. cbn. lia.
           ++ rewrite MA. split; [|intros e He; apply B'; now right]. intros e He. apply in_app_or in He. destruct He as [He|[<-|[]]]; [now apply B|apply B'; now left].
           ++ intros Q. rewrite MA, <- app_assoc. exact (C Q).
           ++ intros a x b y d EQ. destruct (snoc_pairs _ _ _ _ _ _ _ EQ) as [(d' & EQ')|[-> Hx]]; [exact (D _ _ _ _ _ EQ')|]. apply F; [exact Hx|now left].
           ++ intros x y Hx Hy. destruct (MC y Hy) as [Hy' LE]. apply in_app_or in Hx. destruct Hx as [Hx|[<-|[]]]; [|exact LE]. apply F; [exact Hx|now right].
           ++ intros y Hy. destruct (MD y Hy) as [Hy'|LT']; [destruct (G y (or_intror Hy')) as (x & Hx & L); exists x; split; [apply in_or_app; now left|exact L]|].
              exists c. split; [apply in_or_app; right; now left|exact LT'].
           ++ intros y Hy. rewrite MA. destruct (H y Hy) as [K|[[<-|K]|(x & Hx & L)]]; [left; apply in_or_app; now left|left; apply in_or_app; right; now left|right; now left|].
              right. right. exists x. split; [apply in_or_app; now left|exact L].
        -- split; [exact R1|]. split; [exact R2|]. intros e He. destruct (R3 e He) as [K|K]; [|now right]. destruct (MB e K) as [K'|K']; [now left|]. right. apply B'. now right.
    + injection E as <- <-. split; [|split; [|now left]].
      * split; [exact A|]. split; [exact B|]. split; [exact D|]. intros y Hy. right. left. lia.
      * intros Q. specialize (C Q). rewrite map_app in C. now apply NoDup_app_l in C.
Qed.
Lemma prune_spec bound dist sup pool old rec kept rec1 : 0 < length pool -> heuristic_prune bound dist sup pool old rec = (kept, rec1) ->
  length kept <= bound /\ incl kept pool /\ (bound < length pool -> diverse bound dist pool kept) /\ (length pool <= bound -> kept = pool) /\
  (NoDup (map fst pool) -> NoDup (map fst kept)) /\ (forall e, In e rec1 -> In e rec \/ In e pool).
Proof.
  intros LP. unfold heuristic_prune. destruct pool as [|c pool]; [cbn in LP; lia|]. set (pl := c :: pool) in *.
  destruct (Nat.leb_spec (length pl) bound) as [LE|GT].
  - intros [= <- <-]. split; [exact LE|]. split; [apply incl_refl|]. split; [lia|]. split; [auto|]. split; [auto|]. now left.
  - assert (MM : map fst (map (fun c : nbr => (c, false)) pl) = pl) by (rewrite map_map; apply map_id). intros E. destruct (prune_loop_spec bound dist sup pl (length pl) (map (fun c => (c, false)) pl) [] rec kept rec1) as (R1 & R2 & R3); [now rewrite map_length| |exact E|].
    + constructor.
      * cbn. lia.
      * rewrite MM. split; [intros e []|apply incl_refl].
      * intros Q. cbn [app]. now rewrite MM.
      * intros a x b y d Q. destruct a; discriminate.
      * intros x y [].
      * intros y Hy. apply in_map_iff in Hy. destruct Hy as (z & Q & _). discriminate.
      * intros y Hy. right. left. now rewrite MM.
    + split; [apply R1|]. split; [apply R1|]. split; [auto|]. split; [lia|]. split; [exact R2|exact R3].
Qed.

(** ** Rows *)
Section Build.
  Variable q : qg_input.
  Let n := qi_n q. Let bound := qi_bound q. Let dist := qi_dist q.

  (** An entry in a list of vertex [i]. *)
  Definition entry_ok (i : N) (e : nbr) : Prop := (fst e < N.of_nat n)%N /\ fst e <> i /\ snd e = dist i (fst e).
  Definition row_ok (i : N) (row : list nbr) : Prop := NoDup (map fst row) /\ forall e, In e row -> entry_ok i e.
  Lemma row_good i row : row_ok i row <-> good_row n dist i row.
  Proof.
    split; intros H.
    - destruct H as [N1 E]. constructor; [exact N1|..]; intros j d I; specialize (E _ I); unfold entry_ok in E; cbn in E; tauto.
    - destruct H as [N1 E T]. split; [exact N1|]. intros [j d] I. unfold entry_ok. cbn. specialize (E j d I). specialize (T j d I). tauto.
  Qed.
  Lemma row_sub i r r' : row_ok i r -> NoDup (map fst r') -> incl r' r -> row_ok i r'.
  Proof. intros [_ E] N1 I. split; [exact N1|]. intros e H. apply E, I, H. Qed.
  Lemma row_perm i r r' : Permutation r r' -> row_ok i r -> row_ok i r'.
  Proof.
    intros P R. apply (row_sub i r r' R); [|intros e H; apply (Permutation_in _ (Permutation_sym P) H)].
    apply (Permutation_NoDup (Permutation_map fst P)), R.
  Qed.
  Lemma row_firstn i r m : row_ok i r -> row_ok i (firstn m r).
  Proof. intros R. apply (row_sub i r); [exact R| |intros e; apply In_firstn]. rewrite <- firstn_map. apply NoDup_firstn, R. Qed.
  Lemma row_snoc i r e : row_ok i r -> entry_ok i e -> ~ In (fst e) (map fst r) -> row_ok i (r ++ [e]).
  Proof.
    intros [N1 E] Ee NI. split; [rewrite map_app; cbn [map]; apply NoDup_snoc; assumption|]. intros x H. apply in_app_or in H. destruct H as [H|[<-|[]]]; auto.
  Qed.
  Lemma row_room i r : (i < N.of_nat n)%N -> row_ok i r -> length r < n.
  Proof.
    intros Hi [N1 E]. assert (L : length (i :: map fst r) <= n).
    { apply below_length.
      - constructor; [|exact N1]. intros H. apply in_map_iff in H. destruct H as (e & Q & H). specialize (E e H). unfold entry_ok in E. tauto.
      - intros x [<-|H]; [exact Hi|]. apply in_map_iff in H. destruct H as (e & <- & H). apply (E e H). }
    cbn [length] in L. rewrite map_length in L. lia.
  Qed.

  (** ** Random rows *)
  Lemma draw_set_post fuel draw self : (forall k, (draw k < N.of_nat n)%N) -> forall k set, NoDup set -> (forall x, In x set -> (x < N.of_nat n)%N /\ x <> self) -> length set <= bound ->
    post (fun s => length s = bound /\ NoDup s /\ forall x, In x s -> (x < N.of_nat n)%N /\ x <> self) (draw_set fuel bound draw self k set).
  Proof.
    intros D. induction fuel as [|f IH]; intros k set N1 B L; cbn [draw_set]; destruct (Nat.ltb_spec (length set) bound) as [LT|GE]; cbn [post]; auto;
      try (split; [lia|auto]).
    destruct (N.eqb_spec (draw k) self) as [E|E]; cbn [orb]; [apply IH; assumption|]. destruct (mem (draw k) set) eqn:M; [apply IH; assumption|].
    apply mem_false in M. apply IH.
    - apply NoDup_snoc; assumption.
    - intros x H. apply in_app_or in H. destruct H as [H|[<-|[]]]; auto.
    - rewrite app_length. cbn. lia.
  Qed.
  Lemma draw_set_ends draw self : bound < n -> (forall k, (draw k < N.of_nat n)%N) -> (forall k j, (j < N.of_nat n)%N -> exists m, k <= m /\ draw m = j) ->
    forall c k set, bound - length set = c -> ends (fun _ => True) (fun fuel => draw_set fuel bound draw self k set).
  Proof.
    intros HB D FA. induction c as [|c IH]; intros k set EC.
    - exists 0, set. split; [exact I|]. intros fuel _. destruct fuel; cbn [draw_set]; now rewrite (proj2 (Nat.ltb_ge _ _)) by lia.
    - destruct (fresh_below n (self :: set)) as (j & Hj & NJ); [cbn; lia|]. destruct (FA k j Hj) as (m & Hm & EM).
      assert (G : forall t k, m - k = t -> k <= m -> ends (fun _ => True) (fun fuel => draw_set fuel bound draw self k set)).
      { induction t as [|t IHt]; intros k' ET LK.
        - assert (k' = m) by lia. subst k'. destruct (IH (S m) (set ++ [j])) as (F & a & _ & E); [rewrite app_length; cbn; lia|].
          exists (S F), a. split; [exact I|]. intros [|fuel] LF; [lia|]. cbn [draw_set]. rewrite (proj2 (Nat.ltb_lt _ _)) by lia. rewrite EM.
          destruct (N.eqb_spec j self) as [Q|Q]; [exfalso; apply NJ; left; congruence|]. assert (M : mem j set = false) by (apply mem_false; intros H; apply NJ; now right). rewrite M. cbn [orb]. apply E. lia.
        - destruct (N.eqb (draw k') self || mem (draw k') set)%bool eqn:B.
          + destruct (IHt (S k') ltac:(lia) ltac:(lia)) as (F & a & _ & E). exists (S F), a. split; [exact I|]. intros [|fuel] LF; [lia|]. cbn [draw_set].
            rewrite (proj2 (Nat.ltb_lt _ _)) by lia. rewrite B. apply E. lia.
          + destruct (IH (S k') (set ++ [draw k'])) as (F & a & _ & E); [rewrite app_length; cbn; lia|]. exists (S F), a. split; [exact I|]. intros [|fuel] LF; [lia|]. cbn [draw_set].
            rewrite (proj2 (Nat.ltb_lt _ _)) by lia. rewrite B. apply E. lia. }
      exact (G (m - k) k eq_refl Hm).
  Qed.
  Lemma draw_set_stuck fuel draw self : 0 < n <= bound -> (self < N.of_nat n)%N -> (forall k, (draw k < N.of_nat n)%N) ->
    draw_set fuel bound draw self 0 [] = OutOfFuel.
  Proof.
    intros HB HS D.
    assert (P : post (fun s => length s = bound /\ NoDup s /\ forall x, In x s -> (x < N.of_nat n)%N /\ x <> self) (draw_set fuel bound draw self 0 [])).
    { apply draw_set_post; [exact D|constructor|intros x []|cbn; lia]. }
    destruct (draw_set fuel bound draw self 0 []) as [|[s| | |]]; cbn in P; try contradiction; [reflexivity|]. destruct P as (L & N1 & B).
    assert (length (self :: s) <= n) as H; [|cbn [length] in H; lia]. apply below_length; [constructor; [|exact N1]; intros H; now apply B in H|].
    intros x [<-|H]; [exact HS|]. now apply B.
  Qed.
  Definition rows_ok (rows : list (list nbr)) : Prop := length rows = n /\ forall i row, nth_error rows i = Some row -> row_ok (N.of_nat i) row /\ length row <= bound.
  Lemma init_row i ids : (forall x, In x ids -> (x < N.of_nat n)%N /\ x <> i) -> NoDup ids -> row_ok i (map (fun j => (j, dist i j)) ids).
  Proof.
    intros B N1. split; [rewrite map_map; cbn [fst]; now rewrite map_id|]. intros e H. apply in_map_iff in H. destruct H as (j & <- & H). unfold entry_ok. cbn. specialize (B j H). tauto.
  Qed.
  Lemma init_post fuel : vertices n (qi_draw q) -> post rows_ok (random_init fuel q).
  Proof.
    intros V. unfold random_init. eapply post_mono; [apply (each_post (fun i row => row_ok (N.of_nat i) row /\ length row <= bound))|].
    - intros k _. eapply post_bind; [apply draw_set_post; [apply V|constructor|intros x []|cbn; lia]|]. intros ids (L & N1 & B). cbn. split; [apply init_row; assumption|]. rewrite map_length. fold bound in L. lia.
    - intros l [L E]. split; [exact L|]. intros i row H. apply (E i row H).
  Qed.
  Lemma init_ends : bound < n -> vertices n (qi_draw q) -> fair n (qi_draw q) -> ends (fun _ => True) (fun fuel => random_init fuel q).
  Proof.
    intros HB V FA. unfold random_init. eapply ends_mono; [|intros a _; exact I].
    apply (each_ends (fun _ _ => True) (fun fuel i => let! ids := draw_set fuel (qi_bound q) (qi_draw q i) (N.of_nat i) 0 [] in Done (Ok (map (fun j => (j, qi_dist q (N.of_nat i) j)) ids)))).
    intros k _. apply (ends_bind (fun _ => True) (fun _ => True) (fun fuel => draw_set fuel bound (qi_draw q k) (N.of_nat k) 0 []) (fun _ ids => Done (Ok (map (fun j => (j, qi_dist q (N.of_nat k) j)) ids)))).
    - apply (draw_set_ends _ _ HB (V k) (FA k) (bound - 0)). reflexivity.
    - intros ids _. now apply ends_res.
  Qed.
  Lemma init_stuck fuel : 0 < n <= bound -> vertices n (qi_draw q) -> random_init fuel q = OutOfFuel.
  Proof.
    intros HB V. unfold random_init. fold n bound. destruct n as [|m] eqn:EN; [lia|]. cbn [each].
    rewrite (draw_set_stuck fuel (qi_draw q 0) (N.of_nat 0)); [reflexivity|rewrite EN; lia|rewrite EN; lia|rewrite EN; apply V].
  Qed.

  (** ** Searching *)
  Definition pre (p : pool) : list cand := firstn (p_size p) (p_data p).
  Definition open (c : cand) : bool := negb (is_checked (c_id c)).
  Definition unchecked (p : pool) : nat := length (filter open (pre p)).
  Definition cands_ok (p : pool) : Prop := forall c, In c (pre p) -> (c_dist c <= float_max)%Z /\ (is_checked (c_id c) = false -> (c_id c < N.of_nat n)%N).
  Hypothesis N31 : (N.of_nat n <= 2 ^ 31)%N.
  Hypothesis EF : 0 < qi_ef q.
  Let cap := qi_ef q.

  Lemma top_dist_ok p : pool_inv cap p -> cands_ok p -> exists t, top_dist p = Ok t /\ (t <= float_max)%Z.
  Proof.
    intros PI CO. unfold top_dist. destruct (Nat.eqb_spec (p_size p) 0) as [Z|Z]; cbn [orb]; [exists float_max; split; [reflexivity|lia]|].
    destruct (Nat.eqb_spec (p_cap p) 0); [exists float_max; split; [reflexivity|lia]|]. destruct (Nat.eqb_spec (p_size p) (p_cap p)); [|exists float_max; split; [reflexivity|lia]].
    pose proof (pi_len _ _ PI). pose proof (pi_size _ _ PI).
    destruct (get_nth (p_data p) (p_size p - 1)) as (c & Ec & ->); [lia|]. cbn [bind]. exists (c_dist c). split; [reflexivity|].
    apply CO. unfold pre. apply nth_error_In with (p_size p - 1). rewrite nth_error_firstn. now rewrite (proj2 (Nat.ltb_lt _ _)) by lia.
  Qed.
  Lemma filter_firstn_le {A} (f : A -> bool) m l : length (filter f (firstn m l)) <= length (filter f l).
  Proof. rewrite <- (firstn_skipn m l) at 2. rewrite filter_app, app_length. lia. Qed.
  Lemma In_ins {A} lo (x : A) l y : In y (ins_at lo x l) -> y = x \/ In y l.
  Proof.
    unfold ins_at. intros H. apply in_app_or in H. destruct H as [H|[<-|H]]; [right; now apply In_firstn in H|now left|right].
    rewrite <- (firstn_skipn lo l). apply in_or_app. now right.
  Qed.
  Lemma insert_ok p m d : pool_inv cap p -> cands_ok p -> (m < N.of_nat n)%N -> (d <= float_max)%Z ->
    exists b p', sb_insert p m d = Ok (b, p') /\ pool_inv cap p' /\ cands_ok p' /\ unchecked p' <= S (unchecked p).
  Proof.
    intros PI CO Hm Hd. destruct (sb_insert_spec cap p m d EF PI ltac:(lia) Hd) as [(E & _)|(p' & lo & E & PI' & _ & F)].
    - exists false, p. auto.
    - exists true, p'. split; [exact E|]. split; [exact PI'|]. fold (pre p') (pre p) in F. split.
      + intros c Hc. rewrite F in Hc. apply In_firstn, In_ins in Hc. destruct Hc as [->|Hc]; [cbn; auto|now apply CO].
      + unfold unchecked. rewrite F. etransitivity; [apply filter_firstn_le|]. unfold ins_at. rewrite filter_app, app_length. cbn [filter].
        replace (length (filter open (pre p))) with (length (filter open (firstn lo (pre p))) + length (filter open (skipn lo (pre p)))) by (rewrite <- app_length, <- filter_app; now rewrite firstn_skipn).
        destruct (open _); cbn [length]; lia.
  Qed.
  Lemma scan_ok est vis : forall nbrs i p, pool_inv cap p -> cands_ok p -> (forall m, In m nbrs -> (m < N.of_nat n)%N) ->
    exists p', scan est vis i nbrs p = Ok p' /\ pool_inv cap p' /\ cands_ok p' /\ unchecked p' <= length nbrs + unchecked p.
  Proof.
    induction nbrs as [|m rest IH]; intros i p PI CO B; cbn [scan length]; [exists p; auto|].
    destruct (top_dist_ok p PI CO) as (t & -> & Ht). cbn [bind].
    destruct (Z.ltb t (est i) || mem m vis)%bool eqn:C.
    - destruct (IH (S i) p PI CO ltac:(intros; apply B; now right)) as (p' & E & P1 & C1 & U). exists p'. split; [exact E|]. split; [exact P1|]. split; [exact C1|lia].
    - apply orb_false_elim in C. destruct C as [C _]. apply Z.ltb_ge in C.
      destruct (insert_ok p m (est i) PI CO ltac:(apply B; now left) ltac:(lia)) as (b & p1 & -> & P1 & C1 & U1). cbn [bind].
      destruct (IH (S i) p1 P1 C1 ltac:(intros; apply B; now right)) as (p' & E & P2 & C2 & U). exists p'. split; [exact E|]. split; [exact P2|]. split; [exact C2|lia].
  Qed.
  Lemma filter_upd l : forall i c c', nth_error l i = Some c -> open c = true -> open c' = false -> S (length (filter open (upd l i c'))) = length (filter open l).
  Proof.
    induction l as [|y l IH]; intros [|i] c c' E O1 O2; cbn in E; try discriminate; cbn [upd filter].
    - injection E as ->. rewrite O1, O2. reflexivity.
    - destruct (open y); cbn [length]; now rewrite (IH i c c' E O1 O2).
  Qed.
  Lemma pop_ok p : pool_inv cap p -> cands_ok p -> has_next p = true ->
    exists x d p', sb_pop p = Ok ((x, d), p') /\ (x < N.of_nat n)%N /\ pool_inv cap p' /\ cands_ok p' /\ S (unchecked p') = unchecked p.
  Proof.
    intros PI CO HN. unfold has_next in HN. apply Nat.ltb_lt in HN. destruct (sb_pop_spec cap p PI HN) as (c & p' & E & PI' & Nc & L31 & F).
    fold (pre p') (pre p) in F, Nc. exists (c_id c), (c_dist c), p'. split; [exact E|].
    assert (UC : is_checked (c_id c) = false) by (rewrite is_checked_le by (eapply N.lt_trans; [exact L31|reflexivity]); apply N.leb_gt; exact L31).
    destruct (CO c (nth_error_In _ _ Nc)) as [DC IC]. split; [now apply IC|]. split; [exact PI'|].
    assert (CK : is_checked (c_id c + 2 ^ 31) = true).
    { rewrite is_checked_le; [apply N.leb_le; lia|]. change (2 ^ 32)%N with (2 ^ 31 + 2 ^ 31)%N. lia. }
    split.
    - intros e He. rewrite F in He. apply In_nth_error in He. destruct He as [j Ej]. assert (p_cur p < length (pre p)) by (apply nth_error_Some; congruence).
      rewrite nth_error_upd in Ej by assumption. destruct (Nat.eqb (p_cur p) j); [injection Ej as <-; cbn [c_id c_dist]; split; [exact DC|congruence]|]. apply CO, (nth_error_In _ _ Ej).
    - unfold unchecked. rewrite F. apply (filter_upd (pre p) (p_cur p) c); [exact Nc|unfold open; now rewrite UC|unfold open; cbn [c_id]; now rewrite CK].
  Qed.
  (** What was found so far. *)
  Definition found_ok (cur : N) (vis : list N) (results : list nbr) : Prop :=
    NoDup vis /\ (forall x, In x vis -> (x < N.of_nat n)%N) /\ row_ok cur results /\ (forall e, In e results -> In (fst e) vis) /\
    (forall x, In x vis -> x = cur \/ In x (map fst results)).
  Lemma find_loop_ok edges est cur B : length edges = n -> (forall row m, In row edges -> In m row -> (m < N.of_nat n)%N) -> (forall row, In row edges -> length row <= B) ->
    forall fuel vis results p, pool_inv cap p -> cands_ok p -> found_ok cur vis results ->
      post (fun r => found_ok cur (fst r) (snd r)) (find_loop fuel edges est (dist cur) cur vis results p) /\
      ((n - length vis) * S B + unchecked p <= fuel -> find_loop fuel edges est (dist cur) cur vis results p <> OutOfFuel).
  Proof.
    intros LE IB LB. induction fuel as [|k IH]; intros vis results p PI CO FO.
    - cbn [find_loop]. destruct (has_next p) eqn:HN; [|split; [exact FO|discriminate]]. split; [exact I|]. intros M.
      destruct (pop_ok p PI CO HN) as (x & d & p' & _ & _ & _ & _ & U). generalize dependent ((n - length vis) * S B). intros. lia.
    - cbn [find_loop]. destruct (has_next p) eqn:HN; [|split; [exact FO|discriminate]].
      destruct (pop_ok p PI CO HN) as (x & d & p1 & E & Hx & P1 & C1 & U). rewrite E. cbn [fbind fst].
      destruct (mem x vis) eqn:MX.
      + destruct (IH vis results p1 P1 C1 FO) as [H1 H2]. split; [exact H1|]. intros M. apply H2. generalize dependent ((n - length vis) * S B). intros. lia.
      + apply mem_false in MX. destruct (nth_error edges (N.to_nat x)) as [row|] eqn:ER; [|apply nth_error_None in ER; lia].
        assert (AG : aget edges x = Ok row) by (unfold aget; now rewrite ER). rewrite AG. cbn [fbind].
        destruct (scan_ok (est x) (x :: vis) row 0 p1 P1 C1 ltac:(intros m; apply IB, (nth_error_In _ _ ER))) as (p2 & -> & P2 & C2 & U2). cbn [fbind].
        destruct FO as (N1 & V1 & R1 & R2 & R3).
        assert (FO' : found_ok cur (x :: vis) (if N.eqb x cur then results else results ++ [(x, dist cur x)])).
        { split; [now constructor|]. split; [intros y [<-|H]; auto|]. destruct (N.eqb_spec x cur) as [EQ|NE].
          - split; [exact R1|]. split; [intros e H; right; auto|]. intros y [<-|H]; auto.
          - split; [|split].
            + apply row_snoc; [exact R1|repeat split; auto|]. cbn [fst]. intros H. apply in_map_iff in H. destruct H as (e & Q & H). apply MX. rewrite <- Q. auto.
            + intros e H. apply in_app_or in H. destruct H as [H|[<-|[]]]; [right; auto|now left].
            + intros y [<-|H]; [right; rewrite map_app; apply in_or_app; right; now left|]. destruct (R3 y H); [now left|right; rewrite map_app; apply in_or_app; now left]. }
        destruct (IH (x :: vis) _ p2 P2 C2 FO') as [H1 H2]. split; [exact H1|]. intros M. apply H2. cbn [length].
        pose proof (LB row (nth_error_In _ _ ER)). assert (length vis < n).
        { assert (length (x :: vis) <= n) as HH; [|cbn [length] in HH; lia]. apply below_length; [now constructor|]. intros y [<-|Hy]; auto. }
        replace (n - length vis) with (S (n - S (length vis))) in M by lia. cbn [Nat.mul] in M. lia.
  Qed.

  (** ** One vertex *)
  Definition recs_ok (i : N) (rec : list nbr) : Prop := forall e, In e rec -> entry_ok i e.
  Lemma prune_row i pool old rec kept rec1 sup : row_ok i pool -> row_ok i old /\ length old <= bound -> recs_ok i rec ->
    heuristic_prune bound dist sup pool old rec = (kept, rec1) -> (row_ok i kept /\ length kept <= bound) /\ recs_ok i rec1.
  Proof.
    intros RP RO RR E. destruct pool as [|c pool]; [cbn in E; injection E as <- <-; auto|].
    destruct (prune_spec bound dist sup (c :: pool) old rec kept rec1 ltac:(cbn; lia) E) as (A & B & _ & _ & C & D).
    split; [split; [|exact A]|].
    - apply (row_sub i (c :: pool)); [exact RP|apply C, RP|exact B].
    - intros e He. destruct (D e He) as [K|K]; [now apply RR|now apply RP].
  Qed.
  Lemma NoDup_app_intro {A} (a b : list A) : NoDup a -> NoDup b -> (forall x, In x a -> In x b -> False) -> NoDup (a ++ b).
  Proof.
    induction a as [|x a IH]; intros Na Nb D; [exact Nb|]. inversion Na; subst. cbn. constructor.
    - intros H. apply in_app_or in H. destruct H as [H|H]; [contradiction|]. apply (D x); [now left|exact H].
    - apply IH; auto. intros y Hy. apply D. now right.
  Qed.
  Lemma NoDup_map_filter {A B} (g : A -> B) f l : NoDup (map g l) -> NoDup (map g (filter f l)).
  Proof.
    induction l as [|x l IH]; cbn; intros H; [constructor|]. inversion H; subst. destruct (f x); cbn; [|auto]. constructor; [|auto].
    intros K. apply in_map_iff in K. destruct K as (y & Q & K). apply filter_In in K. apply H2. apply in_map_iff. exists y. tauto.
  Qed.
  Lemma edges_ok rows : rows_ok rows -> length (map (map fst) rows) = n /\ (forall row m, In row (map (map fst) rows) -> In m row -> (m < N.of_nat n)%N) /\ (forall row, In row (map (map fst) rows) -> length row <= bound).
  Proof.
    intros [L R]. split; [now rewrite map_length|]. split; intros row.
    - intros m H K. apply in_map_iff in H. destruct H as (r & <- & H). apply In_nth_error in H. destruct H as [i H]. destruct (R i r H) as [[_ E] _].
      apply in_map_iff in K. destruct K as (e & <- & K). apply (E e K).
    - intros H. apply in_map_iff in H. destruct H as (r & <- & H). apply In_nth_error in H. destruct H as [i H]. rewrite map_length. apply (R i r H).
  Qed.
  Hypothesis EP : (qi_ep q < N.of_nat n)%N.
  Lemma start_ok : exists b p, sb_insert (pool_new cap) (qi_ep q) far = Ok (b, p) /\ pool_inv cap p /\ cands_ok p /\ unchecked p <= 1.
  Proof.
    destruct (insert_ok (pool_new cap) (qi_ep q) far (pool_new_inv cap)) as (b & p & E & P & C & U); [intros c []|exact EP|unfold far, float_max; lia|].
    exists b, p. split; [exact E|]. split; [exact P|]. split; [exact C|]. cbn in U. exact U.
  Qed.
  Lemma found_new cur : found_ok cur [] [].
  Proof. split; [constructor|]. split; [intros x []|]. split; [split; [constructor|intros e []]|]. split; intros e []. Qed.
  Lemma find_post fuel it rows cur : rows_ok rows -> post (fun r => found_ok cur (fst r) (snd r)) (find_candidates fuel q it (map (map fst) rows) cur).
  Proof.
    intros R. destruct (edges_ok rows R) as (E1 & E2 & E3). unfold find_candidates. fold cap. destruct start_ok as (b & p & -> & P & C & _). cbn [fbind].
    exact (proj1 (find_loop_ok _ (qi_est q it cur) cur bound E1 E2 E3 fuel [] [] p P C (found_new cur))).
  Qed.
  Lemma find_ends it rows cur : rows_ok rows -> ends (fun _ => True) (fun fuel => find_candidates fuel q it (map (map fst) rows) cur).
  Proof.
    intros R. destruct (edges_ok rows R) as (E1 & E2 & E3). unfold find_candidates. fold cap. destruct start_ok as (b & p & ES & P & C & U).
    assert (K : forall fuel, n * S bound + 1 <= fuel -> find_candidates fuel q it (map (map fst) rows) cur <> OutOfFuel).
    { intros fuel L. unfold find_candidates. fold cap. rewrite ES. cbn [fbind]. apply (find_loop_ok _ (qi_est q it cur) cur bound E1 E2 E3 fuel [] [] p P C (found_new cur)).
      cbn [length]. rewrite Nat.sub_0_r. lia. }
    assert (MONO : forall fuel fuel' vis results p r, find_loop fuel (map (map fst) rows) (qi_est q it cur) (qi_dist q cur) cur vis results p = Done r -> fuel <= fuel' ->
      find_loop fuel' (map (map fst) rows) (qi_est q it cur) (qi_dist q cur) cur vis results p = Done r).
    { induction fuel as [|k IH]; intros fuel' vis results p0 r E L.
      - destruct fuel'; [exact E|]. cbn [find_loop] in E |- *. destruct (has_next p0); [discriminate|exact E].
      - destruct fuel' as [|k']; [lia|]. cbn [find_loop] in E |- *. destruct (has_next p0); [|exact E].
        destruct (sb_pop p0) as [[[x d] p1]| | |]; cbn [fbind fst] in E |- *; try exact E. destruct (mem x vis); [apply IH; [exact E|lia]|].
        destruct (aget (map (map fst) rows) x) as [row| | |]; cbn [fbind] in E |- *; try exact E. destruct (scan (qi_est q it cur x) (x :: vis) 0 row p1) as [p2| | |]; cbn [fbind] in E |- *; try exact E.
        apply IH; [exact E|lia]. }
    pose proof (K _ (le_n _)) as K0. pose proof (find_post (n * S bound + 1) it rows cur R) as PO.
    destruct (find_candidates (n * S bound + 1) q it (map (map fst) rows) cur) as [|[a| | |]] eqn:E; cbn in PO; try contradiction.
    exists (n * S bound + 1), a. split; [exact I|]. intros fuel L. unfold find_candidates in E. fold cap in E. rewrite ES in E |- *. cbn [fbind] in E |- *. now apply (MONO (n * S bound + 1)).
  Qed.
  Lemma candidates_row cur vis found row : found_ok cur vis found -> row_ok cur row ->
    row_ok cur (found ++ filter (fun c => negb (N.eqb (fst c) cur) && negb (mem (fst c) vis))%bool row).
  Proof.
    intros (_ & _ & R1 & R2 & _) [N1 E]. split.
    - rewrite map_app. apply NoDup_app_intro; [apply R1|now apply NoDup_map_filter|]. intros x Hx Hy. apply in_map_iff in Hx. destruct Hx as (e & <- & He).
      apply in_map_iff in Hy. destruct Hy as (f & Q & Hf). apply filter_In in Hf. destruct Hf as [_ Hf]. apply andb_prop in Hf. destruct Hf as [_ Hf].
      rewrite Q in Hf. assert (mem (fst e) vis = true) by (apply mem_In, R2, He). rewrite H in Hf. discriminate.
    - intros e He. apply in_app_or in He. destruct He as [He|He]; [now apply R1|]. apply filter_In in He. now apply E.
  Qed.
  Lemma search_one_post fuel it sup rows i : rows_ok rows -> i < n ->
    post (fun r => (row_ok (N.of_nat i) (fst r) /\ length (fst r) <= bound) /\ recs_ok (N.of_nat i) (snd r)) (search_one fuel q it sup (map (map fst) rows) rows [] i).
  Proof.
    intros R Hi. unfold search_one. eapply post_bind; [apply find_post, R|]. intros [vis found] FO. cbn [fst snd] in FO.
    pose proof R as [L RR]. destruct (nth_error rows i) as [row|] eqn:ER; [|apply nth_error_None in ER; lia]. rewrite (aget_in _ _ _ ER). cbn [fbind post].
    destruct (heuristic_prune _ _ _ _ _ _) as [kept rec1] eqn:E. cbn [fst snd]. destruct (RR i row ER) as [R1 R2].
    refine (prune_row _ _ row [] kept rec1 sup _ (conj R1 R2) _ E); [|intros e []]. apply row_firstn. eapply row_perm; [apply nbr_sort_perm|]. now apply candidates_row.
  Qed.
  Lemma search_one_ends it sup rows i : rows_ok rows -> i < n -> ends (fun _ => True) (fun fuel => search_one fuel q it sup (map (map fst) rows) rows [] i).
  Proof.
    intros R Hi. pose proof R as [L RR]. destruct (nth_error rows i) as [row|] eqn:ER; [|apply nth_error_None in ER; lia]. unfold search_one. rewrite (aget_in _ _ _ ER). cbn [fbind].
    apply (ends_bind (fun _ => True) (fun _ => True) (fun fuel => find_candidates fuel q it (map (map fst) rows) (N.of_nat i))
      (fun _ '(vis, found) => Done (Ok (heuristic_prune (qi_bound q) (qi_dist q) sup (firstn max_candidates (nbr_sort (found ++ filter (fun c => negb (N.eqb (fst c) (N.of_nat i)) && negb (mem (fst c) vis))%bool row))) row [])))).
    - apply find_ends, R.
    - intros [vis found] _. now apply ends_res.
  Qed.

  (** ** Reverse edges *)
  Hypothesis SYM : forall i j, dist i j = dist j i.
  Definition need (s : reverse) (i : nat) : nat := match nth_error (rv_todo s) i with Some (Some l) => length l | _ => S bound end.
  Record rev_inv (s : reverse) : Prop := {
    ri_len : length (rv_rows s) = n /\ length (rv_buf s) = n /\ length (rv_todo s) = n;
    ri_rows : forall i row b, nth_error (rv_rows s) i = Some row -> nth_error (rv_buf s) i = Some b -> row_ok (N.of_nat i) (row ++ b) /\ length row <= bound;
    ri_todo : forall i l, nth_error (rv_todo s) i = Some (Some l) -> row_ok (N.of_nat i) l /\ forall e b, In e l -> nth_error (rv_buf s) (N.to_nat (fst e)) = Some b -> ~ In (N.of_nat i) (map fst b);
    ri_none : forall i, nth_error (rv_todo s) i = Some None -> forall j b, nth_error (rv_buf s) j = Some b -> ~ In (N.of_nat i) (map fst b);
  }.
  Lemma row_app_l i a b : row_ok i (a ++ b) -> row_ok i a.
  Proof. intros H. apply (row_sub i (a ++ b)); [exact H| |intros e He; apply in_or_app; now left]. destruct H as [H _]. rewrite map_app in H. now apply NoDup_app_l in H. Qed.
  Lemma row_tail i e r : row_ok i (e :: r) -> row_ok i r.
  Proof. intros [A B]. inversion A; subst. split; [assumption|]. intros x Hx. apply B. now right. Qed.
  Lemma step_ok s i : rev_inv s -> i < n -> exists s', reverse_step bound i s = Ok s' /\ rev_inv s' /\ (forall j, j < n -> need s' j <= (if Nat.eqb i j then need s j - 1 else need s j)).
  Proof.
    intros [(L1 & L2 & L3) RR RT RN] Hi. unfold reverse_step.
    destruct (nth_error (rv_todo s) i) as [t|] eqn:ET; [|apply nth_error_None in ET; lia]. rewrite (aget_in _ _ _ ET). cbn [bind].
    assert (AT : forall l, aput (rv_todo s) (N.of_nat i) l = Ok (upd (rv_todo s) i l)) by (intros l; rewrite aput_ok by lia; now rewrite Nnat.Nat2N.id).
    assert (ND : forall l rows buf j, length l <= need s i - 1 -> j < n ->
      need {| rv_rows := rows; rv_buf := buf; rv_todo := upd (rv_todo s) i (Some l) |} j <= (if Nat.eqb i j then need s j - 1 else need s j)).
    { intros l rows buf j LL Hj. unfold need. cbn [rv_todo]. rewrite nth_error_upd by lia. destruct (Nat.eqb_spec i j) as [<-|NE]; [exact LL|apply Nat.le_refl]. }
    assert (NI : need s i = match t with Some l => length l | None => S bound end) by (unfold need; rewrite ET; reflexivity).
    destruct t as [[|[dst d] rest]|].
    - exists s. split; [reflexivity|]. split; [constructor; auto|]. intros j _. destruct (Nat.eqb_spec i j) as [<-|NE]; [rewrite NI; cbn; lia|lia].
    - rewrite AT. cbn [bind]. destruct (RT i _ ET) as [[RO1 RO2] NB].
      pose proof (RO2 (dst, d) (or_introl eq_refl)) as (D1 & D2 & D3). cbn [fst snd] in D1, D2, D3.
      assert (RREST : row_ok (N.of_nat i) rest) by (apply (row_tail _ (dst, d)); split; assumption).
      destruct (nth_error (rv_rows s) (N.to_nat dst)) as [row|] eqn:ER; [|apply nth_error_None in ER; lia].
      destruct (nth_error (rv_buf s) (N.to_nat dst)) as [b|] eqn:EB; [|apply nth_error_None in EB; lia].
      assert (AR : aget (rv_rows s) dst = Ok row) by (unfold aget; now rewrite ER). assert (AB : aget (rv_buf s) dst = Ok b) by (unfold aget; now rewrite EB).
      rewrite AR. cbn [bind]. destruct (RR _ _ _ ER EB) as [RO LR]. rewrite Nnat.N2Nat.id in RO.
      assert (NEW : entry_ok dst (N.of_nat i, d)).
      { split; cbn [fst snd]; [lia|]. split; [congruence|]. rewrite D3. apply SYM. }
      assert (NOB : ~ In (N.of_nat i) (map fst b)) by (apply (NB (dst, d)); [now left|exact EB]).
      assert (TODO : forall j l, nth_error (upd (rv_todo s) i (Some rest)) j = Some (Some l) -> row_ok (N.of_nat j) l /\ forall e b, In e l -> nth_error (rv_buf s) (N.to_nat (fst e)) = Some b -> ~ In (N.of_nat j) (map fst b)).
      { intros j l E. rewrite nth_error_upd in E by lia. destruct (Nat.eqb_spec i j) as [<-|NE]; [|exact (RT j l E)]. injection E as <-. split; [exact RREST|]. intros e b' He. apply NB. now right. }
      assert (NONE : forall j, nth_error (upd (rv_todo s) i (Some rest)) j = Some None -> j <> i /\ forall k b, nth_error (rv_buf s) k = Some b -> ~ In (N.of_nat j) (map fst b)).
      { intros j E. rewrite nth_error_upd in E by lia. destruct (Nat.eqb_spec i j) as [Q|NE]; [discriminate|]. split; [auto|]. exact (RN j E). }
      assert (LL : length rest <= need s i - 1) by (rewrite NI; cbn [length]; lia).
      destruct (mem (N.of_nat i) (map fst row)) eqn:M; [|apply mem_false in M; destruct (Nat.ltb_spec (length row) bound) as [LT|GE]].
      + eexists. split; [reflexivity|]. split; [|intros j; apply ND, LL]. constructor; cbn [rv_rows rv_buf rv_todo]; auto; [rewrite upd_length; auto|]. intros j E. apply NONE, E.
      + rewrite aput_ok by lia. cbn [bind]. eexists. split; [reflexivity|]. split; [|intros j; apply ND, LL]. constructor; cbn [rv_rows rv_buf rv_todo]; auto.
        * rewrite !upd_length; auto.
        * intros j row' b' E1 E2. rewrite nth_error_upd in E1 by lia. destruct (Nat.eqb_spec (N.to_nat dst) j) as [<-|NE]; [|exact (RR j row' b' E1 E2)].
          injection E1 as <-. rewrite EB in E2. injection E2 as <-. rewrite Nnat.N2Nat.id. split; [|rewrite app_length; cbn; lia].
          apply (row_perm _ ((row ++ b) ++ [(N.of_nat i, d)])); [rewrite <- !app_assoc; apply Permutation_app_head, Permutation_app_comm|].
          apply row_snoc; [exact RO|exact NEW|]. cbn [fst]. rewrite map_app. intros K. apply in_app_or in K. tauto.
        * intros j E. apply NONE, E.
      + rewrite AB. cbn [bind]. destruct (Nat.ltb_spec (length b) max_candidates) as [LT|GE2].
        * rewrite aput_ok by lia. cbn [bind]. eexists. split; [reflexivity|]. split; [|intros j; apply ND, LL].
          assert (UB : forall k b', nth_error (upd (rv_buf s) (N.to_nat dst) (b ++ [(N.of_nat i, d)])) k = Some b' -> forall j, j <> i \/ k <> N.to_nat dst -> In (N.of_nat j) (map fst b') -> exists b0, nth_error (rv_buf s) k = Some b0 /\ In (N.of_nat j) (map fst b0)).
          { intros k b' E j NE K. rewrite nth_error_upd in E by lia. destruct (Nat.eqb_spec (N.to_nat dst) k) as [<-|NK]; [|exists b'; auto]. injection E as <-. exists b. split; [exact EB|].
            rewrite map_app in K. apply in_app_or in K. destruct K as [K|[K|[]]]; [exact K|]. cbn [fst] in K. exfalso. destruct NE as [NE|NE]; [apply NE; lia|congruence]. }
          constructor; cbn [rv_rows rv_buf rv_todo].
          -- rewrite !upd_length; auto.
          -- intros j row' b' E1 E2. rewrite nth_error_upd in E2 by lia. destruct (Nat.eqb_spec (N.to_nat dst) j) as [<-|NE]; [|exact (RR j row' b' E1 E2)].
             injection E2 as <-. rewrite ER in E1. injection E1 as <-. rewrite Nnat.N2Nat.id. split; [|exact LR]. rewrite app_assoc.
             apply row_snoc; [exact RO|exact NEW|]. cbn [fst]. rewrite map_app. intros K. apply in_app_or in K. tauto.
          -- intros j l E. destruct (TODO j l E) as [T1 T2]. split; [exact T1|]. intros e b' He Eb K.
             assert (j <> i \/ N.to_nat (fst e) <> N.to_nat dst) as NE.
             { destruct (Nat.eq_dec j i) as [->|]; [|now left]. right. rewrite nth_error_upd in E by lia. rewrite Nat.eqb_refl in E. injection E as <-. cbn [map fst] in RO1. inversion RO1 as [|? ? NI1 _]; subst.
               intros Q. apply NI1. apply in_map_iff. exists e. split; [now apply Nnat.N2Nat.inj|exact He]. }
             destruct (UB _ _ Eb j NE K) as (b0 & Eb0 & K0). exact (T2 e b0 He Eb0 K0).
          -- intros j E. destruct (NONE j E) as [NE T2]. intros k b' Eb K. destruct (UB _ _ Eb j (or_introl NE) K) as (b0 & Eb0 & K0). exact (T2 k b0 Eb0 K0).
        * eexists. split; [reflexivity|]. split; [|intros j; apply ND, LL]. constructor; cbn [rv_rows rv_buf rv_todo]; auto; [rewrite upd_length; auto|]. intros j E. apply NONE, E.
    - destruct (nth_error (rv_rows s) i) as [row|] eqn:ER; [|apply nth_error_None in ER; lia]. destruct (nth_error (rv_buf s) i) as [b|] eqn:EB; [|apply nth_error_None in EB; lia].
      destruct (RR _ _ _ ER EB) as [RO LR]. rewrite (aget_in _ _ _ ER). cbn [bind]. rewrite AT. cbn [bind]. eexists. split; [reflexivity|].
      split; [|intros j; apply ND; rewrite NI; lia]. constructor; cbn [rv_rows rv_buf rv_todo]; auto.
      + rewrite upd_length; auto.
      + intros j l E. rewrite nth_error_upd in E by lia. destruct (Nat.eqb_spec i j) as [<-|NE]; [|exact (RT j l E)]. injection E as <-. split; [now apply row_app_l in RO|].
        intros e b' _. apply RN, ET.
      + intros j E. rewrite nth_error_upd in E by lia. destruct (Nat.eqb_spec i j) as [Q|NE]; [discriminate|]. exact (RN j E).
  Qed.
  Lemma run_ok : forall sched s, rev_inv s -> (forall i, In i sched -> i < n) ->
    exists s', reverse_run bound sched s = Ok s' /\ rev_inv s' /\ (forall j, j < n -> need s' j <= need s j - count_occ Nat.eq_dec sched j).
  Proof.
    induction sched as [|i t IH]; intros s R B; cbn [reverse_run].
    - exists s. split; [reflexivity|]. split; [exact R|]. intros j _. cbn. lia.
    - destruct (step_ok s i R (B i (or_introl eq_refl))) as (s1 & -> & R1 & D1). cbn [bind]. destruct (IH s1 R1) as (s2 & E2 & R2 & D2); [intros j H; apply B; now right|].
      exists s2. split; [exact E2|]. split; [exact R2|]. intros j Hj. specialize (D1 j Hj). specialize (D2 j Hj). cbn [count_occ]. destruct (Nat.eq_dec i j) as [->|NE].
      + rewrite Nat.eqb_refl in D1. lia.
      + rewrite (proj2 (Nat.eqb_neq i j) NE) in D1. lia.
  Qed.
  Lemma start_inv rows : rows_ok rows -> rev_inv {| rv_rows := rows; rv_buf := map (fun _ => []) rows; rv_todo := map (fun _ => None) rows |}.
  Proof.
    intros [L R]. constructor; cbn [rv_rows rv_buf rv_todo].
    - rewrite !map_length. auto.
    - intros i row b E1 E2. rewrite nth_error_map, E1 in E2. cbn in E2. injection E2 as <-. rewrite app_nil_r. now apply R.
    - intros i l E. rewrite nth_error_map in E. destruct (nth_error rows i); discriminate.
    - intros i _ j b E. rewrite nth_error_map in E. destruct (nth_error rows j); [|discriminate]. injection E as <-. intros [].
  Qed.
  Definition pairs_ok (l : list (list nbr * list nbr)) : Prop :=
    length l = n /\ forall i r, nth_error l i = Some r -> (row_ok (N.of_nat i) (fst r) /\ length (fst r) <= bound) /\ recs_ok (N.of_nat i) (snd r).
  Lemma pairs_rows l : pairs_ok l -> rows_ok (map fst l).
  Proof. intros [L P]. split; [now rewrite map_length|]. intros i row E. rewrite nth_error_map in E. destruct (nth_error l i) as [r|] eqn:Er; [|discriminate]. injection E as <-. apply (P i r Er). Qed.
  Lemma reverse_post it sup l : pairs_ok l -> (forall i, In i (qi_sched q it) -> i < n) -> post pairs_ok (add_reverse_edges q it sup (map fst l) (map snd l)).
  Proof.
    intros P B. unfold add_reverse_edges. destruct (run_ok (qi_sched q it) _ (start_inv _ (pairs_rows l P)) B) as (s & E & [(L1 & L2 & L3) RR _ _] & _).
    fold bound. rewrite E. cbn [fbind]. destruct (finished s); [|exact I].
    eapply post_mono; [apply (each_post (fun i r => (row_ok (N.of_nat i) (fst r) /\ length (fst r) <= bound) /\ recs_ok (N.of_nat i) (snd r)))|].
    - intros k Hk. fold n in Hk. destruct (nth_error (rv_rows s) k) as [row|] eqn:ER; [|apply nth_error_None in ER; lia]. destruct (nth_error (rv_buf s) k) as [b|] eqn:EB; [|apply nth_error_None in EB; lia].
      destruct P as [LP PP]. destruct (nth_error l k) as [r|] eqn:EL; [|apply nth_error_None in EL; lia].
      rewrite (aget_in _ _ _ ER), (aget_in _ _ _ EB), (aget_in (map snd l) k (snd r)) by (rewrite nth_error_map, EL; reflexivity). cbn [fbind post].
      destruct (RR k row b ER EB) as [RO LR]. destruct (PP k r EL) as [_ RC].
      destruct (heuristic_prune _ _ _ _ _ _) as [kept rec1] eqn:EH. cbn [fst snd].
      refine (prune_row _ _ row _ kept rec1 sup _ (conj (row_app_l _ _ _ RO) LR) RC EH).
      apply (row_perm _ (row ++ b)); [|exact RO]. etransitivity; [apply Permutation_app_comm|apply nbr_sort_perm].
    - intros l' [L' E']. split; [exact L'|]. exact E'.
  Qed.
  Lemma reverse_ends it sup l : pairs_ok l -> complete n bound (qi_sched q it) -> ends (fun _ => True) (fun _ => add_reverse_edges q it sup (map fst l) (map snd l)).
  Proof.
    intros P [B C]. assert (NE : add_reverse_edges q it sup (map fst l) (map snd l) <> OutOfFuel).
    { unfold add_reverse_edges. destruct (run_ok (qi_sched q it) _ (start_inv _ (pairs_rows l P)) B) as (s & E & [(L1 & L2 & L3) RR RT RN] & D).
      fold bound. rewrite E. cbn [fbind]. assert (FI : finished s = true).
      { apply forallb_forall. intros t Ht. apply In_nth_error in Ht. destruct Ht as [i Et]. assert (Hi : i < n) by (rewrite <- L3; apply nth_error_Some; congruence).
        specialize (D i Hi). specialize (C i Hi). unfold need in D at 2. cbn [rv_todo] in D. rewrite !nth_error_map in D.
        assert (need s i = 0) as Z. { destruct (nth_error l i); cbn [option_map] in D; lia. } unfold need in Z. rewrite Et in Z. destruct t as [[|]|]; [reflexivity|cbn [length] in Z; lia|lia]. }
      rewrite FI.
      assert (T : forall m i, i + m <= n -> forall f : nat -> fuelled (list nbr * list nbr), (forall k, k < n -> f k <> OutOfFuel) -> each f i m <> OutOfFuel).
      { induction m as [|m IH]; intros i L f H; cbn [each]; [discriminate|]. pose proof (H i ltac:(lia)). destruct (f i) as [|[a| | |]]; cbn [fbind]; try discriminate; [contradiction|].
        pose proof (IH (S i) ltac:(lia) f H). destruct (each f (S i) m) as [|[x| | |]]; cbn [fbind]; try discriminate. contradiction. }
      apply T; [fold n; lia|]. intros k Hk. destruct (aget (rv_rows s) (N.of_nat k)); cbn [fbind]; try discriminate. destruct (aget (rv_buf s) (N.of_nat k)); cbn [fbind]; try discriminate.
      destruct (aget (map snd l) (N.of_nat k)); cbn [fbind]; discriminate. }
    pose proof (reverse_post it sup l P B) as PO. destruct (add_reverse_edges q it sup (map fst l) (map snd l)) as [|[a| | |]]; cbn in PO; try contradiction. now apply ends_res.
  Qed.

  (** ** Supplement *)
  Lemma add_pruned_ok i t : forall pruned new, recs_ok i pruned -> row_ok i new /\ length new <= bound -> row_ok i (add_pruned q t pruned new) /\ length (add_pruned q t pruned new) <= bound.
  Proof.
    induction pruned as [|c rest IH]; intros new RP RN; cbn [add_pruned]; [exact RN|]. fold bound. destruct (Nat.ltb_spec (length new) bound) as [LT|GE]; [|exact RN].
    assert (RR : recs_ok i rest) by (intros e He; apply RP; now right). destruct (mem (fst c) (map fst new)) eqn:M; [now apply IH|]. destruct (occluded q t c new); [now apply IH|].
    apply mem_false in M. apply IH; [exact RR|]. split.
    - eapply row_perm; [apply nbr_sort_perm|]. apply row_snoc; [apply RN|apply RP; now left|exact M].
    - rewrite <- (Permutation_length (nbr_sort_perm _)), app_length. cbn. lia.
  Qed.
  Lemma fill_post fuel draw i : (forall k, (draw k < N.of_nat n)%N) -> forall k new, row_ok i new /\ length new <= bound -> post (fun r => row_ok i r /\ length r = bound) (fill fuel q draw i k new).
  Proof.
    intros D. induction fuel as [|f IH]; intros k new [R L]; cbn [fill]; fold bound; destruct (Nat.ltb_spec (length new) bound) as [LT|GE]; cbn [post]; auto; try (split; [exact R|lia]).
    destruct (N.eqb_spec (draw k) i) as [E|E]; cbn [orb]; [apply IH; auto|]. destruct (mem (draw k) (map fst new)) eqn:M; [apply IH; auto|]. apply mem_false in M. apply IH. split.
    - apply row_snoc; [exact R| |exact M]. split; cbn [fst snd]; [apply D|]. split; [exact E|]. apply SYM.
    - rewrite app_length. cbn. lia.
  Qed.
  Lemma fill_ends draw self : bound < n -> (forall k, (draw k < N.of_nat n)%N) -> (forall k j, (j < N.of_nat n)%N -> exists m, k <= m /\ draw m = j) ->
    forall c k new, bound - length new = c -> ends (fun _ => True) (fun fuel => fill fuel q draw self k new).
  Proof.
    intros HB D FA. induction c as [|c IH]; intros k new EC.
    - exists 0, new. split; [exact I|]. intros fuel _. destruct fuel; cbn [fill]; fold bound; now rewrite (proj2 (Nat.ltb_ge _ _)) by lia.
    - destruct (fresh_below n (self :: map fst new)) as (j & Hj & NJ); [cbn; rewrite map_length; lia|]. destruct (FA k j Hj) as (m & Hm & EM).
      assert (G : forall t k, m - k = t -> k <= m -> ends (fun _ => True) (fun fuel => fill fuel q draw self k new)).
      { induction t as [|t IHt]; intros k' ET LK.
        - assert (k' = m) by lia. subst k'. destruct (IH (S m) (new ++ [(j, qi_dist q j self)])) as (F & a & _ & E); [rewrite app_length; cbn; lia|].
          exists (S F), a. split; [exact I|]. intros [|fuel] LF; [lia|]. cbn [fill]. fold bound. rewrite (proj2 (Nat.ltb_lt _ _)) by lia. rewrite EM.
          destruct (N.eqb_spec j self) as [Q|Q]; [exfalso; apply NJ; left; congruence|]. assert (M : mem j (map fst new) = false) by (apply mem_false; intros H; apply NJ; now right). rewrite M. cbn [orb]. apply E. lia.
        - destruct (N.eqb (draw k') self || mem (draw k') (map fst new))%bool eqn:B.
          + destruct (IHt (S k') ltac:(lia) ltac:(lia)) as (F & a & _ & E). exists (S F), a. split; [exact I|]. intros [|fuel] LF; [lia|]. cbn [fill]. fold bound.
            rewrite (proj2 (Nat.ltb_lt _ _)) by lia. rewrite B. apply E. lia.
          + destruct (IH (S k') (new ++ [(draw k', qi_dist q (draw k') self)])) as (F & a & _ & E); [rewrite app_length; cbn; lia|]. exists (S F), a. split; [exact I|]. intros [|fuel] LF; [lia|]. cbn [fill]. fold bound.
            rewrite (proj2 (Nat.ltb_lt _ _)) by lia. rewrite B. apply E. lia. }
      exact (G (m - k) k eq_refl Hm).
  Qed.
  Lemma supplement_post fuel i row rec : vertices n (qi_fill q) -> row_ok (N.of_nat i) row -> length row <= bound -> recs_ok (N.of_nat i) rec ->
    post (fun r => row_ok (N.of_nat i) r /\ length r = bound) (supplement_one fuel q i row rec).
  Proof.
    intros V R L RC. unfold supplement_one. fold bound. destruct (Nat.leb_spec bound (length row)) as [LE|GT]; [split; [exact R|lia]|].
    apply fill_post; [apply V|]. apply add_pruned_ok; [|auto]. intros e He. apply RC. apply (Permutation_in _ (Permutation_sym (nbr_sort_perm rec)) He).
  Qed.
  Lemma supplement_ends i row rec : bound < n -> vertices n (qi_fill q) -> fair n (qi_fill q) -> ends (fun _ => True) (fun fuel => supplement_one fuel q i row rec).
  Proof.
    intros HB V FA. unfold supplement_one. fold bound. destruct (Nat.leb_spec bound (length row)) as [LE|GT]; [now apply ends_res|].
    eapply fill_ends; [exact HB|apply V|apply FA|reflexivity].
  Qed.

  (** ** The build *)
  Definition result_ok (sup : bool) (rows : list (list nbr)) : Prop := rows_ok rows /\ (sup = true -> forall row, In row rows -> length row = bound).
  Lemma found_post fuel it sup rows : rows_ok rows -> post pairs_ok (each (search_one fuel q it sup (map (map fst) rows) rows []) 0 n).
  Proof.
    intros R. eapply post_mono; [apply (each_post (fun i r => (row_ok (N.of_nat i) (fst r) /\ length (fst r) <= bound) /\ recs_ok (N.of_nat i) (snd r)))|].
    - intros k Hk. apply search_one_post; [exact R|lia].
    - intros l' [L' E']. split; [exact L'|]. exact E'.
  Qed.
  Lemma iter_post fuel it sup rows : rows_ok rows -> (forall i, In i (qi_sched q it) -> i < n) -> vertices n (qi_fill q) -> post (result_ok sup) (iter fuel q it sup rows).
  Proof.
    intros R B V. unfold iter. fold n. eapply post_bind; [apply found_post, R|]. intros l P. eapply post_bind; [apply reverse_post; assumption|]. intros l2 P2. destruct sup.
    - eapply post_mono; [apply (each_post (fun i r => row_ok (N.of_nat i) r /\ length r = bound))|].
      + intros k Hk. destruct P2 as [L2 P2]. destruct (nth_error l2 k) as [[row rec]|] eqn:E; [|apply nth_error_None in E; lia]. rewrite (aget_in _ _ _ E). cbn [fbind].
        destruct (P2 k _ E) as [[A1 A2] A3]. now apply supplement_post.
      + intros l' [L' E']. split; [split; [exact L'|intros i row E; destruct (E' i row E); split; [assumption|lia]]|]. intros _ row H. apply In_nth_error in H. destruct H as [i E]. apply (E' i row E).
    - cbn [post]. split; [now apply pairs_rows|discriminate].
  Qed.
  Lemma iter_ends it sup rows : rows_ok rows -> bound < n -> complete n bound (qi_sched q it) -> vertices n (qi_fill q) -> fair n (qi_fill q) -> ends (fun _ => True) (fun fuel => iter fuel q it sup rows).
  Proof.
    intros R HB C V FA. unfold iter. fold n.
    apply (ends_bind pairs_ok (fun _ => True) (fun fuel => each (search_one fuel q it sup (map (map fst) rows) rows []) 0 n)
      (fun fuel found => let! pruned := add_reverse_edges q it sup (map fst found) (map snd found) in
        if sup then each (fun i => let! (row, rec) := Done (aget pruned (N.of_nat i)) in supplement_one fuel q i row rec) 0 n else Done (Ok (map fst pruned)))).
    - eapply ends_mono; [apply ends_post; [|intros fuel; apply found_post, R]|intros a [_ H]; exact H].
      apply (each_ends (fun _ _ => True) (fun fuel i => search_one fuel q it sup (map (map fst) rows) rows [] i)). intros k Hk. apply search_one_ends; [exact R|lia].
    - intros l P. apply (ends_bind pairs_ok (fun _ => True) (fun _ => add_reverse_edges q it sup (map fst l) (map snd l))
        (fun fuel pruned => if sup then each (fun i => let! (row, rec) := Done (aget pruned (N.of_nat i)) in supplement_one fuel q i row rec) 0 n else Done (Ok (map fst pruned)))).
      + eapply ends_mono; [apply ends_post; [now apply reverse_ends|intros _; apply reverse_post; [exact P|apply C]]|intros a [_ H]; exact H].
      + intros l2 [L2 P2]. destruct sup; [|now apply ends_res]. eapply ends_mono; [|intros a _; exact I].
        apply (each_ends (fun _ _ => True) (fun fuel i => let! (row, rec) := Done (aget l2 (N.of_nat i)) in supplement_one fuel q i row rec)).
        intros k Hk. destruct (nth_error l2 k) as [[row rec]|] eqn:E; [|apply nth_error_None in E; lia]. rewrite (aget_in _ _ _ E). cbn [fbind]. now apply supplement_ends.
  Qed.
  Hypothesis SC : forall it i, In i (qi_sched q it) -> i < n.
  Hypothesis VD : vertices n (qi_draw q).
  Hypothesis VF : vertices n (qi_fill q).
  Theorem build_post fuel : post (regular n bound dist) (build fuel q).
  Proof.
    unfold build. eapply post_bind; [apply init_post, VD|]. intros r0 R0. eapply post_bind; [apply iter_post; [exact R0|apply SC|exact VF]|]. intros r1 [R1 _].
    eapply post_bind; [apply iter_post; [exact R1|apply SC|exact VF]|]. intros r2 [R2 _]. eapply post_mono; [apply iter_post; [exact R2|apply SC|exact VF]|]. intros r3 [[L3 R3] F3].
    split; [exact L3|]. intros i row E. split; [apply F3; [reflexivity|exact (nth_error_In _ _ E)]|]. apply row_good. apply (R3 i row E).
  Qed.
  Theorem build_ends : bound < n -> (forall it, complete n bound (qi_sched q it)) -> fair n (qi_draw q) -> fair n (qi_fill q) -> ends (regular n bound dist) (fun fuel => build fuel q).
  Proof.
    intros HB C FD FF.
    assert (NX : forall it sup rows, rows_ok rows -> ends rows_ok (fun fuel => iter fuel q it sup rows)).
    { intros it sup rows R. eapply ends_mono; [apply ends_post; [apply iter_ends; auto|intros fuel; apply iter_post; [exact R|apply SC|exact VF]]|]. intros a [_ H]. apply H. }
    eapply ends_mono; [apply ends_post; [|intros fuel; apply build_post]|intros a [_ H]; exact H]. unfold build.
    apply (ends_bind rows_ok (fun _ => True) (fun fuel => random_init fuel q) (fun fuel rows0 => let! rows1 := iter fuel q 0 false rows0 in let! rows2 := iter fuel q 1 false rows1 in iter fuel q 2 true rows2)).
    { eapply ends_mono; [apply ends_post; [now apply init_ends|intros fuel; now apply init_post]|intros a [_ H]; exact H]. }
    intros r0 R0. apply (ends_bind rows_ok (fun _ => True) (fun fuel => iter fuel q 0 false r0) (fun fuel rows1 => let! rows2 := iter fuel q 1 false rows1 in iter fuel q 2 true rows2)); [now apply NX|].
    intros r1 R1. apply (ends_bind rows_ok (fun _ => True) (fun fuel => iter fuel q 1 false r1) (fun fuel rows2 => iter fuel q 2 true rows2)); [now apply NX|].
    intros r2 R2. eapply ends_mono; [now apply NX|auto].
  Qed.
  Theorem build_stuck fuel : 0 < n <= bound -> build fuel q = OutOfFuel.
  Proof. intros H. unfold build. now rewrite (init_stuck fuel H VD). Qed.
End Build.
