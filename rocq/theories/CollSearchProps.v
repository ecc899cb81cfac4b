(** Property C49: searching the segments of a disk collection. *)
From Verif Require Import CollSearchProofs.
From Verif Require Import CollSearchSpec.

(** ** A library that does what the standard says *)
Fixpoint place_by {A} (less : A -> A -> bool) (c : A) (l : list A) : list A :=
  match l with [] => [c] | x :: l' => if less x c then x :: place_by less c l' else c :: l end.
Definition sort_by {A} (less : A -> A -> bool) (l : list A) : list A := fold_right (place_by less) [] l.
Definition flip {A} (less : A -> A -> bool) (a b : A) : bool := less b a.
Definition simple_lib : std_lib := {|
  push_heap := fun A less => sort_by (flip less);
  pop_heap := fun A less l => match l with [] => [] | front :: l' => sort_by (flip less) l' ++ [front] end;
  sort := fun A less => sort_by less;
|}.
Lemma place_perm {A} (less : A -> A -> bool) c l : Permutation (c :: l) (place_by less c l).
Proof. induction l as [|x l IH]; cbn [place_by]; [reflexivity|]. destruct (less x c); [|reflexivity]. rewrite perm_swap. now constructor. Qed.
Lemma sort_perm {A} (less : A -> A -> bool) l : Permutation l (sort_by less l).
Proof. induction l as [|x l IH]; cbn [sort_by fold_right]; [constructor|]. rewrite <- place_perm. now constructor. Qed.
Lemma sort_sorted {A} (less : A -> A -> bool) l : weak_order less l -> StronglySorted (fun a b => less b a = false) (sort_by less l).
Proof.
  induction l as [|x l IH]; intros W; cbn [sort_by fold_right]; [constructor|]. fold (sort_by less l). assert (W1 : weak_order less l) by (eapply order_incl; [exact W|apply incl_tl, incl_refl]). specialize (IH W1).
  assert (I : incl (sort_by less l) (x :: l)) by (intros z Hz; right; eapply Permutation_in; [symmetry; apply sort_perm|exact Hz]). assert (IX : In x (x :: l)) by now left.
  revert I. generalize dependent (sort_by less l). intros m S I. induction S as [|y m S IHm F]; cbn [place_by]; [repeat constructor|]. destruct (less y x) eqn:E.
  - constructor; [apply IHm; intros z Hz; apply I; now right|]. apply Forall_forall. intros z Hz. apply (Permutation_in z (Permutation_sym (place_perm less x m))) in Hz. destruct Hz as [<-|Hz].
    + apply (order_asym less (x :: l)); auto. apply I. now left.
    + rewrite Forall_forall in F. now apply F.
  - constructor; [now constructor|]. constructor; [exact E|]. rewrite Forall_forall in *. intros z Hz. apply (wo_incomparable _ _ W z y x); auto; apply I; [now right|now left].
Qed.
Lemma flip_order {A} (less : A -> A -> bool) l : weak_order less l -> weak_order (flip less) l.
Proof. intros [I T N]. unfold flip. constructor; [exact I|..]; intros a b c Ha Hb Hc H1 H2; [apply (T c b a)|apply (N c b a)]; auto. Qed.
Lemma sorted_pairs {A} (le : A -> A -> Prop) l : StronglySorted le l -> forall i j a b, i < j -> nth_error l i = Some a -> nth_error l j = Some b -> le a b.
Proof.
  induction 1 as [|x l S IH F]; intros i j a b Hij Ha Hb; [destruct i; discriminate|]. destruct j as [|j]; [lia|]. destruct i as [|i]; cbn in *.
  - injection Ha as <-. rewrite Forall_forall in F. apply F. eapply nth_error_In; eauto.
  - apply (IH i j); auto. lia.
Qed.
Lemma descending_heap {A} (less : A -> A -> bool) l : weak_order less l -> heap less (sort_by (flip less) l).
Proof.
  intros W. pose proof (sort_sorted _ _ (flip_order _ _ W)) as S. intros i a b Hi Ha Hb. apply (sorted_pairs _ _ S ((i - 1) / 2) i); auto. apply Nat.div_lt_upper_bound; lia.
Qed.
Example simple_lib_ok : std_lib_ok simple_lib.
Proof.
  constructor; cbn [push_heap pop_heap sort simple_lib].
  - intros A less l x W _. split; [apply sort_perm|now apply descending_heap].
  - intros A less front l W _. exists (sort_by (flip less) l). split; [reflexivity|]. split; [apply sort_perm|]. apply descending_heap. eapply order_incl; [exact W|apply incl_tl, incl_refl].
  - intros A less l W. split; [apply sort_perm|now apply sort_sorted].
Qed.

(** ** C49 *)
(** If every segment answers with its best hits, the answer of the collection is
    the best hits of all rows.  Distances may be NaN. *)
Theorem merge_exact lib segments rows k : std_lib_ok lib -> 0 < k ->
  Forall2 (fun seg r => exists out, seg k = Ok out /\ best k r out) segments rows -> exists out, search_segments lib segments k = Ok out /\ best k (concat rows) out.
Proof. intros OK Hk F. now apply merge_best. Qed.
Print Assumptions merge_exact.
(** The rows alone determine what the best hits are. *)
Theorem best_determined k rows rows' out out' : Permutation rows rows' -> best k rows out -> best k rows' out' -> out = out'.
Proof. intros P B B'. apply (best_unique k rows'); [now apply (best_perm k rows)|exact B']. Qed.
Print Assumptions best_determined.
(** Flat segments, when no distance is NaN: whatever the library does within the
    standard, the best hits of all rows. *)
Theorem search_flat_partial lib segments k : std_lib_ok lib -> 0 < k -> Forall numeric (concat segments) -> exists out, search_flat lib true segments k = Ok out /\ best k (concat segments) out.
Proof.
  intros OK Hk NU. unfold search_flat. apply merge_best; [exact OK|exact Hk|]. induction segments as [|s segments IH]; cbn [map]; constructor; cbn [concat] in NU; apply Forall_app in NU; [now apply flat_best|now apply IH].
Qed.
Print Assumptions search_flat_partial.
(** So the distribution of the rows over segments and the order of the segments do
    not matter, nor which library is used. *)
Theorem search_flat_same_partial lib lib' segments segments' k : std_lib_ok lib -> std_lib_ok lib' -> 0 < k -> Forall numeric (concat segments) -> Permutation (concat segments) (concat segments') ->
  search_flat lib true segments k = search_flat lib' true segments' k.
Proof.
  intros OK OK' Hk NU P. assert (NU' : Forall numeric (concat segments')) by (rewrite Forall_forall in *; intros x Hx; apply NU; eapply Permutation_in; [symmetry; exact P|exact Hx]).
  destruct (search_flat_partial lib segments k OK Hk NU) as (out & -> & B). destruct (search_flat_partial lib' segments' k OK' Hk NU') as (out' & -> & B'). f_equal. exact (best_determined _ _ _ _ _ P B B').
Qed.
Print Assumptions search_flat_same_partial.
(** With ties, two ways to distribute the rows *)
Definition ex_rows : list hit := [(7, Some 3%Z); (2, Some 5%Z); (9, Some (-1)%Z); (1, Some 5%Z); (4, Some 3%Z)]%N.
Example ex_search : Forall numeric ex_rows
  /\ search_flat simple_lib true [ex_rows] 3 = Ok [(9, Some (-1)%Z); (4, Some 3%Z); (7, Some 3%Z)]%N
  /\ search_flat simple_lib true [[(1, Some 5%Z); (4, Some 3%Z)]; [(2, Some 5%Z)]; [(9, Some (-1)%Z); (7, Some 3%Z)]]%N 3 = Ok [(9, Some (-1)%Z); (4, Some 3%Z); (7, Some 3%Z)]%N.
Proof. split; [repeat constructor; discriminate|]. split; reflexivity. Qed.

(** With NaN the distribution matters: in one segment, a row whose distance is NaN
    is never displaced by a later one.  The comparison of the flat segment is a
    strict weak ordering of these two rows, so the standard decides. *)
Theorem search_flat_refuted : exists rows k, 0 < k /\ forall lib, std_lib_ok lib ->
  search_flat lib true [rows] k <> search_flat lib true (map (fun r => [r]) rows) k /\ exists out, search_flat lib true [rows] k = Ok out /\ ~ best k rows out.
Proof.
  exists [(1, None); (2, Some 0%Z)]%N, 1. split; [lia|]. intros lib OK.
  assert (W1 : forall h : hit, weak_order flat_less [h]).
  { intros [l [z|]]; constructor.
    1: intros a [<-|[]]; unfold flat_less; cbn [fst snd feqb fltb]; rewrite Z.eqb_refl; apply N.ltb_irrefl.
    3: intros a [<-|[]]; reflexivity.
    all: intros a b c [<-|[]] [<-|[]] [<-|[]]; auto. }
  assert (P1 : forall h : hit, push_heap lib flat_less [h] = [h]).
  { intros h. destruct (push_ok lib OK _ flat_less [] h (W1 h) (heap_nil _)) as [P _]. cbn [app] in P. now apply Permutation_length_1_inv in P. }
  assert (S1 : forall h : hit, sort lib flat_less [h] = [h]).
  { intros h. destruct (sort_ok lib OK _ flat_less [h] (W1 h)) as [P _]. now apply Permutation_length_1_inv in P. }
  assert (S2 : forall h : hit, sort lib hit_less [h] = [h]).
  { intros h. destruct (sort_ok lib OK _ hit_less [h] (hit_order _)) as [P _]. now apply Permutation_length_1_inv in P. }
  assert (E1 : search_flat lib true [[(1, None); (2, Some 0%Z)]]%N 1 = Ok [(1, None)]%N).
  { unfold search_flat, search_segments, flat_search. cbn [map Nat.eqb negb length Nat.min flat_scan]. unfold flat_insert at 1. cbn [length Nat.ltb Nat.leb app]. rewrite P1. cbn [bind]. unfold flat_insert. cbn [length Nat.ltb Nat.leb flat_less feqb fltb fst snd negb bind]. rewrite S1. cbn [bind]. rewrite S2. reflexivity. }
  assert (E2 : search_flat lib true [[(1, None)]; [(2, Some 0%Z)]]%N 1 = Ok [(2, Some 0%Z)]%N).
  { assert (F1 : forall h : hit, flat_search lib true [h] 1 = Ok [h]).
    { intros h. unfold flat_search. cbn [Nat.eqb negb length Nat.min flat_scan]. unfold flat_insert. cbn [length Nat.ltb Nat.leb app]. rewrite P1. cbn [bind]. now rewrite S1. }
    destruct (merge_best lib OK 1 (map (flat_search lib true) [[(1, None)]; [(2, Some 0%Z)]]%N) [[(1, None)]; [(2, Some 0%Z)]]%N ltac:(lia)) as (out & E & B).
    - assert (B1 : forall h : hit, best 1 [h] [h]) by (intros h; exists []; split; [reflexivity|]; split; [reflexivity|]; split; [repeat constructor|intros ? ? ? []]).
      repeat constructor; eexists; split; try apply F1; apply B1.
    - unfold search_flat. rewrite E. f_equal. apply (best_unique 1 (concat [[(1, None)]; [(2, Some 0%Z)]]%N)); [exact B|]. exists [(1, None)]%N. cbn [concat app]. split; [apply perm_swap|]. split; [reflexivity|].
      split; [repeat constructor|]. intros a b [<-|[]] [<-|[]]. cbn. tauto. }
  split.
  - cbn [map]. intros E. pose proof (eq_trans (eq_sym E1) (eq_trans E E2)) as C. discriminate C.
  - eexists. split; [exact E1|]. intros B. assert (B' : best 1 [(1, None); (2, Some 0%Z)]%N [(2, Some 0%Z)]%N).
    { exists [(1, None)]%N. split; [apply perm_swap|]. split; [reflexivity|]. split; [repeat constructor|]. intros a b [<-|[]] [<-|[]]. cbn. tauto. }
    pose proof (best_unique _ _ _ _ B B') as E. discriminate E.
Qed.
Print Assumptions search_flat_refuted.
