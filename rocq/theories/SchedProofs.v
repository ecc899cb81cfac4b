(** Proofs about the scheduler. *)
From Verif Require Export SchedSpec.

(** The tasks a worker has *)
Definition opt_list (o : option nat) : list nat := match o with Some t => [t] | None => [] end.
Definition pending (p : pc) : list nat := match p with Spawning _ _ u => [u] | _ => [] end.
Definition held (x : worker) : list nat := flat_map opt_list (slots x) ++ pending (at_ x).
(** The worker is in, or about to enter, the task of the slot. *)
Definition owner (x : worker) : Prop :=
  match at_ x with
  | Resuming i t | Running i t | Spawning i t _ => nth_error (slots x) i = Some (Some t)
  | Popping i => nth_error (slots x) i = Some None
  | _ => True
  end.
Definition adding (x : worker) : bool := match at_ x with Adding => true | _ => false end.
Definition quiet (s : state) (x : worker) : Prop := match at_ x with Stopped => True | TotalFirst n => n = finish s | _ => False end.
Record inv (local : nat) (s : state) : Prop := {
  iv_total : total s = created s;
  iv_client : client s = None;
  iv_places : Permutation (queue s ++ flat_map held (workers s) ++ completed s) (seq 0 (created s));
  iv_finish : finish s + count adding (workers s) = length (completed s);
  iv_owner : forall x, In x (workers s) -> owner x;
  iv_slots : forall x, In x (workers s) -> length (slots x) = local;
  iv_first : forall x n, In x (workers s) -> at_ x = FinishFirst n -> n <= finish s;
  iv_some : workers s <> [];
  iv_quiet : (forall x, In x (workers s) -> quiet s x) -> length (completed s) = created s;
}.

Lemma flat_map_repeat_nil : forall A B (f : A -> list B) x n, f x = [] -> flat_map f (repeat x n) = [].
Proof. intros A B f x n E. induction n; cbn; [reflexivity|]. now rewrite E. Qed.
Lemma start_inv : forall threads local tasks, 0 < threads -> inv local (start threads local tasks).
Proof.
  intros n l k P. constructor; cbn [start total created client queue workers completed finish].
  - reflexivity.
  - reflexivity.
  - rewrite flat_map_repeat_nil; [cbn [app]; now rewrite app_nil_r|]. unfold held. cbn [slots at_ pending]. now rewrite flat_map_repeat_nil.
  - now rewrite count_repeat.
  - intros x X. apply repeat_spec in X. subst. exact Logic.I.
  - intros x X. apply repeat_spec in X. subst. apply repeat_length.
  - intros x m X. apply repeat_spec in X. subst. discriminate.
  - destruct n; [lia|discriminate].
  - intro Q. destruct n; [lia|]. destruct (Q _ (or_introl eq_refl)).
Qed.

Lemma without_perm : forall A (l : list A) k t, nth_error l k = Some t -> Permutation l (t :: without l k).
Proof.
  intros A. induction l as [|x l IH]; intros [|k] t H; try discriminate H; cbn in H.
  - injection H as ->. reflexivity.
  - unfold without in *. cbn [firstn skipn app]. rewrite perm_swap. constructor. now apply IH.
Qed.

(** A step in which worker [w] changes from [x] to [x'] *)
Record change (s s' : state) (w : nat) (x x' : worker) : Prop := {
  ch_x : nth_error (workers s) w = Some x;
  ch_workers : workers s' = upd (workers s) w x';
  ch_client : client s' = client s;
}.
Lemma change_inv : forall local s s' w x x', inv local s -> change s s' w x x' ->
  total s' = created s' ->
  (forall rest, Permutation (queue s ++ held x ++ rest ++ completed s) (seq 0 (created s)) -> Permutation (queue s' ++ held x' ++ rest ++ completed s') (seq 0 (created s'))) ->
  finish s' + length (completed s) + b2n (adding x') = finish s + length (completed s') + b2n (adding x) ->
  owner x' -> length (slots x') = local -> finish s <= finish s' ->
  (forall n, at_ x' = FinishFirst n -> n <= finish s') ->
  ((forall y, In y (workers s') -> quiet s' y) -> length (completed s') = created s') ->
  inv local s'.
Proof.
  intros local s s' w x x' I [CX CW CC] T P F O L M N Q. destruct I as [IT IC IP IF IO IS I1 IN IQ].
  assert (K : forall y, In y (workers s') -> y = x' \/ In y (workers s)) by (rewrite CW; apply in_upd_inv).
  constructor; try assumption.
  - congruence.
  - rewrite CW. destruct (upd_split held _ _ _ CX) as (rest & P1 & P2). rewrite P2, <- app_assoc. apply P. rewrite <- IP, P1, <- app_assoc. reflexivity.
  - rewrite CW. pose proof (count_upd _ adding _ w _ x' CX). lia.
  - intros y Y. destruct (K y Y) as [->|]; auto.
  - intros y Y. destruct (K y Y) as [->|]; auto.
  - intros y n Y E. destruct (K y Y) as [->|Z]; [now apply N|]. specialize (I1 y n Z E). lia.
  - rewrite CW. intro E. apply IN. destruct (workers s); [reflexivity|]. destruct w; discriminate E.
Qed.

Lemma slots_split : forall sl i o o', nth_error sl i = Some o ->
  exists rest, Permutation (flat_map opt_list sl) (opt_list o ++ rest) /\ Permutation (flat_map opt_list (upd sl i o')) (opt_list o' ++ rest).
Proof. intros sl i o o' H. destruct (upd_split opt_list sl i o H) as (rest & P & Q). exists rest. split; [assumption|apply Q]. Qed.
Lemma nodup_places : forall local s, inv local s -> NoDup (queue s ++ flat_map held (workers s) ++ completed s).
Proof. intros local s I. apply (Permutation_NoDup (Permutation_sym (iv_places _ _ I))). apply seq_NoDup. Qed.
Lemma owned_held : forall x t i u, owner x -> (at_ x = Resuming i t \/ at_ x = Running i t \/ at_ x = Spawning i t u) -> In t (held x).
Proof.
  intros x t i u O H. unfold owner in O. unfold held. apply in_or_app. left. apply in_flat_map. exists (Some t). split; [|now left].
  apply nth_error_In with i. destruct H as [H|[H|H]]; rewrite H in O; exact O.
Qed.
Lemma NoDup_app_remove_l : forall A (l m : list A), NoDup (l ++ m) -> NoDup m.
Proof. intros A l. induction l as [|x l IH]; intros m N; [assumption|]. cbn in N. inversion N. now apply IH. Qed.
Lemma NoDup_app_remove_r : forall A (l m : list A), NoDup (l ++ m) -> NoDup l.
Proof. intros A l m N. apply (NoDup_app_remove_l _ m). now apply (Permutation_NoDup (Permutation_app_comm l m)). Qed.
(** A task is in one place only. *)
Lemma nodup_two : forall A B (f : A -> list B) l v w x y t, NoDup (flat_map f l) -> nth_error l v = Some x -> nth_error l w = Some y -> In t (f x) -> In t (f y) -> v = w.
Proof.
  intros A B f. induction l as [|z l IH]; intros [|v] [|w] x y t N V W X Y; try discriminate V; try discriminate W; try reflexivity; cbn in V, W, N.
  - exfalso. injection V as ->. apply nth_error_In in W. assert (E : In t (flat_map f l)) by (apply in_flat_map; eauto).
    destruct (in_split _ _ X) as (l1 & l2 & S1). rewrite S1 in N. rewrite <- app_assoc in N. apply NoDup_remove_2 in N. apply N. rewrite !in_app_iff. auto.
  - exfalso. injection W as ->. apply nth_error_In in V. assert (E : In t (flat_map f l)) by (apply in_flat_map; eauto).
    destruct (in_split _ _ Y) as (l1 & l2 & S1). rewrite S1 in N. rewrite <- app_assoc in N. apply NoDup_remove_2 in N. apply N. rewrite !in_app_iff. auto.
  - f_equal. apply (IH v w x y t); try assumption. now apply NoDup_app_remove_l in N.
Qed.
Lemma held_once : forall local s v w x y t, inv local s -> nth_error (workers s) v = Some x -> nth_error (workers s) w = Some y -> In t (held x) -> In t (held y) -> v = w.
Proof.
  intros local s v w x y t I V W X Y. pose proof (nodup_places _ _ I) as N. apply NoDup_app_remove_l in N. apply NoDup_app_remove_r in N.
  now apply (nodup_two _ _ held (workers s) v w x y t).
Qed.
Lemma held_not_completed : forall local s w x t, inv local s -> nth_error (workers s) w = Some x -> In t (held x) -> ~ In t (completed s).
Proof.
  intros local s w x t I W X C. pose proof (nodup_places _ _ I) as N. apply NoDup_app_remove_l in N.
  assert (E : In t (flat_map held (workers s))) by (apply in_flat_map; exists x; split; [now apply nth_error_In with w|assumption]).
  destruct (in_split _ _ E) as (l1 & l2 & S1). rewrite S1 in N. rewrite <- app_assoc in N. apply NoDup_remove_2 in N. apply N. rewrite !in_app_iff. auto.
Qed.
Lemma runs_at : forall t x, runs t x = true -> exists i, at_ x = Running i t \/ exists u, at_ x = Spawning i t u.
Proof.
  intros t x. unfold runs. destruct (at_ x); try discriminate; intro H; apply Nat.eqb_eq in H; subst; eexists; eauto.
Qed.
Lemma resumable_ok : forall local s w x i t, inv local s -> nth_error (workers s) w = Some x -> at_ x = Resuming i t -> resumable s t = true.
Proof.
  intros local s w x i t I W A. pose proof (iv_owner _ _ I x (nth_error_In _ _ W)) as O.
  assert (H : In t (held x)) by (apply (owned_held x t i 0); auto).
  unfold resumable. apply andb_true_intro. split; apply negb_true_iff.
  - destruct (existsb (Nat.eqb t) (completed s)) eqn:E; [|reflexivity]. exfalso. apply existsb_exists in E. destruct E as (u & U & E). apply Nat.eqb_eq in E. subst u.
    now apply (held_not_completed local s w x t).
  - destruct (existsb (runs t) (workers s)) eqn:E; [|reflexivity]. exfalso. apply existsb_exists in E. destruct E as (y & Y & R).
    destruct (In_nth_error _ _ Y) as (v & V). destruct (runs_at t y R) as (j & D).
    assert (K : In t (held y)) by (destruct D as [D|[u D]]; [apply (owned_held y t j 0)|apply (owned_held y t j u)]; auto; now apply (iv_owner _ _ I)).
    assert (v = w) by now apply (held_once local s v w y x t). subst v. assert (y = x) by congruence. subst y. rewrite A in D. destruct D as [D|[u D]]; discriminate D.
Qed.
(** When everything is completed nobody runs. *)
Lemma completed_all : forall local s, inv local s -> length (completed s) = created s -> queue s = [] /\ forall x, In x (workers s) -> held x = [].
Proof.
  intros local s I E. pose proof (Permutation_length (iv_places _ _ I)) as L. rewrite !app_length, seq_length in L.
  split; [destruct (queue s); [reflexivity|cbn in L; lia]|]. intros x X. destruct (held x) as [|t h] eqn:H; [reflexivity|exfalso].
  assert (K : In t (flat_map held (workers s))) by (apply in_flat_map; exists x; rewrite H; split; [assumption|now left]).
  destruct (flat_map held (workers s)); [destruct K|cbn in L; lia].
Qed.
Lemma finish_le : forall local s, inv local s -> finish s <= length (completed s) <= created s.
Proof.
  intros local s I. pose proof (iv_finish _ _ I). pose proof (Permutation_length (iv_places _ _ I)) as L. rewrite !app_length, seq_length in L. lia.
Qed.

Lemma change_loud : forall local s s' w x x', inv local s -> change s s' w x x' ->
  total s' = created s' ->
  (forall rest, Permutation (queue s ++ held x ++ rest ++ completed s) (seq 0 (created s)) -> Permutation (queue s' ++ held x' ++ rest ++ completed s') (seq 0 (created s'))) ->
  finish s' + length (completed s) + b2n (adding x') = finish s + length (completed s') + b2n (adding x) ->
  owner x' -> length (slots x') = local -> finish s <= finish s' ->
  (forall n, at_ x' = FinishFirst n -> n <= finish s') ->
  ~ quiet s' x' ->
  inv local s'.
Proof.
  intros local s s' w x x' I C T P F O L M N Q. apply (change_inv local s s' w x x'); try assumption. intro K. exfalso. apply Q, K.
  rewrite (ch_workers _ _ _ _ _ C). apply (in_upd _ _ x). exact (ch_x _ _ _ _ _ C).
Qed.
(** The places do not change *)
Ltac same_held := let rest := fresh in let P := fresh in intros rest P; exact P.

Lemma work_inv : forall local s w h r, 0 < local -> inv local s -> h <> Requeue -> work s w h = Some r -> exists s', r = Ok s' /\ inv local s'.
Proof.
  intros local s w h r PL I NR. pose proof I as [IT IC IP IF IO IS I1 IN IQ]. unfold work.
  destruct (nth_error (workers s) w) as [x|] eqn:X; [|discriminate]. pose proof (nth_error_In _ _ X) as XI.
  pose proof (IO x XI) as OX. pose proof (IS x XI) as SX. pose proof (finish_le _ _ I) as FL.
  destruct x as [p nav sl]. cbn [at_ slots navigator] in *. unfold owner in OX. cbn [at_ slots] in OX.
  destruct p; destruct h; try discriminate; try (now destruct NR).
  - (* Top *)
    destruct (Nat.eqb_spec (length sl) 0) as [E|_]; [lia|].
    assert (B : N.to_nat (nav mod N.of_nat (length sl)) < length sl) by (pose proof (N.mod_lt nav (N.of_nat (length sl)) ltac:(lia)); lia).
    destruct (nth_error sl (N.to_nat (nav mod N.of_nat (length sl)))) as [[t|]|] eqn:E; [| |apply nth_error_None in E; lia];
      intro R; injection R as <-; (eexists; split; [reflexivity|]); (eapply change_loud; [exact I|constructor; [exact X|reflexivity|reflexivity]|exact IT|same_held|reflexivity|exact E|exact SX|apply le_n|discriminate|intros []]).
  - (* Popping, Miss *)
    intro R; injection R as <-; (eexists; split; [reflexivity|]); (eapply change_loud; [exact I|constructor; [exact X|reflexivity|reflexivity]|exact IT|same_held|reflexivity|exact Logic.I|exact SX|apply le_n|discriminate|intros []]).
  - (* Popping, Take *)
    destruct (nth_error (queue s) k) as [t|] eqn:K; [|discriminate]. intro R; injection R as <-. eexists; split; [reflexivity|].
    eapply change_loud; [exact I|constructor; [exact X|reflexivity|reflexivity]|exact IT| |reflexivity|now apply (nth_upd_same _ _ None)|cbn [slots]; now rewrite upd_length|apply le_n|discriminate|intros []].
    intros rest P. cbn [move set_queue queue completed created] in *. rewrite <- P. unfold held. cbn [slots at_ pending]. rewrite !app_nil_r.
    destruct (slots_split sl i None (Some t) OX) as (r1 & P1 & P2). rewrite P1, P2. cbn [opt_list app]. rewrite <- Permutation_middle.
    apply (Permutation_app_tail (r1 ++ rest ++ completed s)) with (1 := Permutation_sym (without_perm _ _ _ _ K)).
  - (* Missed *)
    intro R; injection R as <-; (eexists; split; [reflexivity|]); (eapply change_loud; [exact I|constructor; [exact X|reflexivity|reflexivity]|exact IT|same_held|reflexivity|exact Logic.I|exact SX|apply le_n| |intros []]).
    cbn. intros n E. injection E as <-. lia.
  - (* Missed, total first *)
    intro R; injection R as <-; (eexists; split; [reflexivity|]); (eapply change_inv; [exact I|constructor; [exact X|reflexivity|reflexivity]|exact IT|same_held|reflexivity|exact Logic.I|exact SX|apply le_n|discriminate|]).
    intro Q. cbn [move workers finish completed created] in *. specialize (Q _ (in_upd _ _ _ {| at_ := TotalFirst (total s); navigator := nav; slots := sl |} X)). unfold quiet in Q. cbn [at_ finish move] in Q. lia.
  - (* FinishFirst *)
    specialize (I1 _ n XI eq_refl).
    intro R; injection R as <-; (eexists; split; [reflexivity|]); (eapply change_inv; [exact I|constructor; [exact X|reflexivity|reflexivity]|exact IT| | | |exact SX|apply le_n| | ]).
    + intros rest P. destruct (Nat.eqb n (total s)); exact P.
    + destruct (Nat.eqb n (total s)); reflexivity.
    + destruct (Nat.eqb n (total s)); exact Logic.I.
    + destruct (Nat.eqb n (total s)); discriminate.
    + destruct (Nat.eqb_spec n (total s)) as [E|NE].
      * intros _. cbn [move completed created]. lia.
      * intro Q. destruct (Q _ (in_upd _ _ _ _ X)).
  - (* TotalFirst *)
    intro R; injection R as <-; (eexists; split; [reflexivity|]); (eapply change_inv; [exact I|constructor; [exact X|reflexivity|reflexivity]|exact IT| | | |exact SX|apply le_n| | ]).
    + intros rest P. destruct (Nat.eqb (finish s) n); exact P.
    + destruct (Nat.eqb (finish s) n); reflexivity.
    + destruct (Nat.eqb (finish s) n); exact Logic.I.
    + destruct (Nat.eqb (finish s) n); discriminate.
    + destruct (Nat.eqb_spec (finish s) n) as [E|NE].
      * intro Q. cbn [move completed created]. apply IQ. intros y Y. destruct (in_upd_old _ _ _ {| at_ := Stopped; navigator := nav; slots := sl |} _ X Y) as [->|Z]; [unfold quiet; cbn; now symmetry|exact (Q y Z)].
      * intro Q. destruct (Q _ (in_upd _ _ _ _ X)).
  - (* Resuming *)
    rewrite (resumable_ok local s w _ i t I X eq_refl). intro R; injection R as <-; (eexists; split; [reflexivity|]); (eapply change_loud; [exact I|constructor; [exact X|reflexivity|reflexivity]|exact IT|same_held|reflexivity|exact OX|exact SX|apply le_n|discriminate|intros []]).
  - (* Suspend *)
    intro R; injection R as <-; (eexists; split; [reflexivity|]); (eapply change_loud; [exact I|constructor; [exact X|reflexivity|reflexivity]|exact IT|same_held|reflexivity|exact Logic.I|exact SX|apply le_n|discriminate|intros []]).
  - (* Complete *)
    intro R; injection R as <-; (eexists; split; [reflexivity|]); (eapply change_loud; [exact I|constructor; [exact X|reflexivity|reflexivity]|exact IT| | |exact Logic.I|cbn [slots]; now rewrite upd_length|apply le_n|discriminate|intros []]).
    + intros rest P. cbn [move complete queue completed created] in *. rewrite <- P. unfold held. cbn [slots at_ pending]. rewrite !app_nil_r.
      destruct (slots_split sl i (Some t) None OX) as (r1 & P1 & P2). rewrite P1, P2. cbn [opt_list app]. apply Permutation_app_head.
      rewrite (Permutation_app_comm (completed s)). cbn [app]. rewrite !app_assoc. now rewrite <- Permutation_middle.
    + cbn [move complete finish completed]. rewrite app_length. cbn. lia.
  - (* Spawn *)
    intro R; injection R as <-; (eexists; split; [reflexivity|]); (eapply change_loud; [exact I|constructor; [exact X|reflexivity|reflexivity]| | |reflexivity|exact OX|exact SX|apply le_n|discriminate|intros []]).
    + cbn. now rewrite IT.
    + intros rest P. cbn [move counted queue completed created]. rewrite seq_S, <- P. unfold held. cbn [slots at_ pending Nat.add]. rewrite app_nil_r, <- !app_assoc.
      apply Permutation_app_head. apply Permutation_app_head. cbn [app]. rewrite app_assoc. apply Permutation_cons_append.
  - (* the new task is pushed *)
    intro R; injection R as <-; (eexists; split; [reflexivity|]); (eapply change_loud; [exact I|constructor; [exact X|reflexivity|reflexivity]|exact IT| |reflexivity|exact OX|exact SX|apply le_n|discriminate|intros []]).
    intros rest P. cbn [move set_queue queue completed created] in *. rewrite <- P. unfold held. cbn [slots at_ pending]. rewrite app_nil_r, <- !app_assoc. apply Permutation_app_head. cbn [app]. apply Permutation_middle.
  - (* Adding *)
    intro R; injection R as <-; (eexists; split; [reflexivity|]); (eapply change_loud; [exact I|constructor; [exact X|reflexivity|reflexivity]|exact IT|same_held| |exact Logic.I|exact SX| |discriminate|intros []]); cbn; lia.
Qed.
Lemma run_inv : forall local sch s r, 0 < local -> inv local s -> closed sch -> run s sch = Some r -> exists s', r = Ok s' /\ inv local s'.
Proof.
  intros local. induction sch as [|e sch IH]; intros s r P I C R; cbn in R.
  - injection R as <-. now exists s.
  - pose proof (C e (or_introl eq_refl)) as E. destruct e as [w h| |]; [|destruct E|destruct E]. cbn in R.
    destruct (work s w h) as [r1|] eqn:W; [|discriminate R]. assert (NR : h <> Requeue) by (intros ->; exact E).
    destruct (work_inv local s w h r1 P I NR W) as (s1 & -> & I1). apply (IH s1); try assumption. intros e' E'. apply C. now right.
Qed.
