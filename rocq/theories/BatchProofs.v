(** Proofs about batch searches *)
From Verif Require Export BatchSpec.

(** ** Lists *)
Lemma upd_split {A B} (f : A -> list B) l : forall w p, nth_error l w = Some p ->
  exists rest, Permutation (flat_map f l) (f p ++ rest) /\ forall p', Permutation (flat_map f (upd l w p')) (f p' ++ rest).
Proof.
  induction l as [|x l IH]; intros [|w] p H; cbn in H; try discriminate.
  - injection H as ->. exists (flat_map f l). split; reflexivity.
  - destruct (IH w p H) as (rest & P & Q). exists (f x ++ rest). cbn [flat_map upd]. split; [rewrite P|intros p'; rewrite Q]; rewrite !app_assoc; apply Permutation_app_tail; apply Permutation_app_comm.
Qed.
Lemma in_upd {A} (l : list A) : forall w p p', nth_error l w = Some p -> In p' (upd l w p').
Proof. induction l as [|x l IH]; intros [|w] p p' H; cbn in H; try discriminate; cbn [upd]; [now left|right; now apply (IH w p)]. Qed.
Lemma in_upd_old {A} (l : list A) : forall w p p' x, nth_error l w = Some p -> In x l -> x = p \/ In x (upd l w p').
Proof.
  induction l as [|y l IH]; intros [|w] p p' x H Hx; cbn in H; try discriminate; cbn [upd].
  - injection H as ->. destruct Hx as [->|Hx]; [now left|]. right. now right.
  - destruct Hx as [->|Hx]; [right; now left|]. destruct (IH w p p' x H Hx) as [->|]; [now left|right; now right].
Qed.
Lemma in_upd_inv {A} (l : list A) : forall w p' x, In x (upd l w p') -> x = p' \/ In x l.
Proof.
  induction l as [|y l IH]; intros [|w] p' x Hx; cbn [upd] in Hx; try (destruct Hx).
  - now left.
  - right. now right.
  - subst. right. now left.
  - destruct (IH w p' x H) as [->|]; [now left|right; now right].
Qed.
Lemma nth_upd_same {A} (l : list A) w p p' : nth_error l w = Some p -> nth_error (upd l w p') w = Some p'.
Proof. intros H. rewrite nth_error_upd; [now rewrite Nat.eqb_refl|]. apply nth_error_Some. congruence. Qed.
Lemma nth_upd_other {A} (l : list A) w v p p' : nth_error l w = Some p -> v <> w -> nth_error (upd l w p') v = nth_error l v.
Proof. intros H NE. rewrite nth_error_upd; [|apply nth_error_Some; congruence]. destruct (Nat.eqb_spec w v); [congruence|reflexivity]. Qed.

Section Call.
Variable c : call.
Variables l d : list N.
Hypothesis OK : call_ok c l d.
Notation n := (c_queries c).
Notation k := (c_top_k c).
Notation pos q j := (q * k + j).

(** A slot is right. *)
Definition right_label (s : state) (q j : nat) : Prop := nth_error (labels s) (pos q j) = slot fst c l q j.
Definition right_distance (s : state) (q j : nat) : Prop := nth_error (distances s) (pos q j) = slot snd c d q j.
Definition pc_ok (s : state) (p : pc) : Prop :=
  match p with
  | Loop | Fetch => True
  | Searching i => i < n
  | WriteLabel i h j => i < n /\ exists h0, c_search c i = Hits h0 /\ h = firstn k h0 /\ j <= length h /\ forall j', j' < j -> right_label s i j'
  | WriteDistance i h j => i < n /\ c_distances c = true /\ (forall j', j' < k -> right_label s i j') /\ exists h0, c_search c i = Hits h0 /\ h = firstn k h0 /\ j <= length h /\ forall j', j' < j -> right_distance s i j'
  | Caught e | Locked e => c_variant c = Collection /\ exists q, q < n /\ In q (searched s) /\ c_search c q = Raises e
  | Storing | Unlocking => first_error s <> None
  | Finished => (N.of_nat n <= next s)%N \/ first_error s <> None \/ terminated s = true
  end.
Definition holds (p : pc) (q : nat) : Prop := match p with Searching i | WriteLabel i _ _ | WriteDistance i _ _ => i = q | _ => False end.
Definition catching (p : pc) : Prop := match p with Caught _ | Locked _ => True | _ => False end.
Definition critical (p : pc) : Prop := match p with Locked _ | Storing | Unlocking => True | _ => False end.
Definition pending (p : pc) : list nat := match p with Searching i => [i] | _ => [] end.
Definition fin (p : pc) : list unit := match p with Finished => [tt] | _ => [] end.
Definition done (s : state) (q : nat) : Prop := (exists h, c_search c q = Hits h) /\ forall j, j < k -> right_label s q j /\ (c_distances c = true -> right_distance s q j).
Definition raised (s : state) (q : nat) : Prop := (exists e, c_search c q = Raises e) /\ (first_error s <> None \/ terminated s = true \/ exists p, In p (threads s) /\ catching p).
Record Inv (s : state) : Prop := {
  i_label : sound fst c l (labels s);
  i_distance : length (distances s) = length d /\ (c_distances c = true -> sound snd c d (distances s)) /\ (c_distances c = false -> distances s = d);
  i_threads : Forall (pc_ok s) (threads s);
  i_workers : length (threads s) = workers c;
  i_next : (next s <= N.of_nat n + N.of_nat (length (flat_map fin (threads s))))%N;
  i_claims : forall q, q < n -> (N.of_nat q < next s)%N -> done s q \/ (exists p, In p (threads s) /\ holds p q) \/ raised s q;
  i_error : forall e, first_error s = Some e -> c_variant c = Collection /\ exists q, q < n /\ In q (searched s) /\ c_search c q = Raises e;
  i_aborted : aborted s = true -> first_error s <> None;
  i_mutex : forall w, mutex s = Some w <-> exists p, nth_error (threads s) w = Some p /\ critical p;
  i_perm : Permutation (searched s ++ flat_map pending (threads s)) (seq 0 (Nat.min (N.to_nat (next s)) n));
  i_terminated : terminated s = true -> c_variant c = DiskANN /\ exists q, q < n /\ In q (searched s) /\ exists e, c_search c q = Raises e;
}.
Record grows (s s' : state) : Prop := {
  g_next : (next s <= next s')%N;
  g_error : first_error s <> None -> first_error s' <> None;
  g_searched : incl (searched s) (searched s');
  g_label : forall q j, q < n -> j < k -> right_label s q j -> right_label s' q j;
  g_distance : forall q j, q < n -> j < k -> right_distance s q j -> right_distance s' q j;
  g_terminated : terminated s = true -> terminated s' = true;
}.
Lemma pc_grows s s' p : grows s s' -> pc_ok s p -> pc_ok s' p.
Proof.
  intros G H. destruct p; cbn [pc_ok] in *; auto.
  - destruct H as (A & h0 & B & C & D & E). split; [exact A|]. exists h0. split; [exact B|]. split; [exact C|]. split; [exact D|]. intros j' Hj. apply (g_label _ _ G); auto. subst hits. rewrite firstn_length in D. lia.
  - destruct H as (A & A1 & A2 & h0 & B & C & D & E). split; [exact A|]. split; [exact A1|]. split; [intros j' Hj; apply (g_label _ _ G); auto|]. exists h0. split; [exact B|]. split; [exact C|]. split; [exact D|]. intros j' Hj. apply (g_distance _ _ G); auto. subst hits. rewrite firstn_length in D. lia.
  - destruct H as (A & q & B & C & D). split; [exact A|]. exists q. split; [exact B|]. split; [now apply (g_searched _ _ G)|exact D].
  - destruct H as (A & q & B & C & D). split; [exact A|]. exists q. split; [exact B|]. split; [now apply (g_searched _ _ G)|exact D].
  - now apply (g_error _ _ G).
  - now apply (g_error _ _ G).
  - destruct H as [H|[H|H]]; [left; pose proof (g_next _ _ G); lia|right; left; now apply (g_error _ _ G)|right; right; now apply (g_terminated _ _ G)].
Qed.
Lemma done_grows s s' q : grows s s' -> q < n -> done s q -> done s' q.
Proof. intros G Q [EX D]. split; [exact EX|]. intros j Hj. destruct (D j Hj) as [A B]. split; [now apply (g_label _ _ G)|intros CD; apply (g_distance _ _ G); auto]. Qed.

(** A step of thread [w] from [p] to [p'] *)
Lemma inv_step s s' w p p' : Inv s -> nth_error (threads s) w = Some p -> threads s' = upd (threads s) w p' -> grows s s' -> pc_ok s' p' ->
  sound fst c l (labels s') -> (length (distances s') = length d /\ (c_distances c = true -> sound snd c d (distances s')) /\ (c_distances c = false -> distances s' = d)) ->
  (next s' <= N.of_nat n \/ next s' = next s /\ p <> Finished \/ next s' = next s + 1 /\ p <> Finished /\ p' = Finished)%N ->
  (forall q, q < n -> (N.of_nat q < next s')%N -> (N.of_nat q < next s)%N \/ holds p' q) ->
  (forall q, q < n -> holds p q -> done s' q \/ holds p' q \/ raised s' q) ->
  (catching p -> first_error s' <> None \/ catching p') ->
  (first_error s' = first_error s \/ exists e, first_error s' = Some e /\ c_variant c = Collection /\ exists q, q < n /\ In q (searched s') /\ c_search c q = Raises e) ->
  (aborted s' = aborted s \/ first_error s' <> None) ->
  (mutex s' = mutex s /\ (critical p <-> critical p') \/ mutex s = None /\ mutex s' = Some w /\ critical p' \/ mutex s' = None /\ critical p /\ ~ critical p') ->
  (forall rest, Permutation (searched s ++ pending p ++ rest) (seq 0 (Nat.min (N.to_nat (next s)) n)) -> Permutation (searched s' ++ pending p' ++ rest) (seq 0 (Nat.min (N.to_nat (next s')) n))) ->
  (terminated s' = true -> terminated s = true \/ c_variant c = DiskANN /\ exists q, q < n /\ In q (searched s') /\ exists e, c_search c q = Raises e) -> Inv s'.
Proof.
  intros I NT TH G PO SL SD NX CL HO CA ER AB MU PE TE. destruct I as [IL ID IT IW IN IC IE IA IM IP ITE]. constructor.
  - exact SL.
  - exact SD.
  - rewrite TH, Forall_forall. rewrite Forall_forall in IT. intros x Hx. apply in_upd_inv in Hx as [->|Hx]; [exact PO|]. apply (pc_grows s); auto.
  - rewrite TH, upd_length. exact IW.
  - rewrite TH. destruct (upd_split fin (threads s) w p NT) as (rest & P & Q). specialize (Q p'). apply Permutation_length in P, Q. rewrite app_length in P, Q. rewrite Q. rewrite P in IN.
    destruct NX as [NX|[[NX NF]|[NX [NF ->]]]]; [lia|..]; assert (fin p = []) by (destruct p; try reflexivity; congruence); rewrite H in *; cbn [length fin] in *; lia.
  - intros q Q1 Q2. destruct (CL q Q1 Q2) as [Q3|Q3]; [|right; left; exists p'; split; [rewrite TH; eapply in_upd; exact NT|exact Q3]]. destruct (IC q Q1 Q3) as [D|[(x & Hx & HX)|(EX & R)]].
    + left. now apply (done_grows s).
    + rewrite TH. destruct (in_upd_old _ _ _ p' x NT Hx) as [->|Hx']; [|right; left; eauto]. destruct (HO q Q1 HX) as [?|[?|?]]; [now left| |now right; right]. right; left. exists p'. split; [eapply in_upd; exact NT|assumption].
    + right. right. split; [exact EX|]. destruct R as [R|[R|(x & Hx & HX)]]; [left; now apply (g_error _ _ G)|right; left; now apply (g_terminated _ _ G)|]. rewrite TH. destruct (in_upd_old _ _ _ p' x NT Hx) as [->|Hx']; [|right; right; eauto].
      destruct (CA HX) as [?|?]; [now left|]. right. right. exists p'. split; [eapply in_upd; exact NT|assumption].
  - intros e E. destruct ER as [EE|(e' & EE & EV & ER)]; [|rewrite EE in E; injection E as <-; auto]. rewrite EE in E. destruct (IE e E) as (V & q & A & B & C). split; [exact V|]. exists q. split; [exact A|]. split; [now apply (g_searched _ _ G)|exact C].
  - intros E. destruct AB as [AB|AB]; [|exact AB]. rewrite AB in E. apply (g_error _ _ G). now apply IA.
  - intros v. rewrite TH. assert (OT : v <> w -> nth_error (upd (threads s) w p') v = nth_error (threads s) v) by (intros NE; now apply (nth_upd_other _ _ _ p)). assert (SA : nth_error (upd (threads s) w p') w = Some p') by now apply (nth_upd_same _ _ p).
    assert (CW : critical p <-> mutex s = Some w) by (rewrite IM; split; [eauto|intros (x & Hx & ?); congruence]).
    destruct MU as [[-> MU]|[(M1 & -> & MU)|(-> & MU & MU')]].
    + rewrite (IM v). destruct (Nat.eq_dec v w) as [->|NE]; [|now rewrite OT]. rewrite NT, SA. split; intros (x & [= <-] & C); eexists; (split; [reflexivity|now apply MU]).
    + split; [intros [= <-]; eauto|]. intros (x & Hx & C). f_equal. destruct (Nat.eq_dec v w) as [->|NE]; [reflexivity|]. rewrite OT in Hx by exact NE. assert (mutex s = Some v) by (apply IM; eauto). congruence.
    + split; [discriminate|]. intros (x & Hx & C). exfalso. destruct (Nat.eq_dec v w) as [->|NE]; [congruence|]. rewrite OT in Hx by exact NE. assert (mutex s = Some v) by (apply IM; eauto). apply CW in MU. congruence.
  - rewrite TH. destruct (upd_split pending (threads s) w p NT) as (rest & P & Q). rewrite (Q p'). apply PE. rewrite <- P. exact IP.
  - intros E. destruct (TE E) as [E'|?]; [|assumption]. destruct (ITE E') as (V & q & A & B & C). split; [exact V|]. exists q. split; [exact A|]. split; [now apply (g_searched _ _ G)|exact C].
Qed.

(** Writing a right value *)
Lemma pos_inj q j q' j' : j < k -> j' < k -> pos q j = pos q' j' -> q = q' /\ j = j'.
Proof.
  intros J J' E. assert (q = q'). { assert (H : pos q j / k = pos q' j' / k) by congruence. rewrite !Nat.div_add_l in H by lia. rewrite !Nat.div_small in H by lia. lia. } subst q'. split; [reflexivity|lia].
Qed.
Lemma pos_bound q j : q < n -> j < k -> pos q j < n * k.
Proof. intros Q J. assert (S q * k <= n * k) by (apply Nat.mul_le_mono_r; lia). lia. Qed.
Lemma nth_firstn_some (h0 : list (N * N)) j x : nth_error (firstn k h0) j = Some x -> j < k /\ nth_error h0 j = Some x.
Proof.
  intros H. assert (j < length (firstn k h0)) by (apply nth_error_Some; congruence). rewrite firstn_length in H0. split; [lia|]. rewrite <- H. clear H. revert j H0. generalize k as m. induction h0 as [|y h0 IH]; intros [|m] [|j] H; cbn in *; try reflexivity; try lia. symmetry. rewrite <- (IH m j); [reflexivity|lia].
Qed.
Lemma put_right (f : N * N -> N) (initial buf : list N) i h0 j x : length initial = n * k -> sound f c initial buf -> i < n -> c_search c i = Hits h0 -> nth_error h0 j = Some x -> j < k ->
  exists buf', aput buf (N.of_nat (pos i j)) (f x) = Ok buf' /\ sound f c initial buf' /\ nth_error buf' (pos i j) = slot f c initial i j
    /\ forall q j', q < n -> j' < k -> nth_error buf (pos q j') = slot f c initial q j' -> nth_error buf' (pos q j') = slot f c initial q j'.
Proof.
  intros LI [LB SO] Hi S HJ Hj. pose proof (pos_bound i j Hi Hj) as B. exists (upd buf (pos i j) (f x)).
  assert (NU : forall p, nth_error (upd buf (pos i j) (f x)) p = if Nat.eqb (pos i j) p then Some (f x) else nth_error buf p) by (intros p; apply nth_error_upd; lia).
  assert (SL : slot f c initial i j = Some (f x)) by (unfold slot; now rewrite S, HJ).
  assert (KE : forall q j', j' < k -> pos i j = pos q j' -> slot f c initial q j' = Some (f x)) by (intros q j' J' E; apply pos_inj in E; auto; destruct E as [<- <-]; exact SL).
  split; [rewrite aput_ok by lia; now rewrite Nat2N.id|]. split; [split; [rewrite upd_length; exact LB|]|split].
  - intros q j' Q J'. rewrite NU. destruct (Nat.eqb_spec (pos i j) (pos q j')) as [E|_]; [right; symmetry; now apply KE|now apply SO].
  - rewrite NU, Nat.eqb_refl. now symmetry.
  - intros q j' Q J' H. rewrite NU. destruct (Nat.eqb_spec (pos i j) (pos q j')) as [E|_]; [symmetry; now apply KE|exact H].
Qed.
(** After the hits, the other slots are as they were. *)
Lemma rest_right (f : N * N -> N) (initial buf : list N) i h0 j : sound f c initial buf -> i < n -> c_search c i = Hits h0 -> (forall j', j' < length (firstn k h0) -> nth_error buf (pos i j') = slot f c initial i j') ->
  j < k -> nth_error buf (pos i j) = slot f c initial i j.
Proof.
  intros [LB SO] Hi S H Hj. destruct (Nat.lt_ge_cases j (length (firstn k h0))) as [L|G]; [now apply H|]. rewrite firstn_length in G. destruct (SO i j Hi Hj) as [E|E]; [|exact E]. rewrite E. unfold slot. rewrite S. assert (HN : nth_error h0 j = None) by (apply nth_error_None; lia). now rewrite HN.
Qed.

Lemma workers_le : workers c <= c_threads c.
Proof. unfold workers. destruct (c_variant c); lia. Qed.
Ltac nogrow := lazymatch goal with |- grows _ _ => constructor; cbn; auto using incl_refl; try lia; try congruence end.
Lemma seq_min_S m : (m < n) -> Permutation (seq 0 (Nat.min (S m) n)) (m :: seq 0 (Nat.min m n)).
Proof. intros L. rewrite !Nat.min_l by lia. rewrite seq_S. cbn [plus]. rewrite Permutation_app_comm. reflexivity. Qed.
Lemma step_inv s w stale r : Inv s -> step c s w stale = Some r -> exists s', r = Ok s' /\ Inv s'.
Proof.
  intros I H. unfold step in H. destruct (terminated s) eqn:T; [discriminate H|]. destruct (nth_error (threads s) w) as [p|] eqn:NT; [|discriminate H].
  assert (PO : pc_ok s p) by (pose proof (i_threads _ I) as F; rewrite Forall_forall in F; apply F; eapply nth_error_In; exact NT).
  pose proof (i_label _ I) as SL. pose proof (i_distance _ I) as SD.
  assert (LA : forall p', p' = Loop \/ p' = Fetch -> pc_ok s p') by (intros p' [-> | ->]; exact Logic.I).
  destruct p; try discriminate H.
  - injection H as <-. eexists. split; [reflexivity|]. destruct (aborted s && negb stale) eqn:AB.
    + apply andb_prop in AB. destruct AB as [AB _]. eapply (inv_step s _ w Loop Finished I NT); cbn; try reflexivity; auto; try tauto; try nogrow.
      * right. left. now apply (i_aborted _ I).
      * right. left. split; [reflexivity|discriminate].
    + eapply (inv_step s _ w Loop Fetch I NT); cbn; try reflexivity; auto; try tauto; try nogrow. right. left. split; [reflexivity|discriminate].
  - injection H as <-. eexists. split; [reflexivity|].
    assert (NW : (next s + 1 < modulus (c_variant c))%N).
    { pose proof (i_next _ I) as IN. pose proof (co_counter _ _ _ OK) as CC. assert (FL : length (flat_map fin (threads s)) < workers c).
      { destruct (upd_split fin (threads s) w Fetch NT) as (rest & P & Q). specialize (Q Finished). apply Permutation_length in P, Q. cbn [fin app length] in P, Q.
        assert (LE : forall t, length (flat_map fin t) <= length t) by (induction t as [|x t IH]; cbn [flat_map length]; [lia|]; rewrite app_length; destruct x; cbn [fin length]; lia).
        specialize (LE (upd (threads s) w Finished)). rewrite upd_length, (i_workers _ I) in LE. lia. }
      pose proof workers_le. lia. }
    rewrite N.mod_small by exact NW. destruct (N.leb_spec (N.of_nat n) (next s)) as [GE|LT].
    + eapply (inv_step s _ w Fetch Finished I NT); cbn; try reflexivity; auto; try tauto; try nogrow.
      * left. lia.
      * right. right. split; [reflexivity|]. split; [discriminate|reflexivity].
      * intros q Q1 Q2. left. lia.
      * intros rest. rewrite !Nat.min_r by lia. auto.
    + eapply (inv_step s _ w Fetch (Searching (N.to_nat (next s))) I NT); cbn; try reflexivity; auto; try tauto; try nogrow.
      * lia.
      * left. lia.
      * intros q Q1 Q2. destruct (N.ltb_spec (N.of_nat q) (next s)); [now left|right; lia].
      * intros rest P. replace (N.to_nat (next s + 1)) with (S (N.to_nat (next s))) by lia. rewrite seq_min_S by lia. symmetry. apply Permutation_cons_app. symmetry. exact P.
  - cbn [pc_ok] in PO. injection H as <-. destruct (c_search c i) as [h|e] eqn:S.
    + eexists. split; [reflexivity|]. eapply (inv_step s _ w (Searching i) (WriteLabel i (firstn k h) 0) I NT); cbn; try reflexivity; auto; try tauto; try nogrow.
      * apply incl_appl, incl_refl.
      * split; [exact PO|]. exists h. split; [exact S|]. split; [reflexivity|]. split; [lia|]. intros j' J. lia.
      * right. left. split; [reflexivity|discriminate].
      * intros rest P. rewrite <- app_assoc. exact P.
    + destruct (c_variant c) eqn:V.
      * eexists. split; [reflexivity|]. eapply (inv_step s _ w (Searching i) (Caught e) I NT); cbn; try reflexivity; auto; try tauto; try nogrow.
        -- apply incl_appl, incl_refl.
        -- split; [exact V|]. exists i. split; [exact PO|]. split; [apply in_or_app; right; now left|exact S].
        -- right. left. split; [reflexivity|discriminate].
        -- intros q Q <-. right. right. split; [eauto|]. right. right. exists (Caught e). split; [eapply in_upd; exact NT|exact Logic.I].
        -- intros rest P. rewrite <- app_assoc. exact P.
      * eexists. split; [reflexivity|].
        eapply (inv_step s _ w (Searching i) Finished I NT); cbn; try reflexivity; auto; try tauto; try nogrow.
        -- apply incl_appl, incl_refl.
        -- right. left. split; [reflexivity|discriminate].
        -- intros q Q <-. right. right. split; [eauto|]. right. now left.
        -- intros rest P. rewrite <- app_assoc. exact P.
        -- intros _. right. split; [exact V|]. exists i. split; [exact PO|]. split; [apply in_or_app; right; now left|eauto].
  - destruct PO as (Hi & h0 & S & EH & JL & RI). destruct (nth_error hits j) as [x|] eqn:NJ.
    + pose proof NJ as NJ'. rewrite EH in NJ'. apply nth_firstn_some in NJ'. destruct NJ' as [JK NJ'].
      destruct (put_right fst l (labels s) i h0 j x (co_labels _ _ _ OK) SL Hi S NJ' JK) as (b & E & SB & RB & KB). rewrite E in H. cbn [bind] in H. injection H as <-. eexists. split; [reflexivity|].
      eapply (inv_step s _ w (WriteLabel i hits j) (WriteLabel i hits (Datatypes.S j)) I NT); cbn; try reflexivity; auto; try tauto; try nogrow.
      * split; [exact Hi|]. exists h0. split; [exact S|]. split; [exact EH|]. assert (j < length hits) by (apply nth_error_Some; congruence). split; [lia|]. intros j' J. destruct (Nat.eq_dec j' j) as [->|NE]; [exact RB|]. apply KB; [exact Hi|lia|apply RI; lia].
      * right. left. split; [reflexivity|discriminate].
    + assert (LE : j = length hits) by (apply nth_error_None in NJ; lia). subst j.
      assert (AL : forall j', j' < k -> right_label s i j') by (intros j' J; unfold right_label; apply (rest_right fst l _ i h0); auto; rewrite <- EH; exact RI).
      injection H as <-. eexists. split; [reflexivity|]. destruct (c_distances c) eqn:CD.
      * eapply (inv_step s _ w (WriteLabel i hits (length hits)) (WriteDistance i hits 0) I NT); cbn; try reflexivity; auto; try tauto; try nogrow.
        -- split; [exact Hi|]. split; [exact CD|]. split; [exact AL|]. exists h0. split; [exact S|]. split; [exact EH|]. split; [lia|]. intros j' J. lia.
        -- exact (i_distance _ I).
        -- right. left. split; [reflexivity|discriminate].
      * eapply (inv_step s _ w (WriteLabel i hits (length hits)) (again (c_variant c)) I NT); cbn; try reflexivity; auto; try tauto; try nogrow.
        -- destruct (c_variant c); exact Logic.I.
        -- exact (i_distance _ I).
        -- right. left. split; [reflexivity|discriminate].
        -- intros q Q <-. left. split; [eauto|]. intros j' J. split; [now apply AL|]. rewrite CD. discriminate.
        -- left. split; [reflexivity|]. destruct (c_variant c); tauto.
        -- intros rest P. destruct (c_variant c); exact P.
  - destruct PO as (Hi & CD & AL & h0 & S & EH & JL & RI). destruct SD as (DL & SD & _). specialize (SD CD). destruct (nth_error hits j) as [x|] eqn:NJ.
    + pose proof NJ as NJ'. rewrite EH in NJ'. apply nth_firstn_some in NJ'. destruct NJ' as [JK NJ'].
      destruct (put_right snd d (distances s) i h0 j x (co_distances _ _ _ OK CD) SD Hi S NJ' JK) as (b & E & SB & RB & KB). rewrite E in H. cbn [bind] in H. injection H as <-. eexists. split; [reflexivity|].
      eapply (inv_step s _ w (WriteDistance i hits j) (WriteDistance i hits (Datatypes.S j)) I NT); cbn; try reflexivity; auto; try tauto; try nogrow.
      * split; [exact Hi|]. split; [exact CD|]. split; [exact AL|]. exists h0. split; [exact S|]. split; [exact EH|]. assert (j < length hits) by (apply nth_error_Some; congruence). split; [lia|]. intros j' J. destruct (Nat.eq_dec j' j) as [->|NE]; [exact RB|]. apply KB; [exact Hi|lia|apply RI; lia].
      * split; [apply SB|]. split; [intros _; exact SB|congruence].
      * right. left. split; [reflexivity|discriminate].
    + assert (LE : j = length hits) by (apply nth_error_None in NJ; lia). subst j.
      injection H as <-. eexists. split; [reflexivity|].
      eapply (inv_step s _ w (WriteDistance i hits (length hits)) (again (c_variant c)) I NT); cbn; try reflexivity; auto; try tauto; try nogrow.
      * destruct (c_variant c); exact Logic.I.
      * split; [exact DL|]. split; [intros _; exact SD|congruence].
      * right. left. split; [reflexivity|discriminate].
      * intros q Q <-. left. split; [eauto|]. intros j' J. split; [now apply AL|]. intros _. unfold right_distance. apply (rest_right snd d _ i h0); auto. rewrite <- EH. exact RI.
      * left. split; [reflexivity|]. destruct (c_variant c); tauto.
      * intros rest P. destruct (c_variant c); exact P.
  - destruct (mutex s) as [m|] eqn:M; [discriminate H|]. injection H as <-. eexists. split; [reflexivity|]. eapply (inv_step s _ w (Caught e) (Locked e) I NT); cbn; try reflexivity; auto; try tauto; try nogrow.
    right. left. split; [reflexivity|discriminate].
  - injection H as <-. eexists. split; [reflexivity|]. destruct PO as (V & q & A & B & C). destruct (first_error s) as [e0|] eqn:FE.
    + eapply (inv_step s _ w (Locked e) Storing I NT); cbn; try reflexivity; auto; try tauto; try nogrow; try (right; left; split; [reflexivity|discriminate]); rewrite ?FE; try congruence. intros _. left. discriminate.
    + eapply (inv_step s _ w (Locked e) Storing I NT); cbn; try reflexivity; auto; try tauto; try nogrow; try congruence.
      * right. left. split; [reflexivity|discriminate].
      * intros _. left. discriminate.
      * right. exists e. split; [reflexivity|]. split; [exact V|]. eauto.
  - injection H as <-. eexists. split; [reflexivity|]. eapply (inv_step s _ w Storing Unlocking I NT); cbn; try reflexivity; auto; try tauto; try nogrow. right. left. split; [reflexivity|discriminate].
  - injection H as <-. eexists. split; [reflexivity|]. eapply (inv_step s _ w Unlocking Finished I NT); cbn; try reflexivity; auto; try tauto; try nogrow. right. left. split; [reflexivity|discriminate].
Qed.
Lemma start_inv : Inv (start c l d).
Proof.
  assert (R : forall B (f : pc -> list B) p m, f p = [] -> flat_map f (repeat p m) = []) by (intros B f p m E; induction m as [|m IH]; cbn [repeat flat_map]; [reflexivity|now rewrite E, IH]).
  assert (A : forall p, In p (threads (start c l d)) -> p = again (c_variant c)) by (intros p; cbn; apply repeat_spec).
  constructor; cbn [start labels distances threads next first_error aborted mutex searched terminated].
  - split; [reflexivity|]. intros q j _ _. now left.
  - split; [reflexivity|]. split; [intros _; split; [reflexivity|]; intros q j _ _; now left|reflexivity].
  - apply Forall_forall. intros p Hp. apply A in Hp. subst p. destruct (c_variant c); exact Logic.I.
  - apply repeat_length.
  - lia.
  - intros q _ Q. lia.
  - discriminate.
  - discriminate.
  - intros w. split; [discriminate|]. intros (p & Hp & C). apply nth_error_In in Hp. apply A in Hp. subst p. destruct (c_variant c); destruct C.
  - rewrite R by (destruct (c_variant c); reflexivity). reflexivity.
  - discriminate.
Qed.
Lemma run_inv schedule : forall s r, Inv s -> run c s schedule = Some r -> exists s', r = Ok s' /\ Inv s'.
Proof.
  induction schedule as [|[w stale] rest IH]; intros s r I H; cbn [run] in H; [injection H as <-; eauto|]. destruct (step c s w stale) as [r1|] eqn:E; [|discriminate H]. destruct (step_inv s w stale r1 I E) as (s1 & -> & I1). exact (IH s1 r I1 H).
Qed.
(** At the end *)
Lemma joined_all s : joined s = true -> forall p, In p (threads s) -> p = Finished.
Proof. unfold joined. rewrite forallb_forall. intros H p Hp. specialize (H p Hp). destruct p; try discriminate H. reflexivity. Qed.
Lemma workers_pos : 0 < workers c.
Proof. pose proof (co_threads _ _ _ OK). pose proof (co_queries _ _ _ OK). unfold workers. destruct (c_variant c); lia. Qed.
Lemma end_clean s : Inv s -> joined s = true -> first_error s = None -> terminated s = false -> (N.of_nat n <= next s)%N /\ (forall q, q < n -> done s q).
Proof.
  intros I J FE T. pose proof (joined_all s J) as A.
  assert (NX : (N.of_nat n <= next s)%N).
  { pose proof (i_workers _ I) as W. pose proof workers_pos. destruct (threads s) as [|p t] eqn:TH; [cbn in W; lia|]. pose proof (A p ltac:(now left)) as ->. pose proof (i_threads _ I) as F. rewrite TH in F. inversion F as [|? ? P _]; subst. cbn [pc_ok] in P. destruct P as [P|[P|P]]; [exact P|congruence|congruence]. }
  split; [exact NX|]. intros q Q. destruct (i_claims _ I q Q ltac:(lia)) as [D|[(p & Hp & HH)|(_ & [R|[R|(p & Hp & C)]])]]; [exact D|apply A in Hp; subst p; destruct HH|congruence|congruence|apply A in Hp; subst p; destruct C].
Qed.
Lemma end_searched s : Inv s -> joined s = true -> (N.of_nat n <= next s)%N -> Permutation (searched s) (seq 0 n).
Proof.
  intros I J NX. pose proof (i_perm _ I) as P. rewrite Nat.min_r in P by lia. assert (E : flat_map pending (threads s) = []).
  { pose proof (joined_all s J) as A. clear - A. induction (threads s) as [|p t IH]; [reflexivity|]. cbn [flat_map]. rewrite (A p) by now left. cbn [pending app]. apply IH. intros x Hx. apply A. now right. }
  rewrite E, app_nil_r in P. exact P.
Qed.
Lemma done_filled s : Inv s -> (forall q, q < n -> done s q) -> filled fst c l (labels s) /\ (c_distances c = true -> filled snd c d (distances s)).
Proof.
  intros I D. split.
  - split; [apply (i_label _ I)|]. intros q j Q J. apply (proj2 (D q Q) j J).
  - intros CD. split; [exact (proj1 (i_distance _ I))|]. intros q j Q J. destruct (proj2 (D q Q) j J) as [_ B]. exact (B CD).
Qed.

(** ** Every schedule ends *)
Lemma progress s : Inv s -> terminated s = false -> joined s = false -> exists w stale, step c s w stale <> None.
Proof.
  intros I T J. assert (X : exists p, In p (threads s) /\ p <> Finished).
  { unfold joined in J. clear - J. induction (threads s) as [|p t IH]; cbn [forallb] in J; [discriminate J|]. destruct p; try (eexists; split; [now left|discriminate]). destruct (IH J) as (p & Hp & NF). exists p. split; [now right|exact NF]. }
  destruct X as (p & Hp & NF). apply In_nth_error in Hp. destruct Hp as [w Hw]. destruct p; try congruence.
  all: try (exists w, true; unfold step; rewrite T, Hw; discriminate).
  destruct (mutex s) as [v|] eqn:M; [|exists w, true; unfold step; rewrite T, Hw, M; discriminate]. destruct (proj1 (i_mutex _ I v) M) as (p & Hp & C). exists v, true. unfold step. rewrite T, Hp. destruct p; try destruct C; discriminate.
Qed.
Definition weight (p : pc) : nat :=
  match p with
  | Finished => 0 | Unlocking => 1 | Storing => 2 | Locked _ => 3 | Caught _ => 4 | Fetch => 1 | Loop => 2
  | WriteDistance _ h j => 3 + (length h - j) | WriteLabel _ h j => 5 + length h + (length h - j) | Searching _ => 6 + 2 * k
  end.
Definition measure (s : state) : nat := (6 + 2 * k) * (n - N.to_nat (next s)) + list_sum (map weight (threads s)).
Lemma sum_upd t : forall w p p', nth_error t w = Some p -> list_sum (map weight (upd t w p')) + weight p = list_sum (map weight t) + weight p'.
Proof.
  induction t as [|x t IH]; intros [|w] p p' H; cbn in H; try discriminate.
  - injection H as ->. unfold list_sum. cbn [upd map fold_right]. lia.
  - specialize (IH w p p' H). unfold list_sum in *. cbn [upd map fold_right]. lia.
Qed.
Lemma again_weight v : weight (again v) <= 2.
Proof. destruct v; cbn; lia. Qed.
Lemma step_measure s w stale s' : Inv s -> step c s w stale = Some (Ok s') -> measure s' < measure s.
Proof.
  intros I H. unfold step in H. destruct (terminated s) eqn:T; [discriminate H|]. destruct (nth_error (threads s) w) as [p|] eqn:NT; [|discriminate H]. unfold measure.
  assert (SU : forall p', list_sum (map weight (upd (threads s) w p')) + weight p = list_sum (map weight (threads s)) + weight p') by (intros p'; now apply sum_upd).
  pose proof (again_weight (c_variant c)) as AW.
  destruct p; try discriminate H; cbn [weight] in SU.
  - injection H as <-. cbn [set_thread next threads]. specialize (SU (if aborted s && negb stale then Finished else Fetch)). destruct (aborted s && negb stale); cbn [weight] in SU; lia.
  - injection H as <-. cbn [set_thread set_next next threads].
    assert (NW : (next s + 1 < modulus (c_variant c))%N).
    { pose proof (i_next _ I) as IN. pose proof (co_counter _ _ _ OK) as CC. assert (FL : length (flat_map fin (threads s)) < workers c).
      { destruct (upd_split fin (threads s) w Fetch NT) as (rest & P & Q). specialize (Q Finished). apply Permutation_length in P, Q. cbn [fin app length] in P, Q.
        assert (LE : forall t, length (flat_map fin t) <= length t) by (induction t as [|x t IH]; cbn [flat_map length]; [lia|]; rewrite app_length; destruct x; cbn [fin length]; lia).
        specialize (LE (upd (threads s) w Finished)). rewrite upd_length, (i_workers _ I) in LE. lia. }
      pose proof workers_le. lia. }
    rewrite N.mod_small by exact NW. destruct (N.leb_spec (N.of_nat n) (next s)) as [GE|LT].
    + specialize (SU Finished). cbn [weight] in SU. assert (E1 : n - N.to_nat (next s) = 0) by lia. assert (E2 : n - N.to_nat (next s + 1) = 0) by lia. rewrite E1, E2, !Nat.mul_0_r. lia.
    + specialize (SU (Searching (N.to_nat (next s)))). cbn [weight] in SU. assert (E1 : n - N.to_nat (next s) = S (n - N.to_nat (next s + 1))) by lia. rewrite E1, Nat.mul_succ_r. lia.
  - injection H as <-. destruct (c_search c i) as [h|e].
    + cbn [set_thread add_searched next threads]. specialize (SU (WriteLabel i (firstn k h) 0)). cbn [weight] in SU. rewrite firstn_length in SU. lia.
    + destruct (c_variant c); cbn [set_thread set_terminated add_searched next threads]; [specialize (SU (Caught e))|specialize (SU Finished)]; cbn [weight] in SU; lia.
  - destruct (nth_error hits j) as [x|] eqn:NJ.
    + destruct (aput (labels s) (N.of_nat (pos i j)) (fst x)) as [b| | |]; cbn [bind] in H; try discriminate H. injection H as <-. cbn [set_thread set_labels next threads]. specialize (SU (WriteLabel i hits (S j))). cbn [weight] in SU.
      assert (j < length hits) by (apply nth_error_Some; congruence). lia.
    + injection H as <-. cbn [set_thread next threads]. specialize (SU (if c_distances c then WriteDistance i hits 0 else again (c_variant c))). destruct (c_distances c); cbn [weight] in SU; lia.
  - destruct (nth_error hits j) as [x|] eqn:NJ.
    + destruct (aput (distances s) (N.of_nat (pos i j)) (snd x)) as [b| | |]; cbn [bind] in H; try discriminate H. injection H as <-. cbn [set_thread set_distances next threads]. specialize (SU (WriteDistance i hits (S j))). cbn [weight] in SU.
      assert (j < length hits) by (apply nth_error_Some; congruence). lia.
    + injection H as <-. cbn [set_thread next threads]. specialize (SU (again (c_variant c))). lia.
  - destruct (mutex s); [discriminate H|]. injection H as <-. cbn [set_thread set_mutex next threads]. specialize (SU (Locked e)). cbn [weight] in SU. lia.
  - injection H as <-. specialize (SU Storing). cbn [weight] in SU. destruct (first_error s); cbn [set_thread set_error next threads]; lia.
  - injection H as <-. specialize (SU Unlocking). cbn [weight] in SU. cbn [set_thread set_aborted next threads]. lia.
  - injection H as <-. specialize (SU Finished). cbn [weight] in SU. cbn [set_thread set_mutex next threads]. lia.
Qed.
Lemma run_bound schedule : forall s r, Inv s -> run c s schedule = Some r -> length schedule <= measure s.
Proof.
  induction schedule as [|[w stale] rest IH]; intros s r I H; cbn [run length] in *; [lia|]. destruct (step c s w stale) as [r1|] eqn:E; [|discriminate H]. destruct (step_inv s w stale r1 I E) as (s1 & -> & I1). specialize (IH s1 r I1 H). pose proof (step_measure s w stale s1 I E). lia.
Qed.
Lemma measure_start : measure (start c l d) <= n * (6 + 2 * k) + 2 * c_threads c.
Proof.
  unfold measure. cbn [start next threads]. change (N.to_nat 0) with 0. rewrite Nat.sub_0_r. assert (E : forall m, list_sum (map weight (repeat (again (c_variant c)) m)) <= 2 * m).
  { pose proof (again_weight (c_variant c)). induction m as [|m IH]; cbn [repeat map]; [cbn; lia|]. unfold list_sum in *. cbn [fold_right]. lia. }
  specialize (E (workers c)). pose proof workers_le. lia.
Qed.

(** ** One thread *)
Lemma write_slots_right (f : N * N -> N) (initial : list N) i h0 : length initial = n * k -> i < n -> c_search c i = Hits h0 ->
  forall rest pre buf, firstn k h0 = pre ++ rest -> sound f c initial buf -> (forall j, j < length pre -> nth_error buf (pos i j) = slot f c initial i j) ->
  exists buf', write_slots f buf (pos i (length pre)) rest = Ok buf' /\ sound f c initial buf' /\ (forall j, j < k -> nth_error buf' (pos i j) = slot f c initial i j)
    /\ forall q j, q < n -> j < k -> nth_error buf (pos q j) = slot f c initial q j -> nth_error buf' (pos q j) = slot f c initial q j.
Proof.
  intros LI Hi S. induction rest as [|x rest IH]; intros pre buf E SO RI; cbn [write_slots].
  - exists buf. split; [reflexivity|]. split; [exact SO|]. split; [|auto]. intros j J. apply (rest_right f initial buf i h0); auto. rewrite E, app_nil_r. exact RI.
  - assert (NX : nth_error (firstn k h0) (length pre) = Some x) by (rewrite E, nth_error_app2, Nat.sub_diag by lia; reflexivity). apply nth_firstn_some in NX. destruct NX as [JK NX].
    destruct (put_right f initial buf i h0 (length pre) x LI SO Hi S NX JK) as (b & -> & SB & RB & KB). cbn [bind].
    destruct (IH (pre ++ [x]) b) as (b' & W & SB' & RB' & KB').
    + rewrite <- app_assoc. exact E.
    + exact SB.
    + intros j J. rewrite app_length in J. cbn [length] in J. destruct (Nat.eq_dec j (length pre)) as [->|NE]; [exact RB|]. apply KB; [exact Hi|lia|apply RI; lia].
    + rewrite app_length in W. cbn [length] in W. rewrite Nat.add_assoc, Nat.add_1_r in W. exists b'. split; [exact W|]. split; [exact SB'|]. split; [exact RB'|]. intros q j Q J H. apply KB'; auto.
Qed.
Definition done_until (buf : list N) (f : N * N -> N) (initial : list N) (m : nat) : Prop := forall q j, q < m -> j < k -> nth_error buf (pos q j) = slot f c initial q j.
Lemma one_thread_right m : forall a bl bd, a + m = n -> (forall q, q < n -> exists h, c_search c q = Hits h) -> sound fst c l bl -> done_until bl fst l a ->
  (c_distances c = true -> sound snd c d bd /\ done_until bd snd d a) -> (c_distances c = false -> bd = d) ->
  exists bl' bd', one_thread c bl bd (seq a m) = Ok (bl', bd', None) /\ filled fst c l bl' /\ (c_distances c = true -> filled snd c d bd') /\ (c_distances c = false -> bd' = d).
Proof.
  induction m as [|m IH]; intros a bl bd AM HH SL DL SD SN; cbn [seq one_thread].
  - rewrite Nat.add_0_r in AM. subst a. exists bl, bd. split; [reflexivity|]. split; [split; [apply SL|exact DL]|]. split; [|exact SN]. intros CD. destruct (SD CD) as [S1 D1]. split; [apply S1|exact D1].
  - destruct (HH a ltac:(lia)) as (h & E). rewrite E.
    destruct (write_slots_right fst l a h (co_labels _ _ _ OK) ltac:(lia) E (firstn k h) [] bl eq_refl SL ltac:(cbn; lia)) as (bl1 & W1 & S1 & R1 & K1). cbn [length] in W1. rewrite Nat.add_0_r in W1. rewrite W1. cbn [bind].
    assert (DL1 : done_until bl1 fst l (S a)). { intros q j Q J. destruct (Nat.eq_dec q a) as [->|NE]; [now apply R1|]. apply K1; [lia|exact J|]. apply DL; lia. }
    destruct (c_distances c) eqn:CD.
    + destruct (SD eq_refl) as [S2 D2]. destruct (write_slots_right snd d a h (co_distances _ _ _ OK CD) ltac:(lia) E (firstn k h) [] bd eq_refl S2 ltac:(cbn; lia)) as (bd1 & W2 & S3 & R3 & K3). cbn [length] in W2. rewrite Nat.add_0_r in W2. rewrite W2. cbn [bind].
      apply IH; [lia|exact HH|exact S1|exact DL1| |congruence]. intros _. split; [exact S3|]. intros q j Q J. destruct (Nat.eq_dec q a) as [->|NE]; [now apply R3|]. apply K3; [lia|exact J|]. apply D2; lia.
    + cbn [bind]. apply IH; [lia|exact HH|exact S1|exact DL1|congruence|exact SN].
Qed.
(** The results determine the output. *)
Lemma filled_unique f (initial a b : list N) : length initial = n * k -> filled f c initial a -> filled f c initial b -> a = b.
Proof.
  intros LI [LA FA] [LB FB]. apply list_eq_nth; [congruence|]. intros p P. destruct (Nat.eq_dec k 0) as [K0|K0]; [rewrite K0, Nat.mul_0_r in LI; lia|].
  assert (Q : p / k < n) by (apply Nat.div_lt_upper_bound; lia). assert (J : p mod k < k) by now apply Nat.mod_upper_bound. assert (E : p = pos (p / k) (p mod k)) by (pose proof (Nat.div_mod p k K0); lia).
  rewrite E, FA, FB by assumption. reflexivity.
Qed.
End Call.
