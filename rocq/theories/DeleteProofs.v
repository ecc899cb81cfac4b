From Coq Require Import Sorted.
From Verif Require Import StorageProofs StorageQueryProofs FilterProofs.
From Verif Require Export DeleteSpec.

Definition stuckb (updatable : bool) (r : scalar_data) : bool := negb updatable || match item_id r with [] => true | _ => false end.
Lemma stuckb_spec u r : stuckb u r = true <-> u = false \/ item_id r = [].
Proof. unfold stuckb. destruct u; cbn; destruct (item_id r); split; intuition discriminate. Qed.

(** Tables after removals *)
Definition kill (u : bool) (t : table) (rows : list (N * scalar_data)) : table :=
  fold_left (fun t e => if stuckb u (snd e) then t else del_row (fst e) t) rows t.

Lemma kill_row u rows : forall t id r, row (kill u t rows) id = Some r <-> row t id = Some r /\ ~ exists e, In e rows /\ fst e = id /\ stuckb u (snd e) = false.
Proof.
  induction rows as [|e rows IH]; intros t id r; cbn [kill fold_left].
  - split; [intros H; split; [exact H|]; intros (e & [] & _)|tauto].
  - fold (kill u (if stuckb u (snd e) then t else del_row (fst e) t) rows). rewrite IH.
    destruct (stuckb u (snd e)) eqn:ES.
    + split; intros [H K]; (split; [exact H|]); intros (e' & I & E & F).
      * destruct I as [ -> |I]; [congruence|]. apply K. now exists e'.
      * apply K. exists e'. split; [now right|auto].
    + rewrite row_del. destruct (N.eqb_spec (fst e) id) as [EI|NI].
      * split; [intros [H _]; discriminate H|]. intros [_ K]. exfalso. apply K. exists e. split; [now left|auto].
      * split; intros [H K]; (split; [exact H|]); intros (e' & I & E & F).
        -- destruct I as [ -> |I]; [congruence|]. apply K. now exists e'.
        -- apply K. exists e'. split; [now right|auto].
Qed.
Lemma kill_nodup u rows : forall t, NoDup (map fst t) -> NoDup (map fst (kill u t rows)).
Proof.
  induction rows as [|e rows IH]; intros t H; [exact H|]. cbn [kill fold_left]. apply IH.
  destruct (stuckb u (snd e)); [exact H|now apply nodup_del].
Qed.

Lemma delete_by_id_spec u rows : forall s t, represents s t -> NoDup (map fst rows) -> (forall e, In e rows -> row t (fst e) = Some (snd e)) ->
  exists s', delete_by_id u s (map (fun e => item_id (snd e)) rows) = Ok s' /\ represents s' (kill u t rows).
Proof.
  induction rows as [|[id r] rows IH]; intros s t R ND IN; cbn [map delete_by_id].
  - exists s. split; [reflexivity|exact R].
  - cbn [map fst] in ND. inversion ND as [|? ? NI ND']; subst.
    pose proof (IN (id, r) (or_introl eq_refl)) as RI. cbn [fst snd] in RI. cbn [snd].
    unfold remove_by_item_id.
    assert (KC : kill u t ((id, r) :: rows) = kill u (if negb u || match item_id r with [] => true | _ => false end then t else del_row id t) rows) by reflexivity.
    rewrite KC. clear KC.
    assert (IN' : forall e, In e rows -> row t (fst e) = Some (snd e)) by (intros e I; apply IN; now right).
    destruct u; cbn [negb orb].
    2:{ now apply IH. }
    destruct (find_by_item_id_spec s t (item_id r) R) as [[E H]|(i & E & NE & O)]; rewrite E.
    + destruct H as [H|H]; [|exfalso; apply (H id); now exists r]. rewrite H. now apply IH.
    + assert (i = id) by (apply (owns_unique s t (item_id r)); auto; now exists r). subst i.
      destruct (remove_step s t id R) as (s1 & E1 & R1 & _); [apply (rp_rows _ _ R _ _ RI)|].
      rewrite E1. cbn [bind]. cbn [spec_step] in R1. rewrite RI in R1. cbn [snd] in R1.
      destruct (item_id r) as [|c it]; [congruence|].
      apply (IH s1 (del_row id t) R1 ND'). intros e I. rewrite row_del.
      destruct (N.eqb_spec id (fst e)) as [EQ|NQ]; [|now apply IN'].
      exfalso. apply NI. rewrite EQ. now apply in_map.
Qed.

(** The rows of a table that satisfy a test *)
Definition sel (P : scalar_data -> bool) (t : table) : table := List.filter (fun e => P (snd e)) t.
Lemma sel_row P t id r : NoDup (map fst t) -> (In (id, r) (sel P t) <-> row t id = Some r /\ P r = true).
Proof. intros ND. unfold sel. rewrite filter_In, (row_In t id r ND). reflexivity. Qed.
Lemma sel_nodup P t : NoDup (map fst t) -> NoDup (map fst (sel P t)).
Proof. apply nodup_filter_map. Qed.

Lemma nodup_fst {A} (l : list (N * A)) : NoDup (map fst l) -> NoDup l.
Proof. apply NoDup_map_inv. Qed.
Lemma NoDup_firstn {A} n (l : list A) : NoDup l -> NoDup (firstn n l).
Proof.
  revert n; induction l as [|x l IH]; intros [|n] H; cbn; try constructor.
  - inversion H as [|? ? NI ND]; subst. intros I. apply NI. rewrite <- (firstn_skipn n l). apply in_or_app. now left.
  - apply IH. now inversion H.
Qed.
Lemma In_firstn {A} n (l : list A) x : In x (firstn n l) -> In x l.
Proof. intros I. rewrite <- (firstn_skipn n l). apply in_or_app. now left. Qed.
Lemma sorted_nodup_ids L : StronglySorted id_lt L -> NoDup (map fst L).
Proof.
  induction 1 as [|e L _ IH F]; cbn; constructor; [|exact IH].
  intros I. apply in_map_iff in I as (e' & E & I). rewrite Forall_forall in F. apply F in I. unfold id_lt in I. lia.
Qed.
Lemma same_length {A} (l l' : list A) : NoDup l -> NoDup l' -> (forall x, In x l <-> In x l') -> length l = length l'.
Proof. intros N N' H. apply Nat.le_antisymm; apply NoDup_incl_length; auto; intros x; apply H. Qed.

Lemma split_length {A} (p : A -> bool) l : length (List.filter p l) + length (List.filter (fun x => negb (p x)) l) = length l.
Proof. induction l as [|x l IH]; [reflexivity|]. cbn. destruct (p x); cbn; lia. Qed.

(** One round *)
Section round.
Variables (u : bool) (f : filter) (batch : nat).
Hypotheses (B0 : 0 < batch) (B1 : (N.of_nat batch < 2 ^ 32)%N).
Let good (r : scalar_data) : bool := evaluate f (meta r).
Let dead (r : scalar_data) : bool := good r && stuckb u r.
Let soft (r : scalar_data) : bool := good r && negb (stuckb u r).

Lemma round s t : represents s t -> exists rows s',
  filter_query s f batch = Ok rows /\ delete_by_id u s (map (fun e => item_id (snd e)) rows) = Ok s' /\
  represents s' (kill u t rows) /\ NoDup (map fst rows) /\
  (forall e, In e rows -> row t (fst e) = Some (snd e) /\ good (snd e) = true) /\
  length rows = Nat.min batch (length (sel good t)) /\
  (length rows < batch -> forall id r, row t id = Some r -> good r = true -> In (id, r) rows).
Proof.
  intros R. destruct (scan_spec s t good batch R) as (L & ES & SS & IL).
  destruct (Nat.eqb_spec batch 0) as [|_]; [lia|].
  pose proof (sorted_nodup_ids L SS) as NL.
  assert (LL : length L = length (sel good t)).
  { apply same_length; [now apply nodup_fst|apply nodup_fst, sel_nodup; apply R|]. intros [id r]. rewrite IL, sel_row by apply R. reflexivity. }
  assert (IR : forall e, In e (firstn batch L) -> row t (fst e) = Some (snd e) /\ good (snd e) = true).
  { intros [id r] I. apply In_firstn in I. now apply IL in I. }
  assert (NR : NoDup (map fst (firstn batch L))) by (rewrite <- firstn_map; now apply NoDup_firstn).
  destruct (delete_by_id_spec u (firstn batch L) s t R NR) as (s' & ED & R'); [intros e I; now apply IR|].
  exists (firstn batch L), s'.
  split; [unfold filter_query; destruct (Nat.eqb_spec batch 0); [lia|]; destruct (N.leb_spec (2 ^ 32) (N.of_nat batch)); [lia|]; exact ES|].
  split; [exact ED|]. split; [exact R'|]. split; [exact NR|]. split; [exact IR|].
  split; [rewrite firstn_length; lia|].
  intros LT id r HR G. rewrite firstn_length in LT. rewrite firstn_all2 by lia. apply IL. auto.
Qed.

Lemma kill_sel_le P t rows : NoDup (map fst t) -> length (sel P (kill u t rows)) <= length (sel P t).
Proof.
  intros ND. apply NoDup_incl_length; [apply nodup_fst, sel_nodup, kill_nodup; exact ND|].
  intros [id r] I. apply sel_row in I as [I K]; [|now apply kill_nodup]. apply kill_row in I as [I _]. apply sel_row; auto.
Qed.
(** Stuck rows stay. *)
Lemma kill_dead t rows : NoDup (map fst t) -> (forall e, In e rows -> row t (fst e) = Some (snd e) /\ good (snd e) = true) ->
  length (sel dead (kill u t rows)) = length (sel dead t).
Proof.
  intros ND IR. apply same_length; try (apply nodup_fst, sel_nodup; try apply kill_nodup; exact ND).
  intros [id r]. rewrite !sel_row by (try apply kill_nodup; exact ND). rewrite kill_row. split; [tauto|].
  intros [H D]. split; [|exact D]. split; [exact H|]. intros (e & I & E & S). apply IR in I as [I _].
  assert (snd e = r) by congruence. subst r. unfold dead in D. rewrite S, andb_false_r in D. discriminate D.
Qed.
(** The others go. *)
Lemma kill_soft t rows : NoDup (map fst t) -> NoDup (map fst rows) -> (forall e, In e rows -> row t (fst e) = Some (snd e) /\ good (snd e) = true) ->
  length (sel soft t) = length (sel soft (kill u t rows)) + length (List.filter (fun e => negb (stuckb u (snd e))) rows).
Proof.
  intros ND NR IR. rewrite <- app_length. apply same_length.
  - now apply nodup_fst, sel_nodup.
  - assert (A : forall l1 l2 : list (N * scalar_data), NoDup l1 -> NoDup l2 -> (forall x, In x l1 -> In x l2 -> False) -> NoDup (l1 ++ l2)).
    { intros l1 l2 N1 N2 D. induction N1 as [|x l1 NI N1 IHl]; [exact N2|]. cbn. constructor.
      - intros I. apply in_app_iff in I as [I|I]; [contradiction|]. apply (D x); [now left|exact I].
      - apply IHl. intros y I1 I2. apply (D y); [now right|exact I2]. }
    apply A; [apply nodup_fst, sel_nodup, kill_nodup; exact ND|apply NoDup_filter, nodup_fst; exact NR|].
    intros [id r] I1 I2. apply sel_row in I1 as [I1 _]; [|now apply kill_nodup]. apply kill_row in I1 as [_ K].
    apply filter_In in I2 as [I2 S]. apply negb_true_iff in S. apply K. exists (id, r). auto.
  - intros [id r]. rewrite in_app_iff, filter_In, !sel_row by (try apply kill_nodup; exact ND). rewrite kill_row. cbn [snd]. split.
    + intros [H D]. destruct (in_dec N.eq_dec id (map fst rows)) as [I|NI].
      * right. apply in_map_iff in I as ([i r'] & E & I). cbn [fst] in E. subst i. pose proof (IR _ I) as [H' _]. cbn [fst snd] in H'.
        assert (r' = r) by congruence. subst r'. split; [exact I|]. unfold soft in D. now apply andb_true_iff in D.
      * left. split; [|exact D]. split; [exact H|]. intros (e & I & E & _). apply NI. rewrite <- E. now apply in_map.
    + intros [[[H _] D]|[I S]]; [auto|]. apply IR in I as [I G]. cbn [fst snd] in *. split; [exact I|]. unfold soft. now rewrite G, S.
Qed.

Lemma progress t rows : NoDup (map fst t) -> NoDup (map fst rows) -> (forall e, In e rows -> row t (fst e) = Some (snd e) /\ good (snd e) = true) ->
  length rows <= length (sel dead t) + length (List.filter (fun e => negb (stuckb u (snd e))) rows).
Proof.
  intros ND NR IR. rewrite <- (split_length (fun e => stuckb u (snd e)) rows).
  assert (length (List.filter (fun e => stuckb u (snd e)) rows) <= length (sel dead t)); [|lia].
  apply NoDup_incl_length; [apply NoDup_filter, nodup_fst; exact NR|].
  intros [id r] I. apply filter_In in I as [I S]. apply IR in I as [I G]. cbn [fst snd] in *. apply sel_row; [exact ND|]. split; [exact I|]. unfold dead. now rewrite G, S.
Qed.

Lemma loop_ends n : forall s t total, represents s t -> length (sel soft t) < n -> length (sel dead t) < batch ->
  exists s' t' total', delete_loop n u s f batch total = Done (Ok (s', total')) /\ represents s' t' /\
    (forall id r, row t' id = Some r <-> row t id = Some r /\ soft r = false) /\
    (length (sel dead t) = 0 -> total' = total + length (sel good t)) /\ total + length (sel good t) <= total'.
Proof.
  induction n as [|n IH]; intros s t total R LT LD; [lia|]. cbn [delete_loop].
  destruct (round s t R) as (rows & s1 & EQ & ED & R1 & NR & IR & LR & FIN). rewrite EQ. cbn [bind]. rewrite ED. cbn [bind].
  pose proof (rp_nodup _ _ R) as ND.
  assert (SG : forall t0, NoDup (map fst t0) -> length (sel good t0) = length (sel soft t0) + length (sel dead t0)).
  { intros t0 _. unfold sel, soft, dead. induction t0 as [|e t0 IH0]; [reflexivity|]. cbn [List.filter].
    destruct (good (snd e)); cbn [andb]; [|exact IH0]. destruct (stuckb u (snd e)); cbn [negb length]; lia. }
  pose proof (kill_dead t rows ND IR) as KD. pose proof (kill_soft t rows ND NR IR) as KS. pose proof (progress t rows ND NR IR) as PR.
  assert (ND1 : NoDup (map fst (kill u t rows))) by now apply kill_nodup.
  pose proof (SG t ND) as S0. pose proof (SG _ ND1) as S1.
  assert (FL : length (List.filter (fun e => negb (stuckb u (snd e))) rows) <= length rows) by (rewrite <- (split_length (fun e => stuckb u (snd e)) rows); lia).
  destruct (Nat.eqb_spec (length rows) batch) as [EB|NB].
  - destruct (IH s1 (kill u t rows) (total + length rows) R1) as (s2 & t2 & total2 & E & R2 & ROW & CNT & CLE); [lia|lia|].
    exists s2, t2, total2. split; [exact E|]. split; [exact R2|]. split; [|split; [intros Z|]; [rewrite CNT by lia|]; lia].
    intros id r. rewrite ROW, kill_row. split; [tauto|]. intros [H S]. split; [|exact S]. split; [exact H|].
    intros (e & I & EI & K). apply IR in I as [I G]. assert (snd e = r) by congruence. subst r. unfold soft in S. rewrite G, K in S. discriminate S.
  - exists s1, (kill u t rows), (total + length rows). split; [reflexivity|]. split; [exact R1|]. split; [|split; lia].
    intros id r. rewrite kill_row. split.
    + intros [H K]. split; [exact H|]. destruct (soft r) eqn:S; [|reflexivity]. exfalso. unfold soft in S. apply andb_true_iff in S as [G S].
      apply K. exists (id, r). split; [apply FIN; auto; lia|]. split; [reflexivity|]. now apply negb_true_iff.
    + intros [H S]. split; [exact H|]. intros (e & I & EI & K). apply IR in I as [I G]. assert (snd e = r) by congruence. subst r.
      unfold soft in S. rewrite G, K in S. discriminate S.
Qed.

Lemma loop_runs n : forall s t total, represents s t -> batch <= length (sel dead t) -> delete_loop n u s f batch total = OutOfFuel.
Proof.
  induction n as [|n IH]; intros s t total R LD; [reflexivity|]. cbn [delete_loop].
  destruct (round s t R) as (rows & s1 & EQ & ED & R1 & NR & IR & LR & _). rewrite EQ. cbn [bind]. rewrite ED. cbn [bind].
  pose proof (rp_nodup _ _ R) as ND.
  assert (length (sel dead t) <= length (sel good t)).
  { unfold sel, dead. clear. induction t as [|e t IHt]; [reflexivity|]. cbn [List.filter]. destruct (good (snd e)); cbn [andb]; [|exact IHt].
    destruct (stuckb u (snd e)); cbn [length]; lia. }
  destruct (Nat.eqb_spec (length rows) batch) as [EB|NB]; [|lia].
  apply (IH s1 (kill u t rows)); [exact R1|]. now rewrite (kill_dead t rows ND IR).
Qed.
End round.

Lemma rows_with_sel s t (P : scalar_data -> Prop) (b : scalar_data -> bool) ids : represents s t -> (forall r, b r = true <-> P r) ->
  rows_with s P ids -> length ids = length (sel b t).
Proof.
  intros R B [ND H]. pose proof (rp_nodup _ _ R) as NT. rewrite <- (map_length fst (sel b t)). apply same_length; [exact ND|now apply sel_nodup|].
  intros id. rewrite H. split.
  - intros (r & L & p). apply (live_row s t R) in L. apply in_map_iff. exists (id, r). split; [reflexivity|]. apply sel_row; auto. split; [exact L|now apply B].
  - intros I. apply in_map_iff in I as ([i r] & E & I). cbn in E. subst i. apply sel_row in I as [I K]; auto. exists r. split; [now apply (live_row s t R)|now apply B].
Qed.

Lemma delete_loop_mono n : forall k u s f batch total r, delete_loop n u s f batch total = Done r -> n <= k -> delete_loop k u s f batch total = Done r.
Proof.
  induction n as [|n IH]; intros k u s f batch total r H LE; [discriminate H|]. destruct k as [|k]; [lia|].
  cbn [delete_loop] in *. destruct (let* results := filter_query s f batch in _) as [[s1 m]| | |]; try exact H.
  destruct (Nat.eqb m batch); [|exact H]. apply (IH k); [exact H|lia].
Qed.

Lemma matching_rows s t f : represents s t -> rows_with s (matching f) (map fst (sel (fun r => evaluate f (meta r)) t)).
Proof.
  intros R. pose proof (rp_nodup _ _ R) as ND. split; [now apply sel_nodup|]. intros id. split.
  - intros I. apply in_map_iff in I as ([i r] & E & I). cbn in E. subst i. apply sel_row in I as [I K]; auto. exists r. split; [now apply (live_row s t R)|exact K].
  - intros (r & L & M). apply in_map_iff. exists (id, r). split; [reflexivity|]. apply sel_row; auto. split; [now apply (live_row s t R)|exact M].
Qed.

Lemma reached_represents fields ops s : reached fields ops s -> exists t, represents s t.
Proof. intros [OK (a & E)]. destruct (history fields ops OK) as (s' & E' & R & _). exists (snd (spec_run [] ops)). congruence. Qed.

Lemma stuck_spec u f r : (evaluate f (meta r) && stuckb u r = true) <-> stuck u f r.
Proof. unfold stuck, matching. rewrite andb_true_iff, stuckb_spec. reflexivity. Qed.

Lemma ends_lemma fields ops s u f batch ids : reached fields ops s -> 0 < batch -> (N.of_nat batch < 2 ^ 32)%N ->
  rows_with s (stuck u f) ids -> length ids < batch ->
  exists n s' total, (forall k, n <= k -> delete_by_filter k u s f batch = Done (Ok (s', total))) /\
    (forall id r, live s' id r <-> live s id r /\ (matching f r -> stuck u f r)) /\
    forall m, rows_with s (matching f) m -> length m <= total /\ (ids = [] -> total = length m).
Proof.
  intros RE B0 B1 W LT. destruct (reached_represents _ _ _ RE) as (t & R).
  rewrite (rows_with_sel s t (stuck u f) (fun r => evaluate f (meta r) && stuckb u r) ids R) in LT; [|intros r; apply stuck_spec|exact W].
  destruct (loop_ends u f batch B0 B1 (S (length (sel (fun r => evaluate f (meta r) && negb (stuckb u r)) t))) s t 0 R) as (s' & t' & total & E & R' & ROW & CNT & CLE); [lia|exact LT|].
  exists (S (length (sel (fun r => evaluate f (meta r) && negb (stuckb u r)) t))), s', total.
  split; [intros k LE; now apply (delete_loop_mono _ _ _ _ _ _ _ _ E)|]. split.
  - intros id r. rewrite (live_row s' t' R'), ROW, (live_row s t R). unfold stuck, matching. rewrite <- stuckb_spec.
    destruct (evaluate f (meta r)), (stuckb u r); cbn; intuition discriminate.
  - intros m M. rewrite (rows_with_sel s t (matching f) (fun r => evaluate f (meta r)) m R); [|intros r; reflexivity|exact M].
    split; [exact CLE|]. intros ->. apply CNT.
    rewrite <- (rows_with_sel s t (stuck u f) (fun r => evaluate f (meta r) && stuckb u r) [] R); [reflexivity|intros r; apply stuck_spec|exact W].
Qed.

Lemma runs_lemma fields ops s u f batch ids : reached fields ops s -> 0 < batch -> (N.of_nat batch < 2 ^ 32)%N ->
  rows_with s (stuck u f) ids -> batch <= length ids -> forall k, delete_by_filter k u s f batch = OutOfFuel.
Proof.
  intros RE B0 B1 W LE k. destruct (reached_represents _ _ _ RE) as (t & R).
  apply (loop_runs u f batch B0 B1 k s t 0 R).
  now rewrite <- (rows_with_sel s t (stuck u f) (fun r => evaluate f (meta r) && stuckb u r) ids R); [|intros r; apply stuck_spec|exact W].
Qed.
