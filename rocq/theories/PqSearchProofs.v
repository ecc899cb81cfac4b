(** Proofs about the search on disk with product quantization. *)
From Verif Require Import PqSearchModel PqSearchSpec PoolProofs NpqProofs BitsetProofs FrontierProofs SearchProofs DiskSearchProofs.

(** What a PQ search leaves alone. *)
Definition bframe (t t' : thread_data) : Prop :=
  td_inflight t' = td_inflight t /\ td_sector t' = td_sector t /\ td_offsets t' = td_offsets t /\ td_slot_len t' = td_slot_len t
  /\ td_buf t' = td_buf t /\ td_free t' = td_free t /\ td_dirty t' = td_dirty t.
Definition bframe_io (t t' : thread_data) : Prop :=
  length (td_inflight t') = length (td_inflight t) /\ length (td_sector t') = length (td_sector t) /\ td_offsets t' = td_offsets t
  /\ td_slot_len t' = td_slot_len t /\ td_buf t' = td_buf t /\ td_free t' = td_free t /\ td_dirty t' = td_dirty t.
Lemma bframe_refl t : bframe t t. Proof. repeat split. Qed.
Lemma bframe_trans t t' t'' : bframe t t' -> bframe t' t'' -> bframe t t''.
Proof. unfold bframe. intuition congruence. Qed.
Lemma bframe_weak t t' : bframe t t' -> bframe_io t t'.
Proof. unfold bframe, bframe_io. intuition congruence. Qed.
Lemma bframe_io_trans t t' t'' : bframe_io t t' -> bframe_io t' t'' -> bframe_io t t''.
Proof. unfold bframe_io. intuition congruence. Qed.
Lemma bframe_io_refl t : bframe_io t t. Proof. repeat split. Qed.

Section Pq.
  Variables (d : disk) (pq : N -> Z) (max : N) (cap : nat).
  Hypothesis Hpoints : (d_points d <= max)%N.
  Hypothesis Hmedoid : (d_medoid d < max)%N.
  Hypothesis Hcap : 0 < cap.
  Notation edge := (disk_edge d).
  Notation reach := (disk_reachable d).
  Notation M := (S (N.to_nat (d_points d))).
  Lemma bound x : reach x -> (x < max)%N.
  Proof. induction 1 as [x <-|x y _ _ (_ & Hy & _)]; [exact Hmedoid|]. lia. Qed.
  Lemma reach_count l : NoDup l -> (forall x, In x l -> reach x) -> length l <= M.
  Proof.
    intros ND R. replace M with (length (d_medoid d :: map N.of_nat (seq 0 (N.to_nat (d_points d))))) by (cbn; now rewrite map_length, seq_length).
    apply NoDup_incl_length; [assumption|]. intros x Hx. specialize (R x Hx). destruct R as [x <-|x y _ (_ & Hy & _)]; [now left|].
    right. apply in_map_iff. exists (N.to_nat y). split; [lia|]. apply in_seq. lia.
  Qed.

  Record binv (t : thread_data) (I P E X : list N) : Prop := {
    bv_vis : exists mem, vis_inv max (td_visited t) mem /\ forall p, mem p = true <-> In p (I ++ P);
    bv_front : q_inv cap (td_front t);
    bv_inv : sinv edge (eq (d_medoid d)) pq cap I P E X (q_list (td_front t));
    bv_exact_len : length (td_exact t) = N.to_nat max;
    bv_exact : forall x, In x E -> In x X \/ nth_error (td_exact t) (N.to_nat x) = Some (Some (d_dist d x));
    bv_dirty_in : forall id, In id (td_exact_dirty t) -> (id < max)%N;
    bv_dirty : forall id z, nth_error (td_exact t) (N.to_nat id) = Some (Some z) -> In id (td_exact_dirty t);
  }.
  Lemma binv_count t I P E X : binv t I P E X -> length E <= M.
  Proof.
    intros H. pose proof (bv_inv _ _ _ _ _ H) as S. transitivity (length I); [apply NoDup_incl_length; apply S|].
    apply reach_count; [apply (nodup_app_l _ _ (si_nodup _ _ _ _ _ _ _ _ _ S))|].
    intros x Hx. apply (si_reach _ _ _ _ _ _ _ _ _ S x), in_or_app. now left.
  Qed.
  Lemma binv_io t infl sec I P E X : binv t I P E X -> binv (with_io t infl sec) I P E X.
  Proof. intros []. now constructor. Qed.
  Lemma binv_X t I P E X X' : binv t I P E X -> incl X X' -> binv t I P E X'.
  Proof.
    intros [] Hi. constructor; auto.
    - destruct bv_inv0. constructor; auto. intros x y Hx Hy. destruct (si_closed x y Hx Hy); auto.
    - intros x Hx. destruct (bv_exact0 x Hx); auto.
  Qed.
  Lemma binv_E t I P E E' X : binv t I P E X -> Permutation E E' -> binv t I P E' X.
  Proof.
    intros [] Pm. assert (Eq : forall x, In x E <-> In x E') by (intros x; split; apply Permutation_in; [|apply Permutation_sym]; assumption). constructor; auto.
    - destruct bv_inv0. constructor; auto.
      + eapply Permutation_NoDup; eauto.
      + intros x Hx. apply si_exp, Eq, Hx.
      + intros x y Hx. apply si_closed, Eq, Hx.
      + intros e He. rewrite (si_flags e He). apply Eq.
    - intros x Hx. apply bv_exact0, Eq, Hx.
  Qed.

  Lemma insert_tile_spec E X : forall ids t I, binv t I ids E X ->
    exists q, insert_tile pq (td_front t) ids = Ok q /\ binv (with_front t q) (I ++ ids) [] E X.
  Proof.
    induction ids as [|m ids IH]; intros t I H; cbn [insert_tile].
    { exists (td_front t). split; [reflexivity|]. rewrite app_nil_r. destruct H. constructor; auto. }
    pose proof H as [V F S Xl Xe Di Dd].
    assert (Nm : ~ In m I).
    { pose proof (si_nodup _ _ _ _ _ _ _ _ _ S) as ND. intros K. apply NoDup_remove_2 in ND. apply ND. apply in_or_app. now left. }
    assert (Nid : ~ In m (ids_of (q_list (td_front t)))).
    { intros K. apply in_map_iff in K as (e & <- & He). apply Nm. apply (kept_inserted _ _ _ _ _ _ _ _ _ _ S He). }
    destruct (npq_insert_rel cap (td_front t) m (pq m) Hcap F Nid) as (r & q' & -> & F' & IR). cbn [bind].
    destruct (IH (with_front t q') (I ++ [m])) as (q & Eq & H').
    { constructor; cbn [td_visited td_front td_exact td_exact_dirty with_front]; auto.
      - destruct V as (mem & V & A). exists mem. split; [assumption|]. intros p. rewrite A, <- app_assoc. reflexivity.
      - apply (sinv_insert _ _ _ _ _ [] m ids _ _ _ _ S IR). }
    cbn [td_front with_front] in Eq. exists q. split; [assumption|]. rewrite <- app_assoc in H'. exact H'.
  Qed.
  Lemma mark_spec t I P E X m : binv t I P E X -> (m < d_points d)%N -> reach m ->
    exists v, vb_test_and_set (td_visited t) m = Ok (if in_dec N.eq_dec m (I ++ P) then false else true, v)
      /\ binv (with_visited t v) I (P ++ (if in_dec N.eq_dec m (I ++ P) then [] else [m])) E X.
  Proof.
    intros H Hm Rm. pose proof H as [(mem & V & A) F S Xl Xe Di Dd].
    destruct (vis_mark max (td_visited t) mem m V ltac:(lia)) as (v & w & E1 & V1 & Ew). unfold vb_test_and_set. rewrite E1. cbn [bind]. rewrite Ew.
    exists v. destruct (in_dec N.eq_dec m (I ++ P)) as [Hi|Hn].
    - rewrite (proj2 (A m) Hi). split; [reflexivity|]. rewrite app_nil_r. constructor; auto.
      exists (fun p => N.eqb m p || mem p). split; [exact V1|]. intros p. rewrite orb_true_iff, A, N.eqb_eq. split; [intros [<-|K]|]; auto.
    - destruct (mem m) eqn:Em; [exfalso; now apply Hn, A|]. split; [reflexivity|]. constructor; auto.
      + exists (fun p => N.eqb m p || mem p). split; [exact V1|]. intros p. rewrite orb_true_iff, A, N.eqb_eq, app_assoc, (in_app_iff (I ++ P)). cbn [In]. split; [intros [?|?]|intros [?|[?|[]]]]; auto.
      + apply sinv_discover; auto.
  Qed.
  Lemma scan_spec E X : forall l t I tile, binv t I tile E X ->
    (forall y, In y l -> (y < d_points d)%N -> d_deleted d y = false -> reach y) ->
    exists t' I', scan_neighbors d pq t tile l = Ok t' /\ binv t' I' [] E X /\ (bframe t t' /\ td_exact t' = td_exact t) /\ incl (I ++ tile) I'
      /\ forall y, In y l -> (y < d_points d)%N -> d_deleted d y = false -> In y I'.
  Proof.
    induction l as [|m l IH]; intros t I tile H R; cbn [scan_neighbors].
    { destruct (insert_tile_spec E X tile t I H) as (q & -> & H'). cbn [bind]. exists (with_front t q), (I ++ tile). split; [reflexivity|].
      split; [assumption|]. split; [repeat split|]. split; [apply incl_refl|]. intros y []. }
    assert (R' : forall y, In y l -> (y < d_points d)%N -> d_deleted d y = false -> reach y) by (intros; apply R; auto; now right).
    destruct (N.leb_spec (d_points d) m) as [Hm|Hm].
    { destruct (IH t I tile H R') as (t' & I' & -> & H' & Fr & In' & C). exists t', I'. repeat (split; [assumption || reflexivity|]).
      intros y [<-|Hy]; [lia|auto]. }
    destruct (d_deleted d m) eqn:Dm.
    { destruct (IH t I tile H R') as (t' & I' & -> & H' & Fr & In' & C). exists t', I'. repeat (split; [assumption || reflexivity|]).
      intros y [<-|Hy]; [congruence|auto]. }
    destruct (mark_spec t I tile E X m H Hm (R m (or_introl eq_refl) Hm Dm)) as (v & -> & H1). cbn [bind].
    destruct (in_dec N.eq_dec m (I ++ tile)) as [Hi|Hn]; cbn [negb].
    - rewrite app_nil_r in H1. destruct (IH (with_visited t v) I tile H1 R') as (t' & I' & -> & H' & Fr & In' & C).
      exists t', I'. split; [reflexivity|]. split; [assumption|]. split; [exact Fr|]. split; [assumption|]. intros y [<-|Hy]; auto.
    - destruct (Nat.eqb (length (tile ++ [m])) kScanTile).
      + destruct (insert_tile_spec E X (tile ++ [m]) _ I H1) as (q & -> & H2). cbn [bind].
        destruct (IH _ (I ++ tile ++ [m]) [] H2 R') as (t' & I' & -> & H' & Fr & In' & C). rewrite app_nil_r in In'.
        exists t', I'. split; [reflexivity|]. split; [assumption|]. split; [exact Fr|]. split.
        * intros y Hy. apply In'. rewrite app_assoc. apply in_or_app. now left.
        * intros y [<-|Hy]; [|auto]. intros _ _. apply In'. apply in_or_app. right. apply in_or_app. right. now left.
      + destruct (IH _ I (tile ++ [m]) H1 R') as (t' & I' & -> & H' & Fr & In' & C).
        exists t', I'. split; [reflexivity|]. split; [assumption|]. split; [exact Fr|]. split.
        * intros y Hy. apply In'. rewrite app_assoc. apply in_or_app. now left.
        * intros y [<-|Hy]; [|auto]. intros _ _. apply In'. apply in_or_app. right. apply in_or_app. right. now left.
  Qed.
  Lemma process_spec t I E X X' x : binv t I [] E X -> In x E -> (forall y, In y X -> y = x \/ In y X') ->
    exists t' I', process_node d pq t x x = Ok t' /\ binv t' I' [] E X' /\ bframe t t' /\ incl I I'.
  Proof.
    intros H Hx Sub. pose proof H as [V F S Xl Xe Di Dd]. unfold process_node, set_exact_dist.
    assert (Rx : reach x) by (apply (si_reach _ _ _ _ _ _ _ _ _ S), in_or_app; left; now apply (si_exp _ _ _ _ _ _ _ _ _ S)).
    pose proof (bound x Rx) as Bx.
    destruct (N.leb_spec (N.of_nat (length (td_exact t))) x) as [K|_]; [lia|].
    destruct (nth_error (td_exact t) (N.to_nat x)) as [old|] eqn:Eo; [|apply nth_error_None in Eo; lia].
    unfold aget. rewrite Eo. cbn [bind]. rewrite aput_ok by lia. cbn [bind]. set (t1 := with_exact t _ _).
    assert (Lx : N.to_nat x < length (td_exact t)) by lia.
    assert (H1 : binv t1 I [] E X).
    { constructor; unfold t1; cbn [td_visited td_front td_exact td_exact_dirty with_exact]; auto.
      - rewrite upd_length. assumption.
      - intros y Hy. rewrite nth_error_upd by assumption. destruct (Nat.eqb_spec (N.to_nat x) (N.to_nat y)) as [Ey|Ny]; [|auto].
        right. replace y with x by lia. reflexivity.
      - intros id Hid. destruct old; [auto|]. apply in_app_or in Hid as [Hid|[<-|[]]]; auto.
      - intros id z. rewrite nth_error_upd by assumption. destruct (Nat.eqb_spec (N.to_nat x) (N.to_nat id)) as [Ei|Ni].
        + intros _. replace id with x by lia. destruct old; [eauto|]. apply in_or_app. right. now left.
        + intros Ez. destruct old; [eauto|]. apply in_or_app. left. eauto. }
    destruct (scan_spec E X (d_nbrs d x) t1 I [] H1) as (t' & I' & -> & H2 & (Fr & Ex) & In' & C).
    { intros y Hy Hp Hd. eapply reach_edge; [exact Rx|]. repeat split; auto. }
    exists t', I'. split; [reflexivity|]. rewrite app_nil_r in In'. split; [|split; [exact Fr|assumption]].
    destruct H2 as [V2 F2 S2 Xl2 Xe2 Di2 Dd2]. constructor; auto.
    - apply (sinv_done_in _ _ _ _ _ _ _ _ _ x _ S2 Sub). intros y (Hy & Hp & Hd). apply in_or_app. left. now apply C.
    - intros y Hy. destruct (Xe2 y Hy) as [K|K]; [|auto]. destruct (Sub y K) as [->|?]; [|auto]. right. rewrite Ex. unfold t1. cbn [td_exact with_exact].
      rewrite nth_error_upd by assumption. now rewrite Nat.eqb_refl.
  Qed.
  Lemma pop_spec t I E X : binv t I [] E X -> has_unexpanded_node (td_front t) = true ->
    exists e q', closest_unexpanded (td_front t) = Ok (e, q') /\ binv (with_front t q') I [] (E ++ [n_id e]) (n_id e :: X).
  Proof.
    intros H Un. pose proof H as [V F S Xl Xe Di Dd].
    destruct (npq_pop_rel cap (td_front t) F Un) as (e & q' & -> & Q' & PR). exists e, q'. split; [reflexivity|].
    destruct (sinv_expand_in _ _ _ _ _ _ _ _ _ _ _ S PR) as (Nx & Ix & S'). constructor; auto.
    intros x Hx. apply in_app_or in Hx as [Hx|[<-|[]]]; [|left; now left]. destruct (Xe x Hx); [left; now right|now right].
  Qed.

  (** *** The deterministic mode *)
  Lemma pop_batch_spec src beam n_slots I : forall fuel t reqs slot E X, binv t I [] E X -> M < fuel + length E ->
    (N.to_nat n_slots <= length (td_sector t)) ->
    exists t' b, pop_batch fuel src beam n_slots t reqs slot = Done (Ok (t', b)) /\ binv t' I [] (E ++ map fst b) (map fst b ++ X)
      /\ bframe_io t t' /\ td_inflight t' = td_inflight t
      /\ (forall j, j < N.to_nat slot -> nth_error (td_sector t') j = nth_error (td_sector t) j)
      /\ (forall m s, In (m, Some s) b -> nth_error (td_sector t') (N.to_nat s) = Some m)
      /\ (has_unexpanded_node (td_front t) = true -> (reqs < beam)%N -> (slot < n_slots)%N -> b <> []).
  Proof.
    induction fuel as [|k IH]; intros t reqs slot E X H Hf Hs; cbn [pop_batch].
    { pose proof (binv_count _ _ _ _ _ H). lia. }
    destruct (has_unexpanded_node (td_front t)) eqn:Un; cbn [andb].
    2:{ exists t, []. cbn [map]. rewrite app_nil_r. split; [reflexivity|]. split; [assumption|]. split; [apply bframe_io_refl|]. split; [reflexivity|].
        split; [reflexivity|]. split; [intros m s []|discriminate]. }
    destruct (N.ltb_spec reqs beam) as [Hr|Hr]; cbn [andb].
    2:{ exists t, []. cbn [map]. rewrite app_nil_r. split; [reflexivity|]. split; [assumption|]. split; [apply bframe_io_refl|]. split; [reflexivity|].
        split; [reflexivity|]. split; [intros m s []|intros; lia]. }
    destruct (N.ltb_spec slot n_slots) as [Hl|Hl].
    2:{ exists t, []. cbn [map]. rewrite app_nil_r. split; [reflexivity|]. split; [assumption|]. split; [apply bframe_io_refl|]. split; [reflexivity|].
        split; [reflexivity|]. split; [intros m s []|intros; lia]. }
    destruct (pop_spec t I E X H Un) as (e & q' & -> & H1).
    assert (Lk : M < k + length (E ++ [n_id e])) by (rewrite app_length; cbn [length]; lia).
    assert (XX : forall (b : list (N * option N)) t', binv t' I [] ((E ++ [n_id e]) ++ map fst b) (map fst b ++ n_id e :: X) -> forall s, binv t' I [] (E ++ map fst ((n_id e, s) :: b)) (map fst ((n_id e, s) :: b) ++ X)).
    { intros b t' Hb s. cbn [map fst]. rewrite <- app_assoc in Hb. cbn [app] in Hb. eapply binv_X; [exact Hb|]. intros z Hz.
      apply in_app_or in Hz as [Hz|[<-|Hz]]; [right; apply in_or_app; now left|now left|right; apply in_or_app; now right]. }
    assert (Slot : forall r, exists t' b,
      match aput (td_sector (with_front t q')) slot (n_id e) with
      | Ok sec =>
          match pop_batch k src beam n_slots (with_io (with_front t q') (td_inflight (with_front t q')) sec) r (slot + 1)%N with
          | Done (Ok (t2, b)) => Done (Ok (t2, (n_id e, Some slot) :: b))
          | other => other
          end
      | OutOfBounds => Done OutOfBounds
      | InvalidBool => Done InvalidBool
      | Throws => Done Throws
      end = Done (Ok (t', b)) /\ binv t' I [] (E ++ map fst b) (map fst b ++ X)
      /\ bframe_io t t' /\ td_inflight t' = td_inflight t
      /\ (forall j, j < N.to_nat slot -> nth_error (td_sector t') j = nth_error (td_sector t) j)
      /\ (forall m s, In (m, Some s) b -> nth_error (td_sector t') (N.to_nat s) = Some m) /\ b <> []).
    { intros r. cbn [td_sector td_inflight with_front]. rewrite aput_ok by lia. set (t1 := with_io _ _ _).
      destruct (IH t1 r (slot + 1)%N (E ++ [n_id e]) (n_id e :: X)) as (t' & b & -> & Hb & Fr & Fi & Old & New & _).
      { apply binv_io, H1. } { assumption. } { unfold t1. cbn [td_sector with_io]. rewrite upd_length. assumption. }
      exists t', ((n_id e, Some slot) :: b). split; [reflexivity|]. split; [now apply XX|].
      split; [eapply bframe_io_trans; [|exact Fr]; unfold t1; repeat split; cbn [td_sector with_io]; now rewrite upd_length|]. split; [exact Fi|].
      unfold t1 in Old. cbn [td_sector with_io] in Old.
      split; [|split; [|discriminate]].
      - intros j Hj. rewrite Old by lia. rewrite nth_error_upd by lia. destruct (Nat.eqb_spec (N.to_nat slot) j); [lia|reflexivity].
      - intros m s [Es|Hs']; [|auto]. injection Es as <- <-. rewrite Old by lia. rewrite nth_error_upd by lia. now rewrite Nat.eqb_refl. }
    destruct (src (n_id e)).
    - destruct (IH (with_front t q') reqs slot (E ++ [n_id e]) (n_id e :: X) H1 Lk Hs) as (t' & b & -> & Hb & Fr & Fi & Old & New & _).
      exists t', ((n_id e, None) :: b). split; [reflexivity|]. split; [now apply XX|]. split; [exact Fr|]. split; [exact Fi|]. split; [exact Old|].
      split; [|discriminate]. intros m s [Es|Hs']; [discriminate|auto].
    - destruct (Slot reqs) as (t' & b & -> & R). exists t', b. intuition auto.
    - destruct (Slot (reqs + 1)%N) as (t' & b & -> & R). exists t', b. intuition auto.
  Qed.
  Lemma process_batch_spec E : forall b t I, binv t I [] E (map fst b) -> incl (map fst b) E ->
    (forall m s, In (m, Some s) b -> nth_error (td_sector t) (N.to_nat s) = Some m) ->
    exists t' I', process_batch d pq t b = Ok t' /\ binv t' I' [] E [] /\ bframe t t' /\ incl I I'.
  Proof.
    induction b as [|(id & slot) b IH]; intros t I H Hi Sec; cbn [process_batch].
    { exists t, I. split; [reflexivity|]. split; [assumption|]. split; [apply bframe_refl|apply incl_refl]. }
    assert (Er : record_in t id slot = Ok id).
    { destruct slot as [s|]; [|reflexivity]. cbn [record_in]. unfold aget. now rewrite (Sec id s (or_introl eq_refl)). }
    rewrite Er. cbn [bind]. cbn [map fst] in H, Hi.
    destruct (process_spec t I E (id :: map fst b) (map fst b) id H) as (t1 & I1 & -> & H1 & Fr1 & In1).
    { apply Hi. now left. } { intros y [<-|Hy]; auto. }
    cbn [bind]. destruct (IH t1 I1 H1) as (t2 & I2 & -> & H2 & Fr2 & In2).
    { intros y Hy. apply Hi. now right. } { destruct Fr1 as (_ & -> & _). intros m s Hm. apply Sec. now right. }
    exists t2, I2. split; [reflexivity|]. split; [assumption|]. split; [eapply bframe_trans; eauto|eapply incl_tran; eauto].
  Qed.
  Lemma beam_loop_spec src beam : (0 < beam)%N -> forall fuel t I E, binv t I [] E [] -> 0 < length (td_sector t) -> M < fuel + length E -> In (d_medoid d) I ->
    exists t' I' E', beam_loop fuel d pq src beam t E = Done (Ok (t', E')) /\ binv t' I' [] E' [] /\ bframe_io t t' /\ In (d_medoid d) I'
      /\ has_unexpanded_node (td_front t') = false.
  Proof.
    intros Hb. induction fuel as [|k IH]; intros t I E H Hs Hf Hm; cbn [beam_loop].
    { pose proof (binv_count _ _ _ _ _ H). lia. }
    destruct (has_unexpanded_node (td_front t)) eqn:Un; [|exists t, I, E; split; [reflexivity|]; split; [assumption|]; split; [repeat split|auto]].
    assert (Ns : n_page_slots t = length (td_sector t)) by (unfold n_page_slots; lia).
    destruct (pop_batch_spec src beam (N.of_nat (n_page_slots t)) I (S k) t 0%N 0%N E [] H Hf) as (t1 & b & -> & H1 & Fr1 & _ & _ & Sec & Ne); [lia|].
    specialize (Ne Un Hb ltac:(lia)). rewrite app_nil_r in H1.
    destruct (process_batch_spec (E ++ map fst b) b t1 I H1) as (t2 & I2 & -> & H2 & Fr2 & In2).
    { intros y Hy. apply in_or_app. now right. } { assumption. }
    destruct (IH t2 I2 (E ++ map fst b) H2) as (t3 & I3 & E3 & -> & H3 & Fr3 & R).
    { destruct Fr2 as (_ & -> & _). destruct Fr1 as (_ & -> & _). assumption. }
    { rewrite app_length, map_length. destruct b; [contradiction|]. cbn [length]. lia. } { auto. }
    exists t3, I3, E3. split; [reflexivity|]. split; [assumption|]. split; [|assumption].
    eapply bframe_io_trans; [exact Fr1|]. eapply bframe_io_trans; [apply bframe_weak, Fr2|exact Fr3].
  Qed.

  (** *** The asynchronous mode *)
  Record flinv (beam : N) (p : beam_pipe) (I E : list N) : Prop := {
    fl_inv : binv (bp_td p) I [] E (inflight_ids (bp_td p));
    fl_seen : Permutation E (bp_seen p ++ inflight_ids (bp_td p));
    fl_len : length (td_inflight (bp_td p)) = length (td_sector (bp_td p));
    fl_nodup : NoDup (bp_free p);
    fl_free : forall s, In s (bp_free p) -> nth_error (td_inflight (bp_td p)) (N.to_nat s) = Some None;
    fl_data : forall s id, nth_error (td_inflight (bp_td p)) s = Some (Some id) -> nth_error (td_sector (bp_td p)) s = Some id;
    fl_beam : length (bp_free p) + length (inflight_ids (bp_td p)) = N.to_nat beam;
  }.
  Lemma inflight_frame t t' : bframe t t' -> inflight_ids t' = inflight_ids t.
  Proof. intros (H & _). unfold inflight_ids. now rewrite H. Qed.
  Lemma fill_spec src beam : forall fuel p I E, flinv beam p I E -> M < fuel + length E ->
    exists p' I' E', fill_pipe fuel d pq src p = Done (Ok p') /\ flinv beam p' I' E' /\ bframe_io (bp_td p) (bp_td p') /\ incl I I'
      /\ length (bp_seen p) <= length (bp_seen p') /\ (bp_free p' = [] \/ has_unexpanded_node (td_front (bp_td p')) = false).
  Proof.
    induction fuel as [|k IH]; intros p I E H Hf; [pose proof (binv_count _ _ _ _ _ (fl_inv _ _ _ _ H)); lia|].
    cbn [fill_pipe]. destruct (bp_free p) as [|slot free] eqn:Ef.
    { exists p, I, E. split; [reflexivity|]. split; [assumption|]. split; [apply bframe_io_refl|]. split; [apply incl_refl|]. split; [lia|]. left. exact Ef. }
    destruct (has_unexpanded_node (td_front (bp_td p))) eqn:Un.
    2:{ exists p, I, E. split; [reflexivity|]. split; [assumption|]. split; [apply bframe_io_refl|]. split; [apply incl_refl|]. split; [lia|]. right. exact Un. }
    destruct (pop_spec _ _ _ _ (fl_inv _ _ _ _ H) Un) as (e & q' & -> & H1). cbn [bind]. cbv zeta.
    assert (Lk : M < k + length (E ++ [n_id e])) by (rewrite app_length; cbn [length]; lia).
    assert (Inline : exists p' I' E',
      match (let* t2 := process_node d pq (with_front (bp_td p) q') (n_id e) (n_id e) in
             Ok {| bp_td := t2; bp_free := slot :: free; bp_seen := bp_seen p ++ [n_id e] |}) with
      | Ok p' => fill_pipe k d pq src p'
      | OutOfBounds => Done OutOfBounds | InvalidBool => Done InvalidBool | Throws => Done Throws
      end = Done (Ok p') /\ flinv beam p' I' E' /\ bframe_io (bp_td p) (bp_td p') /\ incl I I'
      /\ length (bp_seen p) <= length (bp_seen p') /\ (bp_free p' = [] \/ has_unexpanded_node (td_front (bp_td p')) = false)).
    { destruct (process_spec _ I (E ++ [n_id e]) _ (inflight_ids (bp_td p)) (n_id e) H1) as (t2 & I2 & -> & H2 & Fr2 & In2).
      { apply in_or_app. right. now left. } { intros y [<-|Hy]; auto. }
      cbn [bind]. assert (Inf : inflight_ids t2 = inflight_ids (bp_td p)) by (rewrite (inflight_frame _ _ Fr2); reflexivity).
      destruct (IH {| bp_td := t2; bp_free := slot :: free; bp_seen := bp_seen p ++ [n_id e] |} I2 (E ++ [n_id e])) as (p3 & I3 & E3 & -> & H3 & Fr3 & In3 & Se & R).
      { destruct Fr2 as (A & B & _). cbn [td_inflight td_sector with_front] in A, B. destruct H as [Hb Hs Hl Hn Hfr Hd Hbm]. rewrite Ef in *. constructor; cbn [bp_td bp_free bp_seen]; rewrite ?Inf, ?A, ?B; auto.
        rewrite Hs. rewrite <- !app_assoc. apply Permutation_app_head. apply Permutation_app_comm. }
      { assumption. }
      cbn [bp_td bp_seen] in *. rewrite app_length in Se. exists p3, I3, E3. split; [reflexivity|]. split; [assumption|].
      split; [eapply bframe_io_trans; [|exact Fr3]; apply (bframe_weak (bp_td p)); exact Fr2|]. split; [eapply incl_tran; eauto|]. split; [lia|exact R]. }
    destruct (src (n_id e)); [exact Inline|exact Inline|].
    unfold set_inflight. cbn [td_inflight td_sector with_front].
    assert (Fs : nth_error (td_inflight (bp_td p)) (N.to_nat slot) = Some None) by (apply (fl_free _ _ _ _ H); rewrite Ef; now left).
    assert (Ls : N.to_nat slot < length (td_inflight (bp_td p))) by (apply nth_error_Some; congruence).
    destruct (N.leb_spec (N.of_nat (length (td_inflight (bp_td p)))) slot); [lia|].
    pose proof (fl_len _ _ _ _ H) as Len.
    rewrite aput_ok by lia. cbn [bind]. rewrite aput_ok by lia. cbn [bind]. set (t1 := with_io _ _ _).
    assert (Inf : Permutation (inflight_ids t1) (n_id e :: inflight_ids (bp_td p))) by (unfold inflight_ids, t1; cbn [td_inflight with_io]; now apply inflight_fill).
    destruct (IH {| bp_td := t1; bp_free := free; bp_seen := bp_seen p |} I (E ++ [n_id e])) as (p3 & I3 & E3 & -> & H3 & Fr3 & In3 & Se & R).
    { destruct H as [Hb Hs _ Hn Hfr Hd Hbm]. rewrite Ef in Hn, Hbm, Hfr. inversion Hn as [|? ? Ns Hn']; subst. constructor; cbn [bp_td bp_free bp_seen].
      - eapply binv_X; [apply binv_io, H1|]. intros z Hz. eapply Permutation_in; [apply Permutation_sym, Inf|exact Hz].
      - rewrite Hs, Inf. rewrite <- app_assoc. apply Permutation_app_head. symmetry. apply Permutation_cons_append.
      - unfold t1. cbn [td_inflight td_sector with_io]. rewrite !upd_length. assumption.
      - assumption.
      - intros s Hin. unfold t1. cbn [td_inflight with_io]. rewrite nth_error_upd by assumption. destruct (Nat.eqb_spec (N.to_nat slot) (N.to_nat s)) as [Es|_].
        + assert (slot = s) by lia. subst s. contradiction.
        + apply Hfr. now right.
      - unfold t1. cbn [td_inflight td_sector with_io]. intros s id. rewrite nth_error_upd by assumption. rewrite nth_error_upd by lia.
        destruct (Nat.eqb_spec (N.to_nat slot) s); [intros Ei; now injection Ei as <-|]. apply Hd.
      - rewrite (Permutation_length Inf). cbn [length] in *. lia. }
    { assumption. }
    exists p3, I3, E3. split; [reflexivity|]. split; [assumption|].
    split; [eapply bframe_io_trans; [|exact Fr3]; unfold t1; repeat split; cbn; now rewrite upd_length|]. split; [assumption|]. split; [exact Se|exact R].
  Qed.
  Lemma events_spec beam E : forall evts p I, flinv beam p I E ->
    exists p' I', process_events d pq p evts = Ok p' /\ flinv beam p' I' E /\ bframe_io (bp_td p) (bp_td p') /\ incl I I'
      /\ length (bp_seen p) <= length (bp_seen p') /\ (forall x, In x evts -> In x (inflight_ids (bp_td p)) -> length (bp_seen p) < length (bp_seen p')).
  Proof.
    induction evts as [|id evts IH]; intros p I H; cbn [process_events].
    { exists p, I. split; [reflexivity|]. split; [assumption|]. split; [apply bframe_io_refl|]. split; [apply incl_refl|]. split; [lia|]. intros x []. }
    unfold remove_inflight. pose proof (find_inflight_spec (td_inflight (bp_td p)) 0%N id) as Fi.
    destruct (find_inflight (td_inflight (bp_td p)) 0%N id) as [slot|].
    - destruct Fi as [_ Fi]. rewrite N.sub_0_r in Fi.
      assert (Ls : N.to_nat slot < length (td_inflight (bp_td p))) by (apply nth_error_Some; congruence).
      rewrite aput_ok by lia. cbn [bind]. set (t1 := with_io _ _ _).
      assert (Es : aget (td_sector t1) slot = Ok id) by (unfold aget, t1; cbn [td_sector with_io]; now rewrite (fl_data _ _ _ _ H _ _ Fi)).
      rewrite Es. cbn [bind].
      assert (Inf : Permutation (inflight_ids (bp_td p)) (id :: inflight_ids t1)) by (unfold inflight_ids, t1; cbn [td_inflight with_io]; now apply inflight_drop).
      destruct (process_spec t1 I E (inflight_ids (bp_td p)) (inflight_ids t1) id) as (t2 & I2 & -> & H2 & Fr2 & In2).
      { apply binv_io, H. }
      { apply (Permutation_in _ (Permutation_sym (fl_seen _ _ _ _ H))), in_or_app. right. apply (Permutation_in _ (Permutation_sym Inf)). now left. }
      { intros y Hy. apply (Permutation_in _ Inf) in Hy as [<-|Hy]; auto. }
      cbn [bind]. pose proof (inflight_frame _ _ Fr2) as Inf2.
      destruct (IH {| bp_td := t2; bp_free := slot :: bp_free p; bp_seen := bp_seen p ++ [id] |} I2) as (p3 & I3 & -> & H3 & Fr3 & In3 & Se & _).
      { destruct Fr2 as (A & B & _). destruct H as [Hb Hs Hl Hn Hfr Hd Hbm]. constructor; cbn [bp_td bp_free bp_seen]; rewrite ?Inf2, ?A, ?B; unfold t1; cbn [td_inflight td_sector with_io]; auto.
        - rewrite Hs, Inf. rewrite <- app_assoc. reflexivity.
        - now rewrite upd_length.
        - constructor; [|assumption]. intros K. apply Hfr in K. congruence.
        - intros s Hin. rewrite nth_error_upd by assumption. destruct (Nat.eqb_spec (N.to_nat slot) (N.to_nat s)) as [_|Ns]; [reflexivity|].
          destruct Hin as [->|Hin]; [contradiction|auto].
        - intros s i. rewrite nth_error_upd by assumption. destruct (Nat.eqb_spec (N.to_nat slot) s); [discriminate|]. apply Hd.
        - fold t1. rewrite (Permutation_length Inf) in Hbm. cbn [length] in *. lia. }
      cbn [bp_td bp_seen] in *. rewrite app_length in Se. cbn [length] in Se.
      exists p3, I3. split; [reflexivity|]. split; [assumption|].
      split; [eapply bframe_io_trans; [|exact Fr3]; eapply bframe_io_trans; [|apply bframe_weak, Fr2]; unfold t1; repeat split; cbn; now rewrite upd_length|].
      split; [eapply incl_tran; eauto|]. split; [lia|intros; lia].
    - cbn [bind]. destruct (IH p I H) as (p3 & I3 & -> & H3 & Fr3 & In3 & Se & St). exists p3, I3. repeat (split; [assumption || reflexivity|]).
      intros x [<-|Hx] K; [contradiction|eauto].
  Qed.
  Lemma flight_loop_spec src events beam : (0 < beam)%N -> (forall round ids, ids <> [] -> exists x, In x ids /\ In x (events round ids)) ->
    forall fuel round p I E, flinv beam p I E -> (bp_free p = [] \/ has_unexpanded_node (td_front (bp_td p)) = false) -> In (d_medoid d) I ->
    M < fuel + length (bp_seen p) ->
    exists p' I', flight_loop fuel d pq src events round p = Done (Ok p') /\ binv (bp_td p') I' [] (bp_seen p') [] /\ bframe_io (bp_td p) (bp_td p')
      /\ In (d_medoid d) I' /\ has_unexpanded_node (td_front (bp_td p')) = false.
  Proof.
    intros Hb Ev. induction fuel as [|k IH]; intros round p I E H St Hm Hf.
    { exfalso. pose proof (binv_count _ _ _ _ _ (fl_inv _ _ _ _ H)) as C. rewrite (Permutation_length (fl_seen _ _ _ _ H)), app_length in C. lia. }
    cbn [flight_loop]. destruct (has_inflight (bp_td p)) eqn:Hi.
    2:{ assert (Ei : inflight_ids (bp_td p) = []).
        { destruct (inflight_ids (bp_td p)) eqn:Ei; [reflexivity|]. assert (K : has_inflight (bp_td p) = true) by (apply has_inflight_ids; congruence). congruence. }
        exists p, I. split; [reflexivity|]. destruct H as [H0 Hs _ _ _ _ Hbm]. rewrite Ei in *. rewrite app_nil_r in Hs. split; [now apply (binv_E _ _ _ E)|].
        split; [apply bframe_io_refl|]. split; [assumption|]. destruct St as [St|St]; [|assumption]. rewrite St in Hbm. cbn in Hbm. lia. }
    destruct (events_spec beam E (events round (inflight_ids (bp_td p))) p I H) as (p1 & I1 & -> & H1 & Fr1 & In1 & Se1 & Lt1).
    destruct (Ev round (inflight_ids (bp_td p)) ltac:(now apply has_inflight_ids)) as (x & X1 & X2). specialize (Lt1 x X2 X1).
    destruct (fill_spec src beam (S k) p1 I1 E H1) as (p2 & I2 & E2 & -> & H2 & Fr2 & In2 & Se2 & St2).
    { rewrite (Permutation_length (fl_seen _ _ _ _ H)), app_length. lia. }
    destruct (IH (round + 1) p2 I2 E2 H2 St2) as (p3 & I3 & -> & H3 & Fr3 & R); [auto|lia|].
    exists p3, I3. split; [reflexivity|]. split; [assumption|]. split; [|assumption]. eapply bframe_io_trans; [exact Fr1|]. eapply bframe_io_trans; eauto.
  Qed.
  Lemma flight_search_spec src events beam fuel t I : (forall round ids, ids <> [] -> exists x, In x ids /\ In x (events round ids)) ->
    binv t I [] [] [] -> In (d_medoid d) I -> (forall s, In s (td_inflight t) -> s = None) -> length (td_inflight t) = length (td_sector t) ->
    (0 < beam)%N -> (beam <= N.of_nat (length (td_inflight t)))%N -> M < fuel ->
    exists t' I' E, flight_search fuel d pq src events beam t = Done (Ok (t', E)) /\ binv t' I' [] E [] /\ bframe_io t t' /\ In (d_medoid d) I'
      /\ has_unexpanded_node (td_front t') = false.
  Proof.
    intros Ev H Hm Hn Hl Hb Hs Hf. unfold flight_search.
    assert (Ei : inflight_ids t = []).
    { unfold inflight_ids. clear - Hn. induction (td_inflight t) as [|x l IH]; [reflexivity|]. cbn. rewrite (Hn x (or_introl eq_refl)). apply IH. intros s Hs. apply Hn. now right. }
    destruct (fill_spec src beam fuel {| bp_td := t; bp_free := rev (map N.of_nat (seq 0 (N.to_nat beam))); bp_seen := [] |} I []) as (p & I1 & E1 & -> & H1 & Fr1 & In1 & _ & St).
    { constructor; cbn [bp_td bp_free bp_seen]; rewrite ?Ei; auto.
      - apply NoDup_rev, FinFun.Injective_map_NoDup; [|apply seq_NoDup]. intros i j E. lia.
      - intros s. rewrite <- in_rev, in_map_iff. intros (i & <- & Hi). apply in_seq in Hi. rewrite Nat2N.id.
        destruct (nth_error (td_inflight t) i) as [x|] eqn:E; [|apply nth_error_None in E; lia]. f_equal. apply Hn. eapply nth_error_In; eauto.
      - intros s id E. apply nth_error_In, Hn in E. discriminate.
      - rewrite rev_length, map_length, seq_length. cbn. lia. }
    { cbn. lia. }
    destruct (flight_loop_spec src events beam Hb Ev fuel 0 p I1 E1 H1 St) as (p2 & I2 & -> & H2 & Fr2 & R); [auto|lia|].
    exists (bp_td p2), I2, (bp_seen p2). split; [reflexivity|]. split; [assumption|]. split; [eapply bframe_io_trans; eauto|assumption].
  Qed.
End Pq.

(** ** Results *)
Lemma rerank_spec d t l : (forall e, In e l -> (fst e < N.of_nat (length (td_exact t)))%N /\ nth_error (td_exact t) (N.to_nat (fst e)) = Some (Some (d_dist d (fst e)))) ->
  forall want, rerank d t want l = Ok (map (fun e => (fst e, d_dist d (fst e))) (take_live (d_deleted d) want l), t, 0).
Proof.
  induction l as [|(id & x) l IH]; intros H [|k]; cbn [rerank take_live map]; try reflexivity.
  assert (H' : forall e, In e l -> (fst e < N.of_nat (length (td_exact t)))%N /\ nth_error (td_exact t) (N.to_nat (fst e)) = Some (Some (d_dist d (fst e)))) by (intros e He; apply H; now right).
  destruct (d_deleted d id); [now apply IH|]. destruct (H (id, x) (or_introl eq_refl)) as [B E]. cbn [fst] in B, E.
  unfold read_exact_sync, exact_dist. destruct (N.leb_spec (N.of_nat (length (td_exact t))) id); [lia|]. unfold aget. rewrite E. cbn [bind].
  rewrite IH by assumption. reflexivity.
Qed.
Lemma no_rerank_spec d t l : (forall e, In e l -> (fst e < N.of_nat (length (td_exact t)))%N /\ nth_error (td_exact t) (N.to_nat (fst e)) = Some (Some (d_dist d (fst e)))) ->
  forall k, no_rerank d t k l = Ok (map (fun e => (fst e, d_dist d (fst e))) (take_live (d_deleted d) k l)).
Proof.
  induction l as [|(id & x) l IH]; intros H [|k]; cbn [no_rerank take_live map]; try reflexivity.
  assert (H' : forall e, In e l -> (fst e < N.of_nat (length (td_exact t)))%N /\ nth_error (td_exact t) (N.to_nat (fst e)) = Some (Some (d_dist d (fst e)))) by (intros e He; apply H; now right).
  destruct (d_deleted d id); [now apply IH|]. destruct (H (id, x) (or_introl eq_refl)) as [B E]. cbn [fst] in B, E.
  unfold exact_dist. destruct (N.leb_spec (N.of_nat (length (td_exact t))) id); [lia|]. unfold aget. rewrite E. cbn [bind].
  rewrite IH by assumption. reflexivity.
Qed.
Lemma result_before_spec a b : result_before a b = true <-> cand_lt a b.
Proof. unfold result_before, cand_lt. rewrite orb_true_iff, andb_true_iff, Z.ltb_lt, Z.eqb_eq, N.ltb_lt. tauto. Qed.
Lemma place_result_perm a l : Permutation (a :: l) (place_result a l).
Proof.
  induction l as [|b l IH]; cbn [place_result]; [reflexivity|]. destruct (result_before b a); [|reflexivity].
  rewrite perm_swap. now constructor.
Qed.
Lemma sort_results_perm l : Permutation l (sort_results l).
Proof. induction l as [|a l IH]; cbn; [constructor|]. rewrite <- place_result_perm. now constructor. Qed.
Lemma place_result_sorted a l : StronglySorted cand_lt l -> ~ In (fst a) (map fst l) -> StronglySorted cand_lt (place_result a l).
Proof.
  induction l as [|b l IH]; intros S N; cbn [place_result]; [repeat constructor|]. inversion S as [|? ? S' F]; subst. cbn [map In] in N.
  destruct (result_before b a) eqn:E.
  - apply result_before_spec in E. constructor; [apply IH; tauto|]. apply Forall_forall. intros y Hy.
    apply (Permutation_in _ (Permutation_sym (place_result_perm a l))) in Hy as [<-|Hy]; [assumption|]. rewrite Forall_forall in F. auto.
  - assert (L : cand_lt a b).
    { assert (K : ~ cand_lt b a) by (rewrite <- result_before_spec; congruence). unfold cand_lt in *. assert (fst b <> fst a) by tauto. lia. }
    constructor; [assumption|]. constructor; [assumption|]. rewrite Forall_forall in *. intros y Hy. specialize (F y Hy). unfold cand_lt in *. lia.
Qed.
Lemma sort_results_sorted l : NoDup (map fst l) -> StronglySorted cand_lt (sort_results l).
Proof.
  induction l as [|a l IH]; intros H; [constructor|]. cbn [map] in H. inversion H as [|? ? Na H']; subst. cbn [sort_results fold_right]. apply place_result_sorted; [now apply IH|].
  intros K. apply Na. apply (Permutation_in _ (Permutation_sym (Permutation_map fst (sort_results_perm l)))). exact K.
Qed.
(** The first [k] of the sorted candidates are the best. *)
Lemma best_spec (f : N -> Z) k (cands : list (N * Z)) : NoDup (map fst cands) ->
  let hits := firstn k (sort_results (map (fun e => (fst e, f (fst e))) cands)) in
  ranked (fun x => In x (map fst cands)) f k hits /\ nearest (fun x => In x (map fst cands)) f k hits /\ StronglySorted cand_lt hits.
Proof.
  intros ND hits. set (all := sort_results (map (fun e => (fst e, f (fst e))) cands)) in *.
  assert (Mf : map fst (map (fun e : N * Z => (fst e, f (fst e))) cands) = map fst cands) by (rewrite map_map; reflexivity).
  assert (S : StronglySorted cand_lt all) by (apply sort_results_sorted; now rewrite Mf).
  assert (P : Permutation (map (fun e => (fst e, f (fst e))) cands) all) by apply sort_results_perm.
  assert (Pi : Permutation (map fst cands) (map fst all)) by (rewrite <- Mf; now apply Permutation_map).
  assert (Tr : forall id z, In (id, z) all -> In id (map fst cands) /\ z = f id).
  { intros id z H. apply (Permutation_in _ (Permutation_sym P)) in H. apply in_map_iff in H as (e & Ee & He). injection Ee as <- <-. split; [now apply in_map|reflexivity]. }
  assert (Ss := S). rewrite <- (firstn_skipn k all) in Ss. assert (Sh : StronglySorted cand_lt hits) by (eapply sorted_app_l; eauto).
  split; [|split; [|exact Sh]].
  - constructor.
    + unfold hits. rewrite firstn_length. lia.
    + unfold hits. rewrite <- firstn_map. apply nodup_firstn. eapply Permutation_NoDup; eauto.
    + intros id z H. apply Tr. eapply firstn_in; eauto.
    + now apply lt_le.
  - intros id Hid. assert (Hin : In (id, f id) all).
    { apply (Permutation_in _ P). apply in_map_iff in Hid as (e & <- & He). apply in_map_iff. now exists e. }
    rewrite <- (firstn_skipn k all) in Hin. apply in_app_or in Hin as [Hin|Hin]; [now left|]. right. split.
    + unfold hits. rewrite firstn_length. assert (length (skipn k all) <> 0) by (destruct (skipn k all); [destruct Hin|discriminate]). rewrite skipn_length in H. lia.
    + intros y Hy. apply (sorted_app_any _ _ _ (lt_le _ Ss) y _ Hy Hin).
Qed.

(** The index with the quantized distances in place of the true ones *)
Definition pq_view (d : disk) (pq : N -> Z) : disk :=
  {| d_nbrs := d_nbrs d; d_dist := pq; d_deleted := d_deleted d; d_points := d_points d; d_medoid := d_medoid d |}.

Lemma pq_lemma q t fuel max degree lists : pq_ok max t q -> td_ok max degree lists t -> pq_fuel q <= fuel ->
  let d := pq_disk q in
  exists t' I seen C, pq_run q fuel t
      = Done (Ok (firstn (pq_top_k q) (sort_results (map (fun e => (fst e, d_dist d (fst e))) (take_live (d_deleted d) (pq_pool q) (map fst C)))), t', seen, 0))
    /\ td_ok max degree lists t' /\ length (td_inflight t') = length (td_inflight t)
    /\ sinv (disk_edge d) (eq (d_medoid d)) (pq_dist q) (pq_capacity q) I [] seen [] C
    /\ In (d_medoid d) I /\ (forall x, In x C -> snd x = true) /\ StronglySorted cand_lt (map fst C).
Proof.
  intros [Hp Hmd Hs Hsl Hev] T Hf d. unfold pq_fuel in Hf. fold d in Hf. unfold pq_run, pq_beam_search. fold (pq_capacity q).
  set (cap := pq_capacity q) in *. set (pq := pq_dist q) in *. fold d in Hp, Hmd. fold d.
  destruct (reset_query_spec (d_nbrs d) max degree lists t cap T) as (t0 & -> & V0 & Q0 & C0 & L0 & N0 & Ex0 & Exd & Exn & Li0 & Ls0). cbn [bind].
  destruct (vis_mark max (td_visited t0) (fun _ => false) (d_medoid d) V0 Hmd) as (v & w & E1 & V1 & _). unfold vb_set. rewrite E1. cbn [bind].
  assert (D0 : binv d pq max cap (with_visited t0 v) [] [d_medoid d] [] []).
  { constructor; cbn [app].
    - exists (fun p => N.eqb (d_medoid d) p || false). split; [exact V1|]. intros p. rewrite orb_false_r, N.eqb_eq. cbn [In]. tauto.
    - exact Q0.
    - cbn [td_front with_visited]. rewrite C0. change [d_medoid d] with ([] ++ [d_medoid d]). apply sinv_discover; [apply sinv_nil|now apply reach_start|intros []].
    - exact Ex0.
    - intros x [].
    - cbn [td_exact_dirty with_visited]. rewrite Exd. intros id [].
    - cbn [td_exact with_visited]. intros id z Ez. assert (N.to_nat id < length (td_exact t0)) by (apply nth_error_Some; congruence). rewrite Exn in Ez by lia. discriminate. }
  destruct (insert_tile_spec d pq max cap Hs [] [] [d_medoid d] _ _ D0) as (q1 & Eq1 & D1). cbn [td_front with_visited] in Eq1. rewrite Eq1. cbn [bind].
  set (t1 := with_front (with_visited t0 v) q1) in *. cbn [app] in D1.
  assert (Hs1 : length (td_sector t1) = length (td_sector t)) by exact Ls0.
  assert (Hi1 : length (td_inflight t1) = length (td_inflight t)) by exact Li0.
  assert (Hio : length (td_inflight t) = length (td_sector t)) by apply T.
  assert (Hpos : 0 < length (td_sector t)) by apply T.
  assert (Hbeam : (0 < beam_of (pq_opts q))%N) by (unfold beam_of; lia).
  assert (R : exists t2 I E, (if pq_is_deterministic (pq_opts q) then beam_loop fuel d pq (pq_src q) (beam_of (pq_opts q)) t1 []
                              else flight_search fuel d pq (pq_src q) (pq_events q) (beam_of (pq_opts q)) t1) = Done (Ok (t2, E))
     /\ binv d pq max cap t2 I [] E [] /\ bframe_io t1 t2 /\ In (d_medoid d) I /\ has_unexpanded_node (td_front t2) = false).
  { destruct (pq_is_deterministic (pq_opts q)) eqn:Det.
    - destruct (beam_loop_spec d pq max cap Hp Hmd Hs (pq_src q) _ Hbeam fuel t1 [d_medoid d] [] D1) as (t2 & I & E & R); [lia|cbn; lia|now left|eauto 8].
    - destruct Hsl as [Hsl|Hsl]; [discriminate|]. unfold page_slots in Hsl.
      destruct (flight_search_spec d pq max cap Hp Hmd Hs (pq_src q) (pq_events q) (beam_of (pq_opts q)) fuel t1 [d_medoid d] Hev D1) as (t2 & I & E & R); auto; try lia.
      + now left.
      + eauto 8. }
  destruct R as (t2 & I & E & -> & D2 & Fr2 & Im & Un). cbn [bind].
  pose proof D2 as [(mem & V2 & _) Q2 S2 Xl Xe Di Dd].
  pose proof (npq_all_expanded _ _ Q2 Un) as Fl.
  set (C := q_list (td_front t2)) in *.
  assert (Front : front_list t2 = map fst C) by apply (front_list_is _ _ Q2).
  assert (Known : forall e, In e (map fst C) -> (fst e < N.of_nat (length (td_exact t2)))%N /\ nth_error (td_exact t2) (N.to_nat (fst e)) = Some (Some (d_dist d (fst e)))).
  { intros e He. apply in_map_iff in He as (c & <- & Hc). pose proof (proj1 (si_flags _ _ _ _ _ _ _ _ _ S2 c Hc) (Fl c Hc)) as Ec.
    destruct (Xe _ Ec) as [[]|K]. split; [|exact K]. assert (N.to_nat (fst (fst c)) < length (td_exact t2)) by (apply nth_error_Some; congruence). lia. }
  assert (Res : pq_results d (pq_opts q) (pq_top_k q) t2
    = Ok (firstn (pq_top_k q) (sort_results (map (fun e => (fst e, d_dist d (fst e))) (take_live (d_deleted d) (pq_pool q) (map fst C)))), t2, 0)).
  { unfold pq_results, pq_pool. rewrite Front. destruct (pq_rerank (pq_opts q)) eqn:Rr.
    - rewrite (rerank_spec d t2 (map fst C) Known). reflexivity.
    - rewrite (no_rerank_spec d t2 (map fst C) Known). cbn [bind]. unfold pool_size. rewrite Rr. reflexivity. }
  exists t2, I, E, C. rewrite Res. cbn [bind]. split; [reflexivity|].
  destruct Fr2 as (A1 & A2 & A3 & A4 & A5 & A6 & A7).
  split.
  { assert (L2 : lists_inv (d_nbrs d) max degree (N.to_nat lists) t2 [] []) by (eapply lists_same; [exact A3|exact A4|exact A5|exact A6|exact A7|]; eapply lists_same; [..|exact L0]; reflexivity).
    constructor.
    - eauto.
    - assumption.
    - assumption.
    - assumption.
    - apply L2.
    - rewrite (li_buf _ _ _ _ _ _ _ L2). now rewrite N2Nat.id.
    - apply L2.
    - apply L2.
    - intros id o Eo Ne. assert (Li : N.to_nat id < length (td_offsets t2)) by (apply nth_error_Some; congruence). rewrite (li_len _ _ _ _ _ _ _ L2) in Li.
      rewrite (li_hasnt _ _ _ _ _ _ _ L2 id ltac:(lia) (fun K => K)) in Eo. congruence.
    - congruence.
    - lia. }
  split; [congruence|]. split; [assumption|]. split; [assumption|]. split; [exact Fl|].
  unfold C. rewrite q_list_content. unfold q_content. fold of_nbr. apply (q_sorted_strong _ (qi_sorted _ _ Q2)).
Qed.
Lemma scratch_td_ok degree lists max t : scratch_history degree lists max t -> td_ok max degree lists t.
Proof.
  induction 1 as [slots max t E|max t max' H IH|max t q hits t' e H IH Q R|max t q hits t' seen n H IH Q R].
  - eapply alloc_ok; eauto.
  - now apply resize_ok.
  - destruct (disk_lemma q t (dq_fuel q) max degree lists Q IH (le_n _)) as (t2 & I & e2 & C & R2 & T & _). rewrite R in R2. now injection R2 as _ -> _.
  - destruct (pq_lemma q t (pq_fuel q) max degree lists Q IH (le_n _)) as (t2 & I & e2 & C & R2 & T & _). rewrite R in R2. now injection R2 as _ -> _ _.
Qed.
