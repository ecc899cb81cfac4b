(** C66: insertions and removals; C65: removed vectors in search results. *)
From Verif Require Import SearchProofs UpdateProofs.
From Verif Require Export UpdateSpec.

(** ** C66 *)

(** Whatever was inserted and removed before, an operation neither leaves the
    allocated memory nor runs forever, and all tables stay in step. *)
Theorem updates_never_fail : forall fuel c s0 hist s o, built c s0 -> enough c fuel -> reached fuel c s0 hist s -> allowed s o ->
  (exists out s', step fuel c s o = Done (Ok (out, s')))
  /\ length (u_rows s) = size s /\ u_items s = N.of_nat (size s) /\ size s <= k_cap c.
Proof.
  intros fuel c s0 hist s o B F R A. destruct (reached_inv fuel c s0 B F hist s R) as [I P].
  destruct (step_spec fuel c s o I P A F) as (out & s' & E & _). split; [eauto|]. split; [apply I|]. split; apply I.
Qed.
Print Assumptions updates_never_fail.

(** An insertion stores the vector under the next id and changes no other, is
    refused exactly when the index is full, and raises only for the reasons
    given. *)
Theorem insert_answers : forall fuel c s0 hist s v ef sc h out s', built c s0 -> enough c fuel -> reached fuel c s0 hist s -> order_ok h ->
  step fuel c s (InsertVec v ef sc h) = Done (Ok (out, s')) -> insert_answer c s v ef sc out s'.
Proof.
  intros fuel c s0 hist s v ef sc h out s' B F R O E. destruct (reached_inv fuel c s0 B F hist s R) as [I P].
  destruct (insert_spec fuel c h s v ef sc I P O F) as (out' & s'' & E' & _ & _ & An & _). cbn [step] in E. rewrite E in E'. injection E' as -> ->. exact An.
Qed.
Print Assumptions insert_answers.

(** With room, an acceptable row and ef large enough, an insertion succeeds as
    long as no removed node was without neighbours. *)
Theorem insert_succeeds : forall fuel c s0 hist s v ef h, built c s0 -> enough c fuel -> reached fuel c s0 hist s -> order_ok h ->
  size s < k_cap c -> k_max c <= ef -> (forall x, ~ sink s x) ->
  exists s', step fuel c s (InsertVec v ef Accepts h) = Done (Ok (Inserted (N.of_nat (size s)), s')) /\ stored s v s'.
Proof.
  intros fuel c s0 hist s v ef h B F R O Hc He NS. destruct (reached_inv fuel c s0 B F hist s R) as [I P].
  destruct (insert_spec fuel c h s v ef Accepts I P O F) as (out & s' & E & _ & _ & An & _). cbn [step]. rewrite E.
  destruct out as [id| | |]; cbn [insert_answer] in An.
  - destruct An as (_ & -> & S). eauto.
  - destruct An. lia.
  - destruct An.
  - destruct An as [(_ & [X|X])|(_ & [X|(x & X)])]; [discriminate X|lia|discriminate X|exfalso; eapply NS; eauto].
Qed.
Print Assumptions insert_succeeds.

(** A removal takes exactly the vector named out of the live ones and changes no
    row. *)
Theorem remove_answers : forall fuel c s0 hist s id, built c s0 -> enough c fuel -> reached fuel c s0 hist s -> N.to_nat id < size s ->
  exists s', step fuel c s (RemoveVec id) = Done (Ok (Removed, s')) /\ u_vecs s' = u_vecs s /\ u_rows s' = u_rows s
    /\ forall x, live s' x <-> live s x /\ x <> id.
Proof.
  intros fuel c s0 hist s id B F R Hid. destruct (reached_inv fuel c s0 B F hist s R) as [I P].
  destruct (remove_spec c s id I P Hid) as (s' & E & _ & _ & _ & V & Ro & L). exists s'. cbn [step]. rewrite E. split; [reflexivity|].
  split; [assumption|]. split; [assumption|]. intros x. unfold live, size. rewrite V, L. destruct (N.eqb_spec x id); split; intuition congruence.
Qed.
Print Assumptions remove_answers.

(** A successful insertion links the new node: its row is what a search for the
    vector returned, and every node in it that was not removed now lists the
    closest of its candidates, the new node among them. *)
Theorem insert_relinks : forall fuel c s0 hist s v ef sc h id s', built c s0 -> enough c fuel -> reached fuel c s0 hist s -> order_ok h ->
  step fuel c s (InsertVec v ef sc h) = Done (Ok (Inserted id, s')) ->
  exists u hits dist, measured c s v dist /\ ranked (fun x => (x < N.of_nat (size s))%N) dist (k_max c) hits
    /\ settled (leads_to (graph_of c s) (nfind (u_second s))) (start_of c u) dist (k_max c) hits
    /\ rows_after c s hits s'.
Proof.
  intros fuel c s0 hist s v ef sc h id s' B F R O E. destruct (reached_inv fuel c s0 B F hist s R) as [I P].
  destruct (insert_spec fuel c h s v ef sc I P O F) as (out' & s'' & E' & _ & _ & _ & _ & _ & L). cbn [step] in E. rewrite E in E'. injection E' as <- <-.
  destruct (L id eq_refl) as (u & hits & Rk & Se & RA & _). exists u, hits, (computer c s v). split; [apply computer_measured|]. auto.
Qed.
Print Assumptions insert_relinks.

(** In particular a node of that row with room for its candidates leads to the
    new node afterwards. *)
Theorem insert_links_back : forall fuel c s0 hist s v ef sc h id s' row x, built c s0 -> enough c fuel -> reached fuel c s0 hist s -> order_ok h ->
  step fuel c s (InsertVec v ef sc h) = Done (Ok (Inserted id, s')) -> row_of s' id row -> listed (N.of_nat (k_max c)) row x ->
  flag (u_linked s) x = true -> at_most (k_max c) (candidate c s id x) ->
  exists row', row_of s' x row' /\ listed (N.of_nat (k_max c)) row' id.
Proof.
  intros fuel c s0 hist s v ef sc h id s' row x B F R O E Er Lx Fx (cs & Lc & Hc). destruct (reached_inv fuel c s0 B F hist s R) as [I P].
  pose proof (insert_answers fuel c s0 hist s v ef sc h _ s' B F R O E) as (Room & Eid & Sto).
  destruct (insert_relinks fuel c s0 hist s v ef sc h id s' B F R O E) as (u & hits & dist & _ & Rk & _ & (row1 & Er1 & E1) & RA).
  assert (Bd : forall y, In y (map fst hits) -> (y < N.of_nat (size s))%N).
  { intros y Hy. apply in_map_iff in Hy as ((i & d) & <- & Hy). apply (rk_true _ _ _ _ Rk i d Hy). }
  rewrite <- Eid in Er1. unfold row_of in Er, Er1. rewrite Er in Er1. injection Er1 as ->. pose proof (iv_width _ _ I) as Wd. change (2 ^ 31)%N with 2147483648%N in Wd.
  assert (Inv : forall y, (y < N.of_nat (k_cap c))%N -> y <> kInvalidId) by (unfold kInvalidId; intros y Hy; lia).
  apply ids_in_listed in Lx. unfold ids_in in Lx.
  rewrite firstn_all2 in Lx by (rewrite E1, app_length, map_length, repeat_length; pose proof (rk_count _ _ _ _ Rk); lia).
  rewrite E1, until_app_pad in Lx by (intros y Hy; apply Inv; specialize (Bd y Hy); lia).
  specialize (RA x (Bd x Lx)). rewrite (proj2 (existsb_In x (map fst hits)) Lx), Fx in RA. cbn [andb] in RA.
  destruct RA as (d' & row' & Er' & _ & (hs & E2 & Rk' & Ne)). exists row'. split; [assumption|].
  assert (NDc : length hs <= length cs).
  { rewrite <- (map_length fst). apply NoDup_incl_length; [apply Rk'|]. intros y Hy. apply in_map_iff in Hy as ((i & d) & <- & Hy).
    apply Hc. rewrite Eid. apply (rk_true _ _ _ _ Rk' i d Hy). }
  assert (BC : forall y, candidate c s (N.of_nat (size s)) x y -> (y < N.of_nat (k_cap c))%N).
  { pose proof (iv_cap _ _ I). intros y [->|(row & z & Ez & Lz & Hy)]; [lia|]. assert (y < N.of_nat (size s))%N; [|lia]. destruct Hy as [->|(_ & l & El & Hy)].
    - apply (iv_ids _ _ I row); [eapply nth_error_In; eauto|now apply ids_in_listed].
    - now apply (iv_second _ _ I z l). }
  assert (Inew : In id (map fst hs)).
  { rewrite Eid. destruct (Ne (N.of_nat (size s)) (or_introl eq_refl)) as [H|[H _]]; [apply in_map_iff; eexists; split; [|exact H]; reflexivity|].
    (* full: all candidates are in, by counting *)
    assert (IC : incl cs (map fst hs)).
    { apply NoDup_length_incl; [apply Rk'|rewrite map_length; lia|]. intros y Hy. apply in_map_iff in Hy as ((i & d) & <- & Hy).
      apply Hc. rewrite Eid. apply (rk_true _ _ _ _ Rk' i d Hy). }
    apply IC. apply Hc. rewrite Eid. now left. }
  apply ids_in_listed. unfold ids_in. rewrite E2. rewrite firstn_all2 by (rewrite app_length, map_length, repeat_length; pose proof (rk_count _ _ _ _ Rk'); lia).
  rewrite until_all; [apply in_or_app; now left|]. intros y Hy. apply in_app_or in Hy as [Hy|Hy].
  - apply Inv, BC. apply in_map_iff in Hy as ((i & d) & <- & Hy). apply (rk_true _ _ _ _ Rk' i d Hy).
  - apply repeat_spec in Hy. subst y. discriminate.
Qed.
Print Assumptions insert_links_back.

(** An insertion that raises while relinking (the vector is already stored)
    leaves the reverse edges of its node behind; from then on every insertion
    fails the same way. *)
Theorem failed_relinking_blocks_inserts : forall fuel c s0 hist s v ef h s' hist' s2 o out s3, built c s0 -> enough c fuel -> reached fuel c s0 hist s ->
  order_ok h -> k_max c <= ef -> step fuel c s (InsertVec v ef Accepts h) = Done (Ok (Raised, s')) ->
  reached fuel c s' hist' s2 -> allowed s2 o -> step fuel c s2 o = Done (Ok (out, s3)) -> forall id, out <> Inserted id.
Proof.
  intros fuel c s0 hist s v ef h s' hist' s2 o out s3 B F R O He E R2 A E2. destruct (reached_inv fuel c s0 B F hist s R) as [I P].
  destruct (insert_spec fuel c h s v ef Accepts I P O F) as (out' & s'' & E' & I' & P' & _ & _ & St & _). cbn [step] in E. rewrite E in E'. injection E' as <- <-.
  specialize (St eq_refl eq_refl He). clear E.
  assert (H : inv c s2 /\ pending_ok c s2 /\ stuck c s2).
  { clear A E2. induction R2 as [|hh s1 o1 out1 s1' R2 IH A1 E1]; [auto|]. destruct IH as (I1 & P1 & S1).
    destruct (step_spec fuel c s1 o1 I1 P1 A1 F) as (out2 & s4 & E4 & I4 & P4 & S4). rewrite E1 in E4. injection E4 as -> ->.
    destruct (S4 S1). auto. }
  destruct H as (I2 & P2 & S2). destruct (step_spec fuel c s2 o I2 P2 A F) as (out2 & s4 & E4 & _ & _ & S4). rewrite E2 in E4. injection E4 as -> ->.
  now destruct (S4 S2).
Qed.
Print Assumptions failed_relinking_blocks_inserts.

(** ** C65 *)

(** A search after any insertions and removals returns different ids of
    vectors, closest first, at most [topk] of them; a live vector has its true
    distance, a removed one the largest float.  With a list as long as the
    index every vector that can be reached is returned unless [topk] closer
    ones are. *)
Theorem search_after_updates : forall fuel c s0 hist s q topk ef, built c s0 -> enough c fuel -> reached fuel c s0 hist s -> topk <= ef -> 0 < ef ->
  exists u hits dist e, search fuel c s q topk ef = Done (Ok (hits ++ repeat (kInvalidId, float_max) (topk - length hits), e))
    /\ measured c s q dist /\ ranked (fun x => N.to_nat x < size s) dist topk hits
    /\ settled (leads_to (graph_of c s) (fun _ => None)) (start_of c u) dist topk hits
    /\ (size s <= ef -> nearest (reachable (leads_to (graph_of c s) (fun _ => None)) (start_of c u)) dist topk hits).
Proof.
  intros fuel c s0 hist s q topk ef B F R Hk He. destruct (reached_inv fuel c s0 B F hist s R) as [I P].
  destruct (inv_search fuel c s (fun _ => None) (computer c s q) topk ef I ltac:(discriminate) F Hk He) as (u & hits & e & E & Rk & Se & Ex & Bs).
  exists u, hits, (computer c s q), e. split; [exact E|]. split; [apply computer_measured|]. split.
  { apply (ranked_iff (fun x => (x < N.of_nat (size s))%N)); [|assumption]. intros x. lia. }
  split; [assumption|]. intros Hs. apply Ex. exists (map N.of_nat (seq 0 (size s))). split; [now rewrite map_length, seq_length|].
  intros x Hx. apply in_map_iff. exists (N.to_nat x). split; [lia|]. apply in_seq. cut (x < N.of_nat (size s))%N; [lia|].
  apply (reach_below _ _ _ (start_of c u) (inv_rows_ok c s (fun _ => None) I ltac:(discriminate))); assumption.
Qed.
Print Assumptions search_after_updates.

(** A removed vector is never returned before a live one. *)
Theorem removed_after_live : forall fuel c s0 hist s q topk ef out e i j x y, built c s0 -> enough c fuel -> reached fuel c s0 hist s -> topk <= ef -> 0 < ef ->
  (forall v, (k_vdist c q v < float_max)%Z) ->
  search fuel c s q topk ef = Done (Ok (out, e)) -> nth_error (map fst out) i = Some x -> nth_error (map fst out) j = Some y ->
  live s x -> ~ live s y -> i < j.
Proof.
  intros fuel c s0 hist s q topk ef out e i j x y B F R Hk He Fin E Ei Ej Lx Ly.
  destruct (search_after_updates fuel c s0 hist s q topk ef B F R Hk He) as (u & hits & dist & e' & E' & (M1 & M2) & Rk & _).
  rewrite E in E'. injection E' as -> ->. rewrite map_app in Ei, Ej.
  assert (Pad : forall k, map fst (repeat (kInvalidId, float_max) k) = repeat kInvalidId k) by (induction k as [|k IH]; cbn; congruence).
  rewrite Pad in Ei, Ej. clear Pad.
  destruct (reached_inv fuel c s0 B F hist s R) as [I _]. pose proof (iv_cap _ _ I) as Cp. pose proof (iv_width _ _ I) as Wd. change (2 ^ 31)%N with 2147483648%N in Wd.
  assert (Hi : i < length hits).
  { destruct (Nat.lt_ge_cases i (length hits)) as [|Ge]; [assumption|]. exfalso. rewrite nth_error_app2 in Ei by (rewrite map_length; lia).
    apply nth_error_In, repeat_spec in Ei. destruct Lx as [Lx _]. unfold kInvalidId in Ei. lia. }
  destruct (Nat.lt_ge_cases j (length hits)) as [Hj|]; [|lia].
  rewrite nth_error_app1 in Ei by now rewrite map_length. rewrite nth_error_app1 in Ej by now rewrite map_length.
  destruct (nth_error hits i) as [[x' dx]|] eqn:Hx; [|apply nth_error_None in Hx; lia]. rewrite (map_nth_error fst _ _ Hx) in Ei. injection Ei as ->.
  destruct (nth_error hits j) as [[y' dy]|] eqn:Hy; [|apply nth_error_None in Hy; lia]. rewrite (map_nth_error fst _ _ Hy) in Ej. injection Ej as ->.
  destruct (rk_true _ _ _ _ Rk x dx (nth_error_In _ _ Hx)) as [_ ->]. destruct (rk_true _ _ _ _ Rk y dy (nth_error_In _ _ Hy)) as [_ ->].
  assert (Dx : (dist x < float_max)%Z).
  { destruct (nth_error (u_vecs s) (N.to_nat x)) as [v|] eqn:Ev; [rewrite (M1 x v Lx Ev); apply Fin|]. apply nth_error_None in Ev. destruct Lx as [Lx _]. unfold size in Lx. lia. }
  pose proof (M2 y Ly) as Dy. destruct (Nat.lt_trichotomy i j) as [|[->|Lt]]; [assumption| |].
  - rewrite Hx in Hy. injection Hy as -> . exfalso. contradiction.
  - exfalso. pose proof (rk_sorted _ _ _ _ Rk) as So. clear - So Hx Hy Lt Dx Dy.
    revert i j Lt Hx Hy. induction So as [|a l So IH Fa]; intros i j Lt Hx Hy; [now destruct i|].
    destruct j as [|j]; cbn in Hy.
    + injection Hy as ->. destruct i as [|i]; [lia|]. cbn in Hx. rewrite Forall_forall in Fa. specialize (Fa _ (nth_error_In _ _ Hx)). cbn [snd] in Fa. lia.
    + destruct i as [|i]; [lia|]. apply (IH i j); [lia|assumption|assumption].
Qed.
Print Assumptions removed_after_live.

(** ** Cases *)
Definition in_order : hash_order := {| o_keys := fun l => l; o_cands := fun l => l |}.
Definition backwards : hash_order := {| o_keys := @rev N; o_cands := @rev N |}.
Lemma in_order_ok : order_ok in_order.
Proof. split; intros l; apply Permutation_refl. Qed.
Lemma backwards_ok : order_ok backwards.
Proof. split; intros l; apply Permutation_sym, Permutation_rev. Qed.
(** One-dimensional vectors at the distance of their only entries. *)
Definition line_dist (a b : vec) : Z := Z.abs (hd 0%Z a - hd 0%Z b).
Definition line_conf (cap max : nat) : conf := {| k_cap := cap; k_max := max; k_eps := [0%N]; k_overlay := None; k_vdist := line_dist |}.
Definition fresh (rows : list (list N)) (vecs : list Z) : state :=
  {| u_rows := rows; u_linked := map (fun _ => true) vecs; u_vecs := map (fun z => [z]) vecs; u_live := map (fun _ => true) vecs;
     u_items := N.of_nat (length vecs); u_removed := []; u_second := []; u_inserted := [] |}.
Lemma fresh_built cap max rows vecs : 0 < max -> 0 < length vecs -> length vecs <= cap -> (N.of_nat cap <= 2 ^ 31)%N -> length rows = length vecs ->
  forallb (fun row => Nat.leb max (length row)) rows = true ->
  forallb (fun row => forallb (fun y => N.ltb y (N.of_nat (length vecs))) (ids_in max row)) rows = true ->
  built (line_conf cap max) (fresh rows vecs).
Proof.
  intros H1 H2 H3 H4 H5 H6 H7. assert (Sz : size (fresh rows vecs) = length vecs) by (unfold size, fresh; cbn [u_vecs]; apply map_length).
  constructor; rewrite ?Sz; cbn [line_conf k_max k_cap k_eps k_overlay fresh u_linked u_live u_items u_removed u_second u_inserted]; auto.
  - constructor; cbn [graph_of g_rows g_max_nbrs fresh u_rows line_conf k_max].
    + rewrite H5. lia.
    + intros row Hr. rewrite forallb_forall in H6. specialize (H6 row Hr). apply Nat.leb_le in H6. lia.
    + intros x y Hx. unfold leads_to. cbn [graph_of g_rows g_max_nbrs fresh u_rows line_conf k_max]. intros (row & Er & Ly). apply ids_in_listed in Ly.
      rewrite forallb_forall in H7. specialize (H7 row (nth_error_In _ _ Er)). rewrite forallb_forall in H7. specialize (H7 y Ly). lia.
  - apply map_length.
  - apply map_length.
  - intros x [<-|[]]. lia.
Qed.
(** Running operations from a state. *)
Definition may (s : state) (o : op) : bool := match o with InsertVec _ _ _ _ => true | RemoveVec id => Nat.ltb (N.to_nat id) (size s) end.
Definition ordered (o : op) : Prop := match o with InsertVec _ _ _ h => order_ok h | RemoveVec _ => True end.
Fixpoint run_ops (fuel : nat) (c : conf) (s : state) (ops : list op) : option (list outcome * state) :=
  match ops with
  | [] => Some ([], s)
  | o :: r => if may s o then
                match step fuel c s o with
                | Done (Ok (out, s')) => match run_ops fuel c s' r with Some (outs, t) => Some (out :: outs, t) | None => None end
                | _ => None
                end
              else None
  end.
Lemma run_reached fuel c s0 : forall ops hist s outs s', reached fuel c s0 hist s -> Forall ordered ops -> run_ops fuel c s ops = Some (outs, s') ->
  reached fuel c s0 (hist ++ combine ops outs) s'.
Proof.
  induction ops as [|o ops IH]; intros hist s outs s' R A E; cbn [run_ops] in E.
  - injection E as <- <-. cbn. now rewrite app_nil_r.
  - apply Forall_cons_iff in A as [A A2]. destruct (may s o) eqn:Em; [|discriminate E]. destruct (step fuel c s o) as [|[[out s1]| | |]] eqn:Es; try discriminate E.
    destruct (run_ops fuel c s1 ops) as [[outs1 t]|] eqn:Er; [|discriminate E]. injection E as <- <-. cbn [combine].
    change ((o, out) :: combine ops outs1) with ([(o, out)] ++ combine ops outs1). rewrite app_assoc. apply (IH _ s1); auto. eapply reached_step; eauto.
    destruct o; [exact A|]. now apply Nat.ltb_lt.
Qed.
Definition ins (z : Z) (h : hash_order) : op := InsertVec [z] 4 Accepts h.

(** Three vectors; two inserted, one removed in between. *)
Definition ex_ops : list op := [ins 12 in_order; RemoveVec 1; ins 9 backwards].
Definition ex_start : state := fresh [[1; 2]; [0; 2]; [1; kInvalidId]]%N [0; 10; 20]%Z.
Lemma ex_built : built (line_conf 8 2) ex_start.
Proof. apply fresh_built; try (vm_compute; lia); try reflexivity. vm_compute. discriminate. Qed.
Definition ex_end : state := Eval vm_compute in match run_ops 20 (line_conf 8 2) ex_start ex_ops with Some (_, s) => s | None => ex_start end.
Example ex_reached : reached 20 (line_conf 8 2) ex_start (combine ex_ops [Inserted 3; Removed; Inserted 4]%N) ex_end.
Proof.
  refine (run_reached 20 (line_conf 8 2) _ ex_ops [] _ [Inserted 3; Removed; Inserted 4]%N _ (reached_start _ _ _) _ _); [|vm_compute; reflexivity].
  constructor; [exact in_order_ok|]. constructor; [exact Logic.I|]. constructor; [exact backwards_ok|constructor].
Qed.
(** The row of node 4 is what the search found, the rows of 3 and 0 (found) were
    rebuilt, those of 1 (removed) and 2 (not found) were not. *)
Example ex_rows : u_rows ex_end = [[0; 4]; [3; 0]; [3; 1]; [3; 4]; [3; 0]]%N.
Proof. vm_compute. reflexivity. Qed.
(** The hypotheses of [insert_succeeds] and [insert_links_back] hold of the last
    insertion: no sink, node 0 listed in the new row and with room. *)
Definition ex_mid : state := Eval vm_compute in match run_ops 20 (line_conf 8 2) ex_start [ins 12 in_order; RemoveVec 1] with Some (_, s) => s | None => ex_start end.
Example ex_no_sink : forall x, ~ sink ex_mid x.
Proof. intros x [[<-|[]] H]. vm_compute in H. discriminate H. Qed.
Example ex_linked_back : exists s', step 20 (line_conf 8 2) (fresh [[1; kInvalidId]; [0; kInvalidId]]%N [0; 10]%Z) (ins 12 in_order) = Done (Ok (Inserted 2, s'))
  /\ row_of s' 2 [1; 0]%N /\ row_of s' 1 [2; 0]%N /\ row_of s' 0 [1; 2]%N.
Proof. eexists. split; [vm_compute; reflexivity|]. repeat split. Qed.

(** An inserted vector may not be reachable: one vector, removed before the next
    is inserted.  Nothing leads from the removed node to the new one. *)
Theorem inserted_found_refuted : exists c s0 hist s, built c s0 /\ reached 20 c s0 hist s /\ map snd hist = [Removed; Inserted 1%N]
  /\ live s 1 /\ nth_error (u_vecs s) 1 = Some [5%Z]
  /\ search 20 c s [5%Z] 2 8 = Done (Ok ([(0%N, float_max); (kInvalidId, float_max)], [0%N])).
Proof.
  exists (line_conf 8 2), (fresh [[kInvalidId; kInvalidId]] [0%Z]). do 2 eexists.
  split; [apply fresh_built; try (vm_compute; lia); try reflexivity; vm_compute; discriminate|].
  split; [refine (run_reached 20 (line_conf 8 2) _ [RemoveVec 0; ins 5 in_order] [] _ [Removed; Inserted 1%N] _ (reached_start _ _ _) _ _);
    [constructor; [exact Logic.I|constructor; [exact in_order_ok|constructor]]|vm_compute; reflexivity]|].
  split; [reflexivity|]. split; [split; [vm_compute; lia|reflexivity]|]. split; [reflexivity|]. vm_compute. reflexivity.
Qed.
Print Assumptions inserted_found_refuted.
(** Also without removals: the rows of the nodes found are full of closer
    nodes. *)
Theorem inserted_linked_refuted : exists c s0 hist s, built c s0 /\ reached 20 c s0 hist s /\ map snd hist = [Inserted 2%N]
  /\ live s 2 /\ nth_error (u_vecs s) 2 = Some [50%Z] /\ (forall x row, row_of s x row -> ~ In 2%N row)
  /\ search 20 c s [50%Z] 2 8 = Done (Ok ([(1%N, 40%Z); (0%N, 50%Z)], [0%N; 1%N])).
Proof.
  exists (line_conf 8 1), (fresh [[1%N]; [0%N]] [0%Z; 10%Z]). do 2 eexists.
  split; [apply fresh_built; try (vm_compute; lia); try reflexivity; vm_compute; discriminate|].
  split; [refine (run_reached 20 (line_conf 8 1) _ [ins 50 in_order] [] _ [Inserted 2%N] _ (reached_start _ _ _) _ _);
    [constructor; [exact in_order_ok|constructor]|vm_compute; reflexivity]|].
  split; [reflexivity|]. split; [split; [vm_compute; lia|reflexivity]|]. split; [reflexivity|]. split.
  - intros x row H. unfold row_of in H. apply nth_error_In in H. repeat destruct H as [<-|H]; try destruct H; cbn; intuition discriminate.
  - vm_compute. reflexivity.
Qed.
Print Assumptions inserted_linked_refuted.
(** An insertion and a removal may cut off a vector that was found before and
    that neither touched: node 2 after [ex_ops]. *)
Theorem found_stays_found_refuted : exists c s0 hist s, built c s0 /\ reached 20 c s0 hist s /\ map snd hist = [Inserted 3; Removed; Inserted 4]%N
  /\ live s 2
  /\ (exists e, search 20 c s0 [20%Z] 1 8 = Done (Ok ([(2%N, 0%Z)], e)))
  /\ exists e, search 20 c s [20%Z] 5 8 = Done (Ok ([(3, 8%Z); (4, 11%Z); (0, 20%Z); (kInvalidId, float_max); (kInvalidId, float_max)]%N, e)).
Proof.
  exists (line_conf 8 2), ex_start, (combine ex_ops [Inserted 3; Removed; Inserted 4]%N), ex_end. split; [exact ex_built|]. split; [exact ex_reached|].
  split; [reflexivity|]. split; [split; [vm_compute; lia|reflexivity]|]. split; eexists; vm_compute; reflexivity.
Qed.
Print Assumptions found_stays_found_refuted.
(** Relinking may invent an edge: a row with fewer candidates than places is
    filled with zeros. *)
Theorem relinked_edges_refuted : exists c s0 s', built c s0 /\ step 20 c s0 (ins 100 in_order) = Done (Ok (Inserted 2%N, s'))
  /\ row_of s' 1 [2; 0]%N /\ ~ candidate c s0 2 1 0.
Proof.
  exists (line_conf 8 2), (fresh [[1; kInvalidId]; [kInvalidId; kInvalidId]]%N [0; 10]%Z). eexists.
  split; [apply fresh_built; try (vm_compute; lia); try reflexivity; vm_compute; discriminate|]. split; [vm_compute; reflexivity|]. split; [reflexivity|].
  intros [H|(row & z & Er & Lz & _)]; [discriminate H|]. apply ids_in_listed in Lz. injection Er as <-. destruct Lz.
Qed.
Print Assumptions relinked_edges_refuted.
(** It may make a node its own neighbour: a removed neighbour leads back. *)
Theorem own_neighbour_refuted : exists c s0 hist s row, built c s0 /\ reached 20 c s0 hist s
  /\ (forall x r, row_of s0 x r -> ~ In x r) /\ row_of s 3 row /\ In 3%N row /\ live s 3.
Proof.
  exists (line_conf 8 2), ex_start, (combine ex_ops [Inserted 3; Removed; Inserted 4]%N), ex_end. eexists. split; [exact ex_built|]. split; [exact ex_reached|].
  split.
  - intros x r H. unfold row_of in H. destruct (N.to_nat x) as [|[|[|k]]] eqn:Ex; cbn in H; try (injection H as <-; cbn; intros X; repeat destruct X as [<-|X]; try destruct X; discriminate Ex).
    destruct k; discriminate H.
  - split; [vm_compute; reflexivity|]. split; [now left|]. split; [vm_compute; lia|reflexivity].
Qed.
Print Assumptions own_neighbour_refuted.
(** An insertion with room, an acceptable row and ef large enough may raise, and
    the vector stays in the index: a neighbour was removed that had no
    neighbours of its own.  ([failed_relinking_blocks_inserts] applies.) *)
Theorem insert_succeeds_refuted : exists c s0 hist s s', built c s0 /\ reached 20 c s0 hist s /\ map snd hist = [Removed] /\ size s < k_cap c
  /\ step 20 c s (ins 11 in_order) = Done (Ok (Raised, s')) /\ stored s [11%Z] s'.
Proof.
  exists (line_conf 8 2), (fresh [[1; 2]; [0; 2]; [kInvalidId; kInvalidId]]%N [0; 10; 20]%Z). do 3 eexists.
  assert (B : built (line_conf 8 2) (fresh [[1; 2]; [0; 2]; [kInvalidId; kInvalidId]]%N [0; 10; 20]%Z))
    by (apply fresh_built; try (vm_compute; lia); try reflexivity; vm_compute; discriminate).
  assert (R : reached 20 (line_conf 8 2) (fresh [[1; 2]; [0; 2]; [kInvalidId; kInvalidId]]%N [0; 10; 20]%Z) [(RemoveVec 2, Removed)]
     (match remove_node (line_conf 8 2) (fresh [[1; 2]; [0; 2]; [kInvalidId; kInvalidId]]%N [0; 10; 20]%Z) 2 with Ok (_, s) => s | _ => ex_start end)).
  { refine (run_reached 20 (line_conf 8 2) _ [RemoveVec 2] [] _ [Removed] _ (reached_start _ _ _) _ _); [repeat constructor|vm_compute; reflexivity]. }
  split; [exact B|]. split; [exact R|]. split; [reflexivity|]. split; [vm_compute; lia|].
  match goal with |- ?A /\ _ => assert (E : A) by (vm_compute; reflexivity) end. split; [exact E|].
  destruct (insert_answers 20 _ _ _ _ _ _ _ _ _ _ B ltac:(vm_compute; lia) R in_order_ok E) as [(_ & [X|X])|(S & _)]; [discriminate X|vm_compute in X; lia|exact S].
Qed.
Print Assumptions insert_succeeds_refuted.
(** C65: a removed vector may be returned (with the largest float as its
    distance) although fewer than [topk] live vectors were found. *)
Theorem removed_not_returned_refuted : exists c s0 hist s out e, built c s0 /\ reached 20 c s0 hist s
  /\ search 20 c s [10%Z] 3 8 = Done (Ok (out, e)) /\ map fst out = [0; 2; 1]%N /\ ~ live s 1.
Proof.
  exists (line_conf 8 2), ex_start. do 4 eexists. split; [exact ex_built|].
  split; [refine (run_reached 20 (line_conf 8 2) _ [RemoveVec 1] [] _ [Removed] _ (reached_start _ _ _) _ _);
    [repeat constructor|vm_compute; reflexivity]|].
  split; [vm_compute; reflexivity|]. split; [reflexivity|]. intros [_ H]. discriminate H.
Qed.
Print Assumptions removed_not_returned_refuted.
(** The hypotheses of [removed_after_live], with both kinds of vectors in the
    result. *)
Example removed_after_live_example : exists s e, reached 20 (line_conf 8 2) ex_start [(RemoveVec 1, Removed)] s
  /\ search 20 (line_conf 8 2) s [10%Z] 4 8 = Done (Ok ([(0, 10%Z); (2, 10%Z); (1, float_max); (kInvalidId, float_max)]%N, e)) /\ live s 0 /\ live s 2 /\ ~ live s 1.
Proof.
  do 2 eexists.
  split; [refine (run_reached 20 (line_conf 8 2) _ [RemoveVec 1] [] _ [Removed] _ (reached_start _ _ _) _ _);
    [repeat constructor|vm_compute; reflexivity]|].
  split; [vm_compute; reflexivity|]. split; [split; [vm_compute; lia|reflexivity]|]. split; [split; [vm_compute; lia|reflexivity]|]. intros [_ H]. discriminate H.
Qed.
