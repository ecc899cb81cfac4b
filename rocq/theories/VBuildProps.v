(** Properties of the construction of Vamana graphs. *)
From Coq Require Import Permutation.
From Verif Require Import VBuildProofs VBuildCleanProofs VBuildFloatProofs VBuildFuelProofs VBuildReachProofs VBuildEntryProofs VBuildLostProofs SearchSpec PruneModel PruneProofs VBuildSpec.

(** ** Any number of threads, any interleaving *)
(** Linking never touches a row that does not exist, never throws, and after
    every step all lists name existing other nodes, none twice, and are no
    longer than R or 1.3 R. *)
Theorem vbuild_linking_safe : forall n p dist medoid threads fuel sched,
  (medoid < N.of_nat n)%N -> 0 < b_L p -> alpha_ok (b_alpha p) -> comparable dist -> 489 <= fuel ->
  exists st, run fuel p dist medoid (link_start p n threads) sched = Done (Ok st)
    /\ well_formed n (Nat.max (b_R p) (slack (b_R p))) (v_rows st).
Proof.
  intros n p dist medoid threads fuel sched Hm HL HA HD HF.
  destruct (run_ok n fuel p dist medoid Hm HL HA HD HF sched _ (start_ok n p threads)) as (st & E & [W _] & _). eauto.
Qed.
(** It ends: threads that each get enough turns have all left the loop. *)
Theorem vbuild_linking_ends : forall n p dist medoid threads fuel sched st,
  (medoid < N.of_nat n)%N -> 0 < b_L p -> alpha_ok (b_alpha p) -> comparable dist -> 489 <= fuel ->
  0 < threads -> (forall i, i < threads -> n * (n + 2 * b_R p + 5) < turns i sched) ->
  run fuel p dist medoid (link_start p n threads) sched = Done (Ok st) -> link_done st.
Proof.
  intros n p dist medoid threads fuel sched st Hm HL HA HD HF Ht Turns E.
  destruct (run_ok n fuel p dist medoid Hm HL HA HD HF sched _ (start_ok n p threads)) as (st0 & E0 & [W _] & Lt & _ & _ & Rest & _).
  assert (st0 = st) by congruence. subst st0. rewrite start_work in Rest.
  assert (LT : length (v_threads (link_start p n threads)) = threads) by apply repeat_length. rewrite LT in Lt, Rest.
  assert (R : forall t, In t (v_threads st) -> resting n (v_next st) t).
  { intros t Hi. apply In_nth_error in Hi as [i Hi]. assert (Li : i < threads) by (rewrite <- Lt; apply nth_error_Some; congruence).
    apply (Rest i Li); [|assumption]. specialize (Turns i Li). unfold per_node. replace (S (n + 2 * b_R p + 4)) with (n + 2 * b_R p + 5) by lia. assumption. }
  destruct W as [Ln _]. split.
  - destruct (v_threads st) as [|t l] eqn:El; [cbn in Lt; lia|]. rewrite Ln. apply (R t). now left.
  - intros t Hi. apply R in Hi as (_ & A & B). auto.
Qed.
(** The cleanup neither fails, whatever the interleaving, and ends. *)
Theorem vbuild_cleanup_safe : forall n cap p dist threads fuel sched rows,
  alpha_ok (b_alpha p) -> comparable dist -> 489 <= fuel -> b_R p <= cap -> well_formed n cap rows ->
  exists st, clean_run fuel p dist (clean_start rows threads) sched = Done (Ok st)
    /\ well_formed n cap (c_rows st)
    /\ (0 < threads -> (forall i, i < threads -> 3 * n < turns i sched) -> clean_done st)
    /\ (clean_done st -> well_formed n (b_R p) (c_rows st)).
Proof.
  intros n cap p dist threads fuel sched rows HA HD HF Hc W.
  destruct (clean_start_ok n fuel p cap HF Hc rows threads W) as (S0 & U0 & W0).
  destruct (clean_run_ok n fuel p dist cap HA HD HF Hc rows sched _ S0 U0) as (st & E & S & _ & Lt & _ & _ & Rest & _).
  exists st. split; [assumption|]. split; [apply S|]. split.
  - intros Ht Turns. rewrite W0 in Rest. assert (LT : length (c_threads (clean_start rows threads)) = threads) by apply repeat_length. rewrite LT in Lt, Rest.
    assert (R : forall t, In t (c_threads st) -> cresting n (c_next st) t).
    { intros t Hi. apply In_nth_error in Hi as [i Hi]. assert (Li : i < threads) by (rewrite <- Lt; apply nth_error_Some; congruence).
      apply (Rest i Li); [now apply Turns|assumption]. }
    destruct S as [[Ln _] _]. split.
    + destruct (c_threads st) as [|t l] eqn:El; [cbn in Lt; lia|]. rewrite Ln. apply (R t). now left.
    + intros t Hi. apply R in Hi as (_ & A & B). auto.
  - intros D. exact (clean_done_ok n fuel p cap HF Hc st S D).
Qed.
(** A finished graph: at most R neighbours each, existing, distinct, not the
    node itself. *)
Theorem vbuild_well_formed : forall n p dist medoid threads rows,
  (medoid < N.of_nat n)%N -> 0 < b_L p -> alpha_ok (b_alpha p) -> comparable dist ->
  builds p dist medoid n threads rows -> well_formed n (b_R p) rows.
Proof.
  intros n p dist medoid threads rows Hm HL HA HD (fuel & sched & st & sched2 & st2 & E1 & D1 & E2 & D2 & ->).
  set (f := Nat.max fuel 489). apply (run_more fuel f) in E1; [|subst f; lia]. apply (clean_run_more fuel f) in E2; [|subst f; lia].
  assert (HF : 489 <= f) by (subst f; lia).
  destruct (vbuild_linking_safe n p dist medoid threads f sched Hm HL HA HD HF) as (st0 & E0 & W). assert (st0 = st) by congruence. subst st0.
  destruct (vbuild_cleanup_safe n _ p dist threads f sched2 (v_rows st) HA HD HF (Nat.le_max_l _ _) W) as (st3 & E3 & _ & _ & F).
  assert (st3 = st2) by congruence. subst st3. auto.
Qed.
(** And there is one. *)
Theorem vbuild_finishes : forall n p dist medoid threads,
  (medoid < N.of_nat n)%N -> 0 < b_L p -> alpha_ok (b_alpha p) -> comparable dist -> 0 < threads ->
  exists rows, builds p dist medoid n threads rows.
Proof.
  intros n p dist medoid threads Hm HL HA HD Ht.
  set (fair := fun k => concat (repeat (seq 0 threads) k)).
  assert (F : forall k i, i < threads -> turns i (fair k) = k).
  { intros k i Hi. unfold turns, fair. induction k as [|k IH]; [reflexivity|]. cbn [repeat concat]. rewrite count_occ_app, IH.
    assert (C : count_occ Nat.eq_dec (seq 0 threads) i = 1) by (apply (NoDup_count_occ' Nat.eq_dec); [apply seq_NoDup|apply in_seq; lia]). lia. }
  set (s1 := fair (S (n * (n + 2 * b_R p + 5)))). set (s2 := fair (S (3 * n))).
  destruct (vbuild_linking_safe n p dist medoid threads 489 s1 Hm HL HA HD (le_n _)) as (st & E & W).
  destruct (vbuild_cleanup_safe n _ p dist threads 489 s2 (v_rows st) HA HD (le_n _) (Nat.le_max_l _ _) W) as (st2 & E2 & _ & D2 & _).
  exists (c_rows st2), 489, s1, st, s2, st2. split; [assumption|]. split; [|split; [assumption|split; [|reflexivity]]].
  - apply (vbuild_linking_ends n p dist medoid threads 489 s1 st Hm HL HA HD (le_n _) Ht); [|assumption]. intros i Hi. subst s1. rewrite (F _ i Hi). apply Nat.lt_succ_diag_r.
  - apply D2; [assumption|]. intros i Hi. subst s2. rewrite (F _ i Hi). apply Nat.lt_succ_diag_r.
Qed.

(** ** Checking builds by computation *)
Definition link_doneb (st : bstate) : bool :=
  N.leb (N.of_nat (length (v_rows st))) (v_next st)
  && forallb (fun t => match t_todo t, t_pc t with [], Idle => true | _, _ => false end) (v_threads st).
Definition clean_doneb (st : cstate) : bool :=
  N.leb (N.of_nat (length (c_rows st))) (c_next st)
  && forallb (fun t => match c_todo t, c_new t with [], None => true | _, _ => false end) (c_threads st).
Definition built (p : bparams) (dist : N -> N -> spec_float) (medoid : N) (n threads : nat) (sched sched2 : list nat) (check : list (list N) -> bool) : bool :=
  match run 489 p dist medoid (link_start p n threads) sched with
  | Done (Ok st) => link_doneb st && match clean_run 489 p dist (clean_start (v_rows st) threads) sched2 with
                                     | Done (Ok st2) => clean_doneb st2 && check (c_rows st2)
                                     | _ => false end
  | _ => false end.
Lemma built_ok p dist medoid n threads sched sched2 check : built p dist medoid n threads sched sched2 check = true ->
  exists rows, builds p dist medoid n threads rows /\ check rows = true.
Proof.
  unfold built. destruct (run 489 p dist medoid (link_start p n threads) sched) as [|[st| | |]] eqn:E; try discriminate.
  destruct (clean_run 489 p dist (clean_start (v_rows st) threads) sched2) as [|[st2| | |]] eqn:E2; rewrite ?andb_false_r; try discriminate.
  rewrite !andb_true_iff. intros (D1 & D2 & C). exists (c_rows st2). split; [|assumption]. exists 489, sched, st, sched2, st2.
  split; [assumption|]. split; [|split; [assumption|split; [|reflexivity]]].
  - unfold link_doneb in D1. apply andb_true_iff in D1 as [A B]. split; [now apply N.leb_le|]. rewrite forallb_forall in B.
    intros t Ht. specialize (B t Ht). destruct (t_todo t); [|discriminate]. destruct (t_pc t); [auto|discriminate..].
  - unfold clean_doneb in D2. apply andb_true_iff in D2 as [A B]. split; [now apply N.leb_le|]. rewrite forallb_forall in B.
    intros t Ht. specialize (B t Ht). destruct (c_todo t); [|discriminate]. destruct (c_new t); [discriminate|auto].
Qed.
(** A set of nodes that the links do not leave. *)
Definition closed (rows : list (list N)) (set : list N) : bool :=
  forallb (fun x => forallb (fun y => existsb (N.eqb y) set) (nth (N.to_nat x) rows [])) set.
Lemma closed_misses rows medoid set x : closed rows set = true -> existsb (N.eqb medoid) set = true -> existsb (N.eqb x) set = false ->
  ~ reachable (adjacent rows) (eq medoid) x.
Proof.
  intros C M X R. enough (existsb (N.eqb x) set = true) by congruence. clear X. induction R as [x <-|x y R IH (row & Er & Hy)]; [assumption|].
  apply existsb_exists in IH as (z & Hz & Ez). apply N.eqb_eq in Ez. subst z. unfold closed in C. rewrite forallb_forall in C. specialize (C x Hz).
  rewrite forallb_forall in C. apply C. now rewrite (nth_error_nth _ _ [] Er).
Qed.

(** Three threads and five nodes, whose distances are all the same. *)
Definition small : bparams := {| b_R := 4; b_L := 8; b_alpha := f1_2; b_maxc := 100 |}.
Definition same_place (a b : N) : spec_float := S754_zero false.
Definition all_in_turn (threads k : nat) : list nat := concat (repeat (seq 0 threads) k).
Example vbuild_well_formed_nonvacuous :
  (0 < N.of_nat 5)%N /\ 0 < b_L small /\ alpha_ok (b_alpha small) /\ comparable same_place
  /\ exists rows, builds small same_place 0 5 3 rows /\ forallb (fun row => match row with [] => false | _ => true end) rows = true.
Proof.
  split; [lia|]. split; [cbn; lia|]. split; [split; reflexivity|]. split; [intros a b; discriminate|].
  apply (built_ok small same_place 0 5 3 (all_in_turn 3 200) (all_in_turn 3 20)). vm_compute. reflexivity.
Qed.

(** The first list is too long and gets cut. *)
Example vbuild_cleanup_nonvacuous :
  let rows := [[1%N; 2%N; 3%N; 4%N; 5%N]; [0%N]; [0%N]; [0%N]; [0%N]; [0%N]] in
  alpha_ok (b_alpha small) /\ comparable same_place /\ b_R small <= 5 /\ well_formed 6 5 rows
  /\ match clean_run 489 small same_place (clean_start rows 2) (all_in_turn 2 30) with
     | Done (Ok st) => clean_doneb st = true /\ nth 0 (c_rows st) [] = [1%N] | _ => False end.
Proof.
  split; [split; reflexivity|]. split; [intros a b; discriminate|]. split; [cbn; lia|]. split; [|vm_compute; split; reflexivity].
  split; [reflexivity|]. intros [|[|[|[|[|[|i]]]]]] row E; cbn in E; try (destruct i; discriminate E); injection E as <-;
    (split; [repeat constructor; cbn; intuition discriminate|]); (split; [cbn; intuition discriminate|]); (split; [cbn; intuition lia|cbn; lia]).
Qed.

(** ** Reachability *)
(** With no more vectors than one chunk of the loop, than the candidate lists
    hold and than a list of neighbours plus its node can hold, every vector can
    be reached from the entry point, whatever the threads do. *)
Theorem vbuild_reachable_partial : forall n p dist medoid threads rows,
  (medoid < N.of_nat n)%N -> alpha_ok (b_alpha p) -> metric_like dist ->
  n <= S (b_R p) -> (Z.of_nat (b_R p) < 2 ^ 24)%Z -> n <= b_L p -> n <= S (b_maxc p) -> (N.of_nat n <= 2048)%N ->
  builds p dist medoid n threads rows -> all_reachable medoid rows.
Proof.
  intros n p dist medoid threads rows Hm HA HM HR HR2 HL Hmax Hc (fuel & sched & st & sched2 & st2 & E1 & D1 & E2 & D2 & ->).
  set (f := Nat.max fuel 489). apply (run_more fuel f) in E1; [|subst f; lia]. apply (clean_run_more fuel f) in E2; [|subst f; lia].
  assert (HF : 489 <= f) by (subst f; lia).
  destruct (linking_reaches n f p dist medoid Hm HA HM HF HR HR2 HL Hmax Hc threads sched st E1 D1) as [Re W].
  assert (HD : comparable dist) by exact (HD dist HM).
  destruct (clean_start_ok n f p (b_R p) HF (le_n _) (v_rows st) threads W) as (S0 & U0 & _).
  destruct (clean_run_ok n f p dist (b_R p) HA HD HF (le_n _) (v_rows st) sched2 _ S0 U0) as (st3 & E3 & _ & U3 & _).
  assert (st3 = st2) by congruence. subst st3. destruct U3 as [-> _]; [|assumption].
  intros x Hx row Er. destruct W as [_ W]. apply (W _ _ Er).
Qed.
(** Nodes on a line at 0, 1, 4, 9, 16. *)
Definition squares (a b : N) : spec_float :=
  if (N.ltb a 5 && N.ltb b 5)%bool then binary_normalize 24 128 ((Z.of_N (a * a) - Z.of_N (b * b)) * (Z.of_N (a * a) - Z.of_N (b * b)))%Z 0 false else S754_zero false.
Definition f32b (f : spec_float) : bool := valid_binary 24 128 f && match f with S754_zero _ | S754_finite false _ _ | S754_infinity false => true | _ => false end.
Definition feqb (f g : spec_float) : bool :=
  match f, g with
  | S754_zero s, S754_zero s' | S754_infinity s, S754_infinity s' => Bool.eqb s s'
  | S754_finite s m e, S754_finite s' m' e' => Bool.eqb s s' && Pos.eqb m m' && Z.eqb e e'
  | S754_nan, S754_nan => true
  | _, _ => false
  end.
Lemma table_metric k (d : N -> N -> spec_float) :
  forallb (fun a => forallb (fun b => f32b (d a b) && feqb (d a b) (d b a)) (map N.of_nat (seq 0 k))) (map N.of_nat (seq 0 k)) = true ->
  (forall a b, (N.of_nat k <= a \/ N.of_nat k <= b)%N -> d a b = S754_zero false) -> metric_like d.
Proof.
  intros H Out a b. destruct (N.lt_ge_cases a (N.of_nat k)) as [La|La]; [destruct (N.lt_ge_cases b (N.of_nat k)) as [Lb|Lb]|].
  - rewrite forallb_forall in H. specialize (H a). rewrite forallb_forall in H.
    assert (In a (map N.of_nat (seq 0 k))) by (apply in_map_iff; exists (N.to_nat a); split; [lia|apply in_seq; lia]).
    assert (In b (map N.of_nat (seq 0 k))) by (apply in_map_iff; exists (N.to_nat b); split; [lia|apply in_seq; lia]).
    specialize (H H0 b H1). unfold f32b in H. rewrite !andb_true_iff in H. destruct H as ((V & P) & S). split; [exact V|]. split.
    + unfold nonnegative. destruct (d a b) as [[]|[]| |[] m e]; try discriminate; auto.
    + destruct (d a b) as [s|s| |s m e], (d b a) as [s'|s'| |s' m' e']; cbn [feqb] in S; try discriminate S; rewrite ?andb_true_iff in S; try reflexivity.
      * f_equal. now apply Bool.eqb_prop.
      * f_equal. now apply Bool.eqb_prop.
      * destruct S as ((S1 & S2) & S3). apply Bool.eqb_prop in S1. apply Pos.eqb_eq in S2. apply Z.eqb_eq in S3. congruence.
  - rewrite (Out a b), (Out b a) by auto. repeat split.
  - rewrite (Out a b), (Out b a) by auto. repeat split.
Qed.
Example vbuild_reachable_nonvacuous :
  (2 < N.of_nat 5)%N /\ alpha_ok (b_alpha small) /\ metric_like squares /\ 5 <= S (b_R small) /\ (Z.of_nat (b_R small) < 2 ^ 24)%Z
  /\ 5 <= b_L small /\ 5 <= S (b_maxc small) /\ (N.of_nat 5 <= 2048)%N
  /\ exists rows, builds small squares 2 5 3 rows /\ existsb (fun row => N.eqb (N.of_nat (length row)) 1) rows = true.
Proof.
  split; [lia|]. split; [split; reflexivity|]. split.
  { apply (table_metric 5); [vm_compute; reflexivity|]. intros a b H. unfold squares. destruct (N.ltb_spec a 5), (N.ltb_spec b 5); cbn [andb]; try reflexivity. lia. }
  split; [cbn; lia|]. split; [reflexivity|]. split; [cbn; lia|]. split; [cbn; lia|]. split; [lia|].
  apply (built_ok small squares 2 5 3 (all_in_turn 3 200) (all_in_turn 3 20)). vm_compute. reflexivity.
Qed.

(** One vector more than the bound on n: 66 equal vectors with the default
    R = 64, L = 200, alpha = 1.2 and maxc = 750 leave vectors that no search can find. *)
Definition defaults : bparams := {| b_R := 64; b_L := 200; b_alpha := f1_2; b_maxc := 750 |}.
Lemma same_place_metric : metric_like same_place.
Proof. intros a b. repeat split. Qed.
Theorem vbuild_reachable_refuted_equal_vectors : ~ forall n p dist medoid threads rows,
  (medoid < N.of_nat n)%N -> alpha_ok (b_alpha p) -> metric_like dist -> n <= b_L p -> n <= b_maxc p -> (N.of_nat n <= 2048)%N ->
  builds p dist medoid n threads rows -> all_reachable medoid rows.
Proof.
  intros H.
  destruct (built_ok defaults same_place 0 66 1 (repeat 0 (60 * 100)) (repeat 0 300) (fun rows => Nat.eqb (length rows) 66 && closed rows [0%N; 1%N])) as (rows & B & C).
  { vm_compute. reflexivity. }
  apply andb_true_iff in C as [L C]. apply Nat.eqb_eq in L.
  specialize (H 66 defaults same_place 0%N 1 rows ltac:(lia) ltac:(split; reflexivity) same_place_metric ltac:(cbn; lia) ltac:(cbn; lia) ltac:(lia) B).
  apply (closed_misses rows 0 [0%N; 1%N] 5 C eq_refl eq_refl). apply H. rewrite L. lia.
Qed.

(** Different vectors do not help: seven points in space with R = 4; the links
    back make the lists longer, and cutting them loses nodes 3 and 6. *)
Definition points : list (Z * Z * Z) := [(13,15,21); (12,3,15); (3,24,27); (30,25,21); (2,18,13); (14,9,30); (29,22,20)]%Z.
Definition in_space (a b : N) : spec_float :=
  match nth_error points (N.to_nat a), nth_error points (N.to_nat b) with
  | Some (x, y, z), Some (x', y', z') => binary_normalize 24 128 ((x - x') * (x - x') + (y - y') * (y - y') + (z - z') * (z - z'))%Z 0 false
  | _, _ => S754_zero false
  end.
Lemma in_space_metric : metric_like in_space.
Proof.
  apply (table_metric 7); [vm_compute; reflexivity|]. intros a b H. unfold in_space.
  destruct (nth_error points (N.to_nat a)) as [[[x y] z]|] eqn:Ea; [|reflexivity]. destruct (nth_error points (N.to_nat b)) as [[[x' y'] z']|] eqn:Eb; [|reflexivity].
  assert (A : nth_error points (N.to_nat a) <> None) by congruence. assert (B : nth_error points (N.to_nat b) <> None) by congruence.
  apply nth_error_Some in A, B. cbn in A, B. lia.
Qed.
Theorem vbuild_reachable_refuted_distinct_vectors : ~ forall n p dist medoid threads rows,
  (medoid < N.of_nat n)%N -> alpha_ok (b_alpha p) -> metric_like dist ->
  (forall a b, (a < b < N.of_nat n)%N -> SFltb fzero (dist a b) = true) ->
  0 < b_R p -> n <= b_L p -> n <= b_maxc p -> (N.of_nat n <= 2048)%N ->
  builds p dist medoid n threads rows -> all_reachable medoid rows.
Proof.
  intros H.
  destruct (built_ok small in_space 0 7 1 (repeat 0 300) (repeat 0 50) (fun rows => Nat.eqb (length rows) 7 && closed rows [0%N; 1%N; 2%N; 4%N; 5%N])) as (rows & B & C).
  { vm_compute. reflexivity. }
  apply andb_true_iff in C as [L C]. apply Nat.eqb_eq in L.
  assert (Dist : forall a b, (a < b < N.of_nat 7)%N -> SFltb fzero (in_space a b) = true).
  { assert (F : forallb (fun a => forallb (fun b => N.leb b a || SFltb fzero (in_space a b)) (map N.of_nat (seq 0 7))) (map N.of_nat (seq 0 7)) = true) by (vm_compute; reflexivity).
    intros a b Hab. rewrite forallb_forall in F. specialize (F a). rewrite forallb_forall in F.
    assert (Ia : In a (map N.of_nat (seq 0 7))) by (apply in_map_iff; exists (N.to_nat a); split; [lia|apply in_seq; lia]).
    assert (Ib : In b (map N.of_nat (seq 0 7))) by (apply in_map_iff; exists (N.to_nat b); split; [lia|apply in_seq; lia]).
    specialize (F Ia b Ib). apply orb_true_iff in F as [F|F]; [apply N.leb_le in F; lia|assumption]. }
  specialize (H 7 small in_space 0%N 1 rows ltac:(lia) ltac:(split; reflexivity) in_space_metric Dist ltac:(cbn; lia) ltac:(cbn; lia) ltac:(cbn; lia) ltac:(lia) B).
  apply (closed_misses rows 0 _ 3 C eq_refl eq_refl). apply H. rewrite L. lia.
Qed.

(** With more than one chunk, threads race: while one thread holds the (empty)
    list it will store for the entry point, another links its node back from
    the entry point; the store then drops that link, and nothing leads to the
    node any more. *)
Definition roomy : bparams := {| b_R := 4096; b_L := 4096; b_alpha := f1_2; b_maxc := 4096 |}.
Definition lostb (x : N) (st : bstate) : bool :=
  forallb (fun row => negb (existsb (N.eqb x) row)) (v_rows st) && N.ltb x (v_next st)
  && forallb (fun t => negb (existsb (N.eqb x) (t_todo t)) && match t_pc t with Idle => true | Link node _ => negb (N.eqb node x) | _ => false end) (v_threads st).
Lemma absent x l : negb (existsb (N.eqb x) l) = true -> ~ In x l.
Proof. intros H K. apply negb_true_iff in H. enough (existsb (N.eqb x) l = true) by congruence. apply existsb_exists. exists x. split; [assumption|apply N.eqb_refl]. Qed.
Lemma lostb_ok x st : lostb x st = true -> lost x st.
Proof.
  unfold lostb. rewrite !andb_true_iff, !forallb_forall, N.ltb_lt. intros ((A & B) & C). split; [|split; [assumption|]].
  - intros row Hr. apply absent. now apply A.
  - intros t Ht. specialize (C t Ht). apply andb_true_iff in C as [C1 C2]. split; [now apply absent|].
    destruct (t_pc t); try discriminate; [exact I|]. apply negb_true_iff, N.eqb_neq in C2. assumption.
Qed.
Theorem vbuild_reachable_refuted_race : ~ forall n p dist medoid threads rows,
  (medoid < N.of_nat n)%N -> alpha_ok (b_alpha p) -> metric_like dist ->
  n <= S (b_R p) -> (Z.of_nat (b_R p) < 2 ^ 24)%Z -> n <= b_L p -> n <= S (b_maxc p) ->
  builds p dist medoid n threads rows -> all_reachable medoid rows.
Proof.
  intros H.
  assert (C : match run 489 roomy same_place 0 (link_start roomy 2049 2) (repeat 0 4 ++ repeat 1 8 ++ [0]) with Done (Ok st) => lostb 2048 st | _ => false end = true) by (vm_compute; reflexivity).
  destruct (run 489 roomy same_place 0 (link_start roomy 2049 2) (repeat 0 4 ++ repeat 1 8 ++ [0])) as [|[st| | |]] eqn:E; try discriminate C.
  destruct (lost_builds 2049 489 roomy same_place 0 2048 ltac:(reflexivity) ltac:(apply Nat.ltb_lt; reflexivity) ltac:(split; reflexivity) ltac:(intros a b; discriminate) (le_n _) ltac:(discriminate) 2 _ st ltac:(lia) E (lostb_ok _ _ C)) as (rows & B & NR).
  assert (W : well_formed 2049 (b_R roomy) rows).
  { eapply vbuild_well_formed; try exact B; [reflexivity|apply Nat.ltb_lt; reflexivity|split; reflexivity|intros a b; discriminate]. }
  destruct W as [L _]. apply NR.
  apply (H 2049 roomy same_place 0%N 2 rows); [reflexivity|split; reflexivity|apply same_place_metric|apply Nat.leb_le; reflexivity|reflexivity|apply Nat.leb_le; reflexivity|apply Nat.leb_le; reflexivity|exact B|].
  rewrite L. reflexivity.
Qed.

(** ** The entry point *)
(** Whatever the number of threads and the order in which they report, the entry
    point is a vector nearest to the centroid. *)
Theorem entry_point_nearest : forall huge dists T order,
  (0 < T)%N -> all_threads T order -> has_number huge dists -> nearest dists (entry_point huge dists T order).
Proof.
  intros huge dists T order HT Ho (i & v & Hi & Lv).
  destruct (entry_spec dists T huge order HT Ho) as [[_ H]|(o1 & o2 & e & w & _ & -> & Lw & He & Min)].
  - specialize (H i v Hi). lia.
  - exists w. split; [assumption|]. intros j u Hj. apply (Min (N.of_nat j) u). now rewrite Nat2N.id.
Qed.
Example entry_point_nearest_nonvacuous :
  let dists := [None; Some 7; Some 3; Some 9; Some 3]%Z in
  (0 < 2)%N /\ all_threads 2 [1%N; 0%N] /\ has_number 100 dists /\ entry_point 100 dists 2 [1%N; 0%N] = 2%N.
Proof. split; [lia|]. split; [apply perm_swap|]. split; [exists 1, 7%Z; split; [reflexivity|lia]|reflexivity]. Qed.
(** It is always a node. *)
Theorem entry_point_in_range : forall huge dists T order, (0 < T)%N -> all_threads T order -> dists <> [] ->
  (entry_point huge dists T order < N.of_nat (length dists))%N.
Proof.
  intros huge dists T order HT Ho Ne. destruct (entry_spec dists T huge order HT Ho) as [[-> _]|(o1 & o2 & e & w & _ & -> & _ & He & _)].
  - destruct dists; [congruence|]. cbn [length]. lia.
  - assert (nth_error dists (N.to_nat e) <> None) by congruence. apply nth_error_Some in H. lia.
Qed.
Example entry_point_in_range_nonvacuous : entry_point 100 [None; None] 3 [2%N; 0%N; 1%N] = 0%N.
Proof. reflexivity. Qed.
(** With at most 65536 vectors it depends on the data only: it is the first
    nearest vector. *)
Theorem entry_point_first_small : forall huge dists T order,
  (0 < T)%N -> all_threads T order -> has_number huge dists -> (N.of_nat (length dists) <= 65536)%N ->
  forall j, nearest dists j -> (entry_point huge dists T order <= j)%N.
Proof.
  intros huge dists T order HT Ho (i & v & Hi & Lv) Small j (u & Hj & Mj).
  destruct (entry_spec dists T huge order HT Ho) as [[_ H]|(o1 & o2 & e & w & _ & -> & Lw & He & Min)].
  - specialize (H i v Hi). lia.
  - destruct (Min j u Hj) as [M1 M2]. specialize (Mj _ _ He). destruct (M2 ltac:(lia)) as [_ M3]. apply M3.
    assert (Le : (e < 65536)%N) by (assert (nth_error dists (N.to_nat e) <> None) by congruence; apply nth_error_Some in H; lia).
    assert (Lj : (j < 65536)%N) by (assert (nth_error dists (N.to_nat j) <> None) by congruence; apply nth_error_Some in H; lia).
    unfold thread_of, kBlock. rewrite (N.div_small e), (N.div_small j) by assumption. reflexivity.
Qed.
Example entry_point_first_small_nonvacuous :
  let dists := [Some 7; Some 3; Some 9; Some 3]%Z in
  (0 < 4)%N /\ all_threads 4 [3%N; 2%N; 1%N; 0%N] /\ has_number 100 dists /\ (N.of_nat (length dists) <= 65536)%N
  /\ nearest dists 3 /\ entry_point 100 dists 4 [3%N; 2%N; 1%N; 0%N] = 1%N.
Proof.
  split; [lia|]. split; [apply Permutation_sym, (Permutation_rev [0%N; 1%N; 2%N; 3%N])|]. split; [exists 1, 3%Z; split; [reflexivity|lia]|]. split; [cbn; lia|]. split; [|reflexivity].
  exists 3%Z. split; [reflexivity|]. intros [|[|[|[|j]]]] w E; cbn in E; try (injection E as <-; lia). destruct j; discriminate E.
Qed.
(** And if only one vector is nearest, it is that one. *)
Theorem entry_point_unique : forall huge dists T order j,
  (0 < T)%N -> all_threads T order -> has_number huge dists -> nearest dists j -> (forall i, nearest dists i -> i = j) ->
  entry_point huge dists T order = j.
Proof. intros huge dists T order j HT Ho Hn Hj U. apply U. now apply entry_point_nearest. Qed.
Lemma all_equal (k : N) : exists dists, (forall i, (i < k)%N -> nth_error dists (N.to_nat i) = Some (Some 5%Z))
  /\ forall i v, nth_error dists (N.to_nat i) = Some v -> (i < k)%N /\ v = Some 5%Z.
Proof.
  exists (repeat (Some 5%Z) (N.to_nat k)). split.
  - intros i Hi. apply nth_error_repeat. lia.
  - intros i v E. assert (L : nth_error (repeat (Some 5%Z) (N.to_nat k)) (N.to_nat i) <> None) by congruence.
    apply nth_error_Some in L. rewrite repeat_length in L. split; [lia|]. apply nth_error_In, repeat_spec in E. assumption.
Qed.
Example entry_point_unique_nonvacuous :
  let dists := [Some 7; None; Some 3; Some 9]%Z in
  (0 < 2)%N /\ all_threads 2 [1%N; 0%N] /\ has_number 100 dists /\ nearest dists 2 /\ forall i, nearest dists i -> i = 2%N.
Proof.
  split; [lia|]. split; [apply perm_swap|]. split; [exists 0, 7%Z; split; [reflexivity|lia]|]. split.
  - exists 3%Z. split; [reflexivity|]. intros [|[|[|[|j]]]] w E; cbn in E; try (injection E as <-; lia); try discriminate E. destruct j; discriminate E.
  - intros i (v & Hi & Mi). specialize (Mi 2 3%Z eq_refl). destruct (N.to_nat i) as [|[|[|[|j]]]] eqn:Ei; cbn in Hi; try (injection Hi as <-); try lia; try discriminate Hi. destruct j; discriminate Hi.
Qed.
(** "Deterministic given the data" (163) fails otherwise: with nearest
    vectors in different blocks of 65536 the first thread to report wins. *)
Theorem entry_point_deterministic_refuted : ~ forall huge dists T order order',
  (0 < T)%N -> all_threads T order -> all_threads T order' -> has_number huge dists ->
  entry_point huge dists T order = entry_point huge dists T order'.
Proof.
  intros H. destruct (all_equal 65537) as (dists & Nth & Lim).
  assert (HN : has_number 100 dists) by (exists (N.to_nat 0), 5%Z; split; [now apply Nth|lia]).
  assert (P1 : all_threads 2 [0%N; 1%N]) by (apply Permutation_refl). assert (P2 : all_threads 2 [1%N; 0%N]) by apply perm_swap.
  specialize (H 100%Z dists 2%N [0%N; 1%N] [1%N; 0%N] ltac:(lia) P1 P2 HN).
  assert (First : forall a b, all_threads 2 [a; b] -> (exists i, (i < 65537)%N /\ thread_of 2 i = a) -> thread_of 2 (entry_point 100 dists 2 [a; b]) = a).
  { intros a b P (i & Li & Ti). destruct (entry_spec dists 2 100 [a; b] ltac:(lia) P) as [[_ K]|(o1 & o2 & e & w & Eo & -> & _ & He & Min)].
    - specialize (K _ _ (Nth 0%N ltac:(lia))). lia.
    - apply Lim in He as [_ Hw]. injection Hw as ->. destruct (Min i 5%Z (Nth i Li)) as [_ K]. destruct (K eq_refl) as [K1 _].
      destruct o1 as [|y o1]; cbn [app] in Eo; [congruence|]. exfalso. apply K1. left. congruence. }
  assert (F1 : thread_of 2 (entry_point 100 dists 2 [0%N; 1%N]) = 0%N) by (apply (First 0%N 1%N P1); exists 0%N; split; [lia|reflexivity]).
  assert (F2 : thread_of 2 (entry_point 100 dists 2 [1%N; 0%N]) = 1%N) by (apply (First 1%N 0%N P2); exists 65536%N; split; [lia|reflexivity]).
  congruence.
Qed.

Print Assumptions vbuild_linking_safe.
Print Assumptions vbuild_linking_ends.
Print Assumptions vbuild_cleanup_safe.
Print Assumptions vbuild_well_formed.
Print Assumptions vbuild_finishes.
Print Assumptions vbuild_reachable_partial.
Print Assumptions vbuild_reachable_refuted_equal_vectors.
Print Assumptions vbuild_reachable_refuted_distinct_vectors.
Print Assumptions vbuild_reachable_refuted_race.
Print Assumptions entry_point_nearest.
Print Assumptions entry_point_in_range.
Print Assumptions entry_point_first_small.
Print Assumptions entry_point_unique.
Print Assumptions entry_point_deterministic_refuted.
