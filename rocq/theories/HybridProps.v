(** Property C64: filtered graph search. *)
From Coq Require Import String.
From Verif Require Import ScalarDataSpec ScalarDataProofs FilterProofs StorageProofs StorageQueryProofs StorageProps MatcherProofs RankProofs RankProps.
From Verif Require Import HybridProofs.
From Verif Require Import FilterModel StorageSpec.

Lemma hybrid_lemma lib fields ops s sp f i fuel h : query_ok lib fields ops s sp f i fuel -> is_empty f = false ->
  exists ids, hybrid_search fuel lib sp s f h i = Done (Ok ids)
  /\ match h with
     | IterativeFilter => found_on_the_way (wanted sp s f) sp fuel (N.to_nat (EffortModel.topk i)) (N.to_nat (EffortModel.ef i)) ids
     | _ => members_found (wanted sp s f) sp fuel (N.to_nat (EffortModel.topk i)) (N.to_nat (EffortModel.ef i)) ids
     end.
Proof.
  intros [LOK RS Bound Safe SO Gi F] NE. destruct (reached_represents _ _ _ RS) as [R Fe].
  set (t := snd (spec_run [] ops)) in *. clearbody t. subst fields.
  assert (B : forall id r, row t id = Some r -> (id < N.of_nat (sp_n sp))%N).
  { intros id r H. apply Bound. apply (valid_row s t R). apply row_In in H; [|apply R]. change id with (fst (id, r)). now apply in_map. }
  assert (SF : forall c, single_condition f c ->
    cond_values_ok c /\ (In (field c) (indexed_fields s) -> separated (indexed_fields s) /\ index_safe s c)).
  { intros c Hc. destruct (Safe c Hc) as [V I]. split; [assumption|]. intros Hi. destruct (I Hi). split; [now apply separated_iff|assumption]. }
  destruct (make_good s t f (sp_n sp) R B SF) as (x & Ex & Gx).
  assert (Hk : 0 < N.to_nat (EffortModel.topk i)) by (destruct Gi as [[A _] _]; lia).
  destruct (hybrid_good s t f sp x (N.to_nat (EffortModel.topk i)) fuel R B SO Hk F Gx lib h i NE LOK Gi ltac:(lia) Ex) as (ids & E & H).
  exists ids. split; [assumption|].
  assert (W : forall id, (id < N.of_nat (sp_n sp))%N /\ answer t f id = true <-> wanted sp s f id).
  { intros id. unfold wanted. now rewrite (answer_accepted s t f R). }
  assert (MF : forall k ef, members_found (fun id => (id < N.of_nat (sp_n sp))%N /\ answer t f id = true) sp fuel k ef ids ->
    members_found (wanted sp s f) sp fuel k ef ids).
  { intros k ef [hits S Rk Nr|hits ef' order S Rk Le X Nr C|AM (hits & found & S & Rk & C & Nr)].
    - apply found_exactly with hits; [assumption| |].
      + revert Rk. apply ranked_ext. intros id. apply W.
      + revert Nr. apply nearest_ext. intros id. apply W.
    - apply found_in_graph with hits ef' order; auto.
      + revert Rk. apply ranked_ext. intros id. apply W.
      + revert Nr. apply nearest_ext. intros id [A Bb]. split; [now apply W|assumption].
      + destruct C as [C|C]; [now left|]. right. intros id Hid. apply C. now apply W.
    - apply found_plainly; [intros id Hid; apply W; auto|]. exists hits, found. split; [assumption|]. split; [|auto].
      revert Rk. apply ranked_ext. intros id. apply W. }
  destruct h; auto.
  destruct H as (hits & seen & unseen & S & Rk & X & I & D). exists hits, seen, unseen. split; [assumption|]. split.
  { revert Rk. apply ranked_ext. intros id. apply W. }
  split; [assumption|]. split; [|assumption]. intros id. rewrite I, W. reflexivity.
Qed.

(** C64, what is returned: whichever way the search is run (any hint, any choice of
    effort), the ids are rows that pass the filter, all different, nearest first by exact
    distance, followed by invalid ids only.
    Missing: what the metadata index gets wrong ([index_safe], fields that are not
    separated), infinite distances, more than 2^31 ids. *)
Theorem filtered_search_right_partial : forall lib fields ops s sp f i fuel h,
  query_ok lib fields ops s sp f i fuel -> is_empty f = false ->
  exists ids, hybrid_search fuel lib sp s f h i = Done (Ok ids)
    /\ right_results (wanted sp s f) sp (N.to_nat (EffortModel.topk i)) ids.
Proof.
  intros lib fields ops s sp f i fuel h Q NE. destruct (hybrid_lemma _ _ _ _ _ _ _ _ h Q NE) as (ids & E & H). exists ids. split; [assumption|].
  destruct h.
  - destruct H as [hits S Rk _|hits ef' order S Rk _ _ _ _|_ (hits & found & S & Rk & _)]; exists hits; auto.
  - destruct H as (hits & seen & unseen & S & Rk & _). exists hits; auto.
  - destruct H as [hits S Rk _|hits ef' order S Rk _ _ _ _|_ (hits & found & S & Rk & _)]; exists hits; auto.
Qed.
Print Assumptions filtered_search_right_partial.

(** C64, what is not left out, without the iterative hint: the results are the nearest of
    all matching rows, or the nearest of the matching rows the graph search expands and
    then there are [topk] of them or all matching rows; if every row matches, they are
    what an unfiltered search returns.  Missing as above. *)
Theorem filtered_search_full_partial : forall lib fields ops s sp f i fuel h,
  query_ok lib fields ops s sp f i fuel -> is_empty f = false -> h <> IterativeFilter ->
  exists ids, hybrid_search fuel lib sp s f h i = Done (Ok ids)
    /\ members_found (wanted sp s f) sp fuel (N.to_nat (EffortModel.topk i)) (N.to_nat (EffortModel.ef i)) ids.
Proof.
  intros lib fields ops s sp f i fuel h Q NE Hh. destruct (hybrid_lemma _ _ _ _ _ _ _ _ h Q NE) as (ids & E & H). exists ids. split; [assumption|].
  destruct h; [assumption|congruence|assumption].
Qed.
Print Assumptions filtered_search_full_partial.

(** C64, the iterative hint: the results are the first [topk] matching rows in the order in
    which the graph search expands rows, or all of those it expands. *)
Theorem filtered_search_iterative_partial : forall lib fields ops s sp f i fuel,
  query_ok lib fields ops s sp f i fuel -> is_empty f = false ->
  exists ids, hybrid_search fuel lib sp s f IterativeFilter i = Done (Ok ids)
    /\ found_on_the_way (wanted sp s f) sp fuel (N.to_nat (EffortModel.topk i)) (N.to_nat (EffortModel.ef i)) ids.
Proof. intros lib fields ops s sp f i fuel Q NE. exact (hybrid_lemma _ _ _ _ _ _ _ _ IterativeFilter Q NE). Qed.
Print Assumptions filtered_search_iterative_partial.

(** C64, without a filter: the nearest, by exact distance, of the candidates the graph search
    collects. *)
Theorem unfiltered_search_found : forall lib s sp f i fuel h,
  heap_lib_ok lib -> space_ok sp -> EffortSpec.given i -> sp_n sp < fuel -> is_empty f = true ->
  exists ids, hybrid_search fuel lib sp s f h i = Done (Ok ids)
    /\ plainly_found (fun id => (id < N.of_nat (sp_n sp))%N) sp fuel (N.to_nat (EffortModel.topk i)) (N.to_nat (EffortModel.ef i)) ids.
Proof.
  intros lib s sp f i fuel h LOK SO [[K0 Hte] _] F NE. unfold hybrid_search, EffortModel.validate.
  destruct (N.eqb_spec (EffortModel.topk i) 0) as [Z0|_]; [lia|]. destruct (N.ltb_spec (EffortModel.ef i) (EffortModel.topk i)); [lia|]. cbn [fbind].
  assert (Ex : make_executor f s (sp_n sp) = Ok {| exec_filter := f; exec_storage := s; data_num := sp_n sp; indexed_ids := None; allow_ids := repeat false (sp_n sp) |}).
  { unfold make_executor, index_fast_path. destruct f as [[] [|c [|c' cs]] [|g subs]]; try discriminate NE; reflexivity. }
  rewrite Ex. cbn [fbind]. unfold search_mode. cbn [exec_filter]. rewrite NE. cbn [fbind].
  apply (plain_good sp (N.to_nat (EffortModel.topk i)) fuel SO ltac:(lia) F lib); [assumption|lia].
Qed.
Print Assumptions unfiltered_search_found.

(** ** A concrete case *)
(** A ring of seven vectors, entered at 0; the search distances are coarser than the exact
    ones. *)
Definition ring_graph (eps : list N) : graph :=
  {| g_max_nbrs := 3; g_rows := map (fun i => [(i + 1) mod 7; (i + 6) mod 7; kInvalidId]%N) [0; 1; 2; 3; 4; 5; 6]%N; g_eps := eps; g_overlay := None |}.
Definition ring : space :=
  {| sp_graph := ring_graph [0%N]; sp_n := 7; sp_search := fun id => (rank_dist id / 20)%Z; sp_exact := rank_dist; sp_rerank := true |}.
Definition at_least (k : Z) : FilterModel.filter := Filter AND [cond "p" GE (VInt k) []] [].
Definition filtered (sp : space) (f : FilterModel.filter) (h : hint) (k ef : N) : fuelled (list N) :=
  match run (empty_storage [str "c"]) rank_ops with
  | Ok (_, s) => hybrid_search 8 simple_lib sp s f h {| EffortModel.topk := k; EffortModel.ef := ef |}
  | _ => OutOfFuel
  end.
Lemma rows_check n g : g_overlay g = None ->
  N.of_nat (List.length (g_rows g)) = n -> forallb (fun r => Nat.leb (N.to_nat (g_max_nbrs g)) (List.length r)) (g_rows g) = true ->
  forallb (forallb (fun y => N.ltb y n || N.eqb y kInvalidId)) (g_rows g) = true ->
  forallb (fun y => N.ltb y n) (g_eps g) = true -> searchable n g.
Proof.
  intros Ov L Fu No Ep. rewrite !forallb_forall in *. split; [constructor|].
  - lia.
  - intros r Hr. apply Nat.leb_le. now apply Fu.
  - intros x y Hx (r & Hr & i & _ & Hy & Hn). apply nth_error_In in Hr. specialize (No r Hr). rewrite forallb_forall in No.
    specialize (No y (nth_error_In _ _ Hy)). apply orb_true_iff in No as [No|No]; [now apply N.ltb_lt|]. apply N.eqb_eq in No. subst y.
    exfalso. exact (Hn i (le_n _) Hy).
  - rewrite Ov. intros x Hx. apply N.ltb_lt. now apply Ep.
Qed.
Lemma ring_ok eps : forallb (fun y => N.ltb y 7) eps = true ->
  space_ok {| sp_graph := ring_graph eps; sp_n := 7; sp_search := fun id => (rank_dist id / 20)%Z; sp_exact := rank_dist; sp_rerank := true |}.
Proof.
  intros H. split; [|split; [cbn; lia|split; [|discriminate]]]; cbn [sp_graph sp_n sp_exact].
  - apply rows_check; try reflexivity. exact H.
  - intros id _. unfold rank_dist. assert (100 <= float_max)%Z by (vm_compute; discriminate). lia.
Qed.
(** Rows 3 to 6 have p >= 3: brute force for two results, a graph search for one, and the
    plain search when all rows match.  The hypotheses of the theorems hold. *)
Example filtered_example :
  (exists s, query_ok simple_lib [str "c"] rank_ops s ring (at_least 3) {| EffortModel.topk := 1; EffortModel.ef := 3 |} 8)
  /\ filtered ring (at_least 3) Auto 2 3 = Done (Ok [6; 5]%N)
  /\ filtered ring (at_least 3) DisableIterative 1 3 = Done (Ok [6]%N)
  /\ filtered ring (at_least 3) IterativeFilter 2 3 = Done (Ok [6; 5]%N)
  /\ filtered ring (at_least 3) Auto 6 6 = Done (Ok [6; 5; 4; 3; kInvalidId; kInvalidId]%N)
  /\ filtered ring (Filter AND [] []) Auto 2 3 = Done (Ok [6; 5]%N).
Proof.
  split; [|vm_compute; repeat (split; [reflexivity|]); reflexivity].
  destruct (storage_refines_table [str "c"] rank_ops rank_ops_ok) as (s & E & L).
  assert (RS : reached [str "c"] rank_ops s) by (split; [apply rank_ops_ok|eauto]).
  exists s. constructor.
  - apply simple_lib_ok.
  - exact RS.
  - intros id Hv. destruct (reached_represents _ _ _ RS) as [R _]. apply (valid_row _ _ R) in Hv. vm_compute in Hv.
    cbn. repeat destruct Hv as [<-|Hv]; try lia.
  - intros c Hc. unfold at_least, single_condition in Hc. injection Hc as <-. split.
    + split; [unfold value_ok, int64_range; cbn; lia|constructor].
    + intros [H|[]]. discriminate H.
  - now apply ring_ok.
  - split; cbn; lia.
  - cbn. lia.
Qed.

(** ** Where the claim fails *)
(** With the iterative hint matching rows are missed although fewer than [topk] are
    returned: rows 1 and 2 have p <= 2, and none is returned.  (The query meets the
    hypotheses of the theorems above, and without the hint row 2 is returned.) *)
Definition no_more (k : Z) : FilterModel.filter := Filter AND [cond "p" LE (VInt k) []] [].
Theorem iterative_misses_refuted : exists s, reached [str "c"] rank_ops s /\ space_ok ring
  /\ wanted ring s (no_more 2) 2
  /\ hybrid_search 8 simple_lib ring s (no_more 2) IterativeFilter {| EffortModel.topk := 1; EffortModel.ef := 1 |} = Done (Ok [kInvalidId])
  /\ hybrid_search 8 simple_lib ring s (no_more 2) Auto {| EffortModel.topk := 1; EffortModel.ef := 1 |} = Done (Ok [2%N]).
Proof.
  assert (F1 : filtered ring (no_more 2) IterativeFilter 1 1 = Done (Ok [kInvalidId])) by (vm_compute; reflexivity).
  assert (F2 : filtered ring (no_more 2) Auto 1 1 = Done (Ok [2%N])) by (vm_compute; reflexivity).
  destruct (storage_refines_table [str "c"] rank_ops rank_ops_ok) as (s & E & L). unfold filtered in F1, F2. rewrite E in F1, F2.
  assert (RS : reached [str "c"] rank_ops s) by (split; [apply rank_ops_ok|eauto]).
  exists s. split; [exact RS|]. split; [now apply ring_ok|]. split; [|split; assumption].
  destruct (reached_represents _ _ _ RS) as [R _]. split; [reflexivity|]. apply (answer_accepted s _ _ R). vm_compute. reflexivity.
Qed.
Print Assumptions iterative_misses_refuted.
