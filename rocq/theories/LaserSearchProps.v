(** C92: the search of the LASER index on disk. *)
From Coq Require Import Lia.
From Verif Require Import LaserSearchProofs.
Local Open Scope nat_scope.

(** Whatever the order and timing of the reads, the search does not fail: it
    never runs out of slots, never meets an unexpected completion and never
    looks at a record that is not the node's own.  Either it answers, rightly,
    or it still waits for reads, and then fewer reports have come than the
    index has nodes. *)
Theorem laser_search_right fuel g width ef knn scratch answers :
  graph_ok g -> 0 < width <= 1024 -> 0 < ef -> 0 < knn -> length scratch = 2 * width -> reads_ok answers -> edges g + 3 <= fuel ->
  (laser_search fuel g width ef knn scratch answers = Waits /\ reports answers < length (g_nodes g))
  \/ exists ids, laser_search fuel g width ef knn scratch answers = Ends (Ok ids) /\ right_answer g width ef knn ids.
Proof. apply search_spec. Qed.
Print Assumptions laser_search_right.

(** It ends: a report for each node is always enough. *)
Theorem laser_search_ends fuel g width ef knn scratch answers :
  graph_ok g -> 0 < width <= 1024 -> 0 < ef -> 0 < knn -> length scratch = 2 * width -> reads_ok answers -> edges g + 3 <= fuel ->
  length (g_nodes g) <= reports answers ->
  exists ids, laser_search fuel g width ef knn scratch answers = Ends (Ok ids).
Proof.
  intros G W E K L R F N. destruct (search_spec fuel g width ef knn scratch answers G W E K L R F) as [(_ & Q)|(ids & Q & _)]; [lia|eauto].
Qed.
Print Assumptions laser_search_ends.

(** With room for all candidates the answer is the closest of all reachable
    nodes.  Missing: beams wider than 1, refuted below. *)
Theorem laser_exhaustive_partial fuel g ef knn scratch answers ids :
  graph_ok g -> edges g + 2 <= ef -> 0 < knn -> length scratch = 2 -> reads_ok answers -> edges g + 3 <= fuel ->
  laser_search fuel g 1 ef knn scratch answers = Ends (Ok ids) -> exhaustive g knn ids.
Proof.
  intros G E K L R F Q. destruct (search_spec fuel g 1 ef knn scratch answers G) as [(W & _)|(ids' & Q' & A)]; auto; try lia; [congruence|].
  rewrite Q in Q'. injection Q' as <-. destruct (all_followed _ _ _ _ _ G E A) as (seen & lost & ND & FR & HL & CI & ST & NB).
  destruct lost as [|x lost]; [|cbn [length] in HL; lia]. rewrite app_nil_r in *. exists seen. split; [assumption|]. split; [|assumption].
  intros x. split; [rewrite Forall_forall in FR; apply FR|]. induction 1; eauto.
Qed.
Print Assumptions laser_exhaustive_partial.

(** With a wider beam all neighbours are followed but those of the last few
    nodes, at most half the width of the beam. *)
Theorem laser_follows_partial fuel g width ef knn scratch answers ids :
  graph_ok g -> 0 < width <= 1024 -> edges g + 2 <= ef -> 0 < knn -> length scratch = 2 * width -> reads_ok answers -> edges g + 3 <= fuel ->
  laser_search fuel g width ef knn scratch answers = Ends (Ok ids) ->
  exists seen lost, NoDup (seen ++ lost) /\ Forall (reachable g) (seen ++ lost) /\ 2 * length lost <= width /\ closest_ids g knn (seen ++ lost) ids
    /\ (forall x, In x (starts g) -> In x (seen ++ lost))
    /\ (forall x y, In x seen -> In y (map fst (nbs_of g x)) -> In y (seen ++ lost)).
Proof.
  intros G W E K L R F Q. destruct (search_spec fuel g width ef knn scratch answers G W) as [(X & _)|(ids' & Q' & A)]; auto; try lia; [congruence|].
  rewrite Q in Q'. injection Q' as <-. now apply (all_followed g width ef knn).
Qed.
Print Assumptions laser_follows_partial.

(** The medoid started from is the closest one. *)
Theorem best_medoid_closest ms : (exists m, In m ms /\ (snd m < float_max)%Z) ->
  exists d, In (best_medoid ms, d) ms /\ forall m, In m ms -> (d <= snd m)%Z.
Proof.
  assert (G : forall (l : list (N * Z)) b, let r := fold_left (fun b m => if Z.ltb (snd m) (snd b) then m else b) l b in
     In r (b :: l) /\ (forall m, In m (b :: l) -> (snd r <= snd m)%Z)).
  { induction l as [|m l IH]; intros b; cbn [fold_left].
    - split; [now left|]. intros m [<-|[]]. apply Z.le_refl.
    - destruct (Z.ltb_spec (snd m) (snd b)) as [L|L].
      + destruct (IH m) as [A B]. split; [right; exact A|]. intros x [<-|Hx]; [specialize (B m (or_introl eq_refl)); lia|auto].
      + destruct (IH b) as [A B]. split; [destruct A as [A|A]; [now left|right; now right]|].
        intros x [<-|[<-|Hx]]; [apply B; now left| |apply B; now right]. specialize (B b (or_introl eq_refl)). lia. }
  intros (m & Hm & L). destruct (G ms (0%N, float_max)) as [A B]. unfold best_medoid.
  set (r := fold_left _ ms (0%N, float_max)) in *. clearbody r. exists (snd r). rewrite <- surjective_pairing. split.
  - destruct A as [<-|A]; [|assumption]. cbn [snd] in B. specialize (B m (or_intror Hm)). lia.
  - intros x Hx. apply B. now right.
Qed.
Print Assumptions best_medoid_closest.

(** ** Example: a search with two pages of two nodes, a medoid and a cached node *)
Definition nd (d : Z) (nbs : list (N * Z)) : lnode := {| nd_dist := d; nd_nbs := nbs |}.
Definition g1 : lgraph :=
  {| g_nodes := [nd 10 [(1%N, 5%Z); (2%N, 6%Z)]; nd 5 [(0%N, 9%Z)]; nd 6 [(3%N, 1%Z)]; nd 0 []];
     g_entry := 0%N; g_medoids := [(1%N, 7%Z); (0%N, 9%Z)]; g_npp := 2%N; g_cached := [1%N] |}.
Definition one (k : nat) : list (nat * bool) := [(k, true)].
Lemma g1_ok : graph_ok g1.
Proof.
  split; [reflexivity|]. split; [intros m [<-|[<-|[]]]; reflexivity|]. split; [|split; [reflexivity|discriminate]].
  intros x y [<-|[<-|[<-|[<-|[]]]]]; cbn [nd nd_nbs In]; intros H; repeat (destruct H as [<-|H]; [reflexivity|]); destruct H.
Qed.
Example laser_search_example :
  graph_ok g1 /\ edges g1 = 4
  /\ laser_search 7 g1 2 10 3 [None; None; Some 1%N; None] [one 0; []; one 1; one 0] = Ends (Ok [3; 1; 2]%N)
  /\ laser_search 7 g1 2 1 3 [None; None; Some 1%N; None] [one 0; []; one 1; one 0] = Ends (Ok [1; 0; 0]%N)
  /\ laser_search 7 g1 1 6 3 [None; None] [one 0; one 0; one 0] = Ends (Ok [3; 1; 2]%N)
  /\ laser_search 7 g1 1 6 3 [None; None] [one 0; []; one 0] = Waits.
Proof.
  split; [apply g1_ok|]. split; [reflexivity|]. split; [vm_compute; reflexivity|]. split; [vm_compute; reflexivity|].
  split; vm_compute; reflexivity.
Qed.

(** ** What fails *)
(** With a beam of width 0 the search never ends: each round pops nothing. *)
Theorem laser_width0_refuted fuel g ef knn scratch answers : graph_ok g -> 0 < ef -> laser_search fuel g 0 ef knn scratch answers = Fuel_out.
Proof.
  intros G E. unfold laser_search. destruct (first_spec g ef G E) as (p & Q & _). rewrite Q. cbn [obind].
  rewrite width0_loop; [reflexivity|]. exact (first_next g ef p G E Q).
Qed.
Print Assumptions laser_width0_refuted.

(** A search with room for all candidates misses the closest reachable node:
    node 2 is one of the last read and its neighbour 3 is not followed.  With
    the same parameters, other timing finds it: the answer depends on the
    order in which reads complete. *)
Definition g2 : lgraph :=
  {| g_nodes := [nd 10 [(1%N, 5%Z); (2%N, 6%Z)]; nd 5 []; nd 6 [(3%N, 1%Z)]; nd 0 []];
     g_entry := 0%N; g_medoids := []; g_npp := 1%N; g_cached := [] |}.
Lemma g2_ok : graph_ok g2.
Proof.
  split; [reflexivity|]. split; [intros m []|]. split; [|split; [reflexivity|discriminate]].
  intros x y [<-|[<-|[<-|[<-|[]]]]]; cbn [nd nd_nbs In]; intros H; repeat (destruct H as [<-|H]; [reflexivity|]); destruct H.
Qed.
Lemma g2_reach3 : reachable g2 3%N.
Proof. apply (reach_edge g2 2%N); [apply (reach_edge g2 0%N); [apply reach_start; now left|]|]; vm_compute; auto. Qed.
Lemma g2_not_exhaustive ids : In 3%N ids \/ ~ exhaustive g2 1 ids.
Proof.
  destruct (in_dec N.eq_dec 3%N ids) as [H|H]; [now left|]. right. intros (all & ND & R & best & (LB & rest & PM & FU & FAR) & _ & E).
  assert (A : In (3%N, 0%Z) (best ++ rest)).
  { apply (Permutation_in _ PM). apply in_map_iff. exists 3%N. split; [reflexivity|]. apply R, g2_reach3. }
  apply in_app_or in A as [A|A].
  - apply H. rewrite E. apply in_or_app. left. now apply (in_map fst) in A.
  - assert (NE : rest <> []) by (intros ->; destruct A). specialize (FU NE). destruct best as [|[x d] [|? ?]]; try discriminate.
    specialize (FAR (x, d) (3%N, 0%Z) (or_introl eq_refl) A). cbn [snd] in FAR.
    assert (B : In (x, d) (map (fun x => (x, dist_of g2 x)) all)) by (apply (Permutation_in _ (Permutation_sym PM)); now left).
    apply in_map_iff in B as (x' & B & Hx). injection B as -> <-. apply R in Hx. pose proof (reach_node g2 g2_ok x Hx) as HN. unfold is_node in HN. cbn in HN.
    assert (C : x = 0%N \/ x = 1%N \/ x = 2%N \/ x = 3%N) by lia.
    destruct C as [-> | [-> | [-> | ->]]]; try (vm_compute in FAR; congruence). apply H. rewrite E. now left.
Qed.
Theorem laser_exhaustive_refuted :
  exists g answers ids, graph_ok g /\ reads_ok answers /\ laser_search (edges g + 3) g 2 100 1 (repeat None 4) answers = Ends (Ok ids)
    /\ ~ exhaustive g 1 ids.
Proof.
  exists g2, [one 0; one 0; one 0], [1%N]. split; [apply g2_ok|]. split; [repeat (apply Forall_cons; [repeat constructor|]); constructor|].
  split; [vm_compute; reflexivity|]. destruct (g2_not_exhaustive [1%N]) as [[H|[]]|H]; [discriminate|exact H].
Qed.
Print Assumptions laser_exhaustive_refuted.
Theorem laser_order_refuted :
  exists g answers answers' ids ids', graph_ok g /\ reads_ok answers /\ reads_ok answers'
    /\ laser_search (edges g + 3) g 2 100 1 (repeat None 4) answers = Ends (Ok ids)
    /\ laser_search (edges g + 3) g 2 100 1 (repeat None 4) answers' = Ends (Ok ids') /\ ids <> ids'.
Proof.
  exists g2, [one 0; one 0; one 0], [one 0; one 1; one 0; one 0], [1%N], [3%N]. split; [apply g2_ok|].
  split; [repeat (apply Forall_cons; [repeat constructor|]); constructor|].
  split; [repeat (apply Forall_cons; [repeat constructor|]); constructor|].
  split; [vm_compute; reflexivity|]. split; [vm_compute; reflexivity|]. discriminate.
Qed.
Print Assumptions laser_order_refuted.

(** A failed read goes unnoticed.  Its slot still holds a page read for an
    earlier query: node 1 is ranked by the distance of node 2. *)
Definition g3 : lgraph :=
  {| g_nodes := [nd 1 [(1%N, 5%Z)]; nd 5 []; nd 0 []]; g_entry := 0%N; g_medoids := []; g_npp := 1%N; g_cached := [] |}.
Lemma g3_ok : graph_ok g3.
Proof.
  split; [reflexivity|]. split; [intros m []|]. split; [|split; [reflexivity|discriminate]].
  intros x y [<-|[<-|[<-|[]]]]; cbn [nd nd_nbs In]; intros H; repeat (destruct H as [<-|H]; [reflexivity|]); destruct H.
Qed.
Theorem laser_failed_read_refuted :
  exists g scratch, graph_ok g /\ (dist_of g 0 < dist_of g 1)%Z
    /\ laser_search (edges g + 3) g 1 10 1 scratch [[(0, true)]; [(0, true)]] = Ends (Ok [0%N])
    /\ laser_search (edges g + 3) g 1 10 1 scratch [[(0, true)]; [(0, false)]] = Ends (Ok [1%N]).
Proof.
  exists g3, [Some 2%N; Some 2%N]. split; [apply g3_ok|]. split; [reflexivity|]. split; vm_compute; reflexivity.
Qed.
Print Assumptions laser_failed_read_refuted.

(** With fewer nodes reached than results wanted, the answer is filled with
    id 0, as if node 0 had been found, although it cannot be reached. *)
Definition g4 : lgraph :=
  {| g_nodes := [nd 9 []; nd 1 []]; g_entry := 1%N; g_medoids := []; g_npp := 1%N; g_cached := [] |}.
Lemma g4_ok : graph_ok g4.
Proof.
  split; [reflexivity|]. split; [intros m []|]. split; [|split; [reflexivity|discriminate]].
  intros x y [<-|[<-|[]]]; intros [].
Qed.
Theorem laser_fill_refuted :
  exists g answers ids x, graph_ok g /\ reads_ok answers /\ laser_search (edges g + 3) g 2 10 2 (repeat None 4) answers = Ends (Ok ids)
    /\ In x ids /\ ~ reachable g x.
Proof.
  exists g4, [one 0], [1%N; 0%N], 0%N. split; [apply g4_ok|]. split; [repeat (apply Forall_cons; [repeat constructor|]); constructor|].
  split; [vm_compute; reflexivity|]. split; [right; now left|].
  intros R. assert (A : forall x, reachable g4 x -> x = 1%N).
  { induction 1 as [x [H|[]]|x y _ IH H]; [now symmetry|]. subst x. destruct H. }
  specialize (A _ R). discriminate.
Qed.
Print Assumptions laser_fill_refuted.
