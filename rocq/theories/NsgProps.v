(** C67: in the graph built for an NSG index every vector can be reached from
    the entry point, and the build ends. *)
From Coq Require Import Sorting.Permutation.
From Verif Require Import NsgProofs NsgSortProofs.
Import ListNotations.

(** A small data set for the examples: six points on a line and four far away
    points, all four at the same distance from each other. *)
Open Scope Z_scope.
Definition points : list (Z * Z * Z) :=
  [(0, 0, 0); (1, 0, 0); (2, 0, 0); (3, 0, 0); (4, 0, 0); (5, 0, 0);
   (101, 1, 1); (101, -1, -1); (99, 1, -1); (99, -1, 1)].
Definition point (i : N) := nth (N.to_nat i) points (0, 0, 0).
Definition d2 (p q : Z * Z * Z) : Z :=
  let '(a, b, c) := p in let '(x, y, z) := q in (a - x) * (a - x) + (b - y) * (b - y) + (c - z) * (c - z).
Fixpoint ins {A} (lt : A -> A -> bool) (x : A) (l : list A) : list A :=
  match l with [] => [x] | y :: l' => if lt x y then x :: l else y :: ins lt x l' end.
Definition isort {A} (lt : A -> A -> bool) (l : list A) : list A := fold_left (fun acc x => ins lt x acc) l [].
Definition nbr_lt (a b : nbr) : bool :=
  (nb_dist a <? nb_dist b) || ((nb_dist a =? nb_dist b) && (nb_id a <? nb_id b)%N).
Definition small_inp (R L : nat) : input :=
  Input 10 R L (fun a b => d2 (point a) (point b)) (fun a => d2 (point a) (2, 0, 0)) Z.of_N
        (fun k => N.of_nat (Nat.modulo k 6)) (fun k => N.of_nat k) (isort nbr_lt) (isort (fun a b => snd a <? snd b)).
Close Scope Z_scope.
Open Scope N_scope.
(** Three near neighbours of each point. *)
Definition small_knng : graph :=
  [[1; 2; 3]; [0; 2; 3]; [1; 3; 0]; [2; 4; 1]; [3; 5; 2]; [4; 3; 2]; [7; 8; 9]; [6; 8; 9]; [6; 7; 9]; [6; 7; 8]].
Close Scope N_scope.

Lemma ins_perm {A} lt (x : A) l : Permutation (ins lt x l) (x :: l).
Proof.
  induction l as [|y l IH]; cbn; auto. destruct (lt x y); auto.
  rewrite IH. apply perm_swap.
Qed.
Lemma isort_perm {A} (lt : A -> A -> bool) l : Permutation (isort lt l) l.
Proof.
  unfold isort. enough (H : forall acc, Permutation (fold_left (fun acc x => ins lt x acc) l acc) (acc ++ l)) by apply (H []).
  induction l as [|x l IH]; intros acc; cbn [fold_left]; [rewrite app_nil_r; reflexivity|].
  rewrite IH, ins_perm. cbn. apply Permutation_middle.
Qed.
Lemma small_inp_ok R L : input_ok (small_inp R L).
Proof. split; [split; reflexivity|]. split; intros l; apply isort_perm. Qed.
Lemma small_knng_ok : table_ok 10 3 small_knng.
Proof. split; [reflexivity|]. repeat constructor. Qed.

(** The build stays inside its arrays, and the graph it returns has, for
    every vector, a row of at most R stored vectors followed by empty slots;
    its entry point is a stored vector. *)
Theorem nsg_build_valid inp fuel knng K :
  input_ok inp -> table_ok (in_n inp) K knng -> 2 <= in_L inp ->
  build_graph inp fuel knng K = OutOfFuel \/
  exists ep g, build_graph inp fuel knng K = Done (Ok (ep, g)) /\ (ep < in_n inp)%N /\ graph_ok (in_n inp) (in_R inp) g.
Proof.
  intros OK T HL.
  assert (H : fine (build_graph inp fuel knng K) (fun '(ep, g) => (ep < in_n inp)%N /\ graph_ok (in_n inp) (in_R inp) g)).
  { unfold build_graph.
    eapply fine_bind; [apply init_ep_fine; auto; lia|]. intros ep He. cbn beta in He.
    eapply fine_bind; [apply (link_fine inp OK); eauto|]. intros g [G _].
    rewrite (compact_ok inp OK) by exact G.
    assert (F : fine (tree_grow inp fuel ep g (degrees_of g)) (graph_ok (in_n inp) (in_R inp))).
    { eapply fine_weak; [|apply (grow_fine inp OK); auto; try reflexivity; apply repeat_length].
      intros g' (G' & _). exact G'. }
    eapply fine_bind; [exact F|]. intros g' G'. apply fine_ret. auto. }
  destruct H as [H|([ep g] & H & H1 & H2)]; [left; exact H|right; eauto].
Qed.
Example nsg_build_valid_example :
  build_graph (small_inp 3 6) 100 small_knng 3 =
  Done (Ok (2, [[1; kEmptyId; kEmptyId]; [0; 2; 0]; [1; 3; 0]; [2; 4; 0]; [3; 5; 0]; [4; 0; kEmptyId];
                [7; 8; 9]; [6; 8; 9]; [6; 7; 9]; [6; 7; 8]]))%N.
Proof. vm_compute. reflexivity. Qed.
(** The result of a search is in the order of the distances, and every entry
    has its own distance: the entry point (the first entry for the centre) is
    the best vector found. *)
Theorem nsg_search_sorted inp fuel q g K vis ep pool full vis' :
  input_ok inp -> sorts inp -> search_on_graph inp fuel q g K vis ep = Done (Ok (pool, full, vis')) ->
  in_order pool /\ own_dist q pool /\ length pool = in_L inp.
Proof. intros OK S E. exact (search_order inp fuel q g K vis ep _ S OK E). Qed.
Theorem nsg_entry_best inp fuel knng K ep :
  input_ok inp -> sorts inp -> init_ep inp fuel knng K = Done (Ok ep) ->
  exists pool full vis, search_on_graph inp fuel (in_center inp) knng K (repeat false (N.to_nat (in_n inp))) (N.modulo (in_rng inp O) (in_n inp)) = Done (Ok (pool, full, vis)) /\
    In ep (map nb_id pool) /\ forall x, In x pool -> (in_center inp ep <= in_center inp (nb_id x))%Z.
Proof.
  intros OK S E. unfold init_ep in E. apply tbind_ok in E as ([[pool full] vis] & ES & E). exists pool, full, vis. split; [exact ES|].
  apply (search_order inp) in ES as (O & W & _); auto. apply tbind_ok in E as (best & EB & E). injection EB as EB. injection E as <-. apply aget_Ok in EB as [_ EB]. change (N.to_nat 0) with 0%nat in EB.
  unfold own_dist in W. rewrite Forall_forall in W. pose proof (nth_error_In _ _ EB) as IB. split; [now apply in_map|]. intros x Hx. rewrite <- (W _ Hx), <- (W _ IB).
  apply In_nth_error in Hx as (j & Ej). apply (O 0 j best x); [lia|exact EB|exact Ej].
Qed.
(** Sorting the examples *)
Lemma in_order_cons x l : in_order (x :: l) <-> (forall b, In b l -> (nb_dist x <= nb_dist b)%Z) /\ in_order l.
Proof.
  split.
  - intros H. split; [intros b I; apply In_nth_error in I as (j & E); exact (H 0 (S j) x b ltac:(lia) eq_refl E)|]. intros i j a b Hij Ea Eb. exact (H (S i) (S j) a b ltac:(lia) Ea Eb).
  - intros [H1 H2] [|i] [|j] a b Hij Ea Eb; cbn in Ea, Eb; [injection Ea as <-; injection Eb as <-; lia|injection Ea as <-; apply H1; eapply nth_error_In; eauto|lia|]. exact (H2 i j a b ltac:(lia) Ea Eb).
Qed.
Lemma ins_order x l : in_order l -> in_order (ins nbr_lt x l).
Proof.
  induction l as [|y l IH]; intros H; cbn [ins]; [apply in_order_cons; split; [intros b []|exact H]|]. pose proof H as H0. apply in_order_cons in H as [H1 H2]. unfold nbr_lt at 1.
  destruct (Z.ltb_spec (nb_dist x) (nb_dist y)) as [C|C]; cbn [orb].
  - apply in_order_cons. split; [|exact H0]. intros b [<-|I]; [lia|]. specialize (H1 b I). lia.
  - destruct (Z.eqb_spec (nb_dist x) (nb_dist y)) as [D|D]; cbn [andb]; [destruct (nb_id x <? nb_id y)%N; [apply in_order_cons; split; [|exact H0]; intros b [<-|I]; [lia|specialize (H1 b I); lia]|]|];
    (apply in_order_cons; split; [|now apply IH]; intros b I; apply (Permutation_in _ (ins_perm _ _ _)) in I as [<-|I]; [lia|now apply H1]).
Qed.
Lemma small_sorts R L : sorts (small_inp R L).
Proof.
  intros l. cbn [in_sort_nbr small_inp]. unfold isort. enough (H : forall acc, in_order acc -> in_order (fold_left (fun acc x => ins nbr_lt x acc) l acc)) by (apply H; intros [|i] j a b Hij E; discriminate E).
  induction l as [|x l IH]; intros acc H; cbn [fold_left]; [exact H|]. apply IH. now apply ins_order.
Qed.
Example nsg_search_sorted_example : sorts (small_inp 3 6) /\ init_ep (small_inp 3 6) 100 small_knng 3 = Done (Ok 2%N) /\
  match search_on_graph (small_inp 3 6) 100 (in_center (small_inp 3 6)) small_knng 3 (repeat false 10) 0 with Done (Ok (pool, _, _)) => map nb_dist pool = [0; 1; 1; 4; 4; 9]%Z | _ => False end.
Proof. split; [apply small_sorts|]. split; vm_compute; reflexivity. Qed.

(** Pruning never lists a neighbour twice. *)
Theorem nsg_prune_distinct inp fuel knng K ep g :
  link_prune inp fuel knng K ep (ids inp) (empty_graph inp) = Done (Ok g) -> distinct_rows g.
Proof.
  apply link_prune_distinct. apply Forall_forall. intros row I. apply repeat_spec in I as ->. induction (in_R inp) as [|r IH]; cbn [repeat filter]; [constructor|]. rewrite N.eqb_refl. exact IH.
Qed.
Example nsg_prune_distinct_example : match link_prune (small_inp 3 6) 100 small_knng 3 2 (ids (small_inp 3 6)) (empty_graph (small_inp 3 6)) with Done (Ok g) => nth_error g 7 = Some [6; 8; 9]%N | _ => False end.
Proof. vm_compute. reflexivity. Qed.
(** The finished graph may: attaching an unlinked vector links a vector that
    is already a neighbour once more. *)
Theorem nsg_distinct_refuted :
  exists inp fuel knng K ep g, input_ok inp /\ table_ok (in_n inp) K knng /\ no_repeats (in_n inp) knng /\ 2 <= in_L inp <= N.to_nat (in_n inp) /\
    build_graph inp fuel knng K = Done (Ok (ep, g)) /\ ~ distinct_rows g.
Proof.
  exists (small_inp 3 6), 100, small_knng, 3, 2%N. eexists. split; [apply small_inp_ok|]. split; [exact small_knng_ok|].
  split; [repeat (apply Forall_cons; [repeat (apply NoDup_cons; [cbn; intuition discriminate|]); apply NoDup_nil|]); apply Forall_nil|]. split; [cbn; lia|].
  split; [vm_compute; reflexivity|]. intros H. apply Forall_inv_tail, Forall_inv in H. cbn in H. apply NoDup_cons_iff in H as [H _]. apply H. cbn. auto.
Qed.

Print Assumptions nsg_build_valid.

(** The last stage of the build removes no edge, so what could be reached
    before it can be reached after it.  Missing: that every vector can be
    reached; see [nsg_all_reachable_refuted]. *)
Theorem nsg_growth_keeps_links_partial inp fuel ep g g' :
  input_ok inp -> graph_ok (in_n inp) (in_R inp) g -> (ep < in_n inp)%N ->
  tree_grow inp fuel ep g (degrees_of g) = Done (Ok g') ->
  (forall u v, edge g u v -> edge g' u v) /\ (forall v, reach g ep v -> reach g' ep v).
Proof.
  intros OK G He E.
  destruct (grow_fine inp OK fuel 1 ep ep g (repeat false (N.to_nat (in_n inp))) (degrees_of g) 0) as [H|(x & H & _ & Keep & _)];
    auto; try reflexivity; try apply repeat_length; fold (tree_grow inp fuel ep g (degrees_of g)) in H; rewrite E in H; [discriminate H|].
  inversion H; subst x. split; [exact Keep|]. intros v Hv. induction Hv as [|a b _ IH Eab]; [constructor|].
  eapply reach_step; eauto.
Qed.
(** The graph just before the last stage of the example build. *)
Definition small_linked : graph :=
  map (pad 3) [[1]; [0; 2]; [1; 3]; [2; 4]; [3; 5]; [4]; [7; 8; 9]; [6; 8; 9]; [6; 7; 9]; [6; 7; 8]]%N.
Lemma small_linked_ok : graph_ok 10 3 small_linked.
Proof.
  split; [reflexivity|]. unfold small_linked. apply Forall_map.
  repeat (constructor; [apply (pad_ok (small_inp 3 6)); [apply small_inp_ok|repeat (constructor; [reflexivity|]); constructor]|]).
  constructor.
Qed.
Example nsg_growth_keeps_links_example :
  exists g', tree_grow (small_inp 3 6) 100 2 small_linked (degrees_of small_linked) = Done (Ok g') /\
             edge small_linked 0 1 /\ edge g' 5 0 /\ ~ edge small_linked 5 0.
Proof.
  eexists. split; [vm_compute; reflexivity|].
  split; [eexists; split; [reflexivity|]; split; [left; reflexivity|discriminate]|].
  split; [eexists; split; [reflexivity|]; split; [right; left; reflexivity|discriminate]|].
  intros (row & E & H & _). cbn in E. inversion E; subst row. cbn in H.
  destruct H as [H|[H|[H|[]]]]; discriminate H.
Qed.
Print Assumptions nsg_growth_keeps_links_partial.

(** The stage that is there to link the vectors left out links none of them:
    when vector 0 is among those that can be reached, exactly the same
    vectors can be reached before and after it, whatever the data, the
    parameters and the random draws. *)
Theorem nsg_growth_links_nothing inp fuel ep g g' :
  input_ok inp -> graph_ok (in_n inp) (in_R inp) g -> (ep < in_n inp)%N -> reach g ep 0%N ->
  tree_grow inp fuel ep g (degrees_of g) = Done (Ok g') ->
  forall v, reach g' ep v <-> reach g ep v.
Proof.
  intros OK G He H0 E v. split; [|apply (nsg_growth_keeps_links_partial inp fuel ep g g' OK G He E)].
  destruct (grow_fine inp OK fuel 1 ep ep g (repeat false (N.to_nat (in_n inp))) (degrees_of g) 0) as [H|(x & H & _ & _ & Only)];
    auto; try reflexivity; try apply repeat_length; fold (tree_grow inp fuel ep g (degrees_of g)) in H; rewrite E in H; [discriminate H|].
  inversion H; subst x.
  assert (O : forall a b, edge g' a b -> edge g a b \/ b = 0%N).
  { apply Only. intros f c vis' c' Ed.
    destruct (dfs_fine inp OK f g (repeat false (N.to_nat (in_n inp))) ep c G He) as [Hd|([x y] & Hd & _ & _ & _ & R)];
      [apply repeat_length| |]; rewrite Ed in Hd; [discriminate Hd|]. inversion Hd; subst x y.
    apply (R eq_refl). exact H0. }
  intros Hv. induction Hv as [|a b _ IH Eab]; [constructor|].
  destruct (O a b Eab) as [Hab| ->]; [eapply reach_step; eauto|exact H0].
Qed.
Example nsg_growth_links_nothing_example :
  reach small_linked 2 0 /\ exists g', tree_grow (small_inp 3 6) 100 2 small_linked (degrees_of small_linked) = Done (Ok g').
Proof.
  split; [|eexists; vm_compute; reflexivity].
  eapply reach_step; [eapply reach_step; [apply reach_here|]|];
    (eexists; split; [reflexivity|]; split; [left; reflexivity|discriminate]).
Qed.
Print Assumptions nsg_growth_links_nothing.

Lemma reach_small_stays g ep : graph_ok 10 3 g -> (ep < 6)%N ->
  (forall i row x, i < 6 -> nth_error g i = Some row -> In x row -> (x < 6)%N \/ x = kEmptyId) ->
  forall v, reach g ep v -> (v < 6)%N.
Proof.
  intros G He H v Hv. induction Hv as [|a b _ IH (row & E & Hin & Nb)]; [exact He|].
  destruct (H (N.to_nat a) row b) as [Hb|Hb]; auto; [lia|congruence].
Qed.
(** The claim is false: a build of ten vectors returns a graph in which
    vector 6 cannot be reached from the entry point, although every vector is
    in the nearest-neighbour graph the build starts from. *)
Theorem nsg_all_reachable_refuted :
  exists inp fuel knng K ep g,
    input_ok inp /\ table_ok (in_n inp) K knng /\ 2 <= in_L inp <= N.to_nat (in_n inp) /\
    build_graph inp fuel knng K = Done (Ok (ep, g)) /\ ~ all_reachable (in_n inp) ep g.
Proof.
  exists (small_inp 3 6), 100, small_knng, 3, 2%N. eexists.
  split; [apply small_inp_ok|]. split; [exact small_knng_ok|]. split; [cbn; lia|].
  split; [apply nsg_build_valid_example|].
  intros H. assert (H6 : (6 < 6)%N); [|lia].
  apply (reach_small_stays _ 2%N) with (v := 6%N) in H; [exact H| | | |].
  - destruct (nsg_build_valid (small_inp 3 6) 100 small_knng 3 (small_inp_ok 3 6) small_knng_ok) as [E|(ep & g & E & _ & G)];
      [cbn; lia| |]; rewrite nsg_build_valid_example in E; [discriminate E|]. inversion E; subst ep g. exact G.
  - lia.
  - intros i row x Hi E. do 6 (destruct i as [|i]; [cbn in E; inversion E; subst row; clear E; cbn; intros K;
      repeat (destruct K as [<-|K]; [first [left; lia|right; reflexivity]|]); destruct K|]). lia.
  - cbn. lia.
Qed.
Print Assumptions nsg_all_reachable_refuted.

(** With fewer vectors than the search width L (200 unless changed) the build
    never returns: it goes on drawing vectors it has not drawn before. *)
Theorem nsg_small_collection_never_builds inp knng K :
  input_ok inp -> table_ok (in_n inp) K knng -> no_repeats (in_n inp) knng -> N.to_nat (in_n inp) < in_L inp ->
  forall fuel, build_graph inp fuel knng K = OutOfFuel.
Proof.
  intros OK T NR HL fuel. unfold build_graph, init_ep. rewrite (search_endless inp OK); auto.
  apply N.mod_lt. destruct OK as [Hn _]. lia.
Qed.
Example nsg_small_collection_example : no_repeats 10 small_knng /\ build_graph (small_inp 3 11) 1000 small_knng 3 = OutOfFuel.
Proof.
  split; [|vm_compute; reflexivity]. repeat constructor; cbn; intros H; repeat (destruct H as [H|H]; [discriminate H|]); destruct H.
Qed.
Print Assumptions nsg_small_collection_never_builds.

(** When every vector already has R neighbours the last stage never returns,
    even if every vector can be reached. *)
Theorem nsg_full_graph_never_returns inp ep g :
  input_ok inp -> graph_ok (in_n inp) (in_R inp) g -> (ep < in_n inp)%N ->
  Forall (fun row => Forall (fun x => x <> kEmptyId) row) g ->
  forall fuel, tree_grow inp fuel ep g (degrees_of g) = OutOfFuel.
Proof.
  intros OK G He F fuel. apply (grow_full_endless inp OK); auto.
  unfold degrees_of. apply Forall_map. apply Forall_forall. intros row Hrow.
  destruct G as [_ G]. pose proof (proj1 (Forall_forall _ _) G row Hrow) as Hr. pose proof (proj1 (Forall_forall _ _) F row Hrow) as Hf.
  rewrite <- (row_ok_length inp OK (in_R inp) row Hr). unfold occupied. f_equal.
  clear - Hf. induction row as [|x row IH]; cbn; auto. apply Forall_cons_iff in Hf as [F1 F2].
  destruct (N.eqb_spec x kEmptyId); [congruence|]. cbn. rewrite IH by exact F2. reflexivity.
Qed.
Example nsg_full_graph_example :
  tree_grow (small_inp 1 6) 1000 0 [[1]; [2]; [3]; [4]; [5]; [6]; [7]; [8]; [9]; [0]]%N [1; 1; 1; 1; 1; 1; 1; 1; 1; 1] = OutOfFuel.
Proof. vm_compute. reflexivity. Qed.
Print Assumptions nsg_full_graph_never_returns.

(** So a build with R = 1, which the Python layer accepts (common.py 192-197),
    never returns. *)
Theorem nsg_degree_one_never_builds inp knng K :
  input_ok inp -> table_ok (in_n inp) K knng -> 2 <= in_L inp -> in_R inp = 1 ->
  forall fuel, build_graph inp fuel knng K = OutOfFuel.
Proof.
  intros OK T HL HR fuel. unfold build_graph.
  destruct (init_ep_fine inp OK fuel knng K T ltac:(lia)) as [E|(ep & E & He)]; rewrite E; [reflexivity|]. cbn [tbind].
  destruct (link_fine inp OK fuel knng K ep T He HL) as [El|(g & El & G & Pe)]; rewrite El; [reflexivity|]. cbn [tbind].
  rewrite (compact_ok inp OK) by exact G. rewrite nsg_full_graph_never_returns; auto.
  apply Forall_forall. intros row Hrow. apply In_nth_error in Hrow as (i & Ei).
  destruct (Pe ltac:(lia) i row Ei) as [[]|Ho].
  destruct G as [_ G]. pose proof (Forall_nth_error _ _ _ _ G Ei) as Hr.
  pose proof (row_ok_length inp OK _ row Hr) as Lr. rewrite HR in Lr.
  destruct row as [|x [|y row]]; try discriminate Lr. constructor; [|constructor]. intros ->. apply Ho. reflexivity.
Qed.
Example nsg_degree_one_example : build_graph (small_inp 1 6) 1000 small_knng 3 = OutOfFuel.
Proof. vm_compute. reflexivity. Qed.
Print Assumptions nsg_degree_one_never_builds.
Print Assumptions nsg_search_sorted.
Print Assumptions nsg_entry_best.
Print Assumptions nsg_prune_distinct.
Print Assumptions nsg_distinct_refuted.
