(** Property C28 for the searches in memory: VamanaGreedySearch::search and
    GraphSearchJob::search_solo / search_solo_updated.  Termination is "a fuel
    of one more than the number of nodes is enough". *)
From Verif Require Import SearchModel SearchSpec FrontierProofs SearchProofs.

(** ** VamanaGreedySearch *)

(** Whatever searches the thread ran before, a search terminates and returns
    at most top_k different reachable nodes with their true distances, closest
    first and equal distances by id. *)
Theorem vamana_search_ranked : forall qs s q fuel, vamana_history qs s -> Forall vq_ok qs -> vq_ok q ->
  length (vq_graph q) < fuel ->
  exists hits s' e, vq_run q fuel s = Done (Ok (hits, s', e))
    /\ ranked (vq_reachable q) (vq_dist q) (vq_top_k q) hits /\ StronglySorted cand_lt hits.
Proof.
  intros qs s q fuel H F Q L. destruct (vamana_lemma q s fuel Q (history_ok _ _ H F) L) as (hits & s' & e & R & _ & K & S & _). eauto 6.
Qed.
Print Assumptions vamana_search_ranked.

(** It expands no node twice, and only reachable ones. *)
Theorem vamana_search_expands_once : forall qs s q fuel hits s' e, vamana_history qs s -> Forall vq_ok qs -> vq_ok q ->
  vq_run q fuel s = Done (Ok (hits, s', e)) -> NoDup e /\ forall x, In x e -> vq_reachable q x.
Proof.
  intros qs s q fuel hits s' e H F Q R.
  destruct (vamana_lemma q s (S (fuel + length (vq_graph q))) Q (history_ok _ _ H F) ltac:(lia)) as (h2 & s2 & e2 & R2 & _ & _ & _ & _ & T & _ & N & I & _).
  rewrite (vq_run_more _ _ _ (S (fuel + length (vq_graph q))) _ R ltac:(lia)) in R2. injection R2 as <- <- <-. split; [assumption|]. auto.
Qed.
Print Assumptions vamana_search_expands_once.

(** It stops only when no neighbour of a returned node is closer than the
    returned ones. *)
Theorem vamana_search_settled : forall qs s q fuel hits s' e, vamana_history qs s -> Forall vq_ok qs -> vq_ok q ->
  vq_run q fuel s = Done (Ok (hits, s', e)) ->
  settled (adjacent (vq_graph q)) (eq (vq_start q)) (vq_dist q) (vq_top_k q) hits.
Proof.
  intros qs s q fuel hits s' e H F Q R.
  destruct (vamana_lemma q s (S (fuel + length (vq_graph q))) Q (history_ok _ _ H F) ltac:(lia)) as (h2 & s2 & e2 & R2 & _ & _ & _ & _ & _ & _ & _ & _ & Se & _).
  rewrite (vq_run_more _ _ _ (S (fuel + length (vq_graph q))) _ R ltac:(lia)) in R2. injection R2 as <- <- <-. assumption.
Qed.
Print Assumptions vamana_search_settled.

(** With a list as long as the number of reachable nodes the result is exact. *)
Theorem vamana_search_exact : forall qs s q fuel hits s' e, vamana_history qs s -> Forall vq_ok qs -> vq_ok q ->
  vq_run q fuel s = Done (Ok (hits, s', e)) -> at_most (vq_list_size q) (vq_reachable q) ->
  nearest (vq_reachable q) (vq_dist q) (vq_top_k q) hits.
Proof.
  intros qs s q fuel hits s' e H F Q R A.
  destruct (vamana_lemma q s (S (fuel + length (vq_graph q))) Q (history_ok _ _ H F) ltac:(lia)) as (h2 & s2 & e2 & R2 & _ & _ & _ & _ & _ & _ & _ & _ & _ & Ex).
  rewrite (vq_run_more _ _ _ (S (fuel + length (vq_graph q))) _ R ltac:(lia)) in R2. injection R2 as <- <- <-. auto.
Qed.
Print Assumptions vamana_search_exact.

(** Wrong parameters are rejected. *)
Theorem vamana_search_rejects : forall fuel graph start dist s k l, k = 0 \/ l < k ->
  vamana_search fuel graph start dist s k l = Done Throws.
Proof.
  intros fuel graph start dist s k l H. unfold vamana_search. destruct (Nat.eqb_spec k 0), (Nat.eqb_spec l 0), (Nat.ltb_spec l k); try reflexivity; lia.
Qed.
Print Assumptions vamana_search_rejects.

(** Five nodes, one not reachable; two earlier searches on other graphs. *)
Definition ex_graph : list (list N) := [[1; 2]; [0; 3; 3]; [2; 3]; [1; 0]; [0]]%N.
Definition ex_dist (x : N) : Z := match x with 0%N => 40 | 1%N => 25 | 2%N => 25 | 3%N => 7 | _ => 1 end%Z.
Definition ex_q (g : list (list N)) (k l : nat) := {| vq_graph := g; vq_start := 0; vq_dist := ex_dist; vq_top_k := k; vq_list_size := l |}.
Definition ex_vs : fuelled (list (N * Z) * vamana_scratch * list N) :=
  match vq_run (ex_q [[1; 2]; [0]; []]%N 2 2) 4 vamana_scratch_new with
  | Done (Ok (_, s, _)) => vq_run (ex_q ex_graph 1 2) 6 s
  | other => other end.
Example vamana_search_example : match ex_vs with
  | Done (Ok (_, s, _)) => match vq_run (ex_q ex_graph 3 4) 6 s with
     | Done (Ok (hits, _, e)) => hits = [(3, 7%Z); (1, 25%Z); (2, 25%Z)]%N /\ e = [0; 1; 3; 2]%N
     | _ => False end
  | _ => False end.
Proof. vm_compute. split; reflexivity. Qed.
Lemma ex_graph_ok g : forallb (forallb (fun y => N.ltb y (N.of_nat (length g)))) g = true -> graph_ok g.
Proof.
  intros H row y Hr Hy. rewrite forallb_forall in H. specialize (H row Hr). rewrite forallb_forall in H. specialize (H y Hy). lia.
Qed.
Example vamana_history_example : exists qs s, vamana_history qs s /\ length qs = 2 /\ Forall vq_ok qs.
Proof.
  exists [ex_q [[1; 2]; [0]; []]%N 2 2; ex_q ex_graph 1 2]. eexists. split; [|split].
  - change [ex_q [[1; 2]; [0]; []]%N 2 2; ex_q ex_graph 1 2] with (([] ++ [ex_q [[1; 2]; [0]; []]%N 2 2]) ++ [ex_q ex_graph 1 2]).
    eapply history_search with (fuel := 6); [eapply history_search with (fuel := 4); [constructor|]|]; vm_compute; reflexivity.
  - reflexivity.
  - repeat constructor; try (now apply ex_graph_ok).
Qed.

(** ** search_solo and search_solo_updated *)

(** From the entry points (no overlay). *)
Theorem solo_search_ranked : forall n g removed dist topk ef fuel, rows_ok n g removed -> (n <= 2 ^ 31)%N ->
  g_overlay g = None -> (forall x, In x (g_eps g) -> (x < n)%N) -> 0 < ef -> topk <= ef -> N.to_nat n < fuel ->
  exists hits e, search_solo fuel g removed n dist topk ef = Done (Ok (hits ++ repeat (kInvalidId, float_max) (topk - length hits), e))
    /\ ranked (reachable (leads_to g removed) (fun x => In x (g_eps g))) dist topk hits
    /\ settled (leads_to g removed) (fun x => In x (g_eps g)) dist topk hits
    /\ NoDup e /\ (forall x, In x e -> reachable (leads_to g removed) (fun x => In x (g_eps g)) x)
    /\ (at_most ef (reachable (leads_to g removed) (fun x => In x (g_eps g))) ->
        nearest (reachable (leads_to g removed) (fun x => In x (g_eps g))) dist topk hits).
Proof.
  intros n g removed dist topk ef fuel G Hn Ov He Hef Hk F.
  destruct (solo_eps_lemma n g removed dist topk ef fuel G Hn Ov He Hk Hef F) as (s & I & E & hits & _ & _ & _ & R & K & _ & _ & Rc & ND & EI & Se & Ex).
  exists hits, E. repeat (split; [solve [auto]|]). exact Ex.
Qed.
Print Assumptions solo_search_ranked.

(** With an overlay the search starts at one node, which is reached from the
    overlay's entry point, is no further than it, and is no further from the
    query than any of its neighbours on the lowest overlay level. *)
Theorem solo_search_overlay : forall n g removed dist topk ef fuel o, rows_ok n g removed -> (n <= 2 ^ 31)%N ->
  g_overlay g = Some o -> overlay_ok n o -> 0 < ef -> topk <= ef -> N.to_nat n < fuel ->
  exists u hits e, search_solo fuel g removed n dist topk ef = Done (Ok (hits ++ repeat (kInvalidId, float_max) (topk - length hits), e))
    /\ reachable (any_overlay_edge o) (eq (ov_ep o)) u /\ (u < n)%N /\ (dist u <= dist (ov_ep o))%Z
    /\ (forall level v, nth_error (ov_levels o) (N.to_nat (ov_ep o)) = Some level -> (0 < level)%N -> overlay_edge o 1 u v -> (dist u <= dist v)%Z)
    /\ ranked (reachable (leads_to g removed) (eq u)) dist topk hits
    /\ settled (leads_to g removed) (eq u) dist topk hits
    /\ NoDup e /\ (forall x, In x e -> reachable (leads_to g removed) (eq u) x)
    /\ (at_most ef (reachable (leads_to g removed) (eq u)) -> nearest (reachable (leads_to g removed) (eq u)) dist topk hits).
Proof.
  intros n g removed dist topk ef fuel o G Hn Ov Oo Hef Hk F.
  destruct (solo_overlay_lemma n g removed dist topk ef fuel o G Hn Ov Oo Hk Hef F) as (u & s & I & E & hits & Ru & Bu & Du & Mu & _ & _ & _ & R & K & _ & _ & Rc & ND & EI & Se & Ex).
  exists u, hits, E. repeat (split; [solve [auto]|]). exact Ex.
Qed.
Print Assumptions solo_search_overlay.

(** ef below topk is rejected. *)
Theorem solo_search_rejects : forall fuel g removed n dist topk ef, ef < topk -> search_solo fuel g removed n dist topk ef = Done Throws.
Proof. intros fuel g removed n dist topk ef H. unfold search_solo, solo_pool. now destruct (Nat.ltb_spec ef topk); [|lia]. Qed.
Print Assumptions solo_search_rejects.

Definition ex_solo_graph (o : option overlay) : graph :=
  {| g_max_nbrs := 3; g_eps := [0; 4; 0]%N; g_overlay := o;
     g_rows := [[1; kInvalidId; 7]; [2; 3; 0]; [kInvalidId; 1; 1]; [1; 0; 3]; [3; kInvalidId; 0]; [0; 1; 2]]%N |}.
(** Node 3 was removed: it leads to the nodes recorded for it. *)
Definition ex_removed (x : N) : option (list N) := if N.eqb x 3 then Some [2; 0]%N else None.
(** Levels: 0 and 4 on level 2, 3 on level 1. *)
Definition ex_overlay : overlay :=
  {| ov_max_nbrs := 2; ov_ep := 0; ov_levels := [2; 0; 0; 1; 2; 0]%N;
     ov_lists := [[3; 4; 4; kInvalidId]; []; []; [0; kInvalidId]; [0; 3; 0; kInvalidId]; []]%N |}.
Definition ex_sdist (x : N) : Z := match x with 0%N => 40 | 1%N => 25 | 2%N => 25 | 3%N => 7 | 4%N => 9 | _ => 1 end%Z.

Example solo_search_example :
  search_solo 7 (ex_solo_graph None) ex_removed 6 ex_sdist 6 6
    = Done (Ok ([(3, 7%Z); (4, 9%Z); (2, 25%Z); (1, 25%Z); (0, 40%Z); (kInvalidId, float_max)]%N, [4; 3; 2; 0; 1]%N)).
Proof. vm_compute. reflexivity. Qed.
Example solo_overlay_example :
  search_solo 7 (ex_solo_graph (Some ex_overlay)) ex_removed 6 ex_sdist 3 4
    = Done (Ok ([(3, 7%Z); (2, 25%Z); (1, 25%Z)]%N, [3; 2; 0; 1]%N)).
Proof. vm_compute. reflexivity. Qed.
(** The hypotheses hold of both. *)
Lemma ex_case (n : nat) (P : N -> Prop) : (forall i, i < n -> P (N.of_nat i)) -> forall x, (x < N.of_nat n)%N -> P x.
Proof. intros H x Hx. rewrite <- (N2Nat.id x). apply H. lia. Qed.
Lemma ex_listed max row y : listed max row y -> In y row /\ y <> kInvalidId.
Proof. intros (i & _ & E & H). split; [eapply nth_error_In; eauto|]. intros ->. exact (H i (Nat.le_refl i) E). Qed.
Example ex_rows_ok o : rows_ok 6 (ex_solo_graph o) ex_removed.
Proof.
  constructor; [reflexivity| |].
  - intros row H. cbn in H. repeat destruct H as [<-|H]; try destruct H; cbn; lia.
  - intros x y Hx. revert y. revert x Hx. apply (ex_case 6 (fun x => forall y, leads_to (ex_solo_graph o) ex_removed x y -> (y < 6)%N)).
    intros i Hi y. destruct i as [|[|[|[|[|[|i]]]]]]; [cbn..|lia].
    all: try (intros (row & [= <-] & H)).
    1: destruct H as (j & Hj & E & H); destruct j as [|j]; [injection E as <-; lia|]; exfalso; exact (H 1 ltac:(lia) eq_refl).
    all: try (apply ex_listed in H as [H K]).
    all: try intros H.
    all: cbn in H; repeat destruct H as [<-|H]; try destruct H; try reflexivity; try (exfalso; now apply K).
Qed.
Example ex_overlay_ok : overlay_ok 6 ex_overlay.
Proof.
  constructor; [cbn; lia|cbn; lia| |cbn; lia|].
  - intros x row level. generalize (N.to_nat x). intros i. do 6 (destruct i as [|i]; [intros [= <-] [= <-]; cbn; lia|]). intros K. destruct i; discriminate K.
  - intros level x y lx Hl. unfold overlay_edge. generalize (N.to_nat x). intros i. cbn [ov_levels ov_lists ex_overlay].
    intros E Hlx (row & Er & H). apply ex_listed in H as [H K].
    assert (Hll : level = 1%N \/ level = 2%N \/ (2 < level)%N) by lia.
    do 6 (destruct i as [|i]; [injection E as <-; injection Er as <-;
      destruct Hll as [->|[->|Hll]]; try lia; cbn in H; repeat destruct H as [<-|H]; try destruct H; try (exfalso; now apply K);
        (split; [reflexivity|eexists; split; [reflexivity|lia]])|]).
    destruct i; discriminate E.
Qed.

(** ef = 0 passes the check when topk = 0, and the first insertion reads before
    the pool. *)
Theorem solo_search_ef_zero_refuted : exists g n dist, rows_ok n g (fun _ => None) /\ (forall x, In x (g_eps g) -> (x < n)%N)
  /\ search_solo 2 g (fun _ => None) n dist 0 0 = Done OutOfBounds.
Proof.
  exists {| g_max_nbrs := 1; g_rows := [[kInvalidId]]; g_eps := [0%N]; g_overlay := None |}, 1%N, (fun _ => 5%Z).
  split; [constructor; [reflexivity| |]|split; [|vm_compute; reflexivity]].
  - intros row [<-|[]]. cbn. lia.
  - intros x y Hx. assert (x = 0%N) by lia. subst x. intros (row & [= <-] & H). apply ex_listed in H as [[<-|[]] K]. exfalso. now apply K.
  - intros x [<-|[]]. reflexivity.
Qed.
Print Assumptions solo_search_ef_zero_refuted.
