(** Proofs about the cache of node records. *)
From Verif Require Import LayoutProofs GraphFileProofs StoreProofs.
From Verif Require Export NodeCacheSpec.
From Coq Require Import Sorted Permutation.
Local Open Scope N_scope.

Lemma nodup_snoc {A} (l : list A) x : NoDup l -> ~ In x l -> NoDup (l ++ [x]).
Proof.
  induction l as [|a l IH]; cbn [app]; intros H1 H2; [constructor; [intros []|constructor]|]. inversion H1 as [|? ? N1 N2]; subst.
  constructor; [|apply IH; [exact N2|intros I; apply H2; now right]]. intros I. apply in_app_or in I as [I|[<- |[]]]; [now apply N1|]. apply H2. now left.
Qed.
Lemma nodup_app_l {A} (a b : list A) : NoDup (a ++ b) -> NoDup a.
Proof.
  induction a as [|x a IH]; cbn [app]; intros H; [constructor|]. inversion H as [|? ? N1 N2]; subst.
  constructor; [intros I; apply N1, in_or_app; now left|now apply IH].
Qed.

(** ** The breadth-first search *)
Section Bfs.
Context (graph : list (list N)) (medoid : N).
Let n := N.of_nat (length graph).
Definition edge (x y : N) : Prop := exists row, nth_error graph (N.to_nat x) = Some row /\ In y row /\ y < n.
Definition before (p q : N * nat) : Prop := (snd p <= snd q)%nat.

Lemma closure (P : N -> Prop) (d : nat) : P medoid ->
  (forall x y i, P x -> hops graph medoid i x -> (i < d)%nat -> edge x y -> P y) ->
  forall j v, hops graph medoid j v -> (j <= d)%nat -> P v.
Proof.
  intros P0 PS j v H. induction H as [|k x row y H IH E I L]; intros Hj; [exact P0|].
  apply (PS x y k); [apply IH; lia|exact H|lia|]. exists row. now repeat split.
Qed.

(** Nodes found so far with their distances: [D] expanded, [Q] in the queue. *)
Record binv (visited : list bool) (D Q : list (N * nat)) : Prop := {
  bi_nodup : NoDup (map fst (D ++ Q));
  bi_len : length visited = length graph;
  bi_vis : forall x, x < n -> (nth (N.to_nat x) visited false = true <-> In x (map fst (D ++ Q)));
  bi_range : forall p, In p (D ++ Q) -> fst p < n;
  bi_dist : forall p, In p (D ++ Q) -> distance_is graph medoid (fst p) (snd p);
  bi_sorted : StronglySorted before (D ++ Q);
  bi_first : exists rest, D ++ Q = (medoid, O) :: rest;
}.
Definition closed (D F : list (N * nat)) : Prop := forall p y, In p D -> edge (fst p) y -> In y (map fst F).
Definition near (d : nat) (F : list (N * nat)) : Prop := forall p, In p F -> (snd p <= S d)%nat.

Lemma ss_app {A} (R : A -> A -> Prop) l1 l2 : StronglySorted R (l1 ++ l2) -> forall x y, In x l1 -> In y l2 -> R x y.
Proof.
  induction l1 as [|a l1 IH]; cbn [app]; intros S x y Hx Hy; [destruct Hx|]. apply StronglySorted_inv in S as [S F].
  destruct Hx as [->|Hx]; [|now apply IH]. rewrite Forall_forall in F. apply F, in_or_app. now right.
Qed.
Lemma ss_snoc {A} (R : A -> A -> Prop) l x : StronglySorted R l -> (forall y, In y l -> R y x) -> StronglySorted R (l ++ [x]).
Proof.
  induction l as [|a l IH]; cbn [app]; intros S H; [constructor; constructor|]. apply StronglySorted_inv in S as [S F].
  constructor; [apply IH; [exact S|intros y Hy; apply H; now right]|]. apply Forall_app. split; [exact F|]. constructor; [|constructor].
  apply H. now left.
Qed.
Lemma dist_fun x a b : distance_is graph medoid x a -> distance_is graph medoid x b -> a = b.
Proof. intros [H1 M1] [H2 M2]. pose proof (M1 _ H2). pose proof (M2 _ H1). lia. Qed.

(** Whatever is [d] hops away or fewer has been found, when all nodes closer
    than [d] have been expanded. *)
Lemma found_within vis D Q F (d : nat) : binv vis D Q -> closed D F -> (forall p, In p (D ++ Q) -> In p F) ->
  (forall p, In p F -> (snd p < d)%nat -> In p D) ->
  forall j v, hops graph medoid j v -> (j <= d)%nat -> (forall p, In p F -> distance_is graph medoid (fst p) (snd p)) -> In v (map fst F).
Proof.
  intros B C I L j v H Hj HD. apply (closure (fun x => In x (map fst F)) d) with (j := j); try assumption.
  - destruct (bi_first _ _ _ B) as [rest E]. change medoid with (fst (medoid, O)). apply in_map, I. rewrite E. now left.
  - intros x y i Hx Hi Hlt He. apply in_map_iff in Hx as (p & <- & Hp). apply (C p y); [|exact He]. apply L; [exact Hp|].
    pose proof (proj2 (HD p Hp) i Hi). lia.
Qed.

Lemma push_spec D u d : forall row Q vis done, (forall y, In y row -> y < n -> edge u y) ->
  binv vis D ((u, d) :: Q) -> closed D (D ++ (u, d) :: Q) -> near d (D ++ (u, d) :: Q) ->
  (forall y, In y done -> y < n -> In y (map fst (D ++ (u, d) :: Q))) ->
  exists vis' Q', push_neighbors n vis (map fst Q) row = Ok (vis', map fst Q')
    /\ binv vis' D ((u, d) :: Q') /\ closed D (D ++ (u, d) :: Q') /\ near d (D ++ (u, d) :: Q')
    /\ (forall y, In y (done ++ row) -> y < n -> In y (map fst (D ++ (u, d) :: Q'))).
Proof.
  induction row as [|v row IH]; intros Q vis done HE B C M HD.
  { cbn [push_neighbors]. exists vis, Q. rewrite app_nil_r. exact (conj eq_refl (conj B (conj C (conj M HD)))). }
  cbn [push_neighbors]. change (v :: row) with ([v] ++ row). rewrite app_assoc.
  destruct (N.ltb_spec v n) as [Hv|Hv].
  2: { apply IH; auto; [intros y Hy Ly; apply HE; [now right|exact Ly]|]. intros y Hy Ly.
       apply in_app_or in Hy as [Hy|[<- |[]]]; [now apply HD|lia]. }
  rewrite (aget_nth _ _ false) by (rewrite (bi_len _ _ _ B); exact Hv). cbn [bind].
  destruct (nth (N.to_nat v) vis false) eqn:EV.
  { apply IH; auto; [intros y Hy Ly; apply HE; [now right|exact Ly]|]. intros y Hy Ly.
    apply in_app_or in Hy as [Hy|[<- |[]]]; [now apply HD|now apply (bi_vis _ _ _ B)]. }
  rewrite aput_ok by (rewrite (bi_len _ _ _ B); exact Hv). cbn [bind].
  replace (map fst Q ++ [v]) with (map fst (Q ++ [(v, S d)])) by (rewrite map_app; reflexivity).
  assert (NI : ~ In v (map fst (D ++ (u, d) :: Q))) by (intros I; apply (bi_vis _ _ _ B v Hv) in I; congruence).
  assert (HU : hops graph medoid d u) by (apply (bi_dist _ _ _ B (u, d)); apply in_or_app; right; now left).
  assert (DV : distance_is graph medoid v (S d)).
  { split.
    - destruct (HE v (or_introl eq_refl) Hv) as (r & E & I & _). now apply (hops_edge _ _ d u r).
    - intros j Hj. destruct (Nat.le_gt_cases (S d) j) as [|Lt]; [assumption|]. exfalso. apply NI.
      apply (found_within vis D ((u, d) :: Q) (D ++ (u, d) :: Q) d B C (fun p H => H)) with (j := j); [|exact Hj|lia|apply (bi_dist _ _ _ B)].
      intros p Hp Lp. apply in_app_or in Hp as [Hp|[<- |Hp]]; [exact Hp|cbn in Lp; lia|].
      exfalso. pose proof (bi_sorted _ _ _ B) as S. replace (D ++ (u, d) :: Q) with ((D ++ [(u, d)]) ++ Q) in S by (rewrite <- app_assoc; reflexivity).
      pose proof (ss_app _ _ _ S (u, d) p ltac:(apply in_or_app; right; now left) Hp) as LE. unfold before in LE. cbn in LE. lia. }
  assert (EQ : D ++ (u, d) :: Q ++ [(v, S d)] = (D ++ (u, d) :: Q) ++ [(v, S d)]) by (rewrite <- app_assoc; reflexivity).
  apply IH.
  - intros y Hy Ly. apply HE; [now right|exact Ly].
  - destruct B as [B1 B2 B3 B4 B5 B6 B7]. constructor; rewrite ?EQ.
    + rewrite map_app. cbn [map fst]. now apply nodup_snoc.
    + now rewrite upd_length.
    + intros x Hx. rewrite nth_upd by (rewrite B2; unfold n in Hv; lia). rewrite map_app, in_app_iff. cbn [map fst In].
      destruct (Nat.eqb_spec (N.to_nat v) (N.to_nat x)) as [E|NE].
      * apply N2Nat.inj in E. subst x. split; intros _; [right; now left|reflexivity].
      * rewrite B3 by exact Hx. split; [now left|]. intros [H|[H|[]]]; [exact H|subst; congruence].
    + intros p Hp. apply in_app_or in Hp as [Hp|[<- |[]]]; [now apply B4|exact Hv].
    + intros p Hp. apply in_app_or in Hp as [Hp|[<- |[]]]; [now apply B5|exact DV].
    + apply ss_snoc; [exact B6|]. intros p Hp. unfold before. cbn [snd]. now apply M.
    + destruct B7 as [rest E]. rewrite E. now exists (rest ++ [(v, S d)]).
  - intros p y Hp He. rewrite EQ, map_app. apply in_or_app. left. now apply (C p).
  - intros p Hp. rewrite EQ in Hp. apply in_app_or in Hp as [Hp|[<- |[]]]; [now apply M|cbn; lia].
  - intros y Hy Ly. rewrite EQ, map_app. apply in_or_app. apply in_app_or in Hy as [Hy|[<- |[]]]; [left; now apply HD|right; now left].
Qed.

Lemma bfs_spec : forall left vis D Q, binv vis D Q -> closed D (D ++ Q) -> (forall u d rest, Q = (u, d) :: rest -> near d (D ++ Q)) ->
  exists ids, bfs left graph n vis (map fst Q) = Ok ids /\ (length ids <= left)%nat
    /\ exists vis' D' Q', map fst D' = map fst D ++ ids /\ binv vis' D' Q' /\ closed D' (D' ++ Q') /\ ((length ids < left)%nat -> Q' = [])
       /\ (Q <> [] -> (0 < left)%nat -> ids <> []).
Proof.
  induction left as [|k IH]; intros vis D Q B C M.
  { cbn [bfs]. exists []. split; [reflexivity|]. split; [cbn; lia|]. exists vis, D, Q. rewrite app_nil_r. split; [reflexivity|]. split; [exact B|]. split; [exact C|]. split; [cbn; lia|intros _; lia]. }
  destruct Q as [|(u, d) Q].
  { cbn [bfs map]. exists []. split; [reflexivity|]. split; [cbn; lia|]. exists vis, D, []. rewrite app_nil_r. split; [reflexivity|]. split; [exact B|]. split; [exact C|]. split; [reflexivity|congruence]. }
  cbn [bfs map fst].
  assert (HU : u < n) by (apply (bi_range _ _ _ B (u, d)); apply in_or_app; right; now left).
  rewrite (aget_nth _ _ []) by exact HU. cbn [bind]. set (row := nth (N.to_nat u) graph []).
  assert (ER : nth_error graph (N.to_nat u) = Some row) by (apply nth_error_nth'; unfold n in HU; lia).
  destruct (push_spec D u d row Q vis []) as (vis1 & Q1 & EP & B1 & C1 & M1 & H1); try assumption.
  { intros y Hy Ly. exists row. now repeat split. } { now apply (M u d Q). } { intros y []. }
  rewrite EP. cbn [bind].
  assert (EQ : D ++ (u, d) :: Q1 = (D ++ [(u, d)]) ++ Q1) by (rewrite <- app_assoc; reflexivity).
  destruct (IH vis1 (D ++ [(u, d)]) Q1) as (ids & EB & LI & vis2 & D2 & Q2 & ED & B2 & C2 & H2 & _).
  - destruct B1 as [a b c e f g h]. constructor; rewrite <- ?EQ; assumption.
  - intros p y Hp He. rewrite <- EQ. apply in_app_or in Hp as [Hp|[<- |[]]]; [now apply (C1 p)|]. cbn [fst] in He.
    destruct He as (r & Er & Iy & Ly). apply H1; [|exact Ly]. cbn [app]. rewrite ER in Er. injection Er as ->. exact Iy.
  - intros w e rest E. rewrite <- EQ. intros p Hp. specialize (M1 p Hp).
    assert (d <= e)%nat; [|lia]. pose proof (bi_sorted _ _ _ B1) as S. rewrite EQ in S.
    apply (ss_app _ _ _ S (u, d) (w, e)); [apply in_or_app; right; now left|rewrite E; now left].
  - rewrite EB. cbn [bind]. exists (u :: ids). split; [reflexivity|]. split; [cbn; lia|]. exists vis2, D2, Q2.
    rewrite ED, map_app, <- app_assoc. split; [reflexivity|]. split; [exact B2|]. split; [exact C2|]. split; [intros L; apply H2; cbn in L; lia|discriminate].
Qed.

Lemma bfs_closest count vis : medoid < n -> (0 < count)%nat -> vis = upd (repeat false (length graph)) (N.to_nat medoid) true ->
  exists ids, bfs count graph n vis [medoid] = Ok ids /\ closest_nodes graph medoid count ids /\ ids <> [] /\ Forall (fun x => x < n) ids.
Proof.
  intros HM HC ->. assert (LM : (N.to_nat medoid < length graph)%nat) by (unfold n in HM; lia).
  destruct (bfs_spec count (upd (repeat false (length graph)) (N.to_nat medoid) true) [] [(medoid, O)]) as (ids & E & L & vis' & D & Q & ED & B & C & HQ & NE).
  - constructor; cbn [app map fst].
    + repeat constructor. intros [].
    + rewrite upd_length. apply repeat_length.
    + intros x Hx. rewrite nth_upd by (rewrite repeat_length; exact LM).
      destruct (Nat.eqb_spec (N.to_nat medoid) (N.to_nat x)) as [EE|NE].
      * apply N2Nat.inj in EE. subst x. split; intros _; [now left|reflexivity].
      * rewrite nth_repeat. split; [discriminate|]. intros [->|[]]. congruence.
    + intros p [<- |[]]. exact HM.
    + intros p [<- |[]]. cbn. split; [constructor|lia].
    + constructor; constructor.
    + now exists [].
  - intros p y [].
  - intros u d rest [= <- <- <-] p [<- |[]]. cbn. lia.
  - cbn [map fst] in E. exists ids. split; [exact E|]. cbn [map app] in ED.
    assert (NI : ids <> []) by (apply NE; [discriminate|exact HC]).
    assert (InD : forall x, In x ids -> exists k, In (x, k) D /\ distance_is graph medoid x k).
    { intros x Hx. rewrite <- ED in Hx. apply in_map_iff in Hx as ((x', k) & <- & Hp). exists k. split; [exact Hp|].
      apply (bi_dist _ _ _ B (x', k)), in_or_app. now left. }
    split; [|split; [exact NI|]].
    2: { apply Forall_forall. intros x Hx. destruct (InD x Hx) as (k & Hk & _). apply (bi_range _ _ _ B (x, k)), in_or_app. now left. }
    constructor.
    + rewrite <- ED. pose proof (bi_nodup _ _ _ B) as ND. rewrite map_app in ND. now apply nodup_app_l in ND.
    + exact L.
    + intros x rest Ex. destruct (bi_first _ _ _ B) as [r Er]. destruct D as [|p D]; [cbn in ED; congruence|].
      cbn in Er, ED. injection Er as -> _. rewrite Ex in ED. now injection ED as <- _.
    + intros x Hx. destruct (InD x Hx) as (k & _ & Hk). exists k. apply Hk.
    + intros i j x y a b Lij Hi Hj Da Db. rewrite <- ED in Hi, Hj. rewrite nth_error_map in Hi, Hj.
      destruct (nth_error D i) as [p|] eqn:Ei; [|discriminate]. destruct (nth_error D j) as [q|] eqn:Ej; [|discriminate].
      cbn in Hi, Hj. injection Hi as <-. injection Hj as <-.
      assert (a = snd p) as -> by (apply (dist_fun (fst p)); [exact Da|apply (bi_dist _ _ _ B), in_or_app; left; now apply nth_error_In in Ei]).
      assert (b = snd q) as -> by (apply (dist_fun (fst q)); [exact Db|apply (bi_dist _ _ _ B), in_or_app; left; now apply nth_error_In in Ej]).
      destruct (Nat.eq_dec i j) as [->|NEij]; [rewrite Ei in Ej; now injection Ej as <-|].
      pose proof (bi_sorted _ _ _ B) as SS. destruct (nth_error_split _ _ Ei) as (l1 & l2 & -> & Ll).
      rewrite nth_error_app2 in Ej by lia. replace (j - length l1)%nat with (S (j - length l1 - 1)) in Ej by lia. cbn in Ej.
      apply nth_error_In in Ej. rewrite <- app_assoc in SS. cbn [app] in SS.
      replace (l1 ++ p :: l2 ++ Q) with ((l1 ++ [p]) ++ (l2 ++ Q)) in SS by (rewrite <- app_assoc; reflexivity).
      apply (ss_app _ _ _ SS); apply in_or_app; [right; now left|now left].
    + intros x y a b Hx Hy Da Db. destruct (InD x Hx) as (k & Hk & Dk). assert (k = a) as -> by (now apply (dist_fun x)).
      destruct (Nat.le_gt_cases a b) as [|Lt]; [assumption|]. exfalso. pose proof (bi_sorted _ _ _ B) as S.
      assert (I : In y (map fst (D ++ Q))).
      { apply (found_within vis' D Q (D ++ Q) a B C (fun p H => H)) with (j := b); [|apply Db|lia|apply (bi_dist _ _ _ B)].
        intros p Hp Lp. apply in_app_or in Hp as [Hp|Hp]; [exact Hp|]. pose proof (ss_app _ _ _ S (x, a) p Hk Hp) as LE. unfold before in LE. cbn in LE. lia. }
      apply in_map_iff in I as (p & <- & Hp). apply in_app_or in Hp as [Hp|Hp].
      * apply Hy. rewrite <- ED. now apply in_map.
      * pose proof (ss_app _ _ _ S (x, a) p Hk Hp) as LE. unfold before in LE. cbn in LE.
        assert (b = snd p) by (apply (dist_fun (fst p)); [exact Db|apply (bi_dist _ _ _ B), in_or_app; now right]). lia.
    + intros Lt k y Hk. specialize (HQ Lt). subst Q. rewrite <- ED. rewrite <- (app_nil_r D).
      apply (found_within vis' D [] (D ++ []) k B C (fun p H => H)) with (j := k); [|exact Hk|lia|apply (bi_dist _ _ _ B)].
      intros p Hp _. now rewrite app_nil_r in Hp.
Qed.
End Bfs.

(** ** Maps *)
Lemma nget_nput {A} (m : list (N * A)) k v x : nget (nput m k v) x = if N.eqb x k then Some v else nget m x.
Proof.
  induction m as [|(k', v') m IH]; cbn [nput nget].
  - reflexivity.
  - destruct (N.eqb_spec k k') as [->|NE]; cbn [nget].
    + destruct (N.eqb_spec x k'); reflexivity.
    + destruct (N.eqb_spec x k') as [->|NE2]; [|exact IH]. destruct (N.eqb_spec k' k); [congruence|reflexivity].
Qed.
Lemma nget_in {A} (m : list (N * A)) k v : nget m k = Some v -> In (k, v) m.
Proof.
  induction m as [|(k', v') m IH]; cbn [nget]; [discriminate|]. destruct (N.eqb_spec k k') as [->|NE].
  - intros [= ->]. now left.
  - intros H. right. now apply IH.
Qed.
Lemma nget_none {A} (m : list (N * A)) k : nget m k = None <-> ~ In k (map fst m).
Proof.
  induction m as [|(k', v') m IH]; cbn [nget map fst In]; [tauto|]. destruct (N.eqb_spec k k') as [->|NE].
  - split; [discriminate|]. intros H. exfalso. apply H. now left.
  - rewrite IH. split; intros H; [intros [E|I]; [congruence|now apply H]|tauto].
Qed.
Lemma nget_map {A B} (f : A -> B) m k : nget (map (fun p => (fst p, f (snd p))) m) k = option_map f (nget m k).
Proof. induction m as [|(k', v') m IH]; cbn [nget map fst snd]; [reflexivity|]. destruct (N.eqb k k'); [reflexivity|exact IH]. Qed.
Lemma nput_map {A B} (f : A -> B) m k v :
  nput (map (fun p => (fst p, f (snd p))) m) k (f v) = map (fun p => (fst p, f (snd p))) (nput m k v).
Proof. induction m as [|(k', v') m IH]; cbn [nput map fst snd]; [reflexivity|]. destruct (N.eqb k k'); cbn [map fst snd]; [reflexivity|now rewrite IH]. Qed.
Lemma nput_keys {A} (m : list (N * A)) k v x : In x (map fst (nput m k v)) <-> x = k \/ In x (map fst m).
Proof.
  induction m as [|(k', v') m IH]; cbn [nput map fst In]; [intuition congruence|]. destruct (N.eqb_spec k k') as [->|NE]; cbn [map fst In].
  - intuition congruence.
  - rewrite IH. intuition congruence.
Qed.
Lemma nput_nodup {A} (m : list (N * A)) k v : NoDup (map fst m) -> NoDup (map fst (nput m k v)).
Proof.
  induction m as [|(k', v') m IH]; cbn [nput map fst]; intros H; [constructor; [intros []|constructor]|]. inversion H as [|? ? N1 N2]; subst.
  destruct (N.eqb_spec k k') as [->|NE]; cbn [map fst]; [now constructor|]. constructor; [|now apply IH].
  rewrite nput_keys. intros [->|I]; [congruence|now apply N1].
Qed.
Lemma nput_all {A} (P : N * A -> Prop) m k v : Forall P m -> P (k, v) -> Forall P (nput m k v).
Proof.
  induction m as [|(k', v') m IH]; cbn [nput]; intros H Hk; [now repeat constructor|]. apply Forall_cons_iff in H as [H1 H2].
  destruct (N.eqb k k'); constructor; try assumption. now apply IH.
Qed.
Lemma nget_filter {A} (p : N -> bool) (m : list (N * A)) k : nget (List.filter (fun e => p (fst e)) m) k = if p k then nget m k else None.
Proof.
  induction m as [|(k', v') m IH]; cbn [List.filter nget fst]; [now destruct (p k)|]. destruct (p k') eqn:E; cbn [nget]; destruct (N.eqb_spec k k') as [->|NE].
  - now rewrite E.
  - exact IH.
  - rewrite IH, E. reflexivity.
  - exact IH.
Qed.
Lemma keys_filter {A} (p : N -> bool) (m : list (N * A)) : map fst (List.filter (fun e => p (fst e)) m) = List.filter p (map fst m).
Proof. induction m as [|(k', v') m IH]; cbn [List.filter map fst]; [reflexivity|]. destruct (p k'); cbn [map fst]; now rewrite IH. Qed.
Lemma nget_combine {A} (ids : list N) : forall (es : list A) x e, NoDup ids -> length es = length ids ->
  (nget (combine ids es) x = Some e <-> exists i, nth_error ids i = Some x /\ nth_error es i = Some e).
Proof.
  induction ids as [|a ids IH]; intros [|b es] x e ND L; cbn in L; try lia; cbn [combine nget].
  - split; [discriminate|]. intros ([|i] & H & _); discriminate.
  - inversion ND as [|? ? N1 N2]; subst. destruct (N.eqb_spec x a) as [->|NE].
    + split; [intros [= ->]; exists O; now split|]. intros ([|i] & H1 & H2); [cbn in *; congruence|]. cbn in H1. apply nth_error_In in H1. contradiction.
    + rewrite (IH es x e N2 ltac:(lia)). split.
      * intros (i & H1 & H2). exists (S i). now split.
      * intros ([|i] & H1 & H2); [cbn in H1; congruence|]. exists i. now split.
Qed.
Lemma combine_none {A} (ids : list N) (es : list A) x : length es = length ids -> (nget (combine ids es) x = None <-> ~ In x ids).
Proof.
  intros L. rewrite nget_none. assert (E : map fst (combine ids es) = ids) by (revert es L; induction ids as [|a ids IH]; intros [|b es] L; cbn in *; try lia; [reflexivity|f_equal; apply IH; lia]).
  now rewrite E.
Qed.

Lemma place_perm a l : Permutation (place_id a l) (a :: l).
Proof. induction l as [|b l IH]; cbn [place_id]; [reflexivity|]. destruct (N.leb a b); [reflexivity|]. rewrite IH. apply perm_swap. Qed.
Lemma sort_perm l : Permutation (sort_ids l) l.
Proof. induction l as [|a l IH]; cbn [sort_ids fold_right]; [reflexivity|]. fold (sort_ids l). now rewrite place_perm, IH. Qed.
Lemma below_length l limit : NoDup l -> Forall (fun x => x < limit) l -> N.of_nat (length l) <= limit.
Proof.
  intros ND B. assert (L : (length l <= length (map N.of_nat (seq 0 (N.to_nat limit))))%nat).
  { apply NoDup_incl_length; [exact ND|]. intros x Hx. rewrite Forall_forall in B. specialize (B x Hx). apply in_map_iff. exists (N.to_nat x).
    split; [lia|]. apply in_seq. lia. }
  rewrite map_length, seq_length in L. lia.
Qed.

(** ** Records *)
Lemma write_mid pre (len : nat) post b : (length b <= len)%nat ->
  write_at (pre ++ repeat 0 len ++ post) (N.of_nat (length pre)) b = Ok (pre ++ (b ++ repeat 0 (len - length b)) ++ post).
Proof.
  intros H. unfold write_at. rewrite !app_length, repeat_length.
  destruct (N.leb_spec (N.of_nat (length pre) + N.of_nat (length b)) (N.of_nat (length pre + (len + length post)))); [|lia].
  f_equal. rewrite Nnat.Nat2N.id, firstn_app, firstn_all, Nat.sub_diag. cbn [firstn]. rewrite app_nil_r. f_equal.
  rewrite <- app_assoc. f_equal. rewrite skipn_app, skipn_all2 by lia. cbn [app]. replace (length pre + length b - length pre)%nat with (length b) by lia.
  replace len with (length b + (len - length b))%nat at 1 by lia. rewrite repeat_app, <- app_assoc, skipn_app, repeat_length, Nat.sub_diag.
  now rewrite skipn_all2 by (rewrite repeat_length; lia).
Qed.

Section Contents.
Context (dim degree limit : N) (g : geometry).
Context (F : layout_fits dim degree limit) (L32 : limit <= 2 ^ 32) (G : geo dim degree g) (EG : compute dim degree = Ok g).
Definition entry : Type := (list N * list N)%type.
Definition rec (e : entry) : bytes := record_bytes degree (fst e) (snd e).
Definition good (e : entry) : Prop :=
  N.of_nat (length (fst e)) = dim /\ Forall (fun x => x < 2 ^ 32) (fst e) /\ N.of_nat (length (snd e)) <= degree /\ Forall (fun x => x < 2 ^ 32) (snd e).
Notation len := (g_len g).

Lemma rec_len e : good e -> N.of_nat (length (rec e)) = len.
Proof.
  intros (H1 & _ & H2 & _). unfold rec, record_bytes. rewrite !app_length, repeat_length, le_enc_length.
  fold (u32s (fst e)). fold (u32s (snd e)). rewrite !u32s_length, (geo_len _ _ _ G). lia.
Qed.
Lemma pack_mid pre post e : good e ->
  pack_node_record (pre ++ repeat 0 (N.to_nat len) ++ post) (N.of_nat (length pre)) (fst e) (snd e) (N.of_nat (length (snd e))) dim
  = Ok (pre ++ rec e ++ post).
Proof.
  intros He. pose proof (rec_len e He) as RL. destruct He as (H1 & _ & H2 & _). destruct F as (_ & DB & _). rewrite pack_as_write by (try exact H1; lia).
  pose proof (geo_len _ _ _ G) as GL. rewrite write_mid by (rewrite !app_length, !u32s_length, le_enc_length; lia).
  f_equal. f_equal. f_equal. unfold rec, record_bytes. rewrite <- !app_assoc. do 3 f_equal. f_equal.
  rewrite !app_length, !u32s_length, le_enc_length. lia.
Qed.
Lemma read_concat es : Forall good es -> forall i e, nth_error es i = Some e -> read_at (flat_map rec es) (N.of_nat i * len) len = Ok (rec e).
Proof.
  induction 1 as [|a es Ha Hes IH]; intros [|i] e E; cbn in E; try discriminate.
  - injection E as ->. cbn [flat_map]. rewrite read_app_l by (rewrite rec_len by exact Ha; lia).
    rewrite read_ok by (rewrite rec_len by exact Ha; lia). f_equal. rewrite N.mul_0_l. cbn [N.to_nat skipn]. apply firstn_all2. pose proof (rec_len e Ha). lia.
  - cbn [flat_map]. rewrite read_app_r by (rewrite rec_len by exact Ha; lia). rewrite rec_len by exact Ha.
    replace (N.of_nat (S i) * len - len) with (N.of_nat i * len) by lia. now apply IH.
Qed.
Lemma concat_len es : Forall good es -> N.of_nat (length (flat_map rec es)) = N.of_nat (length es) * len.
Proof. induction 1 as [|a es Ha Hes IH]; [reflexivity|]. cbn [flat_map length]. rewrite app_length. pose proof (rec_len a Ha). lia. Qed.

(** The cache holds [base] for its ids and [ov] as overrides. *)
Record crep (c : node_cache) (base : list entry) (ov : list (N * entry)) : Prop := {
  cr_dim : nc_dim c = dim;
  cr_degree : nc_degree c = degree;
  cr_len : nc_len c = len;
  cr_base : length base = length (nc_ids c);
  cr_good : Forall good base;
  cr_ids : NoDup (nc_ids c);
  cr_below : Forall (fun x => x < limit) (nc_ids c);
  cr_data : nc_data c = flat_map rec base;
  cr_map : forall x off, nget (nc_map c) x = Some off <-> exists i, nth_error (nc_ids c) i = Some x /\ off = N.of_nat i * len;
  cr_over : nc_over c = map (fun p => (fst p, rec (snd p))) ov;
  cr_ov : NoDup (map fst ov);
  cr_ovgood : Forall (fun p => fst p < limit /\ good (snd p)) ov;
}.
Definition content (c : node_cache) (base : list entry) (ov : list (N * entry)) (x : N) : option entry :=
  match nget ov x with Some e => Some e | None => nget (combine (nc_ids c) base) x end.

Section Rep.
Context (c : node_cache) (base : list entry) (ov : list (N * entry)) (C : crep c base ov).

Lemma map_none x : nget (nc_map c) x = None <-> ~ In x (nc_ids c).
Proof.
  split.
  - intros E I. apply In_nth_error in I as [i I]. assert (H : nget (nc_map c) x = Some (N.of_nat i * len)) by (apply (cr_map _ _ _ C); now exists i). congruence.
  - intros NI. destruct (nget (nc_map c) x) as [off|] eqn:E; [|reflexivity]. exfalso. apply NI. apply (cr_map _ _ _ C) in E as (i & E & _).
    now apply nth_error_In in E.
Qed.
Lemma lookup_rep x : lookup_record c x = Ok (option_map rec (content c base ov x)).
Proof.
  unfold lookup_record, content. rewrite (cr_over _ _ _ C), nget_map. destruct (nget ov x) as [e|] eqn:EO; cbn [option_map]; [reflexivity|].
  unfold base_record. destruct (nget (combine (nc_ids c) base) x) as [e|] eqn:EB.
  - apply nget_combine in EB as (i & H1 & H2); [|apply (cr_ids _ _ _ C)|apply (cr_base _ _ _ C)].
    rewrite (proj2 (cr_map _ _ _ C x (N.of_nat i * len)) (ex_intro _ i (conj H1 eq_refl))).
    rewrite (cr_data _ _ _ C), (cr_len _ _ _ C), (read_concat _ (cr_good _ _ _ C) _ _ H2). reflexivity.
  - apply combine_none in EB; [|apply (cr_base _ _ _ C)]. now rewrite (proj2 (map_none x) EB).
Qed.
Lemma content_good x e : content c base ov x = Some e -> good e /\ x < limit.
Proof.
  unfold content. destruct (nget ov x) as [e'|] eqn:EO.
  - intros [= ->]. apply nget_in in EO. pose proof (cr_ovgood _ _ _ C) as H. rewrite Forall_forall in H. specialize (H _ EO). cbn in H. tauto.
  - intros EB. apply nget_combine in EB as (i & H1 & H2); [|apply (cr_ids _ _ _ C)|apply (cr_base _ _ _ C)].
    pose proof (cr_good _ _ _ C) as H. pose proof (cr_below _ _ _ C) as B. rewrite Forall_forall in H, B. apply nth_error_In in H1, H2. auto.
Qed.

Lemma extra_eq : extra_ids c = List.filter (fun x => match nget (nc_map c) x with None => true | Some _ => false end) (map fst ov).
Proof. unfold extra_ids. rewrite (cr_over _ _ _ C), map_map. cbn [fst]. reflexivity. Qed.
Lemma extra_in x : In x (extra_ids c) <-> In x (map fst ov) /\ ~ In x (nc_ids c).
Proof.
  rewrite extra_eq, filter_In. rewrite <- map_none. destruct (nget (nc_map c) x); split; intros [H1 H2]; split; auto; discriminate.
Qed.
Lemma all_nodup : NoDup (nc_ids c ++ extra_ids c).
Proof.
  assert (H : forall l1 l2 : list N, NoDup l1 -> NoDup l2 -> (forall x, In x l2 -> ~ In x l1) -> NoDup (l1 ++ l2)).
  { clear. induction l1 as [|a l1 IH]; intros l2 N1 N2 D; [exact N2|]. inversion N1 as [|? ? A1 A2]; subst. cbn [app]. constructor.
    - intros I. apply in_app_or in I as [I|I]; [contradiction|]. apply (D a I). now left.
    - apply IH; try assumption. intros x Hx I. apply (D x Hx). now right. }
  apply H; [apply (cr_ids _ _ _ C)|rewrite extra_eq; apply NoDup_filter, (cr_ov _ _ _ C)|]. intros x Hx. apply extra_in in Hx. tauto.
Qed.
Lemma all_in x : In x (nc_ids c ++ extra_ids c) <-> content c base ov x <> None.
Proof.
  rewrite in_app_iff, extra_in. unfold content. destruct (nget ov x) as [e|] eqn:EO.
  - split; [discriminate|]. intros _. destruct (in_dec N.eq_dec x (nc_ids c)); [now left|right]. split; [|assumption].
    apply nget_in in EO. change x with (fst (x, e)). now apply in_map.
  - apply nget_none in EO. pose proof (combine_none (nc_ids c) base x (cr_base _ _ _ C)) as CN. split.
    + intros [I|[I _]] E; [|contradiction]. now apply CN in E.
    + intros NE. left. destruct (in_dec N.eq_dec x (nc_ids c)) as [|NI]; [assumption|]. apply CN in NI. contradiction.
Qed.

Lemma upsert_rep id e : id < limit -> good e ->
  exists c', upsert_node c id (fst e) (snd e) = Ok c' /\ crep c' base (nput ov id e)
    /\ nc_ids c' = nc_ids c /\ forall x, content c' base (nput ov id e) x = set_node (content c base ov) id e x.
Proof.
  intros Hid He. pose proof He as (H1 & _ & H2 & _). unfold upsert_node, bad_neighbors. rewrite (cr_dim _ _ _ C), (cr_len _ _ _ C), (cr_degree _ _ _ C).
  destruct F as (D0 & _ & _). pose proof (geo_len _ _ _ G) as GL.
  destruct (N.eqb_spec dim 0); [lia|]. destruct (N.eqb_spec len 0); [lia|]. destruct (N.ltb_spec degree (N.of_nat (length (snd e)))); [lia|]. cbn [orb].
  unfold floats_at. destruct (N.leb_spec (0 + dim) (N.of_nat (length (fst e)))); [|lia]. cbn [bind N.to_nat skipn].
  rewrite firstn_all2 by lia. pose proof (pack_mid [] [] e He) as P. cbn [app length] in P. rewrite !app_nil_r in P. change (N.of_nat 0) with 0 in P.
  rewrite P. cbn [bind]. eexists. split; [reflexivity|]. split; [|split; [reflexivity|]].
  - constructor; unfold with_over; cbn; try apply C.
    + rewrite (cr_over _ _ _ C). apply nput_map.
    + apply nput_nodup, (cr_ov _ _ _ C).
    + apply nput_all; [apply (cr_ovgood _ _ _ C)|]. now split.
  - intros x. unfold content, set_node. rewrite nget_nput. cbn [nc_ids with_over]. now destruct (N.eqb x id).
Qed.
Lemma update_rep id nbrs : N.of_nat (length nbrs) <= degree -> Forall (fun x => x < 2 ^ 32) nbrs ->
  match content c base ov id with
  | None => update_neighbors c id nbrs = Ok c
  | Some e => update_neighbors c id nbrs = upsert_node c id (fst e) nbrs
  end.
Proof.
  intros H1 H2. unfold update_neighbors. destruct F as (D0 & _ & _). pose proof (geo_len _ _ _ G) as GL.
  assert (BN : bad_neighbors c nbrs = false).
  { unfold bad_neighbors. rewrite (cr_dim _ _ _ C), (cr_len _ _ _ C), (cr_degree _ _ _ C).
    destruct (N.eqb_spec dim 0); [lia|]. destruct (N.eqb_spec len 0); [lia|]. destruct (N.ltb_spec degree (N.of_nat (length nbrs))); [lia|]. reflexivity. }
  rewrite BN, lookup_rep. cbn [bind]. destruct (content c base ov id) as [e|] eqn:E; cbn [option_map]; [|reflexivity].
  apply content_good in E as [(L1 & V1 & _) _]. rewrite (cr_dim _ _ _ C).
  unfold rec at 1, record_bytes. fold (u32s (fst e)). rewrite read_app_l by (rewrite u32s_length; lia).
  rewrite read_ok by (rewrite u32s_length; lia). cbn [bind N.to_nat skipn]. rewrite firstn_all2 by (rewrite u32s_length; lia).
  replace (N.to_nat dim) with (length (fst e)) by lia. rewrite <- (app_nil_r (u32s (fst e))), read_u32s_enc by exact V1. reflexivity.
Qed.
Lemma drop_rep : exists ov', crep (drop_disk_backed c) base ov'
  /\ forall x, content (drop_disk_backed c) base ov' x = if existsb (N.eqb x) (nc_ids c) then content c base ov x else None.
Proof.
  set (p := fun x => match nget (nc_map c) x with None => false | Some _ => true end).
  assert (PI : forall x, p x = existsb (N.eqb x) (nc_ids c)).
  { intros x. unfold p. destruct (nget (nc_map c) x) eqn:E.
    - symmetry. apply existsb_exists. exists x. split; [|apply N.eqb_refl]. apply (cr_map _ _ _ C) in E as (i & E & _). now apply nth_error_In in E.
    - apply map_none in E. symmetry. destruct (existsb (N.eqb x) (nc_ids c)) eqn:X; [|reflexivity]. apply existsb_exists in X as (y & Hy & Ey).
      apply N.eqb_eq in Ey. subst y. contradiction. }
  exists (List.filter (fun e => p (fst e)) ov). split.
  - constructor; unfold drop_disk_backed, with_over; cbn; try apply C.
    + rewrite (cr_over _ _ _ C). fold p. generalize ov. clear. induction ov as [|a l IH]; [reflexivity|]. cbn [map List.filter fst].
      fold (p (fst a)). destruct (p (fst a)); cbn [map]; now rewrite IH.
    + rewrite keys_filter. apply NoDup_filter, (cr_ov _ _ _ C).
    + apply Forall_forall. intros q Hq. apply filter_In in Hq as [Hq _]. pose proof (cr_ovgood _ _ _ C) as H. rewrite Forall_forall in H. now apply H.
  - intros x. unfold content. rewrite nget_filter, PI. cbn [nc_ids drop_disk_backed with_over].
    destruct (existsb (N.eqb x) (nc_ids c)) eqn:X; [reflexivity|]. apply combine_none; [apply (cr_base _ _ _ C)|]. intros I.
    assert (existsb (N.eqb x) (nc_ids c) = true) by (apply existsb_exists; exists x; split; [exact I|apply N.eqb_refl]). congruence.
Qed.

Lemma save_rec ids : forall es, Forall2 (fun x e => content c base ov x = Some e) ids es -> save_records c ids = Ok (flat_map rec es).
Proof.
  intros es H. induction H as [|x e ids es Hx Hes IH]; [reflexivity|]. cbn [save_records]. rewrite lookup_rep, Hx. cbn [bind option_map].
  pose proof (rec_len e (proj1 (content_good _ _ Hx))) as RL. rewrite (cr_len _ _ _ C). rewrite read_ok by lia. cbn [bind N.to_nat skipn].
  rewrite IH. cbn [bind flat_map]. now rewrite firstn_all2 by lia.
Qed.
End Rep.

Lemma index_spec ids : forall i m, NoDup ids -> (i + N.of_nat (length ids)) * len < 2 ^ 64 -> forall x off,
  nget (index_ids len ids i m) x = Some off <-> (exists j, nth_error ids j = Some x /\ off = (i + N.of_nat j) * len) \/ (~ In x ids /\ nget m x = Some off).
Proof.
  induction ids as [|a ids IH]; intros i m ND B x off; cbn [index_ids].
  - split; [intros H; right; split; [intros []|exact H]|]. intros [([|j] & H & _)|[_ H]]; try discriminate. exact H.
  - inversion ND as [|? ? N1 N2]; subst. cbn [length] in B. rewrite (IH (i + 1) _ N2) by (replace (i + 1 + N.of_nat (length ids)) with (i + N.of_nat (S (length ids))) by lia; exact B).
    rewrite nget_nput. unfold w64. rewrite N.mod_small by nia. split.
    + intros [(j & H1 & H2)|[NI H]].
      * left. exists (S j). split; [exact H1|]. rewrite H2. f_equal. lia.
      * destruct (N.eqb_spec x a) as [->|NE].
        -- left. exists O. split; [reflexivity|]. injection H as <-. f_equal. lia.
        -- right. split; [|exact H]. intros [E|I]; [congruence|contradiction].
    + intros [([|j] & H1 & H2)|[NI H]].
      * cbn in H1. injection H1 as ->. right. split; [exact N1|]. rewrite N.eqb_refl. rewrite H2. do 2 f_equal. lia.
      * left. exists j. split; [exact H1|]. rewrite H2. f_equal. lia.
      * right. destruct (N.eqb_spec x a) as [->|NE]; [exfalso; apply NI; now left|]. split; [|exact H]. intros I. apply NI. now right.
Qed.
Lemma fits_count k : k <= limit -> k * len < 2 ^ 64.
Proof. intros H. destruct F as (_ & _ & B). unfold kSectorLen in B. rewrite (geo_len _ _ _ G). nia. Qed.

Lemma reload_rep c base ov : crep c base ov ->
  exists c' base', cache_step dim degree c Reload = Ok c' /\ crep c' base' []
    /\ (forall x, content c' base' [] x = content c base ov x) /\ (forall x, In x (nc_ids c') <-> content c base ov x <> None).
Proof.
  intros C. set (ids := nc_ids c ++ sort_ids (extra_ids c)).
  assert (PM : Permutation ids (nc_ids c ++ extra_ids c)) by (apply Permutation_app_head, sort_perm).
  assert (ND : NoDup ids) by (apply (Permutation_NoDup (Permutation_sym PM)), (all_nodup c base ov C)).
  assert (IN : forall x, In x ids <-> content c base ov x <> None).
  { intros x. rewrite <- (all_in c base ov C). split; apply Permutation_in; [exact PM|exact (Permutation_sym PM)]. }
  assert (BL : Forall (fun x => x < limit) ids).
  { apply Forall_forall. intros x Hx. apply IN in Hx. destruct (content c base ov x) as [e|] eqn:E; [|congruence]. apply (content_good c base ov C _ _ E). }
  pose proof (below_length ids limit ND BL) as LL. pose proof (fits_count _ LL) as FC.
  assert (ES : exists es, Forall2 (fun x e => content c base ov x = Some e) ids es).
  { assert (IN' : forall x, In x ids -> content c base ov x <> None) by (intros x; apply IN). clear - IN'. induction ids as [|x l IH]; [now exists []|].
    destruct IH as [es H]; [intros y Hy; apply IN'; now right|]. destruct (content c base ov x) as [e|] eqn:E; [|exfalso; apply (IN' x); [now left|exact E]].
    exists (e :: es). now constructor. }
  destruct ES as [es ES]. assert (LE : length ids = length es) by (clear - ES; induction ES; cbn; congruence).
  assert (GE : Forall good es) by (clear - ES C; induction ES as [|x e l es H ES IH]; constructor; [apply (content_good c base ov C x e H)|exact IH]).
  pose proof (geo_len _ _ _ G) as GL. destruct F as (D0 & DB & FB). unfold kSectorLen in FB.
  cbn [cache_step]. unfold nc_save. fold ids. rewrite (save_rec c base ov C ids es ES). cbn [bind]. unfold nc_load.
  rewrite read_u64_enc by lia. cbn [bind]. rewrite u32s_length.
  destruct (N.ltb_spec (N.of_nat (4 * length ids)) (N.of_nat (length ids) * 4)); [lia|].
  rewrite Nnat.Nat2N.id. rewrite <- (app_nil_r (u32s ids)), read_u32s_enc by (eapply Forall_impl; [|exact BL]; cbn; intros a Ha; unfold small32; lia).
  cbn [bind]. rewrite read_u64_enc by lia. cbn [bind]. rewrite (cr_len _ _ _ C).
  assert (LB : len < 2 ^ 64).
  { destruct ids as [|x0 l0] eqn:Ei; [|pose proof FC as FC'; cbn [length] in FC'; nia].
    unfold compute in EG. destruct (N.eqb dim 0); [discriminate|]. destruct (N.eqb _ 0); [discriminate|]. injection EG as <-. cbn [g_len]. apply N.mod_lt. lia. }
  rewrite read_u64_enc by exact LB. cbn [bind]. rewrite N.eqb_refl. cbn [negb]. unfold w64 at 1 2. rewrite N.mod_small by exact FC.
  pose proof (concat_len es GE) as CL. rewrite <- LE in CL. destruct (N.ltb_spec (N.of_nat (length (flat_map rec es))) (N.of_nat (length ids) * len)); [lia|].
  cbn [bind]. unfold configure_geometry. rewrite EG. cbn [bind nc_len]. rewrite N.eqb_refl. cbn [negb]. rewrite andb_false_r.
  eexists. exists es. split; [reflexivity|]. split; [|split].
  - constructor; cbn; try assumption; try reflexivity; try (now rewrite <- LE); try constructor.
    + rewrite firstn_all2 by lia. reflexivity.
    + intros H1. apply (index_spec ids 0 [] ND) in H1; [|rewrite N.add_0_l; exact FC]. destruct H1 as [(j & E1 & E2)|[_ E]]; [|discriminate].
      exists j. split; [exact E1|]. rewrite E2, N.add_0_l. reflexivity.
    + intros (j & E1 & E2). apply (index_spec ids 0 [] ND); [rewrite N.add_0_l; exact FC|]. left. exists j. split; [exact E1|]. now rewrite E2, N.add_0_l.
  - intros x. unfold content at 1. cbn [nget nc_ids]. destruct (nget (combine ids es) x) as [e|] eqn:E.
    + apply nget_combine in E as (i & E1 & E2); [|exact ND|now rewrite LE]. symmetry. clear - ES E1 E2. revert i E1 E2.
      induction ES as [|y a l es H ES IH]; intros [|i] E1 E2; cbn in *; try discriminate; [congruence|]. now apply (IH i).
    + apply combine_none in E; [|now rewrite LE]. destruct (content c base ov x) as [e|] eqn:E2; [|reflexivity]. exfalso. apply E, IN. congruence.
  - intros x. cbn [nc_ids]. apply IN.
Qed.

Definition cinv (c : node_cache) (s : contents) : Prop := exists base ov, crep c base ov
  /\ (forall x, ct_node s x = content c base ov x) /\ (forall x, ct_pinned s x = existsb (N.eqb x) (nc_ids c)).

Lemma existsb_in x l : existsb (N.eqb x) l = true <-> In x l.
Proof.
  rewrite existsb_exists. split; [intros (y & H & E); apply N.eqb_eq in E; now subst|]. intros H. exists x. split; [exact H|apply N.eqb_refl].
Qed.
Lemma step_rep c s o : op_ok dim degree limit o -> cinv c s -> exists c', cache_step dim degree c o = Ok c' /\ cinv c' (spec_op s o).
Proof.
  intros HO (base & ov & C & HC & HP). destruct o as [id coords nbrs|id nbrs| |]; cbn [op_ok] in HO.
  - destruct HO as (H1 & H2 & H3 & H4 & H5). destruct (upsert_rep c base ov C id (coords, nbrs) H1) as (c' & E & C' & EI & HC'); [now repeat split|].
    exists c'. split; [exact E|]. exists base, (nput ov id (coords, nbrs)). split; [exact C'|]. cbn [spec_op ct_node ct_pinned]. rewrite EI. split; [|exact HP].
    intros x. rewrite HC'. unfold set_node. now rewrite HC.
  - destruct HO as (H1 & H4 & H5). pose proof (update_rep c base ov C id nbrs H4 H5) as U. cbn [cache_step spec_op]. rewrite HC.
    destruct (content c base ov id) as [e|] eqn:E.
    + destruct (content_good c base ov C _ _ E) as [(G1 & G2 & _) _].
      destruct (upsert_rep c base ov C id (fst e, nbrs) H1) as (c' & E' & C' & EI & HC'); [now repeat split|]. cbn [fst snd] in E'. rewrite U.
      exists c'. split; [exact E'|]. destruct e as [ec en]. exists base, (nput ov id (ec, nbrs)). split; [exact C'|]. cbn [ct_node ct_pinned]. rewrite EI. split; [|exact HP].
      intros x. rewrite HC'. unfold set_node. now rewrite HC.
    + exists c. split; [exact U|]. exists base, ov. exact (conj C (conj HC HP)).
  - destruct (drop_rep c base ov C) as (ov' & C' & HC'). exists (drop_disk_backed c). split; [reflexivity|]. exists base, ov'. split; [exact C'|].
    cbn [spec_op ct_node ct_pinned]. split; [|exact HP]. intros x. rewrite HC', HP. now rewrite HC.
  - destruct (reload_rep c base ov C) as (c' & base' & E & C' & HC' & HI). exists c'. split; [exact E|]. exists base', []. split; [exact C'|].
    cbn [spec_op ct_node ct_pinned]. split; [intros x; now rewrite HC', HC|]. intros x. rewrite HC. specialize (HI x).
    destruct (content c base ov x) eqn:EC.
    + symmetry. apply existsb_in, HI. discriminate.
    + symmetry. destruct (existsb (N.eqb x) (nc_ids c')) eqn:X; [|reflexivity]. apply existsb_in, HI in X. congruence.
Qed.
Lemma run_rep ops : forall c s, Forall (op_ok dim degree limit) ops -> cinv c s -> exists c', cache_run dim degree c ops = Ok c' /\ cinv c' (fold_left spec_op ops s).
Proof.
  induction ops as [|o ops IH]; intros c s HO HI; [now exists c|]. apply Forall_cons_iff in HO as [H1 H2].
  destruct (step_rep c s o H1 HI) as (c1 & E1 & I1). destruct (IH c1 _ H2 I1) as (c2 & E2 & I2). exists c2. cbn [cache_run fold_left]. rewrite E1. cbn [bind]. now split.
Qed.
Lemma cinv_shows c s : cinv c s -> shows degree c s.
Proof.
  intros (base & ov & C & HC & _). split.
  - intros x. rewrite (lookup_rep c base ov C), HC. reflexivity.
  - exists (nc_ids c ++ extra_ids c). split; [apply (all_nodup c base ov C)|]. split; [intros x; rewrite HC; apply (all_in c base ov C)|].
    unfold nc_size. rewrite app_length. lia.
Qed.

(** *** What generate packs *)
Section Generate.
Context (vs graph : list (list N)) (n : N).
Context (Hin : layout_input vs (cut degree graph) dim degree) (Hn : N.of_nat (length graph) = n) (Hlim : n <= limit).
Definition node_entry (x : N) : entry := (nth (N.to_nat x) vs [], nth (N.to_nat x) (cut degree graph) []).
Lemma entry_good x : x < n -> good (node_entry x).
Proof.
  intros H. assert (LG : length (cut degree graph) = length graph) by (unfold cut; apply map_length).
  assert (Hv : In (nth (N.to_nat x) vs []) vs) by (apply nth_In; rewrite (li_vectors _ _ _ _ Hin); lia).
  assert (Hg : In (nth (N.to_nat x) (cut degree graph) []) (cut degree graph)) by (apply nth_In; lia).
  destruct (li_row _ _ _ _ Hin _ Hv). destruct (li_nbrs _ _ _ _ Hin _ Hg). now repeat split.
Qed.
Lemma pack_all_ok ids : forall pre i m, Forall (fun x => x < n) ids -> N.of_nat (length pre) = i * len -> (i + N.of_nat (length ids)) * len < 2 ^ 64 ->
  pack_all g (concat vs) graph ids i (pre ++ repeat 0 (length ids * N.to_nat len)) m = Ok (pre ++ flat_map rec (map node_entry ids), index_ids len ids i m).
Proof.
  induction ids as [|x ids IH]; intros pre i m B LP LB; cbn [pack_all index_ids]; [reflexivity|]. apply Forall_cons_iff in B as [Bx B].
  rewrite (aget_nth _ _ []) by lia. cbn [bind].
  assert (LG : length (cut degree graph) = length graph) by (unfold cut; apply map_length).
  rewrite (floats_ok dim degree n g vs (cut degree graph)) by (try assumption; lia). cbn [bind].
  set (row := nth (N.to_nat x) graph []).
  assert (ER : firstn (Nat.min (N.to_nat (g_degree g)) (length row)) row = snd (node_entry x)).
  { cbn [snd node_entry]. unfold cut. rewrite (nth_indep _ [] (firstn (N.to_nat degree) [])) by (rewrite map_length; lia). rewrite map_nth. fold row.
    rewrite (geo_degree _ _ _ G). rewrite <- firstn_firstn. now rewrite (firstn_all2 (n := length row)) by lia. }
  rewrite ER. cbn [length Nat.mul]. rewrite repeat_app, <- LP. rewrite (geo_dim _ _ _ G).
  pose proof (pack_mid pre (repeat 0 (length ids * N.to_nat len)) (node_entry x) (entry_good x Bx)) as PM. cbn [fst node_entry] in PM. rewrite PM. cbn [bind].
  rewrite app_assoc. rewrite LP. cbn [length] in LB. unfold w64. rewrite (N.mod_small (i * len)) by nia.
  rewrite IH; [|exact B|rewrite app_length; pose proof (rec_len _ (entry_good x Bx)); lia|replace (i + 1 + N.of_nat (length ids)) with (i + N.of_nat (S (length ids))) by lia; exact LB].
  cbn [map flat_map]. now rewrite <- app_assoc.
Qed.
Lemma generate_ok medoid want : medoid < n -> exists c, generate graph (concat vs) medoid n dim degree want = Ok c
  /\ closest_nodes graph medoid (N.to_nat (N.min want n)) (nc_ids c) /\ cinv c (generated degree vs graph (nc_ids c)).
Proof.
  intros HM. unfold generate. pose proof (proj1 F) as D0. destruct (N.eqb_spec (N.of_nat (length graph)) n); [|lia]. cbn [negb].
  destruct (N.eqb_spec n 0); [lia|]. destruct (N.eqb_spec dim 0); [lia|]. cbn [orb]. destruct (N.leb_spec n medoid); [lia|]. rewrite EG. cbn [bind].
  assert (GI : forall c ids, nc_ids c = ids -> nc_dim c = dim -> nc_degree c = degree -> nc_len c = len -> nc_over c = [] ->
     nc_data c = flat_map rec (map node_entry ids) -> nc_map c = index_ids len ids 0 [] -> NoDup ids -> Forall (fun x => x < n) ids -> cinv c (generated degree vs graph ids)).
  { intros c ids E1 E2 E3 E4 E5 E6 E7 ND B. assert (LL : N.of_nat (length ids) <= n) by (now apply below_length).
    assert (GE : Forall good (map node_entry ids)) by (apply Forall_forall; intros en He; apply in_map_iff in He as (x & <- & Hx); apply entry_good; rewrite Forall_forall in B; now apply B).
    exists (map node_entry ids), []. split; [|split].
    - constructor; rewrite ?E1; try assumption; try constructor.
      + now rewrite map_length.
      + eapply Forall_impl; [|exact B]. cbn. intros a Ha. lia.
      + intros H1. rewrite E7 in H1. apply (index_spec ids 0 [] ND) in H1; [|rewrite N.add_0_l; apply fits_count; lia].
        destruct H1 as [(j & H1 & H2)|[_ H1]]; [|discriminate]. exists j. split; [exact H1|]. now rewrite H2, N.add_0_l.
      + intros (j & H1 & H2). rewrite E7. apply (index_spec ids 0 [] ND); [rewrite N.add_0_l; apply fits_count; lia|]. left. exists j. split; [exact H1|]. now rewrite H2, N.add_0_l.
    - intros x. unfold content, generated. cbn [nget ct_node]. rewrite E1. destruct (existsb (N.eqb x) ids) eqn:X.
      + apply existsb_in in X. apply In_nth_error in X as [i X]. symmetry. apply nget_combine; [exact ND|now rewrite map_length|].
        exists i. split; [exact X|]. now rewrite nth_error_map, X.
      + symmetry. apply combine_none; [now rewrite map_length|]. intros I. apply existsb_in in I. congruence.
    - intros x. cbn [generated ct_pinned]. now rewrite E1. }
  destruct (N.eqb_spec (N.min want n) 0) as [E0|N0].
  - eexists. split; [reflexivity|]. cbn [nc_ids]. rewrite E0. split; [|now apply GI; try reflexivity; constructor].
    constructor; [exact (NoDup_nil _)|cbn; lia|discriminate|intros x []|intros i j x y a b _ Hi; destruct i; discriminate|intros x y a b []|cbn; intros; lia].
  - rewrite aput_ok by (rewrite repeat_length; lia). cbn [bind].
    destruct (bfs_closest graph medoid (N.to_nat (N.min want n)) (upd (repeat false (N.to_nat n)) (N.to_nat medoid) true)) as (ids & E & CN & _ & B); [lia|lia|do 2 f_equal; lia|].
    rewrite Hn in E, B. rewrite E. cbn [bind]. assert (LL : N.of_nat (length ids) <= n) by (apply below_length; [apply CN|exact B]).
    pose proof (pack_all_ok ids [] 0 [] B eq_refl) as PA. cbn [app] in PA. rewrite PA by (rewrite N.add_0_l; apply fits_count; lia). cbn [bind].
    eexists. split; [reflexivity|]. cbn [nc_ids]. split; [exact CN|]. apply GI; try reflexivity; [apply CN|exact B].
Qed.
End Generate.
End Contents.

(** ** Loading arbitrary files *)
Lemma u32s_count n : forall inp l r, read_u32s n inp = Ok (l, r) -> length l = n.
Proof.
  induction n as [|n IH]; intros inp l r; cbn [read_u32s]; [intros [= <- _]; reflexivity|].
  destruct (read_u32 inp) as [[x r1]| | |]; cbn [bind]; try discriminate.
  destruct (read_u32s n r1) as [[l2 r2]| | |] eqn:E; cbn [bind]; try discriminate. intros [= <- _]. cbn [length]. f_equal. now apply (IH _ _ _ E).
Qed.
Lemma index_any len ids : forall i m x,
  (forall off, nget (index_ids len ids i m) x = Some off -> (exists j, (j < length ids)%nat /\ off = w64 ((i + N.of_nat j) * len)) \/ nget m x = Some off)
  /\ (In x ids \/ nget m x <> None <-> nget (index_ids len ids i m) x <> None).
Proof.
  induction ids as [|a ids IH]; intros i m x; cbn [index_ids].
  - split; [now right|]. cbn. tauto.
  - destruct (IH (i + 1) (nput m a (w64 (i * len))) x) as [I1 I2]. split.
    + intros off H. destruct (I1 off H) as [(j & Lj & E)|E].
      * left. exists (S j). cbn [length]. split; [lia|]. rewrite E. do 2 f_equal. lia.
      * rewrite nget_nput in E. destruct (N.eqb x a); [|now right]. left. exists O. cbn [length]. split; [lia|]. injection E as <-. do 2 f_equal. lia.
    + rewrite <- I2, nget_nput. cbn [In]. destruct (N.eqb_spec x a) as [->|NE].
      * split; intros _; [right; discriminate|left; now left].
      * intuition congruence.
Qed.
Lemma load_lemma c ids_file nodes_file c1 c2 dim degree : nc_load c ids_file nodes_file = Ok c1 -> configure_geometry c1 dim degree = Ok c2 ->
  nc_len c1 <> 0 -> N.of_nat (length ids_file) * nc_len c1 < 2 ^ 64 ->
  forall x, exists r, lookup_record c2 x = Ok r /\ (r <> None <-> In x (nc_ids c2)) /\ forall b, r = Some b -> N.of_nat (length b) = nc_len c2.
Proof.
  unfold nc_load. destruct (read_u64 ids_file) as [[count r]| | |] eqn:E1; cbn [bind]; try discriminate.
  destruct (N.ltb_spec (N.of_nat (length r)) (count * 4)) as [|B1]; try discriminate.
  destruct (read_u32s (N.to_nat count) r) as [[ids r']| | |] eqn:E2; cbn [bind]; try discriminate.
  destruct (read_u64 nodes_file) as [[count2 q]| | |] eqn:E3; cbn [bind]; try discriminate.
  destruct (read_u64 q) as [[len q2]| | |] eqn:E4; cbn [bind]; try discriminate.
  destruct (N.eqb_spec count2 count) as [->|]; cbn [negb]; try discriminate.
  destruct (N.ltb_spec (N.of_nat (length q2)) (w64 (count * len))) as [|B2]; try discriminate. intros [= <-].
  unfold configure_geometry. destruct (compute dim degree) as [g| | |]; cbn [bind nc_len nc_ids nc_data nc_map nc_over]; try discriminate.
  destruct (negb (len =? 0) && negb (len =? g_len g)) eqn:EB; try discriminate. intros [= <-] NZ FB x.
  assert (EL : g_len g = len).
  { apply andb_false_iff in EB as [EB|EB]; apply negb_false_iff, N.eqb_eq in EB; [contradiction|now symmetry]. }
  pose proof (u32s_count _ _ _ _ E2) as LI.
  assert (LR : (length r <= length ids_file)%nat).
  { unfold read_u64, take_bytes in E1. destruct (Nat.leb 8 (length ids_file)); cbn [bind] in E1; [|discriminate]. assert (ER : r = skipn 8 ids_file) by congruence. rewrite ER, skipn_length. lia. }
  assert (FC : count * len < 2 ^ 64) by nia.
  assert (W : w64 (count * len) = count * len) by (unfold w64; now apply N.mod_small).
  unfold lookup_record. cbn [nc_over nget]. unfold base_record. cbn [nc_map nc_data nc_len nc_ids]. rewrite EL.
  destruct (index_any len ids 0 [] x) as [I1 I2]. cbn [nget] in I1, I2.
  destruct (nget (index_ids len ids 0 []) x) as [off|] eqn:EN.
  - destruct (I1 off eq_refl) as [(j & Lj & ->)|]; [|discriminate]. unfold w64. rewrite N.add_0_l.
    assert (Bj : N.of_nat j * len + len <= count * len) by nia. rewrite (N.mod_small (N.of_nat j * len)) by lia.
    assert (LD : N.of_nat (length (firstn (N.to_nat (w64 (count * len))) q2)) = count * len) by (rewrite firstn_length, W in *; lia).
    unfold w64 in LD. rewrite read_ok by (rewrite LD; lia). cbn [bind]. eexists. split; [reflexivity|]. split.
    + split; [|discriminate]. intros _. destruct I2 as [_ I2]. destruct (I2 ltac:(discriminate)) as [I|I]; [exact I|congruence].
    + intros b [= <-]. rewrite firstn_length, skipn_length. lia.
  - eexists. split; [reflexivity|]. split; [|discriminate]. split; [congruence|]. intros I. exfalso. apply (proj1 I2); [now left|reflexivity].
Qed.
