(** C69: what an index built by HNSWBuilder looks like, that it can be
    searched, and which vectors it may lose. *)
From Coq Require Import Sorting.Permutation.
From Verif Require Import HnswProofs SearchProps.
Import ListNotations.

(** For every data set, distance function, draw of the levels and order of
    the insertions, with R >= 4: construction ends without undefined
    behaviour, with well-formed rows on all layers.  No row is empty as soon
    as there is another vector on the layer, and no list of links was ever
    written beyond its size. *)
Theorem hnsw_build_ok : forall r fuel, request_ok r -> 4 <= r_R r -> N.to_nat (r_n r) < fuel ->
  exists g o, build_hnsw fuel r = Done (Ok g) /\ hnsw_ok r g o.
Proof. intros r fuel A B C. destruct (build_ok r fuel A B C) as (g & o & E & _ & K & _). eauto. Qed.
Print Assumptions hnsw_build_ok.

(** With at most R/2 vectors, every vector is a neighbour of every other. *)
Theorem hnsw_small_fully_linked : forall r fuel g, request_ok r -> 4 <= r_R r -> N.to_nat (r_n r) < fuel ->
  build_hnsw fuel r = Done (Ok g) -> N.to_nat (r_n r) <= r_R r / 2 -> fully_linked r g.
Proof.
  intros r fuel g A B C E Small. destruct (build_ok r fuel A B C) as (g' & o & E' & _ & _ & F). rewrite E in E'. inversion E'; subst. auto.
Qed.
Print Assumptions hnsw_small_fully_linked.

(** Any search on the built index ends, and gives distinct vectors that can be
    reached from the node found on the upper layers, in order of distance. *)
Theorem hnsw_index_searchable : forall r fuel g dist topk ef fuel', request_ok r -> 4 <= r_R r -> N.to_nat (r_n r) < fuel ->
  build_hnsw fuel r = Done (Ok g) -> (r_n r <= 2 ^ 31)%N -> 0 < ef -> topk <= ef -> N.to_nat (r_n r) < fuel' ->
  exists u hits e, search_solo fuel' g (fun _ => None) (r_n r) dist topk ef
      = Done (Ok (hits ++ repeat (kInvalidId, float_max) (topk - length hits), e))
    /\ (u < r_n r)%N /\ ranked (reachable (leads_to g (fun _ => None)) (eq u)) dist topk hits.
Proof.
  intros r fuel g dist topk ef fuel' A B C E Hn He Hk F.
  destruct (build_ok r fuel A B C) as (g' & o & E' & _ & K & _). rewrite E in E'. inversion E'; subst g'.
  destruct (built_searchable r g o K) as (Ro & Oo).
  destruct (solo_search_overlay (r_n r) g (fun _ => None) dist topk ef fuel' o Ro Hn (ok_overlay r g o K) Oo He Hk F)
    as (u & hits & e & Es & _ & Hu & _ & _ & Rk & _).
  exists u, hits, e. auto.
Qed.
Print Assumptions hnsw_index_searchable.

(** ** Concrete requests *)
Definition ex_gt1 (a b : qel) : bool := Z.ltb (fst b) (fst a).
Definition ex_gt2 (a b : qel) : bool := (Z.ltb (fst b) (fst a) || (Z.eqb (fst a) (fst b) && N.ltb (snd b) (snd a)))%bool.
Fixpoint ex_top (gt : qel -> qel -> bool) (l : list qel) : option (qel * list qel) :=
  match l with
  | [] => None
  | x :: r => match ex_top gt r with
              | None => Some (x, [])
              | Some (y, r') => if gt x y then Some (x, y :: r') else Some (y, x :: r')
              end
  end.
Definition ex_lib : queues := {| top_first := ex_top ex_gt1; top_pair := ex_top ex_gt2 |}.
Lemma ex_top_ok (less : qel -> qel -> Prop) gt : (forall a b, gt a b = true <-> less b a) -> (forall a, ~ less a a) ->
  (forall a b c, less a b -> less b c -> less a c) -> (forall a b c, less a c -> less a b \/ less b c) -> queue_ok less (ex_top gt).
Proof.
  intros G Ir Tr Co. split.
  - intros q. split; [|intros ->; reflexivity]. destruct q as [|x r]; [reflexivity|]. cbn [ex_top].
    destruct (ex_top gt r) as [[y r']|]; [destruct (gt x y)|]; discriminate.
  - induction q as [|x r IH]; intros c q' E; [discriminate E|]. cbn [ex_top] in E.
    destruct (ex_top gt r) as [[y r']|] eqn:Er.
    + destruct (IH y r' eq_refl) as (P & M). destruct (gt x y) eqn:Gt; inversion E; subst; clear E.
      * split; [constructor; exact P|]. intros d [ <- |Hd] C; [exact (Ir _ C)|]. apply (M d Hd).
        apply G in Gt. eapply Tr; [exact Gt|exact C].
      * split; [rewrite P; apply perm_swap|]. intros d [ <- |Hd] C; [|exact (M d Hd C)].
        apply G in C. congruence.
    + assert (r = []) as ->.
      { destruct r as [|y r]; [reflexivity|]. cbn [ex_top] in Er. destruct (ex_top gt r) as [[z r']|]; [destruct (gt y z)|]; discriminate Er. }
      inversion E; subst. split; [reflexivity|]. intros d [ <- |[]]. apply Ir.
Qed.
Lemma ex_lib_ok : queues_ok ex_lib.
Proof.
  split; apply ex_top_ok; cbn.
  - intros [a i] [b j]. unfold ex_gt1. cbn. apply Z.ltb_lt.
  - intros a. lia.
  - intros a b c. lia.
  - intros a b c. lia.
  - intros [a i] [b j]. unfold ex_gt2. cbn. rewrite orb_true_iff, andb_true_iff, Z.ltb_lt, Z.eqb_eq, N.ltb_lt. split; intros [H|[H1 H2]]; auto.
  - intros a. lia.
  - intros a b c. lia.
  - intros a b c. lia.
Qed.
(** The vectors are inserted in order. *)
Definition ex_request (points : list (list Z)) (R : nat) (draw : N -> nat) : request :=
  {| r_n := N.of_nat (length points); r_R := R; r_L := 200;
     r_dist := fun a b => l2 (nth (N.to_nat a) points []) (nth (N.to_nat b) points []);
     r_lib := ex_lib; r_draw := draw; r_others := tl (all_ids (N.of_nat (length points))) |}.
Lemma ex_request_ok points R draw : (0 < N.of_nat (length points) < kInvalidId)%N -> request_ok (ex_request points R draw).
Proof.
  intros H. split; [exact H|]. split; [exact ex_lib_ok|]. cbn [ex_request r_others r_n].
  assert (E : all_ids (N.of_nat (length points)) = 0%N :: tl (all_ids (N.of_nat (length points)))).
  { unfold all_ids. destruct points as [|x l]; [cbn in H; lia|]. rewrite Nnat.Nat2N.id. reflexivity. }
  rewrite <- E. apply Permutation_refl.
Qed.

(** ** Vectors that no search can find *)

(** The origin, and the unit vectors of [dim] axes. *)
Definition ex_unit (dim k : nat) : list Z := map (fun i => if Nat.eqb i k then 1%Z else 0%Z) (seq 0 dim).
Definition ex_star (dim : nat) : list (list Z) := repeat 0%Z dim :: map (ex_unit dim) (seq 0 dim).
Definition lists_nowhere (g : graph) (o : overlay) (v : N) : bool :=
  (negb (N.eqb (ov_ep o) v) && forallb (forallb (fun y => negb (N.eqb y v))) (g_rows g)
   && forallb (forallb (fun y => negb (N.eqb y v))) (ov_lists o))%bool.
Lemma nowhere_unreachable g o v : lists_nowhere g o v = true -> unreachable g o v.
Proof.
  intros H R. unfold lists_nowhere in H. apply andb_true_iff in H. destruct H as (H & Hl). apply andb_true_iff in H. destruct H as (He & Hr).
  assert (No : forall rows k row y, forallb (forallb (fun y => negb (N.eqb y v))) rows = true -> nth_error rows k = Some row -> In y row -> y <> v).
  { intros rows k row y Hf Ek Hy C. subst y. apply nth_error_In in Ek. rewrite forallb_forall in Hf. specialize (Hf row Ek).
    rewrite forallb_forall in Hf. specialize (Hf v Hy). rewrite N.eqb_refl in Hf. discriminate Hf. }
  assert (forall x, reachable (fun x y => leads_to g (fun _ => None) x y \/ any_overlay_edge o x y) (eq (ov_ep o)) x -> x <> v) as X.
  { intros x Rx. destruct Rx as [x <-|x y _ [(row & Er & (k & _ & Ek & _))|(l & _ & row & Er & (k & _ & Ek & _))]].
    - intro C. rewrite C, N.eqb_refl in He. discriminate He.
    - apply nth_error_In in Ek. exact (No _ _ _ _ Hr Er Ek).
    - apply nth_error_In in Ek. apply (No _ _ _ y Hl Er). rewrite <- (firstn_skipn (N.to_nat ((l - 1) * ov_max_nbrs o)) row).
      apply in_or_app. right. exact Ek. }
  exact (X v R eq_refl).
Qed.

(** "Every vector of an HNSW index can be reached from its entry point" is
    false, also with the default R and L: of the origin and the 49 unit
    vectors, inserted in order, 16 is in no row on any layer. *)
Theorem hnsw_all_reachable_refuted : exists points r g o v, request_over points 49 r /\ r_R r = 32 /\ r_L r = 200%N
  /\ build_hnsw 100 r = Done (Ok g) /\ g_overlay g = Some o /\ (v < r_n r)%N /\ unreachable g o v.
Proof.
  set (r := ex_request (ex_star 49) 32 (fun _ => 0)).
  assert (Hr : request_ok r) by (apply ex_request_ok; split; vm_compute; reflexivity).
  destruct (hnsw_build_ok r 100 Hr) as (g & o & E & K); [cbn [r ex_request r_R]; lia|apply Nat.leb_le; vm_compute; reflexivity|].
  exists (ex_star 49), r, g, o, 16%N. split; [|split; [|split; [|split; [|split; [|split]]]]].
  - split; [exact Hr|]. split; [reflexivity|]. split; [|split; [|reflexivity]].
    + assert (F : (fix nd (l : list (list Z)) := match l with [] => true | x :: t => (negb (existsb (fun y => if list_eq_dec Z.eq_dec x y then true else false) t) && nd t)%bool end) (ex_star 49) = true)
        by (vm_compute; reflexivity).
      revert F. generalize (ex_star 49). induction l as [|x t IH]; intros F; [constructor|].
      apply andb_true_iff in F. destruct F as (A & B). constructor; [|apply IH; exact B].
      intro C. apply Bool.negb_true_iff in A. rewrite <- Bool.not_true_iff_false in A. apply A. apply existsb_exists. exists x.
      split; [exact C|]. destruct (list_eq_dec Z.eq_dec x x); [reflexivity|contradiction].
    + intros u Hu. assert (F : forallb (fun u => Nat.eqb (length u) 49) (ex_star 49) = true) by (vm_compute; reflexivity).
      rewrite forallb_forall in F. apply Nat.eqb_eq, F, Hu.
  - reflexivity.
  - reflexivity.
  - exact E.
  - apply (ok_overlay r g o K).
  - reflexivity.
  - apply nowhere_unreachable.
    assert (X : match build_hnsw 100 r with Done (Ok g) => match g_overlay g with Some o => lists_nowhere g o 16 | None => false end | _ => false end = true)
      by (vm_compute; reflexivity).
    rewrite E, (ok_overlay r g o K) in X. exact X.
Qed.
Print Assumptions hnsw_all_reachable_refuted.

(** ** Requests without a defined behaviour *)

(** R = 2 or 3, which the Python interface accepts: the level of the first
    vector is the conversion of an infinite value. *)
Theorem hnsw_few_neighbours_undefined : forall r fuel, (0 < r_n r)%N -> r_R r = 2 \/ r_R r = 3 -> build_hnsw fuel r = Done OutOfBounds.
Proof.
  intros r fuel Hn HR. unfold build_hnsw. cbn [map add_points]. unfold add_point. cbn [hnsw_new h_labels existsb length].
  cbn [params_of p_n]. change (N.of_nat 0) with 0%N. destruct (N.leb_spec (r_n r) 0); [lia|].
  unfold random_level. cbn [params_of p_M]. destruct HR as [ -> | -> ]; reflexivity.
Qed.
Print Assumptions hnsw_few_neighbours_undefined.
(** No vectors: vector 0 is added to an index without room. *)
Theorem hnsw_no_vectors_undefined : forall r fuel, r_n r = 0%N -> build_hnsw fuel r = Done OutOfBounds.
Proof.
  intros r fuel Hn. unfold build_hnsw. cbn [map add_points]. unfold add_point. cbn [hnsw_new h_labels existsb params_of p_n]. rewrite Hn. reflexivity.
Qed.
Print Assumptions hnsw_no_vectors_undefined.
(** R = 1: the second vector has no neighbour to go on with. *)
Example ex_hnsw_one_neighbour : build_hnsw 10 (ex_request [[1; 0]; [0; 1]]%Z 1 (fun _ => 0)) = Done OutOfBounds.
Proof. vm_compute. reflexivity. Qed.

(** ** An index with three layers *)
Definition ex_points : list (list Z) := [[0; 0]; [4; 1]; [1; 1]; [9; 9]; [8; 7]; [3; 3]; [2; 9]]%Z.
Definition ex_draw (i : N) : nat := match i with 2%N => 1 | 4%N => 2 | 6%N => 1 | _ => 0 end.
Definition ex_hnsw : request := ex_request ex_points 4 ex_draw.
Example ex_hnsw_ok : request_ok ex_hnsw /\ 4 <= r_R ex_hnsw /\ N.to_nat (r_n ex_hnsw) < 8.
Proof. split; [apply ex_request_ok; split; vm_compute; reflexivity|]. cbn. lia. Qed.
(** The entry point is 4; of the vectors on layer 1, 4 is linked to 2 and 6. *)
Example ex_hnsw_built : match build_hnsw 8 ex_hnsw with
  | Done (Ok g) => (g_rows g, match g_overlay g with Some o => Some (ov_ep o, ov_levels o, ov_lists o) | None => None end)
  | _ => ([], None) end
  = (map (fun ids => ids ++ repeat kInvalidId (4 - length ids)) [[1; 2]; [0; 5]; [1; 0; 5]; [1; 4]; [1; 3; 6]; [2; 1; 6]; [4; 5]]%N,
     Some (4%N, [0; 0; 1; 0; 2; 0; 1]%N,
       [[]; []; [4; 6; kInvalidId; kInvalidId]; []; [2; 6] ++ repeat kInvalidId 6; []; [2; 4; kInvalidId; kInvalidId]]%N)).
Proof. vm_compute. reflexivity. Qed.
(** Three vectors and R = 6: all linked. *)
Definition ex_hnsw_small : request := ex_request (firstn 3 ex_points) 6 (fun i => N.to_nat i).
Example ex_hnsw_small_hypotheses : request_ok ex_hnsw_small /\ 4 <= r_R ex_hnsw_small /\ N.to_nat (r_n ex_hnsw_small) < 4
  /\ N.to_nat (r_n ex_hnsw_small) <= r_R ex_hnsw_small / 2 /\ (2 <= r_n ex_hnsw_small)%N.
Proof. split; [apply ex_request_ok; split; vm_compute; reflexivity|]. cbn. repeat split; try lia. Qed.
Example ex_hnsw_search : exists g, build_hnsw 8 ex_hnsw = Done (Ok g) /\
  search_solo 8 g (fun _ => None) 7 (fun i => l2 [3; 2]%Z (nth (N.to_nat i) ex_points [])) 3 4 = Done (Ok ([(5%N, 1%Z); (1%N, 2%Z); (2%N, 5%Z)], [2; 5; 1; 0]%N)).
Proof. eexists. split; vm_compute; reflexivity. Qed.
