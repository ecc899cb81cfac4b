(** C89: the graph of the RaBitQ index is regular: when the builder returns,
    every vector has exactly 32 different other vectors as neighbours, stored
    with their true distances, whatever the estimates, the random numbers and
    the interleaving of its threads; and it returns if there are more vectors
    than neighbours.  With fewer it never returns. *)
From Coq Require Import Lia.
From Verif Require Import QgProofs.
Import ListNotations.
Local Open Scope nat_scope.

(** Ids are below 2^31, distances are symmetric, random numbers are vertices. *)
Record sane (q : qg_input) : Prop := {
  sa_sym : forall i j, qi_dist q i j = qi_dist q j i;
  sa_ids : (N.of_nat (qi_n q) <= 2 ^ 31)%N;
  sa_ef : 0 < qi_ef q;
  sa_ep : (qi_ep q < N.of_nat (qi_n q))%N;
  sa_draw : vertices (qi_n q) (qi_draw q);
  sa_fill : vertices (qi_n q) (qi_fill q);
  sa_sched : forall it i, In i (qi_sched q it) -> i < qi_n q;
}.
(** Nothing is read or written out of bounds, and whatever is returned is regular. *)
Theorem qg_regular : forall (q : qg_input) (fuel : nat), sane q ->
  build fuel q = OutOfFuel \/ exists rows, build fuel q = Done (Ok rows) /\ regular (qi_n q) (qi_bound q) (qi_dist q) rows.
Proof.
  intros q fuel [A B C D E F G]. pose proof (build_post q B C D A G E F fuel) as H. destruct (build fuel q) as [|[rows| | |]]; cbn in H; try contradiction; [now left|].
  right. now exists rows.
Qed.
(** With more vectors than neighbours, random numbers that reach every vector
    and loops that are all run to their end, it returns. *)
Theorem qg_builds : forall (q : qg_input), sane q -> qi_bound q < qi_n q ->
  (forall it, complete (qi_n q) (qi_bound q) (qi_sched q it)) -> fair (qi_n q) (qi_draw q) -> fair (qi_n q) (qi_fill q) ->
  exists (enough : nat) (rows : list (list (N * Z))), regular (qi_n q) (qi_bound q) (qi_dist q) rows /\
    forall fuel, enough <= fuel -> build fuel q = Done (Ok rows).
Proof. intros q [A B C D E F G] HB SC FD FF. exact (build_ends q B C D A G E F HB SC FD FF). Qed.
(** With as many vectors as neighbours or fewer, it never returns, whatever is drawn. *)
Theorem qg_refuted_few_vectors : forall (q : qg_input), vertices (qi_n q) (qi_draw q) -> 0 < qi_n q <= qi_bound q ->
  forall fuel, build fuel q = OutOfFuel.
Proof. intros q V H fuel. exact (build_stuck q V fuel H). Qed.
(** Pruning keeps all of a pool that fits, and a diverse part of any other. *)
Theorem qg_prune_diverse : forall (bound : nat) (dist : N -> N -> Z) (sup : bool) (pool old rec kept rec' : list (N * Z)),
  pool <> [] -> heuristic_prune bound dist sup pool old rec = (kept, rec') ->
  if length pool <=? bound then kept = pool else diverse bound dist pool kept.
Proof.
  intros bound dist sup pool old rec kept rec' NE E. destruct pool as [|c pool]; [contradiction|]. set (pl := c :: pool) in *.
  destruct (prune_spec bound dist sup pl old rec kept rec' ltac:(cbn; lia) E) as (_ & _ & A & B & _).
  destruct (Nat.leb_spec (length pl) bound); auto.
Qed.

(** Six points on a line, two neighbours each. *)
Definition line (i j : N) : Z := Z.abs (Z.of_N i - Z.of_N j).
Definition six : qg_input := {|
  qi_n := 6; qi_bound := 2; qi_ef := 4; qi_ep := 3; qi_dist := line; qi_est := fun _ c x k => line c (x + N.of_nat k);
  qi_cos := fun a b c t => Nat.odd t; qi_draw := fun i k => (N.of_nat (i + k) mod 6)%N; qi_fill := fun i k => (N.of_nat k mod 6)%N;
  qi_sched := fun it => concat (repeat (if Nat.even it then [0; 1; 2; 3; 4; 5] else [5; 3; 1; 4; 2; 0]) 3) |}.
Lemma six_fair f : (forall k, f k = (N.of_nat k mod 6)%N) -> forall k j, (j < 6)%N -> exists m, k <= m /\ f m = j.
Proof.
  intros F k j Hj. exists (N.to_nat j + k * 6). split; [lia|]. rewrite F, Nnat.Nat2N.inj_add, Nnat.N2Nat.id, Nnat.Nat2N.inj_mul. change (N.of_nat 6) with 6%N.
  rewrite N.mod_add by lia. now apply N.mod_small.
Qed.
Lemma six_fair_shift i : forall k j, (j < 6)%N -> exists m, k <= m /\ qi_draw six i m = j.
Proof.
  intros k j Hj. destruct (six_fair (fun k => (N.of_nat k mod 6)%N) (fun _ => eq_refl) (i + k) j Hj) as (m & L & E). exists (m - i). split; [lia|]. cbn. now replace (i + (m - i)) with m by lia.
Qed.
Lemma six_sane : sane six.
Proof.
  constructor; cbn; try (intros; unfold line; lia); try (intros i k; apply N.mod_lt; lia).
  intros it i H. destruct (Nat.even it); cbn in H; lia.
Qed.
Example six_builds : exists enough rows, regular 6 2 line rows /\ forall fuel, enough <= fuel -> build fuel six = Done (Ok rows).
Proof.
  apply (qg_builds six six_sane); [cbn; lia| |exact six_fair_shift|intros i; now apply six_fair].
  intros it. split; [apply six_sane|]. intros i Hi. cbn [qi_n six] in Hi. cbn [qi_sched six qi_bound].
  destruct (Nat.even it); do 6 (destruct i as [|i]; [cbn; lia|]); lia.
Qed.
Example six_row : exists rows, build 40 six = Done (Ok rows) /\ nth_error rows 3 = Some [(2%N, 1%Z); (4%N, 1%Z)].
Proof. eexists. split; vm_compute; reflexivity. Qed.
(** The builder of the library with 32 vectors. *)
Example thirty_two : forall fuel, build fuel {| qi_n := 32; qi_bound := 32; qi_ef := 400; qi_ep := 0; qi_dist := line; qi_est := fun _ _ _ _ => 0%Z;
  qi_cos := fun _ _ _ _ => true; qi_draw := fun i k => (N.of_nat (i * k) mod 32)%N; qi_fill := fun _ _ => 0%N; qi_sched := fun _ => [] |} = OutOfFuel.
Proof. apply qg_refuted_few_vectors; [intros i k; apply N.mod_lt; discriminate|cbn; lia]. Qed.
(** From 5 the points 6, 3 and 2: 2 is nearer to 3 than to 5. *)
Example prune_three : heuristic_prune 2 line false [(6%N, 1%Z); (3%N, 2%Z); (2%N, 3%Z)] [] [] = ([(6%N, 1%Z); (3%N, 2%Z)], []) /\
  heuristic_prune 2 line true [(3%N, 2%Z); (2%N, 3%Z); (9%N, 4%Z)] [] [] = ([(3%N, 2%Z); (9%N, 4%Z)], [(2%N, 3%Z)]).
Proof. vm_compute. auto. Qed.

Print Assumptions qg_regular.
Print Assumptions qg_builds.
Print Assumptions qg_refuted_few_vectors.
Print Assumptions qg_prune_diverse.
