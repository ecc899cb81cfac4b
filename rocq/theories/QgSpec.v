(** What the quantized graph should be. *)
From Coq Require Export ZArith NArith List.
Import ListNotations.

(** The neighbours of vertex [i] of [n]: different, other vertices, with their distances. *)
Record good_row (n : nat) (dist : N -> N -> Z) (i : N) (row : list (N * Z)) : Prop := {
  gr_distinct : NoDup (map fst row);
  gr_exist : forall j d, In (j, d) row -> (j < N.of_nat n)%N /\ j <> i;
  gr_true : forall j d, In (j, d) row -> d = dist i j;
}.
(** A graph in which every one of [n] vertices has [degree] neighbours. *)
Definition regular (n degree : nat) (dist : N -> N -> Z) (rows : list (list (N * Z))) : Prop :=
  length rows = n /\ forall i row, nth_error rows i = Some row -> length row = degree /\ good_row n dist (N.of_nat i) row.
(** Random numbers that are vertices, and that sooner or later are each of them. *)
Definition vertices (n : nat) (draw : nat -> nat -> N) : Prop := forall i k, (draw i k < N.of_nat n)%N.
Definition fair (n : nat) (draw : nat -> nat -> N) : Prop := forall i k j, (j < N.of_nat n)%N -> exists m, k <= m /\ draw i m = j.
(** An interleaving of the loops of [n] vertices in which every one of them is
    given at least the [degree + 1] steps it may need. *)
Definition complete (n degree : nat) (sched : list nat) : Prop :=
  (forall i, In i sched -> i < n) /\ forall i, i < n -> S degree <= count_occ Nat.eq_dec sched i.
(** A diverse choice [kept] of at most [bound] from [pool], nearest first:
    nothing kept is nearer to something kept before it than to the centre, and
    what is left out is, or comes after [bound] were kept. *)
Definition diverse (bound : nat) (dist : N -> N -> Z) (pool kept : list (N * Z)) : Prop :=
  length kept <= bound /\ incl kept pool /\
  (forall a x b y c, kept = a ++ x :: b ++ y :: c -> (snd y <= dist (fst x) (fst y))%Z) /\
  (forall y, In y pool -> In y kept \/ length kept = bound \/ exists x, In x kept /\ (dist (fst x) (fst y) < snd y)%Z).
