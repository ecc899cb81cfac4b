(** C59: search effort parameters stay valid. *)
From Coq Require Import NArith ZArith Lia Bool List.
From Flocq Require Import IEEE754.BinarySingleNaN.
From Verif Require Import EffortProofs.
Local Open Scope N_scope.

(** validate_search_info lets exactly the usable parameters through. *)
Theorem validate_exact (i : info) : validate i = Ok tt <-> 0 < topk i <= ef i.
Proof.
  unfold validate. destruct (topk i =? 0) eqn:E1.
  { apply N.eqb_eq in E1. split; [discriminate|lia]. }
  apply N.eqb_neq in E1. destruct (ef i <? topk i) eqn:E2.
  - apply N.ltb_lt in E2. split; [discriminate|lia].
  - apply N.ltb_ge in E2. split; [lia|reflexivity].
Qed.

(** A filtered search on fewer than 2^32 rows: the choice is made without undefined
    conversions, and when the graph is searched the list is at least as large as the
    number of results, not larger than the table, and not smaller than asked for (unless
    the table is).  Missing for the full claim: tables of 2^32 rows or more, which 64-bit
    ids allow ([effort_64_refuted]). *)
Theorem effort_valid_partial (total : N) (i : info) (matched : N) :
  given i -> matched <= total < 2 ^ 32 ->
  exists p, prefilter_plan total i matched = Ok p /\
    match p with
    | Nothing => matched = 0
    | Plain i' => matched = total /\ i' = i
    | Brute => True
    | Graph i' => 0 < matched < total /\ topk i' = topk i /\ fit_for total i i'
    end.
Proof.
  intros G H. destruct (plan_ok total i matched G H) as (p & E & P). exists p. split; [exact E|]. destruct p; tauto.
Qed.

(** For two results or more the list is large enough to hold [topk] matching rows when
    they are spread evenly. *)
Theorem effort_enough (total : N) (i i' : info) (matched : N) :
  given i -> matched <= total < 2 ^ 32 -> 2 <= topk i ->
  prefilter_plan total i matched = Ok (Graph i') ->
  ef i' = total \/ topk i * total <= ef i' * matched.
Proof.
  intros G H K E. destruct (plan_ok total i matched G H) as (p & E' & P). rewrite E in E'. injection E' as <-. tauto.
Qed.

(** The same for a partition of a materialized view: the number of results is at most the
    size of the partition, and it is searched by the graph only when more rows match than
    are asked for. *)
Theorem view_effort_valid_partial (i : info) (size matched : N) :
  given i -> matched <= size -> 0 < size < 2 ^ 32 ->
  exists p, view_plan i size matched = Ok p /\
    match p with
    | Nothing => matched = 0
    | Plain _ => False
    | Brute => True
    | Graph i' => topk i' = topk i /\ topk i < matched /\ fit_for size i i' /\
                  (2 <= topk i -> matched < size -> ef i' = size \/ topk i * size <= ef i' * matched)
    end.
Proof. apply view_plan_ok. Qed.

Example effort_case :
  given {| topk := 10; ef := 20 |} /\
  prefilter_plan 1000 {| topk := 10; ef := 20 |} 100 = Ok (Graph {| topk := 10; ef := 150 |}) /\
  prefilter_plan 1000 {| topk := 10; ef := 20 |} 60 = Ok Brute /\
  prefilter_plan 1000 {| topk := 10; ef := 20 |} 1000 = Ok (Plain {| topk := 10; ef := 20 |}) /\
  view_plan {| topk := 10; ef := 5000 |} 1000 500 = Ok (Graph {| topk := 10; ef := 1000 |}).
Proof. split; [split; cbn; lia|]. split; [vm_compute; reflexivity|]. split; [vm_compute; reflexivity|]. split; vm_compute; reflexivity. Qed.

(** ** The integer helpers *)
Theorem floor_log2_exact (x : N) : 0 < x -> 2 ^ floor_log2 x <= x < 2 ^ (floor_log2 x + 1).
Proof. apply floor_log2_ok. Qed.
Theorem ceil_log2_exact (x : N) : 0 < x -> x <= 2 ^ ceil_log2 x /\ (forall k, x <= 2 ^ k -> ceil_log2 x <= k).
Proof. apply ceil_log2_ok. Qed.
(** Missing in the next two: sums that wrap ([ceil_div_refuted]). *)
Theorem ceil_div_exact_partial (x d : N) : 0 < d -> x + d < 2 ^ 64 ->
  exists q, ceil_div x d = Ok q /\ x <= q * d /\ (forall k, x <= k * d -> q <= k).
Proof. apply ceil_div_ok. Qed.
Theorem round_up_exact_partial (x d : N) : 0 < d -> x + d < 2 ^ 64 ->
  multiple (round_up_general x d) d /\ x <= round_up_general x d /\
  (forall m, multiple m d -> x <= m -> round_up_general x d <= m).
Proof. apply round_up_general_ok. Qed.
Theorem round_up_pow2_exact_partial (x a : N) : power_of_two a -> x + a < 2 ^ 64 ->
  multiple (round_up_pow2 x a) a /\ x <= round_up_pow2 x a /\
  (forall m, multiple m a -> x <= m -> round_up_pow2 x a <= m).
Proof. intros P H. apply round_up_pow2_ok; [exact P|lia|exact H]. Qed.
Theorem is_power_of_two_exact (x : N) : is_power_of_two x = true <-> power_of_two x.
Proof. apply is_power_of_two_ok. Qed.
Example helper_case :
  floor_log2 7 = 2 /\ ceil_log2 7 = 3 /\ ceil_div 7 3 = Ok 3 /\ round_up_general 7 3 = 9 /\ round_up_pow2 70 64 = 128 /\ is_power_of_two 10 = false.
Proof. vm_compute. auto 10. Qed.

(** ** What does not hold *)
(** With 64-bit ids and 2^40 rows the list size is cut to 32 bits and ends below the
    number of results. *)
Theorem effort_64_refuted :
  exists total i matched i', given i /\ 0 < matched < total /\ prefilter_plan total i matched = Ok (Graph i') /\ ef i' < topk i'.
Proof.
  exists (2 ^ 40), {| topk := 3221225472; ef := 3221225472 |}, (3 * 2 ^ 38), {| topk := 3221225472; ef := 2147483648 |}.
  split; [split; cbn; lia|]. split; [lia|]. split; [vm_compute; reflexivity|]. cbn. lia.
Qed.
(** For one result the list may be too small to expect a matching row in it (the search
    then falls back to brute force). *)
Theorem effort_enough_one_refuted :
  exists total i matched i', given i /\ matched <= total < 2 ^ 32 /\ prefilter_plan total i matched = Ok (Graph i') /\
    ef i' <> total /\ ef i' * matched < topk i * total.
Proof.
  exists 1000, {| topk := 1; ef := 1 |}, 510, {| topk := 1; ef := 1 |}.
  split; [split; cbn; lia|]. split; [lia|]. split; [vm_compute; reflexivity|]. cbn. lia.
Qed.
(** The adjustment alone, without the brute-force test before it, returns a list smaller
    than the number of results, and its sum wraps. *)
Theorem adjust_alone_refuted :
  (exists total i matched i', given i /\ 0 < matched < total /\ total < 2 ^ 32 /\ adjust total i matched = Ok i' /\ ef i' < topk i') /\
  (exists total k matched e, 0 < matched < total /\ k < total < 2 ^ 32 /\ expected_ef total k matched = Ok e /\ e * matched < k * total).
Proof.
  split.
  - exists 10, {| topk := 20; ef := 30 |}, 5, {| topk := 20; ef := 10 |}.
    split; [split; cbn; lia|]. split; [lia|]. split; [lia|]. split; [vm_compute; reflexivity|]. cbn. lia.
  - exists (2 ^ 32 - 1), (2 ^ 32 - 2), 1, 9223372017527422976.
    split; [lia|]. split; [lia|]. split; [vm_compute; reflexivity|]. lia.
Qed.
Theorem ceil_div_refuted : exists x d q, 0 < d < 2 ^ 64 /\ x < 2 ^ 64 /\ ceil_div x d = Ok q /\ q * d < x.
Proof. exists (2 ^ 64 - 1), 10, 0. split; [lia|]. split; [lia|]. split; [vm_compute; reflexivity|]. lia. Qed.

Print Assumptions validate_exact.
Print Assumptions effort_valid_partial.
Print Assumptions effort_enough.
Print Assumptions view_effort_valid_partial.
Print Assumptions floor_log2_exact.
Print Assumptions ceil_log2_exact.
Print Assumptions ceil_div_exact_partial.
Print Assumptions round_up_exact_partial.
Print Assumptions round_up_pow2_exact_partial.
Print Assumptions is_power_of_two_exact.
Print Assumptions effort_64_refuted.
Print Assumptions effort_enough_one_refuted.
Print Assumptions adjust_alone_refuted.
Print Assumptions ceil_div_refuted.
