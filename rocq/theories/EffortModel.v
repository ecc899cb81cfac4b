(** Search effort: GraphHybridSearchJob (include/executor/jobs/graph_hybrid_search_job.hpp),
    MaterializedView (python/include/materialized_view.hpp) and the integer helpers of
    include/utils/math.hpp.

    double is the IEEE-754 binary64 of Flocq with rounding to nearest even (the release
    build uses -Ofast, which is left out). *)
From Coq Require Import ZArith List.
From Flocq Require Import IEEE754.BinarySingleNaN.
From Verif Require Export ScalarDataModel.

Definition f64_prec : Z := 53.
Definition f64_emax : Z := 1024.
Definition f64 : Type := binary_float f64_prec f64_emax.
Definition f64_prec_pos : FLX.Prec_gt_0 f64_prec := eq_refl.
Definition f64_prec_lt : Prec_lt_emax f64_prec f64_emax := eq_refl.
Definition f64_mul : f64 -> f64 -> f64 := @Bmult _ _ f64_prec_pos f64_prec_lt mode_NE.
Definition f64_div : f64 -> f64 -> f64 := @Bdiv _ _ f64_prec_pos f64_prec_lt mode_NE.
(** m * 2^e *)
Definition f64_lit (m e : Z) : f64 := @binary_normalize _ _ f64_prec_pos f64_prec_lt mode_NE m e false.
(** static_cast<double> of a size_t or uint32_t *)
Definition f64_of (n : N) : f64 := f64_lit (Z.of_N n) 0.
(** static_cast<size_t> of a double: undefined when the number without its fraction is
    not a size_t *)
Definition to_size (x : f64) : res N :=
  if is_finite x && (0 <=? Btrunc x)%Z && (Btrunc x <? 2 ^ 64)%Z then Ok (Z.to_N (Btrunc x)) else OutOfBounds.
(** size_t and uint32_t arithmetic *)
Definition u64 (n : N) : N := n mod 2 ^ 64.
Definition u32 (n : N) : N := n mod 2 ^ 32.

(** kHybridSearchBFTopkThreshold = 0.5f and kHybridSearchKnnBFFilterThreshold = 0.93f,
    graph_hybrid_search_job.hpp 42-43 (kBFTopkThreshold and kKnnBFFilterThreshold in
    materialized_view.hpp): the float nearest to 0.93 is 15602811 / 2^24 *)
Definition topk_threshold : f64 := f64_lit 1 (-1).
Definition filter_threshold : f64 := f64_lit 15602811 (-24).

(** SearchInfo, the two fields that matter here *)
Record info := { topk : N; ef : N }.

(** validate_search_info, graph_hybrid_search_job.hpp 97-104 *)
Definition validate (i : info) : res Datatypes.unit :=
  if (topk i =? 0)%N then Throws else if (ef i <? topk i)%N then Throws else Ok tt.

(** should_use_brute_force_search, graph_hybrid_search_job.hpp 186-207, and
    should_use_brute_force, materialized_view.hpp 522-541 *)
Definition brute_force (total : N) (i : info) (matched : N) : res bool :=
  if (matched =? 0)%N then Ok false
  else
    let* limit := to_size (f64_mul (f64_of total) topk_threshold) in
    if (limit <=? topk i)%N then Ok true
    else
      let filtered_out := u64 (total + 2 ^ 64 - matched) in
      let* limit := to_size (f64_mul (f64_of total) filter_threshold) in
      if (limit <=? filtered_out)%N then Ok true
      else
        let* limit := to_size (f64_mul (f64_of matched) topk_threshold) in
        Ok (limit <=? topk i)%N.

(** expected_ef with the 1.5 of adjust_ef_in_search_info, 167-172, and of
    adjust_search_info, materialized_view.hpp 555-558 *)
Definition expected_ef (total k matched : N) : res N :=
  let* expected := to_size (f64_div (f64_mul (f64_of k) (f64_of total)) (f64_of matched)) in
  Ok (u64 (expected + expected / 2)).

(** adjust_ef_in_search_info, graph_hybrid_search_job.hpp 158-184 *)
Definition adjust (total : N) (i : info) (matched : N) : res info :=
  if ((matched =? 0) || (total <=? matched))%N then Ok i
  else
    let* expected := expected_ef total (topk i) matched in
    Ok {| topk := topk i; ef := u32 (N.min total (N.max (ef i) expected)) |}.

(** The part of execute_bitset_prefilter, 335-394, that chooses how to search once the
    matching rows are counted: nothing matches, all rows match (search with the given
    parameters), brute force, or a graph search with the adjusted parameters *)
Inductive plan := Nothing | Plain (i : info) | Brute | Graph (i : info).
Definition prefilter_plan (total : N) (i : info) (matched : N) : res plan :=
  if (matched =? 0)%N then Ok Nothing
  else if (matched =? total)%N then Ok (Plain i)
  else
    let* b := brute_force total i matched in
    if b then Ok Brute else let* i' := adjust total i matched in Ok (Graph i').

(** adjust_search_info, materialized_view.hpp 543-562 *)
Definition view_adjust (i : info) (size matched : N) : res info :=
  let k := u32 (N.min (topk i) size) in
  let e := u32 (N.min size (N.max (ef i) k)) in
  if ((matched =? 0) || (matched =? size))%N then Ok {| topk := k; ef := e |}
  else
    let* expected := expected_ef size k matched in
    Ok {| topk := k; ef := u32 (N.min size (N.max e expected)) |}.
(** The same choice in a partition of the view, materialized_view.hpp 888 and 681-751 (the
    cases without a search job or with brute force requested left out); [matched] are
    the rows of the partition that pass the rest of the filter *)
Definition view_plan (i : info) (size matched : N) : res plan :=
  let* local := view_adjust i size size in
  let* b := brute_force size local matched in
  if b then Ok Brute
  else if (N.min (topk local) matched =? 0)%N then Ok Nothing
  else let* i' := view_adjust local size matched in Ok (Graph i').

(** ** include/utils/math.hpp, for size_t *)
(** floor_log2, 37-75 (std::bit_width) *)
Definition floor_log2 (x : N) : N := if (x =? 0)%N then 0 else N.size x - 1.
(** ceil_log2, 86-96 *)
Definition ceil_log2 (x : N) : N := if (x <=? 1)%N then 0 else floor_log2 (x - 1) + 1.
(** ceil_div, 115-121 *)
Definition ceil_div (x divisor : N) : res N :=
  if (divisor =? 0)%N then Throws else Ok (u64 (u64 (x + divisor) + 2 ^ 64 - 1) / divisor)%N.
(** round_up_general, 134-139 *)
Definition round_up_general (x divisor : N) : N :=
  if (divisor =? 0)%N then 0 else u64 (u64 (u64 (x + divisor) + 2 ^ 64 - 1) / divisor * divisor).
(** round_up_pow2, 150-155; ~(alignment - 1) in 64 bits *)
Definition round_up_pow2 (x alignment : N) : N :=
  N.land (u64 (u64 (x + alignment) + 2 ^ 64 - 1)) (N.ldiff (N.ones 64) (u64 (alignment + 2 ^ 64 - 1))).
(** is_power_of_two, 166-170 *)
Definition is_power_of_two (x : N) : bool := (0 <? x)%N && (N.land x (x - 1) =? 0)%N.
