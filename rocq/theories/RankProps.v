(** Properties C31 and C32: exact ranking. *)
From Coq Require Import String.
From Verif Require Import ScalarDataSpec ScalarDataProofs FilterProofs StorageProofs StorageQueryProofs StorageProps MatcherProofs.
From Verif Require Import RankProofs.
From Verif Require Import RankSpec FilterModel StorageSpec.

(** ** A library that does what the standard says *)
Fixpoint place_by (before : candidate -> candidate -> bool) (c : candidate) (l : list candidate) : list candidate :=
  match l with [] => [c] | x :: l' => if before x c then x :: place_by before c l' else c :: l end.
Definition sort_by before (l : list candidate) : list candidate := fold_right (place_by before) [] l.
Definition farther (a b : candidate) : bool := cand_less b a.
Definition simple_lib : heap_lib := {|
  push_heap := sort_by farther;
  pop_heap := fun l => match l with [] => [] | front :: l' => sort_by farther l' ++ [front] end;
  sort_all := sort_by cand_less;
|}.
Lemma place_perm before c l : Permutation (c :: l) (place_by before c l).
Proof.
  induction l as [|x l IH]; cbn [place_by]; [reflexivity|]. destruct (before x c); [|reflexivity].
  rewrite perm_swap. now constructor.
Qed.
Lemma sort_perm before l : Permutation l (sort_by before l).
Proof. induction l as [|x l IH]; cbn [sort_by fold_right]; [constructor|]. rewrite <- place_perm. now constructor. Qed.
Lemma sort_sorted (before : candidate -> candidate -> bool) (le : candidate -> candidate -> Prop) l :
  (forall a b, before a b = true -> le a b) -> (forall a b, before a b = false -> le b a) -> (forall a b c, le a b -> le b c -> le a c) ->
  StronglySorted le (sort_by before l).
Proof.
  intros H1 H2 T. induction l as [|x l IH]; cbn [sort_by fold_right]; [constructor|]. fold (sort_by before l).
  induction IH as [|y m S IHm F]; cbn [place_by]; [repeat constructor|]. destruct (before y x) eqn:E.
  - constructor; [assumption|]. apply Forall_forall. intros z Hz. apply (Permutation_in z (Permutation_sym (place_perm before x m))) in Hz.
    destruct Hz as [<-|Hz]; [auto|]. rewrite Forall_forall in F. auto.
  - constructor; [now constructor|]. constructor; [auto|]. rewrite Forall_forall in *. intros z Hz. apply (T _ y); auto.
Qed.
Lemma sorted_pairs (le : candidate -> candidate -> Prop) l : StronglySorted le l ->
  forall i j a b, i < j -> nth_error l i = Some a -> nth_error l j = Some b -> le a b.
Proof.
  induction 1 as [|x l S IH F]; intros i j a b Hij Ha Hb; [destruct i; discriminate|].
  destruct j as [|j]; [lia|]. destruct i as [|i]; cbn in *.
  - injection Ha as <-. rewrite Forall_forall in F. apply F. eapply nth_error_In; eauto.
  - apply (IH i j); auto. lia.
Qed.
Lemma farther_heap l : heap (sort_by farther l).
Proof.
  assert (S : StronglySorted (fun a b => ~ closer a b) (sort_by farther l)).
  { apply sort_sorted; unfold farther.
    - intros a b H. apply cand_less_closer in H. now apply closer_not.
    - intros a b H. now apply cand_less_false.
    - intros a b c. apply not_closer_trans. }
  intros i a b Hi Ha Hb. apply (sorted_pairs _ _ S ((i - 1) / 2) i); auto. apply Nat.div_lt_upper_bound; lia.
Qed.
Example simple_lib_ok : heap_lib_ok simple_lib.
Proof.
  constructor; cbn [push_heap pop_heap sort_all simple_lib].
  - intros l c _. split; [apply sort_perm|apply farther_heap].
  - intros front l _. exists (sort_by farther l). split; [reflexivity|]. split; [apply sort_perm|apply farther_heap].
  - intros l. split; [apply sort_perm|]. apply sort_sorted.
    + intros a b H. apply cand_less_closer in H. now apply closer_not.
    + intros a b H. now apply cand_less_false.
    + intros a b c H1 H2. exact (not_closer_trans c b a H2 H1).
Qed.

(** ** C31 *)
(** Whatever the library does within the standard, the rerank of any candidate
    list returns the [topk] candidates with the smallest exact distances in
    increasing order, with these distances, and pads the rest. *)
Theorem rerank_exact : forall lib candidates dist topk, heap_lib_ok lib ->
  exists ids dists, rerank lib candidates dist topk = Ok (ids, dists) /\ reranked candidates dist topk ids dists.
Proof. intros lib candidates dist topk H. now apply rerank_lemma. Qed.
Print Assumptions rerank_exact.

Definition ex_dist (id : N) : Z := match id with 7%N => 40 | 3%N => 10 | 9%N => 40 | 5%N => -2 | 6%N => float_inf | _ => 0 end%Z.
Example rerank_example :
  rerank simple_lib [7; 3; 6; 9; 5]%N ex_dist 3 = Ok ([5; 3; 7]%N, [-2; 10; 40]%Z)
  /\ rerank simple_lib [3; 6]%N ex_dist 4 = Ok ([3; 6; kInvalidId; kInvalidId]%N, [10; float_inf; float_max; float_max]%Z).
Proof. split; vm_compute; reflexivity. Qed.

(** ** C32 *)
(** The brute-force filtered search returns the [topk] nearest of the rows
    that pass the filter, nearest first, and nothing else: with or without the
    metadata index.  Missing from the full claim: what C17 excludes
    ([index_safe], fields that are not separated), infinite distances, more
    than 2^31 ids, and the empty filter, which accepts every id even if its row
    was deleted. *)
Theorem brute_force_exact_partial : forall fields ops s f n dist topk,
  reached fields ops s ->
  (forall id, is_valid s id = true -> (id < N.of_nat n)%N) -> (N.of_nat n <= 2 ^ 31)%N ->
  (forall c, single_condition f c -> cond_values_ok c /\ (In (field c) fields -> fields_separated fields /\ index_safe s c)) ->
  (forall id, (id < N.of_nat n)%N -> (dist id <= float_max)%Z) -> 0 < topk ->
  exists ids, brute_force_search s n f dist topk = Ok ids
    /\ knn (fun id => (id < N.of_nat n)%N /\ accepted s f id) dist topk ids.
Proof.
  intros fields ops s f n dist topk RS Bound Small Safe Fin Hk. destruct (reached_represents _ _ _ RS) as [R F].
  set (t := snd (spec_run [] ops)) in *. clearbody t. subst fields.
  assert (B : forall id r, row t id = Some r -> (id < N.of_nat n)%N).
  { intros id r H. apply Bound. apply (valid_row s t R). apply row_In in H; [|apply R]. change id with (fst (id, r)). now apply in_map. }
  assert (SF : forall c, single_condition f c ->
    cond_values_ok c /\ (In (field c) (indexed_fields s) -> separated (indexed_fields s) /\ index_safe s c)).
  { intros c Hc. destruct (Safe c Hc) as [V I]. split; [assumption|]. intros Hi. destruct (I Hi). split; [now apply separated_iff|assumption]. }
  destruct (brute_force_good s t f n dist R B Small SF Fin topk Hk) as (ids & E & K). exists ids. split; [assumption|].
  now apply (knn_answer s t R).
Qed.
Print Assumptions brute_force_exact_partial.

(** The same through the materialized view: the view built from the storage
    over any field, used when the filter allows, or else the plain search.
    Missing as well: equality with NaN or a zero on the view's field. *)
Theorem view_brute_force_exact_partial : forall lib fields ops s f n dist topk target,
  heap_lib_ok lib -> reached fields ops s ->
  (forall id, is_valid s id = true -> (id < N.of_nat n)%N) -> (N.of_nat n <= 2 ^ 31)%N ->
  (forall c, single_condition f c -> cond_values_ok c /\ (In (field c) fields -> fields_separated fields /\ index_safe s c)) ->
  (forall c, has_condition c f -> field c = target -> condition_safe c) ->
  (forall id, (id < N.of_nat n)%N -> (dist id <= float_max)%Z) -> 0 < topk -> target <> [] ->
  exists view ids, rebuild_view s n target = Ok view
    /\ brute_force_dispatch lib view target s n f dist topk = Ok ids
    /\ knn (fun id => (id < N.of_nat n)%N /\ accepted s f id) dist topk ids.
Proof.
  intros lib fields ops s f n dist topk target LOK RS Bound Small Safe CS Fin Hk Ht. destruct (reached_represents _ _ _ RS) as [R F].
  set (t := snd (spec_run [] ops)) in *. clearbody t. subst fields.
  assert (B : forall id r, row t id = Some r -> (id < N.of_nat n)%N).
  { intros id r H. apply Bound. apply (valid_row s t R). apply row_In in H; [|apply R]. change id with (fst (id, r)). now apply in_map. }
  assert (SF : forall c, single_condition f c ->
    cond_values_ok c /\ (In (field c) (indexed_fields s) -> separated (indexed_fields s) /\ index_safe s c)).
  { intros c Hc. destruct (Safe c Hc) as [V I]. split; [assumption|]. intros Hi. destruct (I Hi). split; [now apply separated_iff|assumption]. }
  destruct (rebuild_good s t n R Small target Ht) as (view & E & V). exists view.
  destruct (brute_force_good s t f n dist R B Small SF Fin topk Hk) as (ids0 & E0 & K0).
  assert (D : exists ids, brute_force_dispatch lib view target s n f dist topk = Ok ids
    /\ knn (fun id => (id < N.of_nat n)%N /\ answer t f id = true) dist topk ids).
  { unfold brute_force_dispatch. destruct view as [ps|].
    - destruct (view_search_good s t f n dist R B Small SF Fin target Ht lib LOK topk Hk ps V CS) as (r & -> & Kr).
      cbn [bind]. destruct r as [ids|]; eauto.
    - cbn [view_search bind]. eauto. }
  destruct D as (ids & E1 & K1). exists ids. split; [assumption|]. split; [assumption|]. now apply (knn_answer s t R).
Qed.
Print Assumptions view_brute_force_exact_partial.

(** Six rows with fields c (the view's) and p; rows 1, 3 and 5 have c = "x",
    2 has c = "y", 4 has c = 7, and 6 none. *)
Definition rank_row (c : option value) (p : Z) : scalar_data :=
  {| item_id := []; document := []; meta := (match c with Some v => [(str "c", v)] | None => [] end) ++ [(str "p", VInt p)] |}.
Definition rank_ops : list StorageSpec.op :=
  [Insert 1 (rank_row (Some (VStr (str "x"))) 1); Insert 2 (rank_row (Some (VStr (str "y"))) 2);
   Insert 3 (rank_row (Some (VStr (str "x"))) 3); Insert 4 (rank_row (Some (VInt 7)) 4);
   Insert 5 (rank_row (Some (VStr (str "x"))) 5); Insert 6 (rank_row None 6)].
Definition cond (f : string) (o : filter_op) (v : value) (vs : list value) : condition :=
  {| field := str f; FilterModel.op := o; operand := v; operands := vs |}.
(** c in {"x", 7, "z"} and p >= 3: rows 3, 4 and 5. *)
Definition rank_filter : FilterModel.filter :=
  Filter AND [cond "c" IN_SET (VInt 0) [VStr (str "x"); VInt 7; VStr (str "z")]]
    [Filter AND [cond "p" GE (VInt 3) []] []].
Definition rank_dist (id : N) : Z := (100 - 10 * Z.of_N id)%Z.
Definition searched (ops : list StorageSpec.op) (n : nat) (f : FilterModel.filter) (dist : N -> Z) (topk : nat) : res (option nat * list N * list N) :=
  match run (empty_storage [str "c"]) ops with
  | Ok (_, s) =>
      let* view := rebuild_view s n (str "c") in
      let* ids := brute_force_dispatch simple_lib view (str "c") s n f dist topk in
      let* plain := brute_force_search s n f dist topk in
      Ok (match view with Some l => Some (List.length l) | None => None end, ids, plain)
  | _ => Throws
  end.
Lemma rank_ops_ok : Forall op_ok rank_ops.
Proof. repeat (constructor; [split; [reflexivity|]; apply storableb_ok; vm_compute; reflexivity|]). constructor. Qed.
Example view_example :
  Forall op_ok rank_ops
  /\ (forall c, has_condition c rank_filter -> field c = str "c" -> condition_safe c)
  /\ searched rank_ops 7 rank_filter rank_dist 2 = Ok (Some 3, [5; 4]%N, [5; 4]%N)
  /\ searched rank_ops 7 rank_filter rank_dist 5 = Ok (Some 3, [5; 4; 3; kInvalidId; kInvalidId]%N, [5; 4; 3; kInvalidId; kInvalidId]%N).
Proof.
  split; [apply rank_ops_ok|]. split; [|split; vm_compute; reflexivity].
  intros c H Hf. inversion H as [? ? ? Hc|? ? ? g Hg Hc]; subst.
  - destruct Hc as [<-|[]]. split; [split; [unfold value_ok, int64_range; cbn; lia|exact I]|]. cbn [cond operands].
    repeat (apply Forall_cons; [split; [unfold value_ok, int64_range, fits_u32; first [lia|vm_compute; reflexivity]|exact I]|]). apply Forall_nil.
  - destruct Hg as [<-|[]]. inversion Hc as [? ? ? Hc'|? ? ? g' Hg' Hc']; subst; [|destruct Hg'].
    destruct Hc' as [<-|[]]. discriminate Hf.
Qed.

(** ** Where the claim fails *)
(** A search of the rows: the answers of the dispatch and of the plain
    brute-force search, for a storage whose rows are [rows]. *)
Definition answers (ops : list StorageSpec.op) (n : nat) (f : FilterModel.filter) (dist : N -> Z) (topk : nat) (ids plain : list N) : Prop :=
  exists s view, reached [str "c"] ops s /\ (forall id, is_valid s id = true -> (id < N.of_nat n)%N)
    /\ rebuild_view s n (str "c") = Ok view /\ brute_force_dispatch simple_lib view (str "c") s n f dist topk = Ok ids
    /\ brute_force_search s n f dist topk = Ok plain.
Lemma answers_from ops n f dist topk k ids plain :
  Forall op_ok ops -> forallb (fun e => N.ltb (fst e) (N.of_nat n)) (snd (spec_run [] ops)) = true ->
  searched ops n f dist topk = Ok (k, ids, plain) -> answers ops n f dist topk ids plain.
Proof.
  intros OK Bd H. destruct (storage_refines_table [str "c"] ops OK) as (s & E & L). unfold searched in H. rewrite E in H.
  destruct (rebuild_view s n (str "c")) as [view| | |] eqn:Ev; try discriminate. cbn [bind] in H.
  destruct (brute_force_dispatch simple_lib view (str "c") s n f dist topk) as [i| | |] eqn:Ei; try discriminate. cbn [bind] in H.
  destruct (brute_force_search s n f dist topk) as [p| | |] eqn:Ep; try discriminate. cbn [bind] in H. injection H as _ <- <-.
  assert (RS : reached [str "c"] ops s) by (split; eauto). exists s, view. split; [assumption|].
  split; [|auto]. intros id Hv. destruct (reached_represents _ _ _ RS) as [R _]. apply (valid_row _ _ R) in Hv.
  apply in_map_iff in Hv as (e & <- & He). rewrite forallb_forall in Bd. apply Bd in He. lia.
Qed.
(** A row that passes the filter is dropped when its distance is infinite. *)
Theorem brute_force_infinite_refuted : exists ops n f dist ids plain, answers ops n f dist 4 ids plain
  /\ row (snd (spec_run [] ops)) 2 = Some (rank_row (Some (VStr (str "y"))) 2)
  /\ evaluate f (meta (rank_row (Some (VStr (str "y"))) 2)) = true
  /\ plain = [1; kInvalidId; kInvalidId; kInvalidId]%N.
Proof.
  exists [Insert 1 (rank_row (Some (VStr (str "x"))) 1); Insert 2 (rank_row (Some (VStr (str "y"))) 2)], 3,
    (Filter AND [cond "p" GE (VInt 1) []] []), (fun id => if N.eqb id 2 then float_inf else 0%Z).
  do 2 eexists. split; [eapply answers_from; [|vm_compute; reflexivity|vm_compute; reflexivity]|].
  - repeat (constructor; [split; [reflexivity|]; apply storableb_ok; vm_compute; reflexivity|]). constructor.
  - split; [reflexivity|]. split; reflexivity.
Qed.
Print Assumptions brute_force_infinite_refuted.
(** With the empty filter a deleted row is returned. *)
Theorem brute_force_deleted_refuted : exists ops n dist ids plain, answers ops n (Filter AND [] []) dist 2 ids plain
  /\ row (snd (spec_run [] ops)) 1 = None /\ plain = [1; 2]%N /\ ids = [1; 2]%N.
Proof.
  exists (rank_ops ++ [Remove 1; Remove 0]), 7, (fun id => if N.eqb id 0 then 9%Z else Z.of_N id).
  do 2 eexists. split; [eapply answers_from; [|vm_compute; reflexivity|vm_compute; reflexivity]|].
  - apply Forall_app. split; [apply rank_ops_ok|]. repeat constructor.
  - split; [reflexivity|]. split; reflexivity.
Qed.
Print Assumptions brute_force_deleted_refuted.
(** The view and the plain search disagree on NaN and on the two zeros: the row
    holding NaN fails c = NaN and c in {NaN, NaN}, but the view returns it,
    twice in the second case; the row holding -0.0 passes c = 0.0, but the view
    does not return it. *)
Definition nan : value := VDouble 0x7FF8000000000000.
Definition odd_ops : list StorageSpec.op :=
  [Insert 1 (rank_row (Some nan) 1); Insert 2 (rank_row (Some (VDouble 0x8000000000000000)) 2); Insert 3 (rank_row (Some (VInt 7)) 3)].
Definition nested (c : condition) : FilterModel.filter := Filter AND [] [Filter AND [c] []].
Theorem view_nan_zero_refuted :
  (evaluate (nested (cond "c" EQ nan [])) (meta (rank_row (Some nan) 1)) = false
   /\ answers odd_ops 4 (nested (cond "c" EQ nan [])) Z.of_N 2 [1; kInvalidId]%N [kInvalidId; kInvalidId])
  /\ (evaluate (nested (cond "c" IN_SET nan [nan; nan])) (meta (rank_row (Some nan) 1)) = false
   /\ answers odd_ops 4 (nested (cond "c" IN_SET nan [nan; nan])) Z.of_N 2 [1; 1]%N [kInvalidId; kInvalidId])
  /\ (evaluate (nested (cond "c" EQ (VDouble 0) [])) (meta (rank_row (Some (VDouble 0x8000000000000000)) 2)) = true
   /\ answers odd_ops 4 (nested (cond "c" EQ (VDouble 0) [])) Z.of_N 2 [kInvalidId; kInvalidId] [2; kInvalidId]%N).
Proof.
  assert (OK : Forall op_ok odd_ops).
  { repeat (constructor; [split; [reflexivity|]; apply storableb_ok; vm_compute; reflexivity|]). constructor. }
  split; [|split]; (split; [vm_compute; reflexivity|]; eapply answers_from; [exact OK|vm_compute; reflexivity|vm_compute; reflexivity]).
Qed.
Print Assumptions view_nan_zero_refuted.
