(** Property C17: metadata filters answered from the index. *)
From Coq Require Import String.
From Verif Require Import ScalarDataSpec ScalarDataProofs FilterSpec StorageProofs StorageQueryProofs StorageProps MatcherProofs.
From Verif Require Import MatcherSpec.

(** Every answer of the executor agrees with evaluating the filter on the
    stored rows: match, the blocked bitset with its count, and eval_offsets.
    Filters that do not take the index path need no condition.  Missing from
    the full claim: the operands and stored values [index_safe] excludes, and
    field names that are not separated. *)
Theorem matcher_exact_partial : forall fields ops s f n,
  reached fields ops s ->
  (forall id, is_valid s id = true -> (id < N.of_nat n)%N) -> (N.of_nat n <= 2 ^ 32)%N ->
  (forall c, single_condition f c -> cond_values_ok c /\ (In (field c) fields -> fields_separated fields /\ index_safe s c)) ->
  exists x, make_executor f s n = Ok x
  /\ (forall id, (id < N.of_nat n)%N -> exists b, match_id x id = Ok b /\ (b = true <-> accepted s f id))
  /\ (exists blocked ids, build_blocked x = Ok (blocked, length ids) /\ length blocked = n
      /\ (forall i, i < n -> exists b, nth_error blocked i = Some b /\ (b = false <-> accepted s f (N.of_nat i)))
      /\ NoDup ids /\ forall id, In id ids <-> (id < N.of_nat n)%N /\ accepted s f id)
  /\ (forall ids, (forall id, In id ids -> (id < N.of_nat n)%N) ->
      exists bs, eval_offsets x ids = Ok bs /\ Forall2 (fun id b => b = true <-> accepted s f id) ids bs).
Proof.
  intros fields ops s f n RS Bound Small Safe. destruct (reached_represents _ _ _ RS) as [R F].
  set (t := snd (spec_run [] ops)) in *. clearbody t. subst fields.
  assert (B : forall id r, row t id = Some r -> (id < N.of_nat n)%N).
  { intros id r H. apply Bound. apply (valid_row s t R). apply row_In in H; [|apply R]. change id with (fst (id, r)). now apply in_map. }
  assert (A : forall id, answer t f id = true <-> accepted s f id).
  { intros id. unfold answer, accepted. rewrite orb_true_iff. split.
    - intros [H|H]; [now left|]. destruct (row t id) as [r|] eqn:E; [|discriminate]. right. exists r. split; [|assumption].
      now apply (live_row s t R).
    - intros [H|(r & H & E)]; [now left|]. right. apply (live_row s t R) in H. now rewrite H. }
  assert (SF : forall c, single_condition f c ->
    cond_values_ok c /\ (In (field c) (indexed_fields s) -> separated (indexed_fields s) /\ index_safe s c)).
  { intros c Hc. destruct (Safe c Hc) as [V I]. split; [assumption|]. intros Hi. destruct (I Hi). split; [now apply separated_iff|assumption]. }
  assert (MG : exists x, make_executor f s n = Ok x /\ good s t f n x) by (apply make_good; assumption).
  destruct MG as (x & E & G). exists x. split; [assumption|]. split; [|split].
  - intros id Hid. rewrite (match_good s t f n) by assumption. eauto.
  - rewrite (build_blocked_good s t f n) by assumption. exists (blocked_of t f (all_ids 0 n)), (List.filter (answer t f) (all_ids 0 n)).
    split; [reflexivity|]. split; [unfold blocked_of, all_ids; rewrite !map_length, seq_length; lia|]. split; [|split].
    + intros i Hi. exists (negb (answer t f (N.of_nat i))). split; [|rewrite negb_false_iff; apply A].
      unfold blocked_of, all_ids. rewrite map_map, Nat.sub_0_r.
      assert (Q : nth_error (seq 0 n) i = Some i)
        by (rewrite (nth_error_nth' _ 0) by (rewrite seq_length; lia); f_equal; apply seq_nth; lia).
      rewrite (map_nth_error _ _ _ Q). reflexivity.
    + apply NoDup_filter. unfold all_ids. apply FinFun.Injective_map_NoDup; [intros ? ? ?; lia|apply seq_NoDup].
    + intros id. rewrite filter_In, A. unfold all_ids. rewrite in_map_iff. split.
      * intros ((i & <- & Hi) & H). apply in_seq in Hi. split; [lia|assumption].
      * intros (Hi & H). split; [|assumption]. exists (N.to_nat id). split; [lia|]. apply in_seq. lia.
  - intros ids Hids. unfold eval_offsets. rewrite (blocked_for_good s t f n) by assumption. cbn [bind].
    eexists. split; [reflexivity|]. unfold blocked_of. rewrite map_map. clear - A.
    induction ids as [|id ids IH]; cbn [map]; constructor; [|assumption]. rewrite negb_involutive. apply A.
Qed.
Print Assumptions matcher_exact_partial.

(** Rows x = -5, -1.0, -0.0, 1.0 and "p" at ids 3, 5, 4, 9, 8 (range_ops of
    StorageProps.v): x > -1.0 is answered from the index. *)
Definition gt_minus_one : condition :=
  {| field := str "x"; op := GT; operand := VDouble 0xBFF0000000000000; operands := [] |}.
Example matcher_example : exists s x, reached [str "x"] range_ops s
  /\ index_safe s gt_minus_one /\ fields_separated [str "x"]
  /\ make_executor (Filter AND [gt_minus_one] []) s 10 = Ok x
  /\ indexed_ids x = Some [4; 9]%N
  /\ build_blocked x = Ok ([true; true; true; true; false; true; true; true; true; false], 2).
Proof.
  destruct (storage_refines_table [str "x"] _ range_ops_ok) as (s & E & L).
  assert (RS : reached [str "x"] range_ops s) by (split; [exact range_ops_ok|eauto]).
  assert (SP : fields_separated [str "x"]).
  { intros f g rest [<-|[]] [<-|[]] X. apply (f_equal (@length N)) in X. rewrite !app_length in X. cbn in X. lia. }
  assert (FIN : forallb (fun e => forallb (fun kv => match snd kv with
      VDouble b => match dbl_val b with DNum _ => true | _ => false end | _ => true end) (meta (snd e)))
      (snd (spec_run [] range_ops)) = true) by (vm_compute; reflexivity).
  assert (IS : index_safe s gt_minus_one).
  { intros v [[X _]|[_ ->]]; [discriminate X|]. split.
    - split; [vm_compute; discriminate|]. apply dbl_ltb_spec. vm_compute. reflexivity.
    - intros id r w H Hw. apply L in H. apply row_In in H;
        [|apply (rp_nodup s); apply (reached_represents _ _ _ RS)].
      rewrite forallb_forall in FIN. apply FIN in H. rewrite forallb_forall in H. apply H in Hw. cbn [snd] in Hw.
      cbn [stored_safe gt_minus_one op operand]. destruct w as [|b| |]; auto.
      destruct (dbl_val b) as [| |z]; try discriminate Hw. now exists z. }
  assert (W : match run (empty_storage [str "x"]) range_ops with
     | Ok (_, s) => match make_executor (Filter AND [gt_minus_one] []) s 10 with
                    | Ok x => Ok (indexed_ids x, build_blocked x) | _ => Throws end
     | _ => Throws
     end = Ok (Some [4; 9]%N, Ok ([true; true; true; true; false; true; true; true; true; false], 2)))
    by (vm_compute; reflexivity).
  rewrite E in W. destruct (make_executor (Filter AND [gt_minus_one] []) s 10) as [x| | |] eqn:M; try discriminate W.
  exists s, x. split; [exact RS|]. split; [exact IS|]. split; [exact SP|]. split; [exact M|]. split; congruence.
Qed.

(** The full claim is false.  The index and the evaluation of the same filter
    on the same row give different answers for: a row holding +infinity and
    x >= 1.0; a row holding the largest double and x > that double; a row
    holding -0.0 and x = 0.0; a row holding NaN and x >= 1.0; a row holding
    "x_y" and x = "x". *)
Definition disagree (o : filter_op) (v w : value) (by_index by_value : bool) : Prop :=
  exists ops s r x, let c := {| field := str "x"; op := o; operand := v; operands := [] |} in
    reached [str "x"] ops s /\ live s 1 r /\ meta r = [(str "x", w)]
    /\ make_executor (Filter AND [c] []) s 2 = Ok x
    /\ match_id x 1 = Ok by_index /\ evaluate (Filter AND [c] []) (meta r) = by_value.
Theorem matcher_exact_refuted :
  disagree GE (VDouble 0x3FF0000000000000) (VDouble 0x7FF0000000000000) false true
  /\ disagree GT (VDouble dbl_max) (VDouble dbl_max) true false
  /\ disagree EQ (VDouble 0) (VDouble 0x8000000000000000) false true
  /\ disagree GE (VDouble 0x3FF0000000000000) (VDouble 0x7FF8000000000000) false true
  /\ disagree EQ (VStr (str "x")) (VStr (str "x_y")) true false.
Proof.
  assert (W : forall o v w bi bv,
     let r := {| item_id := []; document := []; meta := [(str "x", w)] |} in
     let f := Filter AND [{| field := str "x"; op := o; operand := v; operands := [] |}] [] in
     storableb r = true ->
     match run (empty_storage [str "x"]) [Insert 1 r] with
     | Ok (_, s) => match make_executor f s 2 with Ok x => match_id x 1 | _ => Throws end
     | _ => Throws
     end = Ok bi -> evaluate f (meta r) = bv -> disagree o v w bi bv).
  { intros o v w bi bv r f Hw H1 H2. assert (OK : Forall op_ok [Insert 1 r]).
    { constructor; [|constructor]. split; [lia|]. now apply storableb_ok. }
    destruct (storage_refines_table [str "x"] _ OK) as (s & E & L). rewrite E in H1.
    destruct (make_executor f s 2) as [x| | |] eqn:M; try discriminate.
    exists [Insert 1 r], s, r, x. split; [split; [exact OK|eauto]|]. split; [apply L; reflexivity|].
    split; [reflexivity|]. auto. }
  repeat match goal with |- _ /\ _ => split end; apply W; vm_compute; reflexivity.
Qed.
Print Assumptions matcher_exact_refuted.
