(** Properties C33 and C34: the number of available vectors and the slots of
    the vector storage. *)
From Verif Require Import StoreSpec StoreProofs.
Local Open Scope N_scope.

(** The storage behaves as the table: every operation returns the slot the
    table reports (or -1), a slot is valid exactly when it is live, and a live
    slot contains the bytes last written to it. *)
Theorem storage_is_table : forall w isz cap a fill ops, sizes_ok w isz cap a -> Forall (st_op_ok isz cap a) ops ->
  exists s, st_run w (st_init isz cap fill (2 ^ a)) ops = Ok (map (id_of w) (fst (tab_run cap (repeat fill (N.to_nat isz)) [] ops)), s)
    /\ forall id, id < cap ->
         let t := snd (tab_run cap (repeat fill (N.to_nat isz)) [] ops) in
         st_valid s id = Ok (live t id) /\ forall b, nth_error t (N.to_nat id) = Some (Live b) -> st_get s id = Ok b.
Proof.
  intros w isz cap a fill ops SZ F. destruct (run_ok w isz cap a fill SZ ops _ [] (init_inv w isz cap a fill SZ) F) as (s & E & I).
  exists s. split; [exact E|]. intros id H t. split; [now apply (valid_ok w isz cap a fill SZ)|]. intros b Hb. now apply (get_ok w isz cap a fill SZ s t).
Qed.
Print Assumptions storage_is_table.

(** No slot is handed out twice, and none beyond the capacity. *)
Theorem storage_slots_distinct : forall w isz cap a fill ops rs s, sizes_ok w isz cap a -> Forall (st_op_ok isz cap a) ops ->
  st_run w (st_init isz cap fill (2 ^ a)) ops = Ok (rs, s) ->
  NoDup (handed_out w ops rs) /\ forall id, In id (handed_out w ops rs) -> id < cap.
Proof.
  intros w isz cap a fill ops rs s SZ F E. destruct (run_ok w isz cap a fill SZ ops _ [] (init_inv w isz cap a fill SZ) F) as (s' & E' & _).
  rewrite E in E'. injection E' as -> _. destruct (handed_range w isz cap a fill SZ ops []) as [ND R]; [cbn; lia|]. split; [exact ND|].
  intros id H. apply R in H. lia.
Qed.
Print Assumptions storage_slots_distinct.

(** Nine slots, so that the bitmap has two bytes; the ninth is reserved, a
    removal, a refused update, a refused insertion and a reload. *)
Definition ex_item (x : N) : bytes := [x; x + 1; x + 2].
Definition ex_ops : list st_op :=
  map (fun x => Insert (ex_item x)) [10; 20; 30; 40; 50; 60; 70; 80] ++
  [Reserve; Remove 7; Update 7 (ex_item 1); Update 8 (ex_item 90); Insert (ex_item 2); Reload (repeat 255 (N.to_nat 64)); Remove 7].
Example storage_example : sizes_ok 32 3 9 6 /\ Forall (st_op_ok 3 9 6) ex_ops
  /\ match st_run 32 (st_init 3 9 0 64) ex_ops with
     | Ok (rs, s) => rs = [0; 1; 2; 3; 4; 5; 6; 7; 8; 7; no_id 32; 8; no_id 32; no_id 32; no_id 32]
                     /\ st_get s 8 = Ok (ex_item 90) /\ st_get s 3 = Ok (ex_item 40) /\ st_valid s 7 = Ok false /\ st_valid s 8 = Ok true
     | _ => False end.
Proof.
  split; [vm_compute; repeat split; discriminate|]. split; [|vm_compute; repeat split].
  apply Forall_forall. intros o Ho. cbn in Ho. repeat (destruct Ho as [<-|Ho]; [vm_compute; auto|]). destruct Ho.
Qed.

(** Ids are not checked: the id -1 that a refused operation returned makes the
    next call read outside the bitmap. *)
Theorem storage_bad_id_refuted : exists s id, st_insert 32 (st_init 4 0 0 64) [1; 2; 3; 4] = Ok (id, s) /\ st_remove 32 s id = OutOfBounds.
Proof.
  exists (st_init 4 0 0 64), (no_id 32). split; [reflexivity|]. unfold st_remove, st_valid.
  rewrite aget_out; [reflexivity|]. assert (L : st_bitmap (st_init 4 0 0 64) = []) by reflexivity. rewrite L. discriminate.
Qed.
Print Assumptions storage_bad_id_refuted.

(** ** Available vectors *)
(** For a RawSpace the count is right as long as no insertion was refused and
    no slot was removed twice. *)
Theorem raw_space_available_partial : forall w isz cap ops, sizes_ok w isz cap 6 ->
  Forall (fun o => st_op_ok isz cap 6 (as_st o)) ops -> along step_removes_live cap [] ops -> along (step_has_room cap) cap [] ops ->
  exists sp, sp_run (raw_step w) (sp_new isz cap) ops = Ok sp
    /\ sp_available w sp = available (snd (tab_run cap [] [] (map as_st ops))).
Proof.
  intros w isz cap ops SZ F A1 A2. destruct (raw_run_ok w isz cap SZ ops _ [] (sp_new_inv w isz cap SZ) F A1 A2) as (sp & E & I).
  exists sp. split; [assumption|]. now apply (available_ok w isz cap SZ).
Qed.
Print Assumptions raw_space_available_partial.

(** An SQ8Space also stays right when insertions are refused. *)
Theorem sq8_space_available_partial : forall w isz cap ops, sizes_ok w isz cap 6 ->
  Forall (fun o => st_op_ok isz cap 6 (as_st o)) ops -> along step_removes_live cap [] ops ->
  exists sp, sp_run (sq8_step w) (sp_new isz cap) ops = Ok sp
    /\ sp_available w sp = available (snd (tab_run cap [] [] (map as_st ops))).
Proof.
  intros w isz cap ops SZ F A1. destruct (sq8_run_ok w isz cap SZ ops _ [] (sp_new_inv w isz cap SZ) F A1) as (sp & E & I).
  exists sp. split; [assumption|]. now apply (available_ok w isz cap SZ).
Qed.
Print Assumptions sq8_space_available_partial.
Definition ex_sp_ops : list sp_op := [SpInsert (ex_item 1); SpInsert (ex_item 2); SpRemove 0; SpInsert (ex_item 3)].
Example space_example : sizes_ok 32 3 3 6 /\ Forall (fun o => st_op_ok 3 3 6 (as_st o)) ex_sp_ops
  /\ along step_removes_live 3 [] ex_sp_ops /\ along (step_has_room 3) 3 [] ex_sp_ops
  /\ available (snd (tab_run 3 [] [] (map as_st ex_sp_ops))) = 2.
Proof. split; [vm_compute; repeat split; discriminate|]. split; [repeat constructor|]. vm_compute. repeat split. Qed.

(** Removing the same slot twice makes the count wrong in both spaces, here
    2^32 - 1 for an empty space; inserting into a full RawSpace counts a vector
    that is not stored. *)
Theorem space_double_remove_refuted : exists isz cap ops sp, sizes_ok 32 isz cap 6
  /\ Forall (fun o => st_op_ok isz cap 6 (as_st o)) ops
  /\ sp_run (raw_step 32) (sp_new isz cap) ops = Ok sp /\ sp_run (sq8_step 32) (sp_new isz cap) ops = Ok sp
  /\ available (snd (tab_run cap [] [] (map as_st ops))) = 0 /\ sp_available 32 sp = 2 ^ 32 - 1.
Proof.
  exists 3, 1, [SpInsert (ex_item 1); SpRemove 0; SpRemove 0].
  destruct (sp_run (raw_step 32) (sp_new 3 1) [SpInsert (ex_item 1); SpRemove 0; SpRemove 0]) as [sp| | |] eqn:E; vm_compute in E; try discriminate.
  exists sp. split; [vm_compute; repeat split; discriminate|]. split; [repeat constructor|]. injection E as <-. vm_compute. repeat split.
Qed.
Print Assumptions space_double_remove_refuted.
Theorem raw_space_full_insert_refuted : exists isz cap ops sp, sizes_ok 32 isz cap 6
  /\ Forall (fun o => st_op_ok isz cap 6 (as_st o)) ops /\ along step_removes_live cap [] ops
  /\ sp_run (raw_step 32) (sp_new isz cap) ops = Ok sp
  /\ available (snd (tab_run cap [] [] (map as_st ops))) = 1 /\ sp_available 32 sp = 2.
Proof.
  exists 3, 1, [SpInsert (ex_item 1); SpInsert (ex_item 2)].
  destruct (sp_run (raw_step 32) (sp_new 3 1) [SpInsert (ex_item 1); SpInsert (ex_item 2)]) as [sp| | |] eqn:E; vm_compute in E; try discriminate.
  exists sp. split; [vm_compute; repeat split; discriminate|]. split; [repeat constructor|]. injection E as <-. vm_compute. repeat split.
Qed.
Print Assumptions raw_space_full_insert_refuted.
