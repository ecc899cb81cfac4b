(** Properties C23 and C24 of the bit sets and visited sets. *)
From Verif Require Import BitsetModel BitsetSpec BitsetProofs.
Local Open Scope N_scope.

(** C23, DynamicBitset *)
Theorem dynamic_bitset_is_a_set : forall n ops, Forall (op_below n) ops ->
  exists b, run_ops dynamic_step (db_new n) ops = Ok b /\ db_size b = n
    /\ forall p, p < n -> db_get b p = Ok (member ops p).
Proof. exact dynamic_lemma. Qed.
Print Assumptions dynamic_bitset_is_a_set.

Definition ex_dynamic_ops := [Add 63; Add 64; Fill; Del 64; Clear; Add 129; Add 0; Del 0; Add 65].
Example dynamic_bitset_example : Forall (op_below 130) ex_dynamic_ops
  /\ map (member ex_dynamic_ops) [0; 63; 64; 65; 129] = [false; false; false; true; true].
Proof. split; [repeat constructor|reflexivity]. Qed.

(** C23, EpochVisitedSet: [w] is the width of the tag type; the number of
    clears in [ops] is unbounded, so the epoch counter wraps. *)
Theorem epoch_set_is_a_set : forall w n ops, 0 < w -> Forall (fun o => op_below n o /\ no_del o) ops ->
  exists s, run_ops (epoch_step w) (es_new n) ops = Ok s
    /\ forall p, p < n -> es_get s p = Ok (member ops p).
Proof. exact epoch_lemma. Qed.
Print Assumptions epoch_set_is_a_set.

(** With two-bit tags four clears wrap the counter: an id added before them
    is absent, one added after them is present. *)
Definition ex_epoch_ops := [Add 3; Clear; Clear; Clear; Clear; Add 1].
Example epoch_set_example : Forall (fun o => op_below 4 o /\ no_del o) ex_epoch_ops
  /\ map (member ex_epoch_ops) [0; 1; 2; 3] = [false; true; false; false].
Proof. split; [repeat constructor|reflexivity]. Qed.

(** C23, SparseBitset: no declared size *)
Theorem sparse_bitset_is_a_set : forall ops,
  Forall (fun o => match o with Fill | Clear => False | _ => True end) ops ->
  exists b, run_ops sparse_step [] ops = Ok b /\ forall p, sb_get b p = member ops p.
Proof. intros ops F. destruct (sparse_lemma ops F) as (b & E & _ & G). eauto. Qed.
Print Assumptions sparse_bitset_is_a_set.

Example sparse_bitset_example :
  Forall (fun o => match o with Fill | Clear => False | _ => True end) [Add 18446744073709551615; Add 7; Add 7; Del 7]
  /\ map (member [Add 18446744073709551615; Add 7; Add 7; Del 7]) [7; 18446744073709551615] = [false; true].
Proof. split; [repeat constructor|reflexivity]. Qed.

(** C23, HierarchicalBitset: membership, and the smallest member is found,
    without reading past either array. *)
Theorem hierarchical_bitset_is_a_set : forall n ops, Forall (fun o => op_below n o /\ only_add o) ops ->
  exists b, run_ops hier_step (hb_new n) ops = Ok b
    /\ (forall p, p < n -> hb_get b p = Ok (member ops p))
    /\ exists r, find_first_set b = Ok r /\
       match r with
       | Some p => member ops p = true /\ forall q, member ops q = true -> p <= q
       | None => forall q, member ops q = false
       end.
Proof. exact hier_lemma. Qed.
Print Assumptions hierarchical_bitset_is_a_set.

Definition ex_hier_ops := [Add 40000; Add 33000; Add 32999].
Example hierarchical_bitset_example :
  Forall (fun o => op_below 40001 o /\ only_add o) ex_hier_ops
  /\ match run_ops hier_step (hb_new 40001) ex_hier_ops with
     | Ok b => find_first_set b = Ok (Some 32999) | _ => False end.
Proof. split; [repeat constructor|vm_compute; reflexivity]. Qed.

(** VisitedBitset (disk search): membership; test_and_set tells whether the id
    is new and then behaves as set; ids outside the declared size throw. *)
Theorem visited_bitset_is_a_set : forall n ops, Forall (fun o => op_below n o /\ no_del o) ops ->
  exists b, run_ops visited_step (vb_resize n) ops = Ok b
    /\ (forall p, p < n -> vb_test b p = Ok (member ops p)
        /\ exists b', vb_test_and_set b p = Ok (negb (member ops p), b') /\ vb_set b p = Ok b')
    /\ forall p, n <= p -> vb_test b p = Throws /\ vb_set b p = Throws /\ vb_test_and_set b p = Throws.
Proof. exact visited_lemma. Qed.
Print Assumptions visited_bitset_is_a_set.

Example visited_bitset_example :
  Forall (fun o => op_below 100 o /\ no_del o) [Add 64; Add 65; Clear; Add 99]
  /\ map (member [Add 64; Add 65; Clear; Add 99]) [64; 65; 99] = [false; false; true].
Proof. split; [repeat constructor|reflexivity]. Qed.

(** C24 for every table of 1 to 2^32 slots and all ids but the largest. *)
Theorem hash_set_is_a_set_partial : forall table_size ops, 0 < table_size <= 2 ^ 32 ->
  Forall (fun o => op_below 4294967295 o /\ no_del o) ops ->
  exists s, run_ops hash_step (hs_init table_size) ops = Ok s
    /\ forall p, p < 4294967295 -> hs_get s p = Ok (member ops p).
Proof. exact hash_lemma. Qed.
Print Assumptions hash_set_is_a_set_partial.

(** 0, 16 and 32 share a slot. *)
Example hash_set_example :
  Forall (fun o => op_below 4294967295 o /\ no_del o) [Add 5; Clear; Add 0; Add 16; Add 32; Add 16]
  /\ match run_ops hash_step (hs_init 16) [Add 5; Clear; Add 0; Add 16; Add 32; Add 16] with
     | Ok s => map (hs_get s) [0; 5; 16; 32; 48] = [Ok true; Ok false; Ok true; Ok true; Ok false] | _ => False end.
Proof. split; [repeat constructor|vm_compute; reflexivity]. Qed.

(** The table sizes chosen by the constructor qualify for up to 2^50 expected
    entries. *)
Theorem hash_set_constructor : forall size, size < 2 ^ 50 -> 0 < bucket_size size <= 2 ^ 32.
Proof.
  intros size H. unfold bucket_size. rewrite N.shiftl_1_l.
  assert (S : N.size size <= 50).
  { destruct (N.eq_dec size 0) as [->|Hn]; [cbn; lia|]. rewrite N.size_log2 by assumption.
    assert (N.log2 size < 50); [apply N.log2_lt_pow2; lia|lia]. }
  split; [apply N.neq_0_lt_0, N.pow_nonzero; lia|]. apply N.pow_le_mono_r; lia.
Qed.
Print Assumptions hash_set_constructor.
Example hash_set_constructor_example : bucket_size 40000 = 8192.
Proof. reflexivity. Qed.

(** C24 is false for the largest 32-bit id, which marks empty slots: it is
    reported present in an empty set. *)
Theorem hash_set_refuted : exists table_size p, 0 < table_size <= 2 ^ 32 /\ p < 2 ^ 32
  /\ member [] p = false /\ hs_get (hs_init table_size) p = Ok true.
Proof. exists 16, 4294967295. vm_compute. repeat split; congruence. Qed.
Print Assumptions hash_set_refuted.
