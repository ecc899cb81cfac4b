(** C63: a filtered search delivers the ids of its result list. *)
From Verif Require Import ResultIdsProofs.

(** 32-bit ids: whatever the caller's array held, a filtered search leaves in it exactly
    the nearest ids of its pool followed by the largest id, and returns how many there
    are.  Missing for the full claim: 64-bit ids ([wide_ids_refuted]). *)
Theorem narrow_ids_partial (pool : list N) (k : nat) (mem : bytes) :
  array 4 k mem -> row_ids pool ->
  exists mem', deliver_counted 4 pool k mem = Ok (Nat.min (length pool) k, mem') /\ delivered 4 k pool mem'.
Proof.
  intros A R. eexists. split; [apply counted_ok; [lia|exact A]|]. rewrite narrow_mem. now apply delivered_narrow.
Qed.

(** The same for a masked graph search, which finds its number of results by counting
    the entries that were set. *)
Theorem narrow_ids_recounted_partial (pool : list N) (k : nat) (mem : bytes) :
  array 4 k mem -> row_ids pool ->
  exists mem', deliver_recounted 4 pool k mem = Ok (Nat.min (length pool) k, mem') /\ delivered 4 k pool mem'.
Proof.
  intros A R. eexists. split; [|apply delivered_narrow; exact R].
  rewrite recounted_ok by (lia || exact A). cbv zeta. rewrite narrow_mem, count_narrow by exact R. reflexivity.
Qed.

(** 64-bit ids: every search with at least one result leaves a wrong array, although it
    returns the right number. *)
Theorem wide_ids_refuted (pool : list N) (k : nat) (mem : bytes) :
  array 8 k mem -> row_ids pool -> NoDup pool -> pool <> [] -> 0 < k ->
  exists mem', deliver_counted 8 pool k mem = Ok (Nat.min (length pool) k, mem') /\ ~ delivered 8 k pool mem'.
Proof.
  intros A R ND NE K. eexists. split; [apply counted_ok; [lia|exact A]|]. now apply wide_wrong.
Qed.

Example narrow_case :
  array 4 4 (repeat 7%N 16) /\ row_ids [300; 0; 7]%N /\
  deliver_recounted 4 [300; 0; 7]%N 4 (repeat 7%N 16) =
    Ok (3, [44; 1; 0; 0; 0; 0; 0; 0; 7; 0; 0; 0; 255; 255; 255; 255]%N).
Proof.
  split; [split; [reflexivity|]|split; [|vm_compute; reflexivity]]; repeat constructor.
Qed.
(** Ids 5 and 9 for 64-bit entries: the first entry reads 9 * 2^32 + 5, and the count
    that follows a masked search finds one result instead of two. *)
Example wide_case :
  array 8 2 (repeat 7%N 16) /\ row_ids [5; 9]%N /\ NoDup [5; 9]%N /\
  match deliver_recounted 8 [5; 9]%N 2 (repeat 7%N 16) with
  | Ok (n, m) => n = 1 /\ load 8 0 m = Ok 38654705669%N /\ load 8 1 m = Ok (id_max 8)
  | _ => False
  end.
Proof.
  split; [split; [reflexivity|repeat constructor]|]. split; [repeat constructor|].
  split; [|vm_compute; auto]. constructor; [intros [H|[]]; discriminate H|]. constructor; [intros []|constructor].
Qed.

Print Assumptions narrow_ids_partial.
Print Assumptions narrow_ids_recounted_partial.
Print Assumptions wide_ids_refuted.
