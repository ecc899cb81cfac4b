(** C70: lists of visited nodes are clean when handed out and private. *)
From Verif Require Import VisitedProofs.
Import ListNotations.

(** Whatever the memory held, for every number of lists created in advance
    and every interleaving of any number of searches, however often the lists
    are reused: a node counts as visited by a search exactly if that search
    marked it, and no list is shared. *)
Theorem visited_lists_exact : forall k n junk ops, history_ok n [] ops ->
  exists s, vrun n junk (vp_new k n junk) ops = Ok (s, right_answers [] ops) /\ separate s.
Proof.
  intros k n junk ops H. destruct (vrun_ok n junk ops [] _ (vp_new_ok k n junk) H) as (s & E & I). exists s. split; [exact E|].
  apply (vi_separate _ _ _ I).
Qed.
Print Assumptions visited_lists_exact.

(** Two searches at a time, then a third that gets a used list; the memory
    happened to hold the first tag. *)
Definition ex_visits : list vop :=
  [Take; Take; Reset 1; Mark 1 0; Reset 0; Seen 0 0; Mark 0 2; Seen 0 2; Seen 1 2; Release 0; Take; Reset 2; Seen 2 2; Mark 2 1; Seen 2 1; Seen 1 0; Release 1; Release 2]%N.
Example ex_visits_ok : history_ok 3 [] ex_visits.
Proof.
  cbn [history_ok ex_visits allowed]. unfold did_reset, gave_back, takes.
  repeat match goal with |- _ /\ _ => split end; cbn [In filter length]; try lia; try exact I; intuition (try discriminate; try lia).
Qed.
Example ex_visits_run : exists s, vrun 3 (fun _ _ => 1%N) (vp_new 1 3 (fun _ _ => 1%N)) ex_visits
  = Ok (s, [false; true; false; false; true; true]) /\ length (vp_lists s) = 2.
Proof. eexists. split; vm_compute; reflexivity. Qed.
