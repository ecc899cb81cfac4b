(** C68: the fused graph has exactly the links of both graphs. *)
From Verif Require Export FusionSpec.
From Verif Require Import FusionProofs NsgProofs.
Import ListNotations.

(** Fusing never leaves the tables; the neighbours of each vector are exactly
    those of either graph; each final row has room for them, and the width is
    at most twice the given one and no wider than some row needs. *)
Theorem fusion_unites : forall R n g1 g2, table n R g1 -> table n R g2 ->
  exists w g, fuse R n g1 g2 = Ok (w, g) /\ table n w g /\ w <= 2 * R
    /\ (forall u v, adj g u v <-> adj g1 u v \/ adj g2 u v)
    /\ (w = 0 \/ exists row, In row g /\ ~ In kEmptyId row).
Proof.
  intros R n g1 g2 T1 T2. pose proof (fuse_eq R n g1 g2 T1 T2) as E. do 2 eexists. split; [exact E|].
  assert (Lf : length (fused_rows g1 g2) = N.to_nat n).
  { destruct T1 as (L1 & _), T2 as (L2 & _). unfold fused_rows. rewrite map_length, combine_length. lia. }
  assert (Hrow : forall i row, nth_error (fused_rows g1 g2) i = Some row -> length row <= 2 * R /\ ~ In kEmptyId row).
  { intros i row Hi. assert (Hl : i < N.to_nat n) by (rewrite <- Lf; apply nth_error_Some; congruence).
    destruct (table_rows n R g1 g2 i T1 T2) as [(r1 & r2 & A & B & La & Lb)|(A & _)].
    - rewrite (fused_rows_nth g1 g2 i r1 r2 A B) in Hi. inversion Hi; subst row.
      split; [|apply fused_no_empty].
      destruct (fuse_row_eq R g1 g2 (N.of_nat i) r1 r2) as (_ & H); rewrite ?Nnat.Nat2N.id; auto.
    - apply nth_error_None in A. destruct T1 as (L1 & _). lia. }
  split; [|split; [|split]].
  - split; [rewrite map_length; exact Lf|]. apply Forall_map, Forall_forall. intros row _.
    unfold pad. rewrite firstn_length, app_length, repeat_length. lia.
  - unfold max_edge. destruct (fold_max_in (map (@length N) (fused_rows g1 g2)) 0) as [H|H].
    + rewrite H. lia.
    + apply in_map_iff in H. destruct H as (row & H & Hin). rewrite <- H. apply In_nth_error in Hin. destruct Hin as (i & Hi).
      apply (Hrow i row Hi).
  - intros u v. rewrite !adj_nbrs.
    destruct (table_rows n R g1 g2 (N.to_nat u) T1 T2) as [(r1 & r2 & A & B & _)|(A & B)].
    + destruct (fused_row_final R n g1 g2 _ _ _ r1 r2 T1 T2 E A B) as (row & Er & En & _). rewrite A, B, Er.
      split.
      * intros (row' & H & Hin). inversion H; subst row'. rewrite En in Hin. unfold fused in Hin.
        rewrite extras_in in Hin. destruct Hin as [Hin|Hin]; [left; exists r1|right; exists r2]; auto.
      * intros [(row' & H & Hin)|(row' & H & Hin)]; inversion H; subst row'; exists row; (split; [reflexivity|]);
          rewrite En; unfold fused; rewrite extras_in; auto.
    + rewrite A, B. split.
      * intros (row & H & _). exfalso. apply nth_error_None in A. destruct T1 as (L1 & _).
        assert (N.to_nat u < length (fused_rows g1 g2)) by (rewrite <- (map_length (pad (max_edge (fused_rows g1 g2)))); apply nth_error_Some; congruence).
        lia.
      * intros [(row & H & _)|(row & H & _)]; discriminate H.
  - unfold max_edge. destruct (fold_max_in (map (@length N) (fused_rows g1 g2)) 0) as [H|H]; [left; exact H|right].
    fold (max_edge (fused_rows g1 g2)) in H |- *. apply in_map_iff in H. destruct H as (row & H & Hin).
    exists (pad (max_edge (fused_rows g1 g2)) row). split; [apply in_map; exact Hin|].
    apply In_nth_error in Hin. destruct Hin as (i & Hi). rewrite <- H. unfold pad. rewrite firstn_app, Nat.sub_diag, firstn_all, app_nil_r.
    apply (Hrow i row Hi).
Qed.

(** Two rows of three and two of its slots; vector 1 has neighbours only in
    the second graph. *)
Definition ex1 : graph := [[1; 2; kEmptyId]; [kEmptyId; kEmptyId; kEmptyId]; [0; kEmptyId; kEmptyId]]%N.
Definition ex2 : graph := [[2; kEmptyId; kEmptyId]; [2; 0; kEmptyId]; [1; 0; kEmptyId]]%N.
Lemma ex_tables : table 3 3 ex1 /\ table 3 3 ex2.
Proof. split; (split; [reflexivity|repeat constructor]). Qed.
Example fusion_unites_example :
  fuse 3 3 ex1 ex2 = Ok (2, [[1; 2]; [2; 0]; [0; 1]]%N) /\ adj ex1 0 1 /\ ~ adj ex2 0 1 /\ adj ex2 1 2 /\ ~ adj ex1 1 2.
Proof.
  split; [reflexivity|]. rewrite !adj_nbrs. repeat split.
  - eexists. split; [reflexivity|]. cbn. auto.
  - intros (row & E & H). cbn in E. inversion E; subst row. cbn in H. destruct H as [H|[]]. discriminate H.
  - eexists. split; [reflexivity|]. cbn. auto.
  - intros (row & E & H). cbn in E. inversion E; subst row. cbn in H. exact H.
Qed.
Print Assumptions fusion_unites.

(** No neighbour is listed twice, unless the first graph lists it twice. *)
Theorem fusion_distinct : forall R n g1 g2 w g, table n R g1 -> table n R g2 -> distinct g1 ->
  fuse R n g1 g2 = Ok (w, g) -> distinct g.
Proof.
  intros R n g1 g2 w g T1 T2 D E. rewrite (fuse_eq R n g1 g2 T1 T2) in E. inversion E; subst w g.
  apply Forall_forall. intros row H. apply In_nth_error in H. destruct H as (i & Hi).
  destruct (table_rows n R g1 g2 i T1 T2) as [(r1 & r2 & A & B & _)|(A & B)].
  - destruct (fused_row_final R n g1 g2 _ _ i r1 r2 T1 T2 (fuse_eq R n g1 g2 T1 T2) A B) as (row' & Er & En & _).
    rewrite Hi in Er. inversion Er; subst row'. rewrite En. apply extras_nodup.
    apply (proj1 (Forall_forall _ _) D). eapply nth_error_In; eauto.
  - exfalso. apply nth_error_None in A. assert (i < length (fused_rows g1 g2)) by (rewrite <- (map_length (pad (max_edge (fused_rows g1 g2)))); apply nth_error_Some; congruence).
    unfold fused_rows in H. rewrite map_length, combine_length in H. lia.
Qed.
Example fusion_distinct_example : distinct ex1 /\ fuse 3 3 ex1 ex2 = Ok (2, [[1; 2]; [2; 0]; [0; 1]]%N).
Proof.
  split; [|reflexivity]. repeat constructor; cbn; intuition discriminate.
Qed.
Print Assumptions fusion_distinct.

(** Whatever can be reached in either graph can be reached in the fused one. *)
Theorem fusion_keeps_reachable : forall R n g1 g2 w g u v, table n R g1 -> table n R g2 ->
  fuse R n g1 g2 = Ok (w, g) -> linked g1 u v \/ linked g2 u v -> linked g u v.
Proof.
  intros R n g1 g2 w g u v T1 T2 E H.
  destruct (fusion_unites R n g1 g2 T1 T2) as (w' & g' & E' & _ & _ & U & _). rewrite E in E'. inversion E'; subst w' g'.
  destruct H as [H|H]; (induction H as [|a b _ IH Hab]; [constructor|]; eapply linked_step; [exact IH|apply U; auto]).
Qed.
Example fusion_keeps_reachable_example : linked ex2 1 2 /\ ~ linked ex1 1 2.
Proof.
  split.
  - eapply linked_step; [constructor|]. apply adj_nbrs. eexists. split; [reflexivity|]. cbn. auto.
  - assert (G : forall x, linked ex1 1 x -> x = 1%N).
    { intros x H. induction H as [|a b _ -> Hab]; [reflexivity|]. apply adj_nbrs in Hab.
      destruct Hab as (row & Er & Hin). cbn in Er. inversion Er; subst row. destruct Hin. }
    intros H. apply G in H. discriminate H.
Qed.
Print Assumptions fusion_keeps_reachable.

(** The entry points: without overlays all entry points of both graphs are
    kept; an overlay is never lost when only one graph has one. *)
Theorem fusion_entry_points : forall (O : Type) (o1 o2 : option O) eps1 eps2,
  (o1 = None -> o2 = None -> forall x, In x (snd (fuse_entry o1 o2 eps1 eps2)) <-> In x eps1 \/ In x eps2)
  /\ (forall o, (o1 = Some o /\ o2 = None \/ o1 = None /\ o2 = Some o) -> fst (fuse_entry o1 o2 eps1 eps2) = Some o).
Proof.
  intros O o1 o2 eps1 eps2. split.
  - intros -> -> x. cbn. apply in_app_iff.
  - intros o [(-> & ->)|(-> & ->)]; reflexivity.
Qed.
Example fusion_entry_points_example : fuse_entry (None : option nat) (Some 7) [] [3%N] = (Some 7, []).
Proof. reflexivity. Qed.
Print Assumptions fusion_entry_points.
