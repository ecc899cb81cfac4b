(** Lemmas about graph files and merging. *)
From Verif Require Import GraphFileSpec.

Definition small32 (x : N) : Prop := (x < 2 ^ 32)%N.

(** ** Reading back what was written *)

Lemma read_u32_enc x r : small32 x -> read_u32 (le_enc 4 x ++ r) = Ok (x, r).
Proof.
  intros H. unfold read_u32. rewrite take_bytes_app by apply le_enc_length. now rewrite le_dec_enc.
Qed.
Lemma read_u64_enc x r : (x < 2 ^ 64)%N -> read_u64 (le_enc 8 x ++ r) = Ok (x, r).
Proof.
  intros H. unfold read_u64. rewrite take_bytes_app by apply le_enc_length. now rewrite le_dec_enc.
Qed.
Lemma read_u32s_enc l : Forall small32 l -> forall r, read_u32s (length l) (u32s l ++ r) = Ok (l, r).
Proof.
  induction 1 as [|x l Hx Hl IH]; intros r; [reflexivity|].
  cbn [length read_u32s u32s flat_map]. rewrite <- app_assoc, read_u32_enc by exact Hx. cbn [bind].
  fold (u32s l). now rewrite IH.
Qed.
Lemma u32s_length l : length (u32s l) = 4 * length l.
Proof. induction l as [|x l IH]; [reflexivity|]. cbn [u32s flat_map length]. rewrite app_length, le_enc_length. fold (u32s l). lia. Qed.

Lemma read_u32_inv inp x r : Forall is_byte inp -> read_u32 inp = Ok (x, r) ->
  inp = le_enc 4 x ++ r /\ small32 x /\ Forall is_byte r.
Proof.
  intros HB. unfold read_u32. destruct (take_bytes 4 inp) as [[b r']|] eqn:E; [|discriminate].
  intros [= <- <-]. apply take_bytes_Some in E. destruct E as [-> L].
  apply Forall_app in HB. destruct HB as [Hb Hr]. repeat split; [|apply (le_dec_bound b) in Hb; now rewrite L in Hb|exact Hr].
  rewrite <- L at 1. now rewrite le_enc_dec.
Qed.
Lemma read_u64_inv inp x r : Forall is_byte inp -> read_u64 inp = Ok (x, r) ->
  inp = le_enc 8 x ++ r /\ Forall is_byte r.
Proof.
  intros HB. unfold read_u64. destruct (take_bytes 8 inp) as [[b r']|] eqn:E; [|discriminate].
  intros [= <- <-]. apply take_bytes_Some in E. destruct E as [-> L].
  apply Forall_app in HB. destruct HB as [Hb Hr]. split; [|exact Hr].
  rewrite <- L at 1. now rewrite le_enc_dec.
Qed.
Lemma read_u32s_inv n : forall inp l r, Forall is_byte inp -> read_u32s n inp = Ok (l, r) ->
  inp = u32s l ++ r /\ length l = n /\ Forall small32 l /\ Forall is_byte r.
Proof.
  induction n as [|n IH]; intros inp l r HB; cbn [read_u32s].
  - intros [= <- <-]. repeat split; auto.
  - destruct (read_u32 inp) as [[x r1]| | |] eqn:E1; try discriminate. cbn [bind].
    destruct (read_u32s n r1) as [[xs r2]| | |] eqn:E2; try discriminate. cbn [bind]. intros [= <- <-].
    destruct (read_u32_inv _ _ _ HB E1) as (-> & Sx & HB1).
    destruct (IH _ _ _ HB1 E2) as (-> & L & Ss & HB2).
    split; [|split; [cbn [length]; now rewrite L|split; [now constructor|exact HB2]]].
    cbn [u32s flat_map]. now rewrite <- app_assoc.
Qed.

(** ** Records *)

Lemma degree_small adj : (N.of_nat (length adj) < 2 ^ 32)%N -> degree adj = N.of_nat (length adj).
Proof. intros H. unfold degree. now rewrite N.mod_small. Qed.
Lemma record_small adj : (N.of_nat (length adj) < 2 ^ 32)%N ->
  save_record adj = le_enc 4 (N.of_nat (length adj)) ++ u32s adj.
Proof. intros H. unfold save_record. rewrite degree_small by exact H. now rewrite Nat2N.id, firstn_all. Qed.
Lemma record_length adj : N.of_nat (length (save_record adj)) = (4 * (degree adj + 1))%N.
Proof.
  unfold save_record. rewrite app_length, le_enc_length, u32s_length, firstn_length.
  assert (N.to_nat (degree adj) <= length adj) by (unfold degree; pose proof (N.mod_le (N.of_nat (length adj)) (2 ^ 32)); lia).
  lia.
Qed.
Lemma index_size_length graph : index_size graph = N.of_nat (24 + length (flat_map save_record graph)).
Proof.
  unfold index_size.
  assert (G : forall rows a, fold_left (fun n adj => n + 4 * (degree adj + 1))%N rows a = (a + N.of_nat (length (flat_map save_record rows)))%N).
  { induction rows as [|adj rows IH]; intros a; cbn [fold_left flat_map]; [cbn; lia|].
    rewrite IH, app_length. pose proof (record_length adj). lia. }
  rewrite G. lia.
Qed.
Lemma graph_length graph R start frozen : length (save_graph graph R start frozen) = 24 + length (flat_map save_record graph).
Proof. unfold save_graph. rewrite !app_length, !le_enc_length. lia. Qed.

Definition row_sized (R : N) (adj : list N) : Prop := adj <> [] /\ (N.of_nat (length adj) <= R)%N /\ Forall small32 adj.

Lemma read_records_step fuel R inp : inp <> [] ->
  read_records (S fuel) R inp =
    if Nat.ltb (length inp) 4 then Throws
    else let* (k, r) := read_u32 inp in
         if N.eqb k 0 then Throws
         else if N.ltb R k then Throws
         else if N.ltb (N.of_nat (length r)) (4 * k) then Throws
         else let* (adj, r') := read_u32s (N.to_nat k) r in
              let* rest := read_records fuel R r' in Ok (adj :: rest).
Proof. now destruct inp. Qed.
Lemma read_records_enc R rows : (R < 2 ^ 32)%N -> Forall (row_sized R) rows ->
  forall fuel, length (flat_map save_record rows) <= fuel -> read_records fuel R (flat_map save_record rows) = Ok rows.
Proof.
  intros HR. induction 1 as [|adj rows (NE & LE & Sm) _ IH]; intros fuel HF.
  - cbn [flat_map]. now destruct fuel.
  - cbn [flat_map] in *. rewrite record_small in * by lia. rewrite <- app_assoc in *.
    rewrite !app_length, le_enc_length, u32s_length in HF.
    destruct fuel as [|fuel]; [lia|].
    set (inp := le_enc 4 _ ++ _).
    assert (L : length inp = 4 + 4 * length adj + length (flat_map save_record rows))
      by (subst inp; rewrite !app_length, le_enc_length, u32s_length; lia).
    rewrite read_records_step by (intros Z; rewrite Z in L; cbn in L; lia).
    destruct (Nat.ltb_spec (length inp) 4) as [?|_]; [lia|]. subst inp.
    rewrite read_u32_enc by (unfold small32; lia). cbn [bind].
    assert (0 < length adj) by (destruct adj; [congruence|cbn; lia]).
    destruct (N.eqb_spec (N.of_nat (length adj)) 0) as [?|_]; [lia|].
    destruct (N.ltb_spec R (N.of_nat (length adj))) as [?|_]; [lia|].
    rewrite app_length, u32s_length.
    destruct (N.ltb_spec (N.of_nat (4 * length adj + length (flat_map save_record rows))) (4 * N.of_nat (length adj))) as [?|_]; [lia|].
    rewrite Nat2N.id, read_u32s_enc by exact Sm. cbn [bind]. rewrite IH by lia. reflexivity.
Qed.
Lemma read_records_inv R : (R < 2 ^ 32)%N -> forall fuel inp rows, Forall is_byte inp -> length inp <= fuel ->
  read_records fuel R inp = Ok rows -> inp = flat_map save_record rows /\ Forall (row_sized R) rows.
Proof.
  intros HR. induction fuel as [|fuel IH]; intros inp rows HB HF.
  - destruct inp; [|cbn in HF; lia]. cbn [read_records]. intros [= <-]. now split.
  - change (read_records (S fuel) R inp = Ok rows -> inp = flat_map save_record rows /\ Forall (row_sized R) rows).
    assert (D : inp = [] \/ inp <> []) by (destruct inp; [now left|now right]).
    destruct D as [->|NE]; [intros [= <-]; now split|]. rewrite read_records_step by exact NE. clear NE.
    destruct (Nat.ltb_spec (length inp) 4) as [?|_]; [discriminate|].
    destruct (read_u32 inp) as [[k r]| | |] eqn:E1; try discriminate. cbn [bind].
    destruct (read_u32_inv _ _ _ HB E1) as (-> & Sk & HB1).
    destruct (N.eqb_spec k 0) as [?|NZ]; [discriminate|].
    destruct (N.ltb_spec R k) as [?|KR]; [discriminate|].
    destruct (N.ltb _ _); [discriminate|].
    destruct (read_u32s (N.to_nat k) r) as [[adj r']| | |] eqn:E2; try discriminate. cbn [bind].
    destruct (read_u32s_inv _ _ _ _ HB1 E2) as (-> & L & Sm & HB2).
    destruct (read_records fuel R r') as [rest| | |] eqn:E3; try discriminate. cbn [bind]. intros [= <-].
    rewrite !app_length, le_enc_length, u32s_length in HF.
    destruct (IH _ _ HB2 ltac:(lia) E3) as (-> & HR').
    split.
    + cbn [flat_map]. rewrite record_small by lia. rewrite <- app_assoc. replace (N.of_nat (length adj)) with k by lia. reflexivity.
    + constructor; [|exact HR']. split; [destruct adj; [cbn in L; lia|discriminate]|]. split; [lia|exact Sm].
Qed.

(** ** The reader's checks *)

Lemma row_fine_iff n i adj : row_fine n i adj = true <->
  forall v, In v adj -> (v < N.of_nat n)%N /\ v <> (N.of_nat i mod 2 ^ 32)%N.
Proof.
  unfold row_fine. rewrite forallb_forall. split; intros H v Hv; specialize (H v Hv).
  - apply andb_true_iff in H. destruct H as [H1 H2]. apply N.ltb_lt in H1. apply negb_true_iff, N.eqb_neq in H2. now split.
  - apply andb_true_iff. split; [now apply N.ltb_lt|]. now apply negb_true_iff, N.eqb_neq.
Qed.
Lemma rows_fine_iff n rows : forall i, rows_fine n i rows = true <->
  forall j adj, nth_error rows j = Some adj -> row_fine n (i + j) adj = true.
Proof.
  induction rows as [|adj rows IH]; intros i; cbn [rows_fine].
  - split; [intros _ [|j] adj; discriminate|reflexivity].
  - rewrite andb_true_iff, IH. split.
    + intros [H1 H2] [|j] a E; cbn in E.
      * injection E as <-. now rewrite Nat.add_0_r.
      * rewrite <- Nat.add_succ_comm. now apply H2.
    + intros H. split; [specialize (H 0 adj eq_refl); now rewrite Nat.add_0_r in H|].
      intros j a E. rewrite Nat.add_succ_comm. now apply (H (S j)).
Qed.

Lemma load_save g : navigable g -> (N.of_nat (length (gd_rows g)) <= 2 ^ 32)%N ->
  (N.of_nat (length (save_graph (gd_rows g) (gd_max_degree g) (gd_start g) 0)) < 2 ^ 64)%N ->
  load_graph (save_graph (gd_rows g) (gd_max_degree g) (gd_start g) 0) = Ok g.
Proof.
  destruct g as [rows R start]; intros [HR HS Hrow] HN HL; cbn [gd_rows gd_max_degree gd_start] in *.
  pose proof (graph_length rows R start 0) as GL. unfold load_graph.
  destruct (Nat.ltb_spec (length (save_graph rows R start 0)) 24) as [?|_]; [lia|].
  rewrite GL in *. clear GL. unfold save_graph.
  rewrite read_u64_enc by (rewrite index_size_length; exact HL). cbn [bind].
  rewrite read_u32_enc by (unfold small32; lia). cbn [bind].
  rewrite read_u32_enc by (unfold small32; lia). cbn [bind].
  rewrite read_u64_enc by lia. cbn [bind].
  rewrite index_size_length, N.eqb_refl. cbn [negb].
  destruct (N.eqb_spec R 0) as [?|_]; [lia|]. cbn [N.eqb negb].
  rewrite (read_records_enc R rows); [|lia| |lia].
  2:{ apply Forall_forall. intros adj Hin. apply In_nth_error in Hin. destruct Hin as [i Hi].
      destruct (Hrow i adj Hi) as (NE & LE & Hv). split; [exact NE|]. split; [exact LE|].
      apply Forall_forall. intros v Hin. unfold small32. destruct (Hv v Hin). lia. }
  cbn [bind]. destruct rows as [|r0 rows'] eqn:ER; [cbn in HS; lia|]. rewrite <- ER in *.
  replace (rows_fine (length rows) 0 rows) with true.
  2:{ symmetry. apply rows_fine_iff. intros j adj Hj. apply row_fine_iff. intros v Hv.
      destruct (Hrow j adj Hj) as (_ & _ & H). destruct (H v Hv) as [H1 H2]. split; [exact H1|].
      assert (j < length rows) by (apply nth_error_Some; congruence).
      cbn [Nat.add]. rewrite N.mod_small by lia. exact H2. }
  cbn [negb]. destruct (N.leb_spec (N.of_nat (length rows)) start) as [?|_]; [lia|]. reflexivity.
Qed.
Lemma load_inv file g : Forall is_byte file -> load_graph file = Ok g ->
  navigable g /\ file = save_graph (gd_rows g) (gd_max_degree g) (gd_start g) 0.
Proof.
  intros HB. unfold load_graph. destruct (Nat.ltb _ _); [discriminate|].
  destruct (read_u64 file) as [[expected r1]| | |] eqn:E1; try discriminate. cbn [bind].
  destruct (read_u32 r1) as [[R r2]| | |] eqn:E2; try discriminate. cbn [bind].
  destruct (read_u32 r2) as [[start r3]| | |] eqn:E3; try discriminate. cbn [bind].
  destruct (read_u64 r3) as [[frozen r4]| | |] eqn:E4; try discriminate. cbn [bind].
  destruct (N.eqb_spec (N.of_nat (length file)) expected) as [EX|?]; [|discriminate]. cbn [negb].
  destruct (N.eqb_spec R 0) as [?|RZ]; [discriminate|].
  destruct (N.eqb_spec frozen 0) as [->|?]; [|discriminate]. cbn [negb].
  destruct (read_u64_inv _ _ _ HB E1) as (-> & HB1).
  destruct (read_u32_inv _ _ _ HB1 E2) as (-> & SR & HB2).
  destruct (read_u32_inv _ _ _ HB2 E3) as (-> & SS & HB3).
  destruct (read_u64_inv _ _ _ HB3 E4) as (-> & HB4).
  destruct (read_records (length r4) R r4) as [rows| | |] eqn:E5; try discriminate. cbn [bind].
  destruct (read_records_inv R SR _ _ _ HB4 (le_n _) E5) as (-> & HRS).
  destruct rows as [|r0 rows'] eqn:ER; [discriminate|]. rewrite <- ER in *. clear r0 rows' ER.
  destruct (rows_fine (length rows) 0 rows) eqn:EF; [|discriminate]. cbn [negb].
  destruct (N.leb_spec (N.of_nat (length rows)) start) as [?|ST]; [discriminate|].
  intros [= <-]. split.
  - split; cbn [gd_rows gd_max_degree gd_start]; [unfold small32 in *; lia|exact ST|].
    intros i adj Hi. pose proof (proj1 (rows_fine_iff _ _ _) EF i adj Hi) as HF. rewrite row_fine_iff in HF.
    assert (HA : row_sized R adj) by (rewrite Forall_forall in HRS; apply HRS; eapply nth_error_In; eauto).
    destruct HA as (NE & LE & Sm). split; [exact NE|]. split; [exact LE|].
    intros v Hv. destruct (HF v Hv) as [H1 H2]. split; [exact H1|]. rewrite Forall_forall in Sm. specialize (Sm v Hv).
    unfold small32 in Sm. cbn [Nat.add] in H2. intros ->. apply H2. now rewrite N.mod_small.
  - cbn [gd_rows gd_max_degree gd_start]. unfold save_graph.
    rewrite index_size_length. f_equal. f_equal. rewrite !app_length, !le_enc_length in EX. lia.
Qed.

(** ** Merging *)

Section Merge.
Context (shuffle : N -> list N -> list N) (Hshuffle : forall g l, Permutation l (shuffle g l)).

(** Where the merge stands in shard [s] before node [gid]. *)
Definition stands (gid : N) (s : shard_graph) (sh : shard) : Prop :=
  exists c, sh = {| sh_map := sg_ids s; sh_cur := c; sh_in := Some (flat_map save_record (skipn c (sg_rows s))) |}
    /\ forall i a, nth_error (sg_ids s) i = Some a -> (i < c <-> (a < gid)%N).

Lemma sorted_nth l : StronglySorted N.lt l -> forall i j a b, i < j -> nth_error l i = Some a -> nth_error l j = Some b -> (a < b)%N.
Proof.
  induction 1 as [|x l HS IH HF]; intros i j a b L Ha Hb; [now destruct i|].
  destruct i as [|i], j as [|j]; try lia; cbn in Ha, Hb.
  - injection Ha as <-. rewrite Forall_forall in HF. apply HF. eapply nth_error_In; eauto.
  - apply (IH i j a b); [lia|exact Ha|exact Hb].
Qed.

Lemma add_neighbors_ok m gid : forall local nhood,
  (forall l, In l local -> (l < N.of_nat (length m))%N) -> NoDup nhood -> ~ In gid nhood ->
  exists nhood', add_neighbors m gid local nhood = Ok nhood' /\ NoDup nhood' /\ ~ In gid nhood'
    /\ forall b, In b nhood' <-> In b nhood \/ (b <> gid /\ exists l, In (N.of_nat l) local /\ nth_error m l = Some b).
Proof.
  induction local as [|l local IH]; intros nhood HL ND NI; cbn [add_neighbors].
  - exists nhood. split; [reflexivity|]. split; [exact ND|]. split; [exact NI|].
    intros b. split; [now left|]. intros [H|[_ [l [[] _]]]]. exact H.
  - assert (Hl : (l < N.of_nat (length m))%N) by (apply HL; now left).
    destruct (nth_error m (N.to_nat l)) as [g|] eqn:E; [|apply nth_error_None in E; lia].
    assert (HL' : forall l0, In l0 local -> (l0 < N.of_nat (length m))%N) by (intros; apply HL; now right).
    assert (Split : forall b, (exists l0, In (N.of_nat l0) (l :: local) /\ nth_error m l0 = Some b) <->
                     b = g \/ exists l0, In (N.of_nat l0) local /\ nth_error m l0 = Some b).
    { intros b. split.
      - intros [l0 [[->|H] H2]]; [left; rewrite Nat2N.id in E; congruence|right; eauto].
      - intros [->|[l0 [H1 H2]]]; [exists (N.to_nat l); rewrite N2Nat.id; split; [now left|exact E]|exists l0; split; [now right|exact H2]]. }
    destruct (N.eqb_spec g gid) as [->|NG].
    + destruct (IH nhood HL' ND NI) as (n' & E' & A & B & C). exists n'. split; [exact E'|]. split; [exact A|]. split; [exact B|].
      intros b. rewrite C, Split. intuition congruence.
    + destruct (existsb (N.eqb g) nhood) eqn:EX.
      * apply existsb_exists in EX. destruct EX as [g' [Hg Eg]]. apply N.eqb_eq in Eg. subst g'.
        destruct (IH nhood HL' ND NI) as (n' & E' & A & B & C). exists n'. split; [exact E'|]. split; [exact A|]. split; [exact B|].
        intros b. rewrite C, Split. intuition (subst; auto).
      * assert (NGin : ~ In g nhood) by (intros H; assert (existsb (N.eqb g) nhood = true) by (apply existsb_exists; exists g; split; [exact H|apply N.eqb_refl]); congruence).
        destruct (IH (nhood ++ [g])) as (n' & E' & A & B & C); [exact HL'| | |].
        { apply NoDup_rev in ND. rewrite <- (rev_involutive (nhood ++ [g])). apply NoDup_rev. rewrite rev_app_distr. cbn.
          constructor; [now rewrite <- in_rev|exact ND]. }
        { rewrite in_app_iff. cbn. intuition congruence. }
        exists n'. split; [exact E'|]. split; [exact A|]. split; [exact B|].
        intros b. rewrite C, Split, in_app_iff. cbn. intuition (subst; auto).
Qed.

Lemma read_neighbors_enc adj r : Forall small32 adj -> read_neighbors (N.of_nat (length adj)) (u32s adj ++ r) = (adj, Some r).
Proof.
  intros Sm. unfold read_neighbors. rewrite app_length, u32s_length.
  destruct (Nat.leb_spec (N.to_nat (4 * N.of_nat (length adj))) (4 * length adj + length r)) as [_|?]; [|lia].
  rewrite Nat2N.id. now rewrite read_u32s_enc.
Qed.

Lemma read_list_enc adj r : Forall small32 adj ->
  (if N.eqb (N.of_nat (length adj)) 0 then ([], Some (u32s adj ++ r)) else read_neighbors (N.of_nat (length adj)) (u32s adj ++ r)) = (adj, Some r).
Proof.
  intros Sm. destruct (N.eqb_spec (N.of_nat (length adj)) 0) as [Z|_]; [destruct adj; [reflexivity|cbn in Z; lia]|]. now rewrite read_neighbors_enc.
Qed.
Lemma skipn_nth {A} (l : list A) : forall c x, nth_error l c = Some x -> skipn c l = x :: skipn (S c) l.
Proof.
  induction l as [|y l IH]; intros [|c] x E; cbn in E; try discriminate.
  - now injection E as ->.
  - cbn [skipn]. now apply IH.
Qed.

Lemma merge_shard_ok s : shard_ok s -> forall gid sh nhood, stands gid s sh -> NoDup nhood -> ~ In gid nhood ->
  exists sh' nhood', merge_shard gid sh nhood = Ok (sh', nhood') /\ stands (gid + 1) s sh'
    /\ NoDup nhood' /\ ~ In gid nhood'
    /\ forall b, In b nhood' <-> In b nhood \/ (b <> gid /\ gives [s] gid b).
Proof.
  intros OK gid sh nhood (c & -> & Pos) ND NI. unfold merge_shard. cbn [sh_map sh_cur sh_in].
  assert (Nogive : nth_error (sg_ids s) c <> Some gid -> forall b, ~ gives [s] gid b).
  { intros Hc b (s' & i & l & adj & [<-|[]] & Hi & _).
    destruct (lt_eq_lt_dec i c) as [[L| ->]|L]; [|congruence|].
    - apply (Pos i gid Hi) in L. lia.
    - assert (i < length (sg_ids s)) by (apply nth_error_Some; congruence).
      destruct (nth_error (sg_ids s) c) as [a|] eqn:Ea; [|apply nth_error_None in Ea; lia].
      pose proof (sorted_nth _ (so_ids s OK) c i a gid L Ea Hi) as La. apply (Pos c a Ea) in La. lia. }
  destruct (nth_error (sg_ids s) c) as [g|] eqn:Ec.
  2:{ do 2 eexists. split; [reflexivity|]. split; [|split; [exact ND|split; [exact NI|]]].
      - exists c. split; [reflexivity|]. intros i a Hi. pose proof (Pos i a Hi).
        assert (i < length (sg_ids s)) by (apply nth_error_Some; congruence). apply nth_error_None in Ec. lia.
      - intros b. split; [now left|]. intros [H|[_ H]]; [exact H|]. now apply Nogive in H. }
  destruct (N.eqb_spec g gid) as [->|NG]; cbn [negb].
  2:{ do 2 eexists. split; [reflexivity|]. split; [|split; [exact ND|split; [exact NI|]]].
      - exists c. split; [reflexivity|]. intros i a Hi. pose proof (Pos i a Hi) as P.
        destruct (N.eq_dec a gid) as [->|?]; [|lia]. exfalso.
        destruct (lt_eq_lt_dec i c) as [[L| ->]|L]; [apply P in L; lia|congruence|].
        pose proof (sorted_nth _ (so_ids s OK) c i g gid L Ec Hi) as La. apply (Pos c g Ec) in La. lia.
      - intros b. split; [now left|]. intros [H|[_ H]]; [exact H|]. apply Nogive in H; [easy|congruence]. }
  assert (Lc : c < length (sg_rows s)) by (rewrite (so_rows s OK); apply nth_error_Some; congruence).
  destruct (nth_error (sg_rows s) c) as [adj|] eqn:Er; [|apply nth_error_None in Er; lia].
  destruct (so_row s OK adj (nth_error_In _ _ Er)) as [Small Rng].
  assert (LN : forall v, In v (sg_ids s) -> (v < 2 ^ 32 - 1)%N) by (apply Forall_forall, (so_small s OK)).
  assert (Len : (N.of_nat (length (sg_ids s)) <= 2 ^ 32 - 1)%N).
  { assert (G : forall i a, nth_error (sg_ids s) i = Some a -> (N.of_nat i <= a)%N).
    { induction i as [|i IH]; intros a Ha; [lia|].
      assert (i < length (sg_ids s)) by (assert (S i < length (sg_ids s)) by (apply nth_error_Some; congruence); lia).
      destruct (nth_error (sg_ids s) i) as [a'|] eqn:Ea; [|apply nth_error_None in Ea; lia].
      specialize (IH a' eq_refl). pose proof (sorted_nth _ (so_ids s OK) i (S i) a' a ltac:(lia) Ea Ha). lia. }
    destruct (length (sg_ids s)) as [|n] eqn:EL; [lia|].
    destruct (nth_error (sg_ids s) n) as [a|] eqn:Ea; [|apply nth_error_None in Ea; lia].
    specialize (G n a Ea). specialize (LN a (nth_error_In _ _ Ea)). lia. }
  assert (Sm : Forall small32 adj) by (apply Forall_forall; intros v Hv; unfold small32; specialize (Rng v Hv); lia).
  rewrite (skipn_nth _ _ _ Er). cbn [flat_map]. rewrite record_small by exact Small. rewrite <- app_assoc.
  rewrite read_u32_enc by exact Small. cbn [bind].
  rewrite (read_list_enc adj _ Sm).
  destruct (add_neighbors_ok (sg_ids s) gid adj nhood Rng ND NI) as (n' & E' & A & B & C).
  rewrite E'. cbn [bind]. do 2 eexists. split; [reflexivity|]. split; [|split; [exact A|split; [exact B|]]].
  - exists (S c). split; [reflexivity|]. intros i a Hi. pose proof (Pos i a Hi) as P.
    destruct (lt_eq_lt_dec i c) as [[L| ->]|L].
    + apply P in L as L'. lia.
    + assert (a = gid) by congruence. lia.
    + pose proof (sorted_nth _ (so_ids s OK) c i gid a L Ec Hi). lia.
  - intros b. rewrite C. split; (intros [H|[H1 H2]]; [now left|right; split; [exact H1|]]).
    + destruct H2 as [l [Hl Hb]]. exists s, c, l, adj. split; [now left|]. auto.
    + destruct H2 as (s' & i & l & adj' & [<-|[]] & Hi & Hr & Hl & Hb). exists l. split; [|exact Hb].
      assert (i = c); [|congruence].
      destruct (lt_eq_lt_dec i c) as [[L| ->]|L]; [|reflexivity|].
      * pose proof (sorted_nth _ (so_ids s OK) i c gid gid L Hi Ec). lia.
      * pose proof (sorted_nth _ (so_ids s OK) c i gid gid L Ec Hi). lia.
Qed.

Lemma gives_cons s ss a b : gives (s :: ss) a b <-> gives [s] a b \/ gives ss a b.
Proof.
  split.
  - intros (s' & i & l & adj & [<-|H] & R); [left; exists s, i, l, adj; split; [now left|exact R]|right; exists s', i, l, adj; now split].
  - intros [(s' & i & l & adj & [<-|[]] & R)|(s' & i & l & adj & H & R)]; [exists s, i, l, adj; split; [now left|exact R]|exists s', i, l, adj; split; [now right|exact R]].
Qed.

Lemma merge_node_ok specs : Forall shard_ok specs -> forall gid shs nhood, Forall2 (stands gid) specs shs -> NoDup nhood -> ~ In gid nhood ->
  exists shs' nhood', merge_node gid shs nhood = Ok (shs', nhood') /\ Forall2 (stands (gid + 1)) specs shs'
    /\ NoDup nhood' /\ ~ In gid nhood'
    /\ forall b, In b nhood' <-> In b nhood \/ (b <> gid /\ gives specs gid b).
Proof.
  induction 1 as [|s specs OK _ IH]; intros gid shs nhood HF ND NI; inversion HF; subst; cbn [merge_node].
  - do 2 eexists. split; [reflexivity|]. split; [constructor|]. split; [exact ND|]. split; [exact NI|].
    intros b. split; [now left|]. intros [H|[_ (s & ? & ? & ? & [] & _)]]. exact H.
  - destruct (merge_shard_ok s OK gid y nhood H1 ND NI) as (sh' & n1 & E1 & St & ND1 & NI1 & C1).
    rewrite E1. cbn [bind].
    destruct (IH gid l' n1 H3 ND1 NI1) as (shs' & n2 & E2 & St2 & ND2 & NI2 & C2).
    rewrite E2. cbn [bind]. do 2 eexists. split; [reflexivity|]. split; [now constructor|]. split; [exact ND2|]. split; [exact NI2|].
    intros b. rewrite C2, C1, (gives_cons s specs). tauto.
Qed.

Lemma firstn_incl {A} n (l : list A) x : In x (firstn n l) -> In x l.
Proof. rewrite <- (firstn_skipn n l) at 2. rewrite in_app_iff. now left. Qed.
Lemma firstn_nodup {A} n (l : list A) : NoDup l -> NoDup (firstn n l).
Proof.
  revert l. induction n as [|n IH]; intros [|x l] H; cbn; try constructor; inversion H; subst; [|now apply IH].
  intros Hin. now apply firstn_incl in Hin.
Qed.

Lemma merge_rows_ok specs R : Forall shard_ok specs -> forall n gid shs, Forall2 (stands gid) specs shs ->
  exists rows, merge_rows shuffle R gid n shs = Ok rows /\ length rows = n
    /\ forall i row, nth_error rows i = Some row -> merged_row specs R (gid + N.of_nat i) row.
Proof.
  intros OK. induction n as [|n IH]; intros gid shs HF; cbn [merge_rows].
  - exists []. split; [reflexivity|]. split; [reflexivity|]. intros [|i]; discriminate.
  - destruct (merge_node_ok specs OK gid shs [] HF (NoDup_nil _) (fun H => H)) as (shs' & nh & E & St & ND & NI & C).
    rewrite E. cbn [bind]. destruct (IH (gid + 1)%N shs' St) as (rows & E2 & L & Hrows). rewrite E2. cbn [bind].
    eexists. split; [reflexivity|]. split; [cbn; lia|].
    intros [|i] row Hi; cbn in Hi; [|specialize (Hrows i row Hi); now replace (gid + N.of_nat (S i))%N with (gid + 1 + N.of_nat i)%N by lia].
    injection Hi as <-. rewrite N.add_0_r. pose proof (Hshuffle gid nh) as P.
    pose proof (Permutation_length P) as PL.
    set (m := N.to_nat (N.min (N.of_nat (length nh)) R)).
    split.
    + apply firstn_nodup. now apply (Permutation_NoDup P).
    + intros H. apply firstn_incl in H. apply NI. now apply (Permutation_in _ (Permutation_sym P)).
    + rewrite firstn_length. subst m. lia.
    + intros b H. apply firstn_incl in H. apply (Permutation_in _ (Permutation_sym P)) in H. apply C in H. now destruct H as [[]|[_ H]].
    + intros b H NE. assert (Hb : In b nh) by (apply C; now right).
      destruct (N.le_gt_cases (N.of_nat (length nh)) R) as [LE|GT].
      * left. rewrite firstn_all2 by (subst m; lia). now apply (Permutation_in _ P).
      * right. rewrite firstn_length. subst m. lia.
Qed.

Lemma read_idmap_enc s : shard_ok s -> read_idmap (idmap_file s) = Ok (sg_ids s).
Proof.
  intros OK. unfold read_idmap, idmap_file.
  assert (Sm : Forall small32 (sg_ids s)) by (eapply Forall_impl; [|apply (so_small s OK)]; intros a H; unfold small32; cbn beta in H; lia).
  assert (Len : (N.of_nat (length (sg_ids s)) < 2 ^ 32)%N).
  { assert (G : forall i a, nth_error (sg_ids s) i = Some a -> (N.of_nat i <= a)%N).
    { induction i as [|i IH]; intros a Ha; [lia|].
      assert (i < length (sg_ids s)) by (assert (S i < length (sg_ids s)) by (apply nth_error_Some; congruence); lia).
      destruct (nth_error (sg_ids s) i) as [a'|] eqn:Ea; [|apply nth_error_None in Ea; lia].
      specialize (IH a' eq_refl). pose proof (sorted_nth _ (so_ids s OK) i (S i) a' a ltac:(lia) Ea Ha). lia. }
    destruct (length (sg_ids s)) as [|n] eqn:EL; [lia|].
    destruct (nth_error (sg_ids s) n) as [a|] eqn:Ea; [|apply nth_error_None in Ea; lia].
    specialize (G n a Ea). pose proof (so_small s OK) as F. rewrite Forall_forall in F. specialize (F a (nth_error_In _ _ Ea)). lia. }
  rewrite read_u32_enc by exact Len. cbn [bind]. rewrite read_u32_enc by (unfold small32; lia). cbn [bind N.eqb negb].
  change (flat_map (le_enc 4) (sg_ids s)) with (u32s (sg_ids s)). rewrite u32s_length. cbn [Pos.eqb negb].
  destruct (N.ltb_spec (N.of_nat (4 * length (sg_ids s))) (4 * N.of_nat (length (sg_ids s)))) as [?|_]; [lia|].
  rewrite Nat2N.id. rewrite <- (app_nil_r (u32s _)). rewrite read_u32s_enc by exact Sm. reflexivity.
Qed.
Lemma sorted_is_sorted l : StronglySorted N.lt l -> is_sorted l = true.
Proof.
  induction 1 as [|x l HS IH HF]; [reflexivity|]. destruct l as [|y l]; [reflexivity|].
  cbn [is_sorted] in *. rewrite IH. inversion HF; subst. destruct (N.ltb_spec y x); [lia|reflexivity].
Qed.
Lemma read_idmaps_enc specs : Forall shard_ok specs -> read_idmaps (map idmap_file specs) = Ok (map sg_ids specs).
Proof.
  induction 1 as [|s specs OK _ IH]; [reflexivity|]. cbn [map read_idmaps].
  rewrite read_idmap_enc by exact OK. cbn [bind]. rewrite sorted_is_sorted by apply (so_ids s OK). cbn [negb]. now rewrite IH.
Qed.
Lemma skipn_app_exact {A} n (l r : list A) : length l = n -> skipn n (l ++ r) = r.
Proof. intros <-. now rewrite skipn_app, skipn_all, Nat.sub_diag. Qed.
Lemma ids_len s : shard_ok s -> (N.of_nat (length (sg_ids s)) < 2 ^ 32)%N.
Proof.
  intros OK.
  assert (G : forall i a, nth_error (sg_ids s) i = Some a -> (N.of_nat i <= a)%N).
  { induction i as [|i IH]; intros a Ha; [lia|].
    assert (i < length (sg_ids s)) by (assert (S i < length (sg_ids s)) by (apply nth_error_Some; congruence); lia).
    destruct (nth_error (sg_ids s) i) as [a'|] eqn:Ea; [|apply nth_error_None in Ea; lia].
    specialize (IH a' eq_refl). pose proof (sorted_nth _ (so_ids s OK) i (S i) a' a ltac:(lia) Ea Ha). lia. }
  destruct (length (sg_ids s)) as [|n] eqn:EL; [lia|].
  destruct (nth_error (sg_ids s) n) as [a|] eqn:Ea; [|apply nth_error_None in Ea; lia].
  specialize (G n a Ea). pose proof (so_small s OK) as F. rewrite Forall_forall in F. specialize (F a (nth_error_In _ _ Ea)). lia.
Qed.
Lemma open_shard_ok s : shard_ok s -> exists sh, open_shard (graph_file s) (sg_ids s) = Ok (nth (sg_medoid s) (sg_ids s) 0%N, sh) /\ stands 0 s sh.
Proof.
  intros OK. pose proof (ids_len s OK) as IL. pose proof (so_medoid s OK) as M. unfold open_shard, graph_file, save_graph.
  set (body := flat_map save_record (sg_rows s)).
  replace (skipn 12 _) with (le_enc 4 (N.of_nat (sg_medoid s)) ++ le_enc 8 0 ++ body).
  2:{ rewrite !app_assoc, <- !app_assoc. rewrite (app_assoc (le_enc 8 _)). now rewrite skipn_app_exact by (rewrite app_length, !le_enc_length; reflexivity). }
  rewrite read_u32_enc by (unfold small32; lia). cbn [bind]. rewrite Nat2N.id.
  rewrite (nth_error_nth' _ 0%N M). eexists. split; [reflexivity|].
  exists 0. split.
  - reflexivity.
  - intros i a _. lia.
Qed.
Lemma open_shards_ok specs : Forall shard_ok specs ->
  exists shs, open_shards (map graph_file specs) (map sg_ids specs) = Ok (map (fun s => nth (sg_medoid s) (sg_ids s) 0%N) specs, shs)
    /\ Forall2 (stands 0) specs shs.
Proof.
  induction 1 as [|s specs OK _ (shs & E & F)]; [now exists []|]. cbn [map open_shards].
  destruct (open_shard_ok s OK) as (sh & E1 & St). rewrite E1. cbn [bind]. rewrite E. cbn [bind].
  eexists. split; [reflexivity|]. now constructor.
Qed.

Lemma fold_max l : forall a, (a <= fold_left N.max l a)%N /\ (forall x, In x l -> (x <= fold_left N.max l a)%N)
  /\ (fold_left N.max l a = a \/ In (fold_left N.max l a) l).
Proof.
  induction l as [|y l IH]; intros a; cbn [fold_left]; [repeat split; [lia|intros x []|now left]|].
  destruct (IH (N.max a y)) as (A & B & C). repeat split; [lia| |].
  - intros x [<-|H]; [lia|now apply B].
  - destruct C as [C|C]; [|right; now right]. rewrite C. destruct (N.max_spec a y) as [[? ->]|[? ->]]; [right; now left|now left].
Qed.

Lemma merge_shards_ok specs R medoid frozen : specs <> [] -> Forall shard_ok specs ->
  exists rows, merge_shards shuffle (map graph_file specs) (map idmap_file specs) R medoid frozen
      = Ok (save_graph rows R medoid frozen,
            le_enc 4 (N.of_nat (length specs) mod 2 ^ 32) ++ le_enc 4 1 ++ flat_map (le_enc 4) (map (fun s => nth (sg_medoid s) (sg_ids s) 0%N) specs))
    /\ merged specs R rows.
Proof.
  intros NE OK. unfold merge_shards. rewrite !map_length.
  destruct (Nat.eqb_spec (length specs) 0) as [Z|_]; [destruct specs; [congruence|discriminate]|]. rewrite Nat.eqb_refl. cbn [orb negb].
  rewrite read_idmaps_enc by exact OK. cbn [bind].
  destruct (open_shards_ok specs OK) as (shs & E1 & F). rewrite E1. cbn [bind].
  destruct (merge_rows_ok specs R OK (N.to_nat (node_count (map sg_ids specs))) 0 shs F) as (rows & E2 & L & Hrows).
  rewrite E2. cbn [bind]. exists rows. split; [reflexivity|].
  destruct (fold_max (concat (map sg_ids specs)) 0%N) as (_ & B & C).
  unfold node_count in L. set (mx := fold_left N.max (concat (map sg_ids specs)) 0%N) in *.
  assert (HoldsIn : forall a, holds specs a <-> In a (concat (map sg_ids specs))).
  { intros a. rewrite in_concat. split.
    - intros [s [H1 H2]]. exists (sg_ids s). split; [now apply in_map|exact H2].
    - intros [l [H1 H2]]. apply in_map_iff in H1. destruct H1 as [s [<- H1]]. now exists s. }
  split; [|split].
  - intros a Ha. apply HoldsIn, B in Ha. lia.
  - replace (N.of_nat (length rows) - 1)%N with mx by lia. apply HoldsIn.
    destruct C as [C|C]; [|exact C]. rewrite C in *.
    destruct specs as [|s specs]; [congruence|]. inversion OK; subst.
    assert (M := so_medoid s H1). destruct (sg_ids s) as [|x l] eqn:El; [cbn in M; lia|].
    specialize (B x). cbn [map concat] in *. rewrite El in *. cbn [app] in *. left.
    specialize (B (or_introl eq_refl)). lia.
  - intros a row Hr. specialize (Hrows a row Hr). now rewrite N.add_0_l in Hrows.
Qed.
End Merge.

Lemma merged_navigable specs R rows medoid : Forall shard_ok specs -> merged specs R rows -> (0 < R < 2 ^ 32)%N -> (medoid < N.of_nat (length rows))%N ->
  (forall a, (a < N.of_nat (length rows))%N -> exists b, b <> a /\ gives specs a b) ->
  navigable {| gd_rows := rows; gd_max_degree := R; gd_start := medoid |} /\ (N.of_nat (length rows) < 2 ^ 32)%N.
Proof.
  intros OK (Hin & Hlast & Hrow) HR Hm Hnb. split.
  - split; cbn [gd_rows gd_max_degree gd_start]; [exact HR|exact Hm|].
    intros i adj Hi. destruct (Hrow i adj Hi) as [A B C D E]. split; [|split; [exact C|]].
    + intros ->. assert (L : i < length rows) by (apply nth_error_Some; congruence).
      destruct (Hnb (N.of_nat i) ltac:(lia)) as (b & NE & G). destruct (E b G NE) as [[]|Z]. cbn in Z. lia.
    + intros v Hv. split; [|intros ->; exact (B Hv)]. destruct (D v Hv) as (s & _ & l & _ & Hs & _ & _ & _ & Hb).
      apply Hin. exists s. split; [exact Hs|]. eapply nth_error_In; eauto.
  - destruct Hlast as (s & Hs & Hl). rewrite Forall_forall in OK. pose proof (so_small s (OK s Hs)) as F. rewrite Forall_forall in F.
    specialize (F _ Hl). cbn beta in F. lia.
Qed.
