(** C41: the disk layout of the DiskANN index. *)
From Verif Require Import LayoutSpec LayoutProofs GraphFileProofs StoreProofs.
Local Open Scope N_scope.

(** C41: as long as the sizes fit into 64 bits, the records of two different
    nodes share no byte; every record lies behind the header and inside the
    file. *)
Theorem layout_disjoint dim degree n : layout_fits dim degree n -> 0 < n ->
  exists g, compute dim degree = Ok g
    /\ (forall i j byte, i < n -> j < n -> node_owns g i byte -> node_owns g j byte -> i = j)
    /\ (forall i byte, i < n -> node_owns g i byte -> 4096 <= byte < total_file_size g n).
Proof.
  intros F Hn. destruct (compute_ok dim degree n F Hn) as (g & E & G). exists g. split; [exact E|].
  pose proof (geo_len _ _ _ G) as GL. split.
  - intros i j byte Hi Hj. unfold node_owns, node_first, node_last.
    destruct (offset_ok _ _ _ _ i F G Hi) as (-> & _). destruct (offset_ok _ _ _ _ j F G Hj) as (-> & _). intros Oi Oj.
    destruct (N.lt_trichotomy i j) as [L|[?|L]]; [exfalso|assumption|exfalso].
    + pose proof (at_node_disjoint _ _ _ i j G L) as D. clear - Oi Oj D GL. generalize dependent (at_node g i). generalize dependent (at_node g j). intros. lia.
    + pose proof (at_node_disjoint _ _ _ j i G L) as D. clear - Oi Oj D GL. generalize dependent (at_node g i). generalize dependent (at_node g j). intros. lia.
  - intros i byte Hi. unfold node_owns, node_first, node_last. destruct (offset_ok _ _ _ _ i F G Hi) as (-> & _ & _ & B).
    destruct (total_ok _ _ _ _ F G Hn) as (_ & -> & _). intros [O1 O2].
    assert (4096 <= at_node g i) by (unfold at_node, kSectorLen; clear; generalize (g_page g * (i / g_per g)), (i mod g_per g * g_len g); intros; lia).
    clear - O1 O2 B GL H. generalize dependent (at_node g i). intros. generalize dependent (num_pages g n * g_page g). intros. lia.
Qed.
Print Assumptions layout_disjoint.

(** C41: a record that fits into a sector never straddles two; a longer one
    starts at a sector boundary.  In both cases the record lies inside the
    page that is read for it, a run of whole sectors. *)
Theorem layout_sectors dim degree n : layout_fits dim degree n -> 0 < n ->
  exists g, compute dim degree = Ok g /\ forall i, i < n ->
    (g_len g <= 4096 -> node_first g i / 4096 = node_last g i / 4096)
    /\ (4096 < g_len g -> node_first g i mod 4096 = 0)
    /\ page_offset g i mod 4096 = 0 /\ g_page g mod 4096 = 0
    /\ (forall byte, node_owns g i byte -> page_offset g i <= byte < page_offset g i + g_page g).
Proof.
  intros F Hn. destruct (compute_ok dim degree n F Hn) as (g & E & G). exists g. split; [exact E|]. intros i Hi.
  destruct (offset_ok _ _ _ _ i F G Hi) as (O & P & _ & _). destruct (geo_sectors _ _ _ G) as (k & K). pose proof (geo_len _ _ _ G) as GL.
  unfold node_owns, node_first, node_last. rewrite O, P. split; [|split; [|split; [|split]]].
  - intros L. exact (at_node_sector _ _ _ i G L).
  - intros L. unfold at_node. rewrite (geo_large _ _ _ G L), N.mod_1_r, N.mul_0_l, N.add_0_r, K.
    replace (kSectorLen + k * kSectorLen * (i / 1)) with ((1 + k * (i / 1)) * 4096) by (unfold kSectorLen; lia). apply N.mod_mul. lia.
  - rewrite K. replace (kSectorLen + k * kSectorLen * (i / g_per g)) with ((1 + k * (i / g_per g)) * 4096) by (unfold kSectorLen; generalize (i / g_per g); intros; lia).
    apply N.mod_mul. lia.
  - rewrite K. unfold kSectorLen. apply N.mod_mul. lia.
  - intros byte B. pose proof (in_page _ _ _ i G) as IP. unfold at_node in B. clear - B IP GL.
    generalize dependent (g_page g * (i / g_per g)). generalize dependent (i mod g_per g * g_len g). intros. lia.
Qed.
Print Assumptions layout_sectors.

(** C41: the layout that is written loads, and every record read back from its
    position gives the coordinates and the neighbour list. *)
Theorem layout_read_back vs graph dim degree medoid :
  layout_fits dim degree (N.of_nat (length graph)) -> layout_input vs graph dim degree ->
  medoid < N.of_nat (length graph) -> N.of_nat (length graph) <= 2 ^ 32 ->
  exists g file,
    compute dim degree = Ok g
    /\ write_disk_layout (concat vs) graph (N.of_nat (length graph)) dim degree medoid = Ok file
    /\ read_layout_header file = Ok {| h_points := N.of_nat (length graph); h_dim := dim; h_medoid := medoid; h_degree := degree;
                                       h_len := g_len g; h_per := g_per g; h_size := N.of_nat (length file) |}
    /\ forall i v adj, nth_error vs i = Some v -> nth_error graph i = Some adj ->
         exists rec, read_at file (node_first g (N.of_nat i)) (g_len g) = Ok rec
           /\ rec = record_bytes degree v adj /\ view_record rec dim = Ok (v, adj).
Proof.
  intros F I M N32. destruct (write_layout_ok vs graph dim degree medoid F I M) as (g & file & Eg & G & EW & EH & L & R).
  exists g, file. split; [exact Eg|]. split; [exact EW|]. split.
  { rewrite L. apply read_header_ok; try assumption. lia. }
  intros i v adj Hv Ha. exists (record_bytes degree v adj).
  assert (Li : (i < length graph)%nat) by (apply nth_error_Some; congruence).
  specialize (R i Li). rewrite (nth_error_nth _ _ _ Hv), (nth_error_nth _ _ _ Ha) in R. split; [exact R|]. split; [reflexivity|].
  destruct (li_row _ _ _ _ I v (nth_error_In _ _ Hv)) as [Lv Fv]. destruct (li_nbrs _ _ _ _ I adj (nth_error_In _ _ Ha)) as [La Fa].
  destruct F as (_ & DB & _). apply view_record_ok; assumption.
Qed.
Print Assumptions layout_read_back.

(** The writer only succeeds when every list is within the degree bound, there
    is one list per node and the medoid is a node. *)
Theorem layout_written_checked vectors graph n dim degree medoid file :
  write_disk_layout vectors graph n dim degree medoid = Ok file ->
  0 < dim /\ N.of_nat (length graph) = n /\ medoid < n /\ forall adj, In adj graph -> N.of_nat (length adj) <= degree.
Proof.
  unfold write_disk_layout. intros H. destruct (N.eqb_spec dim 0); [discriminate|]. destruct (N.eqb_spec n 0); [discriminate|].
  destruct (N.eqb_spec (N.of_nat (length graph)) n) as [En|]; [|discriminate]. cbn [negb] in H.
  destruct (N.leb_spec n medoid) as [|Lm]; [discriminate|].
  destruct (compute dim degree) as [g| | |] eqn:Eg; try discriminate. cbn [bind] in H.
  assert (Ed : g_degree g = degree).
  { unfold compute in Eg. destruct (N.eqb dim 0); [discriminate|]. destruct (N.eqb _ 0); [discriminate|]. now injection Eg as <-. }
  destruct (write_nodes g n vectors graph 0 (repeat 0 (N.to_nat (g_page g)))) as [out| | |] eqn:Ew; try discriminate.
  split; [lia|]. split; [exact En|]. split; [exact Lm|]. clear - Ew Ed. revert Ew. generalize 0 at 1. generalize (repeat 0 (N.to_nat (g_page g))). revert out.
  induction graph as [|a rest IH]; intros out page k Ew adj Ha; [destruct Ha|]. destruct Ha as [Ha|Ha]; cbn [write_nodes] in Ew.
  - subst a. destruct (N.ltb_spec (g_degree g) (N.of_nat (length adj))) as [|L]; [discriminate|]. now rewrite <- Ed.
  - destruct (N.ltb (g_degree g) (N.of_nat (length a))); [discriminate|].
    destruct (floats_at _ _ _) as [c| | |]; try discriminate. cbn [bind] in Ew.
    destruct (pack_node_record _ _ _ _ _ _) as [p| | |]; try discriminate. cbn [bind] in Ew.
    destruct (write_nodes g n vectors rest (k + 1) p) as [o| | |] eqn:E2; try discriminate. exact (IH _ _ _ E2 adj Ha).
Qed.
Print Assumptions layout_written_checked.

(** A header that is accepted describes a file in which every node's record
    lies, provided the sizes fit into 64 bits. *)
Theorem accepted_header_safe_partial file h : read_layout_header file = Ok h ->
  layout_fits (h_dim h) (h_degree h) (h_points h) ->
  exists g, compute (h_dim h) (h_degree h) = Ok g
    /\ h_medoid h < h_points h /\ h_len h = g_len g /\ h_per h = g_per g
    /\ forall i, i < h_points h -> exists rec, read_at file (node_first g i) (g_len g) = Ok rec.
Proof.
  intros H F. unfold read_layout_header in H.
  destruct (N.ltb_spec (N.of_nat (length file)) kSectorLen); [discriminate|].
  destruct (read_u64 file) as [[n r1]| | |]; try discriminate; cbn [bind] in H.
  destruct (read_u64 r1) as [[dim r2]| | |]; try discriminate; cbn [bind] in H.
  destruct (read_u32 r2) as [[medoid r3]| | |]; try discriminate; cbn [bind] in H.
  destruct (read_u32 r3) as [[deg r4]| | |]; try discriminate; cbn [bind] in H.
  destruct (read_u64 r4) as [[len r5]| | |]; try discriminate; cbn [bind] in H.
  destruct (read_u64 r5) as [[per r6]| | |]; try discriminate; cbn [bind] in H.
  destruct (read_u64 r6) as [[size r7]| | |]; try discriminate; cbn [bind] in H.
  destruct (N.eqb_spec n 0); [discriminate|]. destruct (N.eqb_spec dim 0); [discriminate|]. cbn [orb] in H.
  destruct (compute dim deg) as [g| | |] eqn:Eg; try discriminate. cbn [bind] in H.
  destruct (N.eqb_spec len (g_len g)) as [El|]; [|discriminate]. destruct (N.eqb_spec per (g_per g)) as [Ep|]; [|discriminate].
  cbn [negb] in H. destruct (N.leb_spec n medoid) as [|Lm]; [discriminate|].
  destruct (N.eqb_spec size (total_file_size g n)) as [Es|]; [|discriminate].
  cbn [negb] in H. destruct (N.eqb_spec (N.of_nat (length file)) size) as [Ef|]; [|discriminate]. cbn [negb] in H.
  injection H as <-. cbn [h_dim h_degree h_points h_medoid h_len h_per] in *. exists g.
  split; [exact Eg|]. split; [exact Lm|]. split; [exact El|]. split; [exact Ep|]. intros i Hi.
  destruct (compute_ok _ _ _ F ltac:(lia)) as (g' & Eg' & G). rewrite Eg in Eg'. injection Eg' as <-.
  destruct (offset_ok _ _ _ _ i F G Hi) as (O & _ & _ & B). destruct (total_ok _ _ _ _ F G ltac:(lia)) as (_ & T & _).
  unfold node_first. rewrite O. eexists. apply read_ok. rewrite Ef, Es, T. exact B.
Qed.
Print Assumptions accepted_header_safe_partial.

(** C41 fails beyond 64 bits: a header is accepted although node 1's record
    lies outside the file. *)
Definition wrapped_header : layout_header :=
  {| h_points := 2 ^ 51 + 1; h_dim := 1100; h_medoid := 0; h_degree := 10; h_len := 4444; h_per := 1; h_size := 12288 |}.
Definition wrapped_file : bytes :=
  le_enc 8 (2 ^ 51 + 1) ++ le_enc 8 1100 ++ le_enc 4 0 ++ le_enc 4 10 ++ le_enc 8 4444 ++ le_enc 8 1 ++ le_enc 8 12288 ++ repeat 0 (N.to_nat 12240).
Theorem accepted_header_refuted : exists file h g,
  read_layout_header file = Ok h /\ compute (h_dim h) (h_degree h) = Ok g
  /\ 1 < h_points h /\ read_at file (node_first g 1) (g_len g) = OutOfBounds.
Proof.
  exists wrapped_file, wrapped_header. eexists. split; [vm_compute; reflexivity|]. split; [vm_compute; reflexivity|].
  split; [reflexivity|vm_compute; reflexivity].
Qed.
Print Assumptions accepted_header_refuted.

(** C41 fails beyond 64 bits: a header whose record length wraps to 0 makes
    the reader divide by it. *)
Theorem header_division_refuted : exists file, length file = 4096%nat /\ read_layout_header file = OutOfBounds.
Proof.
  exists (le_enc 8 1 ++ le_enc 8 (2 ^ 62 - 1) ++ le_enc 4 0 ++ le_enc 4 0 ++ repeat 0 (N.to_nat 4072)).
  split; vm_compute; reflexivity.
Qed.
Print Assumptions header_division_refuted.

(** Three nodes, two coordinates each. *)
Definition ex_vs : list (list N) := [[1; 2]; [3; 4]; [5; 6]].
Definition ex_rows : list (list N) := [[1; 2]; [0]; []].
Example layout_example_fits : layout_fits 2 2 (N.of_nat (length ex_rows)) /\ layout_input ex_vs ex_rows 2 2.
Proof.
  split; [vm_compute; repeat split; discriminate|]. split; [reflexivity| |];
    intros a Ha; cbn in Ha; intuition (subst; cbn; try lia; repeat constructor; lia).
Qed.
Example layout_example :
  (let* g := compute 2 2 in
   let* file := write_disk_layout (concat ex_vs) ex_rows 3 2 2 1 in
   let* rec := read_at file (node_first g 1) 20 in
   let* r := view_record rec 2 in
   Ok (g_len g, g_per g, g_page g, N.of_nat (length file), r)) = Ok (20, 204, 4096, 8192, ([3; 4], [0])).
Proof. vm_compute. reflexivity. Qed.
(** A record longer than a sector: 1100 coordinates and 10 neighbours take two
    sectors per node. *)
Example layout_long_example : layout_fits 1100 10 1000 /\ exists g, compute 1100 10 = Ok g
  /\ g_len g = 4444 /\ g_per g = 1 /\ g_page g = 8192 /\ node_first g 2 = 20480 /\ total_file_size g 1000 = 8196096.
Proof. split; [vm_compute; repeat split; discriminate|]. eexists. repeat split; vm_compute; reflexivity. Qed.
