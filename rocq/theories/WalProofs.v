(** Proofs about the write-ahead log. *)
From Verif Require Import WalModel WalSpec.
From Coq Require Import Sorting.Sorted Sorting.Permutation.

Lemma mutation_eqb_eq a b : mutation_eqb a b = true <-> a = b.
Proof. destruct a, b; simpl; split; intros; try reflexivity; discriminate. Qed.

Lemma parse_frame_type_code t : parse_frame_type (frame_type_code t) = Some t.
Proof. destruct t; reflexivity. Qed.
Lemma parse_mutation_code m : parse_mutation_type (mutation_code m) = Some m.
Proof. destruct m; reflexivity. Qed.
Lemma frame_type_code_lt t : (frame_type_code t < 2 ^ 8)%N.
Proof. destruct t; reflexivity. Qed.
Lemma mutation_code_lt t : (mutation_code t < 2 ^ 8)%N.
Proof. destruct t; reflexivity. Qed.

Definition frame_ok (r : wal_record) : Prop :=
  (op_id r < 2 ^ 64)%N /\ (N.of_nat (length (payload r)) <= kMaxWalPayloadSize)%N.

Definition header_of (ft : frame_type) (r : wal_record) : frame_header :=
  {| h_type := ft; h_mut := mut r; h_op := op_id r; h_size := N.of_nat (length (payload r)) |}.

Definition header_bytes (ft : frame_type) (r : wal_record) : bytes :=
  le_enc 4 kWalFrameMagic ++ le_enc 1 kWalFormatVersion
  ++ le_enc 1 (frame_type_code ft) ++ le_enc 1 (mutation_code (mut r)) ++ le_enc 1 0
  ++ le_enc 8 (op_id r) ++ le_enc 8 (N.of_nat (length (payload r))).

Lemma encode_frame_split ft r :
  encode_frame ft r = header_bytes ft r ++ payload r ++ le_enc 4 kWalTrailerMagic.
Proof. unfold encode_frame, header_bytes. now rewrite <- !app_assoc. Qed.

Lemma header_bytes_length ft r : length (header_bytes ft r) = 24.
Proof. unfold header_bytes. rewrite !app_length, !le_enc_length. reflexivity. Qed.

Lemma encode_frame_length ft r : length (encode_frame ft r) = 28 + length (payload r).
Proof. rewrite encode_frame_split, !app_length, header_bytes_length, le_enc_length. lia. Qed.

Lemma read_header_app ft r rest :
  frame_ok r ->
  read_frame_header (header_bytes ft r ++ rest) = Some (header_of ft r, rest).
Proof.
  intros [Hop Hlen]. unfold header_bytes, read_frame_header. rewrite <- !app_assoc.
  rewrite take_bytes_app by apply le_enc_length.
  rewrite le_dec_enc by reflexivity. rewrite N.eqb_refl. cbn [negb].
  rewrite take_bytes_app by apply le_enc_length.
  rewrite take_bytes_app by apply le_enc_length.
  rewrite take_bytes_app by apply le_enc_length.
  rewrite take_bytes_app by apply le_enc_length.
  rewrite take_bytes_app by apply le_enc_length.
  rewrite take_bytes_app by apply le_enc_length.
  rewrite (le_dec_enc 1 kWalFormatVersion) by reflexivity. rewrite N.eqb_refl. cbn [negb].
  rewrite (le_dec_enc 1 (frame_type_code ft)) by apply frame_type_code_lt.
  rewrite parse_frame_type_code.
  rewrite (le_dec_enc 1 (mutation_code (mut r))) by apply mutation_code_lt.
  rewrite parse_mutation_code.
  rewrite (le_dec_enc 8 (op_id r)) by exact Hop.
  rewrite (le_dec_enc 8 (N.of_nat _)).
  - reflexivity.
  - eapply N.le_lt_trans; [exact Hlen|reflexivity].
Qed.

Lemma plausible_true rest n :
  (N.of_nat n <= kMaxWalPayloadSize)%N -> n + 4 <= length rest ->
  payload_size_is_plausible rest (N.of_nat n) = true.
Proof.
  intros H1 H2. unfold payload_size_is_plausible.
  destruct (N.ltb_spec kMaxWalPayloadSize (N.of_nat n)); [lia|].
  apply andb_true_intro; split; apply N.leb_le; lia.
Qed.

Lemma plausible_inv rest size :
  payload_size_is_plausible rest size = true -> (size + 4 <= N.of_nat (length rest))%N.
Proof.
  unfold payload_size_is_plausible.
  destruct (N.ltb_spec kMaxWalPayloadSize size); [discriminate|].
  intros H1. apply andb_prop in H1 as [H1 H2].
  apply N.leb_le in H1, H2. lia.
Qed.

Lemma read_frame_app ft r rest :
  frame_ok r ->
  read_frame (encode_frame ft r ++ rest) = Some (header_of ft r, payload r, rest).
Proof.
  intros Hok. rewrite encode_frame_split. unfold read_frame.
  rewrite <- !app_assoc. rewrite read_header_app by exact Hok.
  cbn [h_size header_of]. rewrite plausible_true; [|apply Hok|rewrite !app_length, le_enc_length; lia].
  cbn [negb]. rewrite Nat2N.id.
  rewrite take_bytes_app by reflexivity.
  rewrite take_bytes_app by apply le_enc_length.
  rewrite le_dec_enc by reflexivity. rewrite N.eqb_refl. reflexivity.
Qed.

Lemma read_header_length i h rest :
  read_frame_header i = Some (h, rest) -> length i = 24 + length rest.
Proof.
  unfold read_frame_header.
  destruct (take_bytes 4 i) as [[m i1]|] eqn:E1; [|discriminate].
  destruct (negb _); [discriminate|].
  destruct (take_bytes 1 i1) as [[x1 i2]|] eqn:E2; [|discriminate].
  destruct (take_bytes 1 i2) as [[x2 i3]|] eqn:E3; [|discriminate].
  destruct (take_bytes 1 i3) as [[x3 i4]|] eqn:E4; [|discriminate].
  destruct (take_bytes 1 i4) as [[x4 i5]|] eqn:E5; [|discriminate].
  destruct (take_bytes 8 i5) as [[x5 i6]|] eqn:E6; [|discriminate].
  destruct (take_bytes 8 i6) as [[x6 i7]|] eqn:E7; [|discriminate].
  destruct (negb _); [discriminate|].
  destruct (parse_frame_type _); [|discriminate].
  destruct (parse_mutation_type _); [|discriminate].
  intros H; inversion H; subst.
  apply take_bytes_Some in E1 as [-> L1], E2 as [-> L2], E3 as [-> L3], E4 as [-> L4],
    E5 as [-> L5], E6 as [-> L6], E7 as [-> L7].
  rewrite !app_length. lia.
Qed.

Lemma read_frame_length i h pl rest :
  read_frame i = Some (h, pl, rest) -> length i = 28 + length pl + length rest.
Proof.
  unfold read_frame. destruct (read_frame_header i) as [[h' r1]|] eqn:E; [|discriminate].
  apply read_header_length in E.
  destruct (negb _); [discriminate|].
  destruct (take_bytes _ r1) as [[p r2]|] eqn:E1; [|discriminate].
  destruct (take_bytes 4 r2) as [[t r3]|] eqn:E2; [|discriminate].
  destruct (N.eqb _ _); [|discriminate]. intros H; inversion H; subst.
  apply take_bytes_Some in E1 as [-> L1], E2 as [-> L2]. rewrite !app_length in *. lia.
Qed.

(** A strict prefix of a frame is not a frame. *)
Lemma read_frame_torn ft r n :
  frame_ok r -> n < length (encode_frame ft r) ->
  read_frame (firstn n (encode_frame ft r)) = None.
Proof.
  intros Hok Hn. rewrite encode_frame_length in Hn.
  destruct (Nat.lt_ge_cases n 24) as [Hs|Hs].
  - unfold read_frame.
    destruct (read_frame_header (firstn n (encode_frame ft r))) as [[h rest]|] eqn:E; [|reflexivity].
    apply read_header_length in E. rewrite firstn_length in E. lia.
  - rewrite encode_frame_split, firstn_app, header_bytes_length.
    rewrite firstn_all2 by (rewrite header_bytes_length; lia).
    unfold read_frame. rewrite read_header_app by exact Hok.
    destruct (payload_size_is_plausible _ _) eqn:E; [|reflexivity].
    apply plausible_inv in E. cbn [h_size header_of] in E.
    rewrite firstn_length, app_length, le_enc_length in E. lia.
Qed.

(** ** The scan over whole frames *)

Definition frame_of_call (c : call) : frame_type * wal_record :=
  match c with
  | Prepare r => (kPrepare, r)
  | Commit id m => (kCommit, {| op_id := id; mut := m; payload := [] |})
  end.
Definition call_bytes (c : call) : bytes :=
  encode_frame (fst (frame_of_call c)) (snd (frame_of_call c)).
Definition calls_bytes (cs : list call) : bytes := concat (map call_bytes cs).
Definition call_ok (c : call) : Prop := frame_ok (snd (frame_of_call c)).

Definition step_call (a : N) (s : scan_state) (c : call) : scan_state :=
  process_frame a s (header_of (fst (frame_of_call c)) (snd (frame_of_call c)))
                (payload (snd (frame_of_call c))).

Lemma calls_bytes_cons c cs : calls_bytes (c :: cs) = call_bytes c ++ calls_bytes cs.
Proof. reflexivity. Qed.
Lemma calls_bytes_app c1 c2 : calls_bytes (c1 ++ c2) = calls_bytes c1 ++ calls_bytes c2.
Proof. unfold calls_bytes. now rewrite map_app, concat_app. Qed.
Lemma call_bytes_pos c : 28 <= length (call_bytes c).
Proof. unfold call_bytes. rewrite encode_frame_length. lia. Qed.

Lemma scan_calls a cs tail s fuel :
  Forall call_ok cs -> read_frame tail = None ->
  length (calls_bytes cs ++ tail) < fuel ->
  scan fuel a (calls_bytes cs ++ tail) s = Some (fold_left (step_call a) cs s).
Proof.
  revert s fuel. induction cs as [|c cs IH]; intros s fuel Hok Htail Hf.
  - destruct fuel as [|fuel]; [simpl in Hf; lia|]. cbn [scan calls_bytes map concat app fold_left].
    now rewrite Htail.
  - inversion Hok as [|? ? Hc Hcs]; subst.
    destruct fuel as [|fuel]; [lia|].
    rewrite calls_bytes_cons, <- app_assoc in *. cbn [scan].
    unfold call_bytes at 1. rewrite read_frame_app by exact Hc.
    cbn [fold_left]. apply IH; auto.
    rewrite app_length in Hf. pose proof (call_bytes_pos c). lia.
Qed.

(** ** Pending operations = last call is a prepare *)

Definition pending_is (p : pending_map) (hist : list call) : Prop :=
  forall id, pending_find id p =
             match last_call id hist with Some (Prepare r) => Some r | _ => None end.

Lemma find_erase_same id p : pending_find id (pending_erase id p) = None.
Proof.
  induction p as [|[k r] p IH]; [reflexivity|]. unfold pending_erase. cbn [filter fst].
  destruct (N.eqb_spec k id); cbn [negb]; [exact IH|].
  cbn [pending_find]. destruct (N.eqb_spec k id); [contradiction|exact IH].
Qed.
Lemma find_erase_other id id' p : id <> id' ->
  pending_find id (pending_erase id' p) = pending_find id p.
Proof.
  intros Hne. induction p as [|[k r] p IH]; [reflexivity|]. unfold pending_erase. cbn [filter fst].
  cbn [pending_find].
  destruct (N.eqb_spec k id'); cbn [negb].
  - destruct (N.eqb_spec k id); [congruence|exact IH].
  - cbn [pending_find]. destruct (N.eqb_spec k id); [reflexivity|exact IH].
Qed.
Lemma find_set id id' r p :
  pending_find id (pending_set id' r p) = if N.eqb id' id then Some r else pending_find id p.
Proof.
  unfold pending_set. cbn [pending_find]. destruct (N.eqb_spec id' id); [reflexivity|].
  apply find_erase_other. congruence.
Qed.

Lemma last_call_snoc id hist c :
  last_call id (hist ++ [c]) = if N.eqb (call_id c) id then Some c else last_call id hist.
Proof. unfold last_call. now rewrite rev_app_distr. Qed.

Lemma last_call_id id hist c : last_call id hist = Some c -> call_id c = id.
Proof. unfold last_call. intros H. apply find_some in H as [_ H]. now apply N.eqb_eq in H. Qed.

Record scan_inv (a : N) (hist : list call) (done : list wal_record) (s : scan_state) : Prop := {
  si_pending : pending_is (pending s) hist;
  si_committed : committed s = done;
}.

Lemma record_eta r : {| op_id := op_id r; mut := mut r; payload := payload r |} = r.
Proof. destruct r; reflexivity. Qed.

Lemma step_call_inv a hist done s c :
  scan_inv a hist done s ->
  scan_inv a (hist ++ [c]) (done ++ filter (newer_than a) (made_durable hist c)) (step_call a s c).
Proof.
  intros [Hp Hc]. destruct c as [r|id m]; unfold step_call, process_frame; cbn.
  - split; cbn.
    + intros id. rewrite find_set, last_call_snoc. cbn [call_id]. rewrite record_eta.
      destruct (N.eqb_spec (op_id r) id); [reflexivity|apply Hp].
    + now rewrite app_nil_r.
  - rewrite Hp. destruct (last_call id hist) as [[r|id' m']|] eqn:E.
    + destruct (mutation_eqb (mut r) m) eqn:Em; cbn [negb].
      * split; cbn.
        -- intros id2. rewrite last_call_snoc. cbn [call_id].
           destruct (N.eqb_spec id id2) as [<-|Hne]; [apply find_erase_same|].
           rewrite find_erase_other by congruence. apply Hp.
        -- apply last_call_id in E. cbn [call_id] in E. unfold newer_than. rewrite E, Hc.
           destruct (N.ltb a id); [reflexivity|now rewrite app_nil_r].
      * split; cbn.
        -- intros id2. rewrite last_call_snoc. cbn [call_id].
           destruct (N.eqb_spec id id2) as [<-|Hne]; [apply find_erase_same|].
           rewrite find_erase_other by congruence. apply Hp.
        -- now rewrite app_nil_r.
    + split; cbn; [|now rewrite app_nil_r].
      intros id2. rewrite last_call_snoc. cbn [call_id].
      destruct (N.eqb_spec id id2) as [<-|Hne]; [rewrite Hp, E; reflexivity|apply Hp].
    + split; cbn; [|now rewrite app_nil_r].
      intros id2. rewrite last_call_snoc. cbn [call_id].
      destruct (N.eqb_spec id id2) as [<-|Hne]; [rewrite Hp, E; reflexivity|apply Hp].
Qed.

Lemma fold_step_inv a cs : forall hist done s,
  scan_inv a hist done s ->
  scan_inv a (hist ++ cs) (done ++ filter (newer_than a) (durable_from hist cs))
           (fold_left (step_call a) cs s).
Proof.
  induction cs as [|c cs IH]; intros hist done s H; cbn [fold_left durable_from].
  - rewrite !app_nil_r. exact H.
  - apply step_call_inv with (c := c) in H. apply IH in H.
    rewrite <- app_assoc in H. rewrite filter_app, app_assoc. exact H.
Qed.

Lemma process_frame_max a s h pl : max_op (process_frame a s h pl) = N.max (max_op s) (h_op h).
Proof.
  unfold process_frame. destruct (h_type h); [reflexivity|].
  destruct (pending_find _ _); [|reflexivity]. destruct (negb _); reflexivity.
Qed.

Lemma step_call_max a s c : max_op (step_call a s c) = N.max (max_op s) (call_id c).
Proof. unfold step_call. rewrite process_frame_max. destruct c; reflexivity. Qed.

Lemma fold_step_max a cs : forall s,
  largest_id (max_op s) cs (max_op (fold_left (step_call a) cs s)).
Proof.
  induction cs as [|c cs IH]; intros s; cbn [fold_left].
  - split; [lia|]. split; [intros ? []|now left].
  - destruct (IH (step_call a s c)) as (H1 & H2 & H3). rewrite step_call_max in *.
    split; [lia|]. split.
    + intros c' [<-|Hin]; [lia|auto].
    + destruct H3 as [H3|(c' & Hin & H3)].
      * rewrite H3. destruct (N.max_spec (max_op s) (call_id c)) as [[_ ->]|[_ ->]].
        -- right. exists c. split; [now left|reflexivity].
        -- now left.
      * right. exists c'. split; [now right|exact H3].
Qed.

(** ** Sorting *)

Lemma insert_by_op_perm r l : Permutation (insert_by_op r l) (r :: l).
Proof.
  induction l as [|x l IH]; cbn; [reflexivity|].
  destruct (N.leb _ _); [|reflexivity].
  rewrite IH. apply perm_swap.
Qed.

Definition op_le (a b : wal_record) : Prop := (op_id a <= op_id b)%N.

Lemma insert_by_op_sorted r l : Sorted op_le l -> Sorted op_le (insert_by_op r l).
Proof.
  induction 1 as [|x l Hs IH Hhd]; cbn; [repeat constructor|].
  destruct (N.leb_spec (op_id x) (op_id r)).
  - constructor; [exact IH|]. destruct l as [|y l]; cbn.
    + constructor. exact H.
    + destruct (N.leb (op_id y) (op_id r)); constructor; [|exact H]. now inversion Hhd.
  - constructor; [constructor; assumption|]. constructor. unfold op_le. lia.
Qed.

Lemma sort_aux l : forall acc, Sorted op_le acc ->
  Sorted op_le (fold_left (fun acc r => insert_by_op r acc) l acc)
  /\ Permutation (fold_left (fun acc r => insert_by_op r acc) l acc) (acc ++ l).
Proof.
  induction l as [|x l IH]; intros acc H; cbn [fold_left].
  - rewrite app_nil_r. now split.
  - destruct (IH (insert_by_op x acc)) as [H1 H2]; [now apply insert_by_op_sorted|].
    split; [exact H1|]. rewrite H2, insert_by_op_perm. cbn. apply Permutation_middle.
Qed.

Lemma sort_by_op_spec l : Permutation (sort_by_op l) l /\ Sorted op_le (sort_by_op l).
Proof. destruct (sort_aux l []) as [H1 H2]; [constructor|]. split; assumption. Qed.

(** ** Replay of a file made of frames and an unreadable tail *)

Lemma replay_calls_tail a cs tail :
  Forall call_ok cs -> read_frame tail = None ->
  exists recs mx,
    replayable_records (Some (calls_bytes cs ++ tail)) a = Some (recs, mx)
    /\ replay_of a cs recs /\ largest_id a cs mx.
Proof.
  intros Hok Htail. unfold replayable_records.
  rewrite scan_calls by (auto; lia).
  set (s0 := {| committed := []; pending := []; max_op := a |}).
  assert (Hinv : scan_inv a [] [] s0) by (split; [intros id; reflexivity|reflexivity]).
  apply (fold_step_inv a cs) in Hinv. destruct Hinv as [_ Hc]. cbn [app] in Hc.
  pose proof (fold_step_max a cs s0) as Hm. cbn [max_op s0] in Hm.
  eexists _, _. split; [reflexivity|]. split; [|exact Hm].
  destruct (sort_by_op_spec (committed (fold_left (step_call a) cs s0))) as [Hp Hs].
  split; [|exact Hs]. rewrite Hp, Hc. reflexivity.
Qed.

Lemma read_frame_nil : read_frame [] = None.
Proof. reflexivity. Qed.

Lemma do_calls_bytes cs : forall f f',
  Forall op_id_ok cs -> do_calls f cs = Ret f' ->
  Forall call_ok cs /\ file_bytes f' = file_bytes f ++ calls_bytes cs
  /\ (f' = f /\ cs = [] \/ exists b, f' = Some b).
Proof.
  induction cs as [|c cs IH]; intros f f' Hok H; cbn [do_calls] in H.
  - inversion H; subst. split; [constructor|]. split; [now rewrite app_nil_r|]. left; auto.
  - inversion Hok as [|? ? Hc Hcs]; subst.
    destruct (do_call f c) as [f1|] eqn:E; [|discriminate].
    apply IH in H as (H1 & H2 & H3); [|assumption].
    assert (call_ok c /\ f1 = Some (file_bytes f ++ call_bytes c)) as [Hcok Hf1].
    { unfold call_ok, op_id_ok in *. destruct c as [r|id m]; cbn [do_call] in E.
      - unfold append_prepare, append_frame in E.
        destruct (N.ltb_spec kMaxWalPayloadSize (N.of_nat (length (payload r)))); [discriminate|].
        inversion E. cbn. unfold frame_ok. auto.
      - unfold append_commit, append_frame in E. cbn [payload length] in E.
        destruct (N.ltb_spec kMaxWalPayloadSize (N.of_nat 0)); [discriminate|].
        inversion E. cbn. unfold frame_ok. cbn. repeat split; auto; lia. }
    split; [now constructor|]. subst f1. cbn [file_bytes] in H2.
    split; [rewrite H2, calls_bytes_cons, app_assoc; reflexivity|].
    right. destruct H3 as [[-> _]|[b ->]]; eauto.
Qed.

Lemma wal_replay_exact_lemma cs a f :
  Forall op_id_ok cs -> do_calls None cs = Ret f ->
  exists recs mx, replayable_records f a = Some (recs, mx)
    /\ replay_of a cs recs /\ largest_id a cs mx.
Proof.
  intros Hok Hdo. destruct (do_calls_bytes cs None f Hok Hdo) as (Hc & Hb & Hf).
  destruct Hf as [[-> ->]|[b ->]].
  - exists [], a. split; [reflexivity|]. split.
    + split; constructor.
    + split; [lia|]. split; [intros ? []|now left].
  - cbn [file_bytes app] in Hb. subst b.
    destruct (replay_calls_tail a cs [] Hc read_frame_nil) as (recs & mx & H).
    rewrite app_nil_r in H. eauto.
Qed.

(** Cutting a concatenation of frames: whole frames plus a strict prefix of the next one. *)
Lemma cut_calls cs : forall n, Forall call_ok cs ->
  exists k tail, firstn n (calls_bytes cs) = calls_bytes (firstn k cs) ++ tail
    /\ read_frame tail = None
    /\ length (calls_bytes (firstn k cs)) <= n
    /\ k <= length cs
    /\ (k = length cs \/ n < length (calls_bytes (firstn (S k) cs))).
Proof.
  induction cs as [|c cs IH]; intros n Hok.
  - exists 0, []. cbn. rewrite firstn_nil. repeat split; auto; lia.
  - inversion Hok as [|? ? Hc Hcs]; subst.
    destruct (Nat.lt_ge_cases n (length (call_bytes c))) as [Hlt|Hge].
    + exists 0, (firstn n (call_bytes c)). cbn [firstn calls_bytes map concat app].
      split; [|split; [|split; [|split; [|right]]]].
      * rewrite firstn_app. replace (n - length (call_bytes c)) with 0 by lia.
        cbn. apply app_nil_r.
      * apply read_frame_torn; assumption.
      * cbn; lia.
      * cbn; lia.
      * rewrite app_nil_r. exact Hlt.
    + destruct (IH (n - length (call_bytes c)) Hcs) as (k & tail & H1 & H2 & H3 & H4 & H5).
      exists (S k), tail. rewrite firstn_cons, !calls_bytes_cons.
      split; [|split; [|split; [|split]]].
      * rewrite firstn_app, firstn_all2 by lia. rewrite H1. now rewrite app_assoc.
      * exact H2.
      * rewrite app_length. lia.
      * cbn; lia.
      * destruct H5 as [->|H5]; [left; reflexivity|right].
        rewrite firstn_cons, calls_bytes_cons, app_length. lia.
Qed.

(** Size of the file after the first [k] calls, by the specification's own means. *)
Lemma do_calls_firstn cs f k : Forall op_id_ok cs -> do_calls None cs = Ret f ->
  exists fk, do_calls None (firstn k cs) = Ret fk /\ file_bytes fk = calls_bytes (firstn k cs).
Proof.
  intros Hok Hdo.
  assert (H : forall l g g', do_calls g l = Ret g' -> forall k, exists gk, do_calls g (firstn k l) = Ret gk).
  { clear. induction l as [|c l IH]; intros g g' H k.
    - rewrite firstn_nil. eauto.
    - destruct k as [|k]; [cbn; eauto|]. cbn [firstn do_calls] in *.
      destruct (do_call g c) as [g1|]; [|discriminate]. eapply IH; eauto. }
  destruct (H _ _ _ Hdo k) as [fk Hk]. exists fk. split; [exact Hk|].
  apply do_calls_bytes in Hk as (_ & Hb & _).
  - exact Hb.
  - rewrite <- (firstn_skipn k cs) in Hok. now apply Forall_app in Hok.
Qed.

Lemma wal_torn_lemma cs a f n :
  Forall op_id_ok cs -> do_calls None cs = Ret f ->
  exists k recs mx fk,
    do_calls None (firstn k cs) = Ret fk
    /\ length (file_bytes fk) <= n
    /\ (k = length cs \/
        exists fk1, do_calls None (firstn (S k) cs) = Ret fk1 /\ n < length (file_bytes fk1))
    /\ replayable_records (Some (firstn n (file_bytes f))) a = Some (recs, mx)
    /\ replay_of a (firstn k cs) recs /\ largest_id a (firstn k cs) mx.
Proof.
  intros Hok Hdo. destruct (do_calls_bytes cs None f Hok Hdo) as (Hc & Hb & _).
  cbn [file_bytes app] in Hb. rewrite Hb.
  destruct (cut_calls cs n Hc) as (k & tail & H1 & H2 & H3 & H4 & H5).
  destruct (replay_calls_tail a (firstn k cs) tail) as (recs & mx & R1 & R2 & R3).
  { rewrite <- (firstn_skipn k cs) in Hc. now apply Forall_app in Hc. }
  { exact H2. }
  destruct (do_calls_firstn cs f k Hok Hdo) as (fk & D1 & D2).
  exists k, recs, mx, fk. rewrite H1. repeat split; try assumption; try (now rewrite D2).
  - destruct H5 as [->|H5]; [now left|right].
    destruct (do_calls_firstn cs f (S k) Hok Hdo) as (fk1 & E1 & E2).
    exists fk1. split; [exact E1|]. now rewrite E2.
  - apply R2.
  - apply R2.
  - apply R3.
  - apply R3.
  - apply R3.
Qed.

(** Appending to a file that ends at a frame boundary. *)
Lemma wal_append_boundary_lemma cs1 cs2 a f1 f2 :
  Forall op_id_ok cs1 -> Forall op_id_ok cs2 ->
  do_calls None cs1 = Ret f1 -> do_calls f1 cs2 = Ret f2 ->
  exists recs mx, replayable_records f2 a = Some (recs, mx)
    /\ replay_of a (cs1 ++ cs2) recs.
Proof.
  intros Ho1 Ho2 H1 H2.
  assert (H : do_calls None (cs1 ++ cs2) = Ret f2).
  { revert H1 H2. generalize (None : wal_file). clear Ho1 Ho2. induction cs1 as [|c cs IH]; intros g; cbn [app do_calls].
    - intros E; inversion E; subst; auto.
    - destruct (do_call g c); [|discriminate]. apply IH. }
  destruct (wal_replay_exact_lemma (cs1 ++ cs2) a f2) as (recs & mx & R1 & R2 & _); auto.
  { apply Forall_app; auto. }
  eauto.
Qed.

(** Characterisation of durable operations without recursion. *)
Lemma durable_from_In cs : forall hist r,
  In r (durable_from hist cs) <->
  exists l1 l2, cs = l1 ++ Commit (op_id r) (mut r) :: l2
                /\ last_call (op_id r) (hist ++ l1) = Some (Prepare r).
Proof.
  induction cs as [|c cs IH]; intros hist r; cbn [durable_from].
  - split; [intros []|]. intros (l1 & l2 & E & _). destruct l1; discriminate.
  - rewrite in_app_iff, IH. split.
    + intros [H|(l1 & l2 & E & H)].
      * destruct c as [r'|id m]; [destruct H|]. cbn [made_durable] in H.
        destruct (last_call id hist) as [[r'|? ?]|] eqn:El; try destruct H.
        destruct (mutation_eqb (mut r') m) eqn:Em; [|destruct H].
        destruct H as [<-|[]]. apply mutation_eqb_eq in Em. subst m.
        pose proof (last_call_id _ _ _ El) as Hid. cbn [call_id] in Hid. subst id.
        exists [], cs. rewrite app_nil_r. auto.
      * exists (c :: l1), l2. rewrite E. split; [reflexivity|].
        rewrite <- app_assoc in H. exact H.
    + intros (l1 & l2 & E & H). destruct l1 as [|c' l1]; cbn in E; inversion E; subst.
      * left. rewrite app_nil_r in H. cbn [made_durable]. rewrite H.
        replace (mutation_eqb (mut r) (mut r)) with true by (symmetry; now apply mutation_eqb_eq).
        now left.
      * right. exists l1, l2. split; [reflexivity|]. rewrite <- app_assoc. exact H.
Qed.

(** ** Replay of an arbitrary file *)

Lemma scan_total a fuel : forall input s, length input < fuel -> scan fuel a input s <> None.
Proof.
  induction fuel as [|fuel IH]; intros input s H; [lia|]. cbn [scan].
  destruct (read_frame input) as [[[h pl] rest]|] eqn:E; [|discriminate].
  apply IH. apply read_frame_length in E. lia.
Qed.

Lemma replay_total f a : exists recs mx, replayable_records f a = Some (recs, mx).
Proof.
  unfold replayable_records. destruct f as [b|]; [|eauto].
  destruct (scan _ _ _ _) eqn:E; [eauto|]. exfalso. revert E. apply scan_total. lia.
Qed.

(** Scans with different [applied_through] differ only in what they collect. *)
Record scan_rel (a : N) (s0 sa : scan_state) : Prop := {
  sr_pending : pending s0 = pending sa;
  sr_wf : forall id r, pending_find id (pending s0) = Some r -> op_id r = id;
  sr_com : committed sa = filter (newer_than a) (committed s0);
}.

Lemma process_frame_rel a s0 sa h pl :
  scan_rel a s0 sa -> scan_rel a (process_frame 0 s0 h pl) (process_frame a sa h pl).
Proof.
  intros [H1 H2 H3]. unfold process_frame. destruct (h_type h).
  - split; cbn [pending committed]; [now rewrite H1| |exact H3].
    intros id r. rewrite find_set. destruct (N.eqb_spec (h_op h) id) as [<-|].
    + intros E; inversion E; reflexivity.
    + apply H2.
  - rewrite <- H1. destruct (pending_find (h_op h) (pending s0)) as [r|] eqn:E.
    2:{ split; cbn [pending committed]; auto. }
    assert (Hwf : forall id r0, pending_find id (pending_erase (h_op h) (pending s0)) = Some r0 -> op_id r0 = id).
    { intros id r0 Hf. destruct (N.eq_dec id (h_op h)) as [->|Hne].
      - now rewrite find_erase_same in Hf.
      - rewrite find_erase_other in Hf by exact Hne. now apply H2. }
    apply H2 in E. destruct (negb _); split; cbn [pending committed]; auto.
    destruct (N.ltb_spec a (h_op h)) as [Ha|Ha].
    + destruct (N.ltb_spec 0 (h_op h)); [|lia]. rewrite filter_app. cbn. unfold newer_than at 2.
      rewrite E. destruct (N.ltb_spec a (h_op h)); [|lia]. now rewrite H3.
    + destruct (N.ltb_spec 0 (h_op h)); [|exact H3]. rewrite filter_app. cbn. unfold newer_than at 2.
      rewrite E. destruct (N.ltb_spec a (h_op h)); [lia|]. now rewrite app_nil_r.
Qed.

Lemma scan_rel_run a fuel : forall input s0 sa,
  scan_rel a s0 sa ->
  match scan fuel 0 input s0, scan fuel a input sa with
  | Some r0, Some ra => scan_rel a r0 ra
  | None, None => True
  | _, _ => False
  end.
Proof.
  induction fuel as [|fuel IH]; intros input s0 sa H; cbn [scan]; [exact I|].
  destruct (read_frame input) as [[[h pl] rest]|]; [|exact H].
  apply IH. now apply process_frame_rel.
Qed.

Lemma replay_subset f a recs0 mx0 recs mx r :
  replayable_records f 0 = Some (recs0, mx0) -> replayable_records f a = Some (recs, mx) ->
  (In r recs <-> In r recs0 /\ (a < op_id r)%N).
Proof.
  unfold replayable_records. destruct f as [b|].
  2:{ intros H1 H2; inversion H1; inversion H2; subst; cbn; tauto. }
  pose proof (scan_rel_run a (S (length b)) b
    {| committed := []; pending := []; max_op := 0 |} {| committed := []; pending := []; max_op := a |}) as H.
  destruct (scan (S (length b)) 0 b _) as [r0|]; [|discriminate].
  destruct (scan (S (length b)) a b _) as [ra|]; [|discriminate].
  destruct H as [_ _ Hc]. { split; cbn; auto. intros; discriminate. }
  intros E1 E2; inversion E1; inversion E2; subst.
  destruct (sort_by_op_spec (committed r0)) as [P0 _], (sort_by_op_spec (committed ra)) as [Pa _].
  split.
  - intros Hin. apply (Permutation_in _ Pa) in Hin. rewrite Hc in Hin.
    apply filter_In in Hin as [Hin Hn]. split; [|now apply N.ltb_lt].
    now apply (Permutation_in _ (Permutation_sym P0)).
  - intros [Hin Hlt]. apply (Permutation_in _ P0) in Hin.
    apply (Permutation_in _ (Permutation_sym Pa)). rewrite Hc. apply filter_In.
    split; [exact Hin|now apply N.ltb_lt].
Qed.
