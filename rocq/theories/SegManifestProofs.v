(** Lemmas about the manifests of disk collections. *)
From Coq Require Import String.
From Verif Require Export SegManifestSpec.
Local Open Scope N_scope.

(** ** Blanks *)
Lemma is_ascii_ws_iff c : is_ascii_ws c = true <-> blank c.
Proof. unfold is_ascii_ws, blank. cbn [In]. rewrite !orb_true_iff, !N.eqb_eq. intuition congruence. Qed.
Lemma strip_front_split l : exists a, l = a ++ strip_front l /\ Forall blank a.
Proof.
  induction l as [|c l (a & E & F)]; [exists []; auto|]. cbn [strip_front]. destruct (is_ascii_ws c) eqn:W.
  - exists (c :: a). cbn [app]. rewrite <- E. split; [reflexivity|]. constructor; [now apply is_ascii_ws_iff|exact F].
  - exists []. auto.
Qed.
Lemma strip_front_head l c r : strip_front l = c :: r -> ~ blank c.
Proof.
  induction l as [|x l IH]; cbn [strip_front]; [discriminate|]. destruct (is_ascii_ws x) eqn:W; [exact IH|]. intros [= -> ->] H. apply is_ascii_ws_iff in H. congruence.
Qed.
Lemma strip_front_id l : (forall c r, l = c :: r -> ~ blank c) -> strip_front l = l.
Proof.
  destruct l as [|c r]; [reflexivity|]. intros H. cbn [strip_front]. destruct (is_ascii_ws c) eqn:W; [|reflexivity]. exfalso. apply is_ascii_ws_iff in W. now apply (H c r).
Qed.
Lemma strip_split l : exists a b, l = a ++ strip l ++ b.
Proof.
  destruct (strip_front_split l) as (a & E & _). destruct (strip_front_split (rev (strip_front l))) as (b & E2 & _). exists a, (rev b). unfold strip.
  rewrite <- rev_app_distr, <- E2, rev_involutive. exact E.
Qed.
Lemma strip_in x l : In x (strip l) -> In x l.
Proof. destruct (strip_split l) as (a & b & E). intros H. rewrite E. apply in_or_app. right. apply in_or_app. now left. Qed.
Lemma strip_last l r c : strip l = r ++ [c] -> ~ blank c.
Proof. unfold strip. intros E. apply (f_equal (@rev N)) in E. rewrite rev_involutive, rev_app_distr in E. cbn [rev app] in E. eapply strip_front_head; exact E. Qed.
Lemma strip_head l c r : strip l = c :: r -> ~ blank c.
Proof.
  unfold strip. intros E. destruct (strip_front_split (rev (strip_front l))) as (b & E2 & _).
  apply (f_equal (@rev N)) in E2. rewrite rev_involutive, rev_app_distr, E in E2. cbn [app] in E2. eapply strip_front_head; exact E2.
Qed.
Lemma strip_id l : (forall c r, l = c :: r -> ~ blank c) -> (forall r c, l = r ++ [c] -> ~ blank c) -> strip l = l.
Proof.
  intros H1 H2. unfold strip. rewrite (strip_front_id l H1). rewrite strip_front_id; [apply rev_involutive|].
  intros c r E. apply (f_equal (@rev N)) in E. rewrite rev_involutive in E. cbn [rev] in E. now apply (H2 (rev r)).
Qed.
Lemma strip_text l : ~ In 10 l -> line_text (strip l).
Proof. intros H. split; [intros X; now apply strip_in in X|]. split; [apply strip_head|apply strip_last]. Qed.

(** ** Lines *)
Lemma split_on_ne c l : split_on c l <> [].
Proof. destruct l as [|x l]; cbn [split_on]; [discriminate|]. destruct (N.eqb x c); [discriminate|]. destruct (split_on c l); discriminate. Qed.
Lemma split_on_line c a r : ~ In c a -> split_on c (a ++ c :: r) = a :: split_on c r.
Proof.
  induction a as [|x a IH]; intros H; cbn [app split_on]; [now rewrite N.eqb_refl|].
  destruct (N.eqb_spec x c) as [->|]; [exfalso; apply H; now left|]. rewrite IH by (intros X; apply H; now right). reflexivity.
Qed.
Lemma split_on_no c l : forall p, In p (split_on c l) -> ~ In c p /\ forall x, In x p -> In x l.
Proof.
  induction l as [|x l IH]; cbn [split_on]; intros p H; [destruct H as [<-|[]]; split; [intros []|intros x []]|].
  destruct (N.eqb_spec x c) as [->|NE].
  - destruct H as [<-|H]; [split; [intros []|intros y []]|]. destruct (IH p H) as [A B]. split; [exact A|]. intros y Hy. right. auto.
  - destruct (split_on c l) as [|q qs].
    + destruct H as [<-|[]]. split; [intros [X|[]]; congruence|]. intros y [<-|[]]. now left.
    + destruct H as [<-|H].
      * destruct (IH q (or_introl eq_refl)) as [A B]. split; [intros [X|X]; [congruence|contradiction]|]. intros y [<-|Hy]; [now left|right; auto].
      * destruct (IH p (or_intror H)) as [A B]. split; [exact A|]. intros y Hy. right. auto.
Qed.
(** Entries that make a line of their own. *)
Definition entry_ok (e : bytes * bytes) : Prop :=
  fst e <> [] /\ line_text (fst e) /\ ~ In 61 (fst e) /\ (forall r, fst e <> 35 :: r) /\ line_text (snd e).
Lemma parse_kv_line_ok k v : entry_ok (k, v) -> parse_kv_line (k ++ 61 :: v) = Ok (Some (k, v)).
Proof.
  intros (NE & (K1 & K2 & K3) & K4 & K5 & (V1 & V2 & V3)). cbn [fst snd] in *. unfold parse_kv_line.
  rewrite strip_id.
  - destruct k as [|c k]; [contradiction|]. cbn [app]. destruct (N.eqb_spec c 35) as [->|]; [now destruct (K5 k)|].
    rewrite app_comm_cons, split_at_app by exact K4. now rewrite (strip_id (c :: k)), (strip_id v) by assumption.
  - intros c r E. destruct k as [|c' k]; [contradiction|]. injection E as <- <-. now apply (K2 c' k).
  - intros r c E. destruct (@exists_last _ (61 :: v) ltac:(discriminate)) as (r' & c' & E'). rewrite E', app_assoc in E. apply app_inj_tail in E as [_ ->].
    destruct v as [|x v]; [destruct r' as [|? [|? ?]]; try discriminate; injection E' as <-; unfold blank; cbn; lia|].
    destruct r' as [|y r']; [discriminate|]. injection E' as _ E'. now apply (V3 r' c).
Qed.
Lemma parse_kv_lines_ok es : Forall entry_ok es -> parse_kv_lines (concat (map (fun e => line (fst e) (snd e)) es)) = Ok es.
Proof.
  unfold parse_kv_lines. induction 1 as [|[k v] es H F IH]; [reflexivity|]. cbn [map concat fst snd]. unfold line at 1.
  assert (E : forall r, (k ++ [61] ++ v ++ [10]) ++ r = (k ++ 61 :: v) ++ 10 :: r) by (intros r; rewrite <- !app_assoc; cbn [app]; rewrite <- ?app_assoc; reflexivity).
  rewrite E, split_on_line.
  - cbn [parse_pairs]. rewrite (parse_kv_line_ok k v H). cbn [bind]. rewrite IH. reflexivity.
  - destruct H as (_ & (K1 & _) & _ & _ & (V1 & _)). cbn [fst snd] in *. intros X. apply in_app_or in X as [X|[X|X]]; [contradiction|discriminate|contradiction].
Qed.
Lemma parse_pairs_text ls es : parse_pairs ls = Ok es -> Forall (fun l => ~ In 10 l) ls -> Forall (fun e => line_text (fst e) /\ ~ In 61 (fst e) /\ line_text (snd e)) es.
Proof.
  revert es. induction ls as [|l ls IH]; intros es E F; cbn [parse_pairs] in E; [injection E as <-; constructor|]. inversion F as [|? ? Hl F']; subst.
  destruct (parse_kv_line l) as [o| | |] eqn:EL; try discriminate E. cbn [bind] in E. destruct (parse_pairs ls) as [ps| | |]; try discriminate E. cbn [bind] in E. injection E as <-.
  specialize (IH ps eq_refl F'). destruct o as [[k v]|]; [|exact IH]. constructor; [|exact IH]. unfold parse_kv_line in EL. destruct (strip l) as [|c s] eqn:ES; [discriminate|].
  destruct (N.eqb c 35); [discriminate|]. destruct (split_at 61 (c :: s)) as [[k0 v0]|] eqn:E6; [|discriminate]. injection EL as <- <-. cbn [fst snd].
  apply split_at_Some in E6 as [E6 N6]. assert (Sub : forall x, In x (k0 ++ 61 :: v0) -> In x l) by (intros x Hx; rewrite <- E6, <- ES in Hx; now apply strip_in).
  split; [apply strip_text; intros X; apply Hl, Sub, in_or_app; now left|]. split; [intros X; now apply strip_in in X|].
  apply strip_text. intros X. apply Hl, Sub, in_or_app. right. now right.
Qed.
Lemma parse_kv_lines_text body es : parse_kv_lines body = Ok es -> Forall (fun e => line_text (fst e) /\ ~ In 61 (fst e) /\ line_text (snd e)) es.
Proof. intros H. eapply parse_pairs_text; [exact H|]. apply Forall_forall. intros p Hp. now apply split_on_no in Hp as [? _]. Qed.

(** ** Numbers *)
Lemma parse_digits_value l : forall out, out < 2 ^ 64 -> parse_digits out l = match digits_val out l with Some n => if N.ltb n (2 ^ 64) then Ok n else Throws | None => Throws end.
Proof.
  assert (G : forall l out n, digits_val out l = Some n -> out <= n).
  { clear. induction l as [|c l IH]; intros out n; cbn [digits_val]; [intros [= ->]; lia|]. destruct (is_digit c); [|discriminate]. intros H. apply IH in H. lia. }
  induction l as [|c l IH]; intros out Hout; cbn [parse_digits digits_val].
  - destruct (N.ltb_spec out (2 ^ 64)); [reflexivity|lia].
  - unfold is_digit. replace (N.leb 48 c && N.leb c 57) with (negb (N.ltb c 48 || N.ltb 57 c)) by lia.
    destruct (N.ltb c 48 || N.ltb 57 c) eqn:Ed; cbn [negb]; [reflexivity|]. apply orb_false_iff in Ed as [D1 D2]. apply N.ltb_ge in D1, D2. unfold chr_0.
    replace (10 * out + (c - 48)) with (out * 10 + (c - 48)) by lia. remember (c - 48) as d eqn:Hd. assert (Hd9 : d <= 9) by lia.
    change (2 ^ 64) with 18446744073709551616 in *.
    destruct (N.ltb_spec ((18446744073709551616 - 1 - d) / 10) out) as [Big|Small].
    + destruct (digits_val (out * 10 + d) l) as [n|] eqn:E; [|reflexivity]. apply G in E. destruct (N.ltb_spec n 18446744073709551616); [lia|reflexivity].
    + apply IH. lia.
Qed.
Lemma parse_uint64_dec n : n < 2 ^ 64 -> parse_uint64 (dec n) = Ok n.
Proof.
  intros H. unfold parse_uint64. destruct (dec n) eqn:E; [now destruct (dec_nonempty n)|]. rewrite <- E, parse_digits_value by reflexivity. rewrite parse_digits_dec.
  destruct (N.ltb_spec n (2 ^ 64)); [reflexivity|lia].
Qed.
Lemma parse_uint64_lt l n : parse_uint64 l = Ok n -> n < 2 ^ 64.
Proof.
  unfold parse_uint64. destruct l as [|c l]; [discriminate|]. rewrite parse_digits_value by reflexivity. destruct (digits_val 0 (c :: l)) as [v|]; [|discriminate].
  destruct (N.ltb_spec v (2 ^ 64)); [intros [= <-]; assumption|discriminate].
Qed.
Lemma dec_text n : line_text (dec n).
Proof.
  assert (D : forall c, In c (dec n) -> ~ blank c).
  { intros c Hc. pose proof (dec_digits n) as F. rewrite Forall_forall in F. specialize (F c Hc). unfold is_digit in F. unfold blank. cbn. lia. }
  split; [intros X; apply (D 10 X); unfold blank; cbn; auto|]. split; [intros c r E; apply D; rewrite E; now left|intros r c E; apply D; rewrite E; apply in_or_app; right; now left].
Qed.

(** ** Names *)
Lemma is_valid_segment_id_iff s : is_valid_segment_id s = true <-> segment_name s.
Proof.
  unfold is_valid_segment_id, segment_name. split.
  - destruct (Nat.eqb_spec (length s) 12) as [L|]; [|discriminate]. cbn [negb]. destruct (bytes_eqb_spec (firstn 4 s) (str "seg_")) as [E|]; [|discriminate]. cbn [negb]. intros F.
    exists (skipn 4 s). split; [rewrite <- E; symmetry; apply firstn_skipn|]. split; [rewrite skipn_length; lia|]. rewrite forallb_forall in F. apply Forall_forall. intros c Hc. specialize (F c Hc). unfold digit. lia.
  - intros (ds & -> & L & F). rewrite app_length, L. change (length (str "seg_")) with 4%nat. cbn [Nat.add Nat.eqb negb].
    change (firstn 4 (str "seg_" ++ ds)) with (str "seg_"). rewrite bytes_eqb_refl. cbn [negb]. change (skipn 4 (str "seg_" ++ ds)) with ds.
    apply forallb_forall. intros c Hc. rewrite Forall_forall in F. specialize (F c Hc). unfold digit in F. lia.
Qed.
Lemma segment_name_text s : segment_name s -> line_text s /\ s <> [].
Proof.
  intros (ds & -> & L & F). split; [|discriminate].
  assert (D : forall c, In c (str "seg_" ++ ds) -> ~ blank c).
  { intros c Hc. apply in_app_or in Hc as [Hc|Hc]; [vm_compute in Hc; unfold blank; cbn; intuition (subst; try discriminate)|]. rewrite Forall_forall in F. specialize (F c Hc). unfold digit in F. unfold blank. cbn. lia. }
  split; [intros X; apply (D 10 X); unfold blank; cbn; auto|]. split; [intros c r E; apply D; rewrite E; now left|intros r c E; apply D; rewrite E; apply in_or_app; right; now left].
Qed.
Lemma is_valid_basename_iff s : is_valid_basename s = true <-> plain_name s.
Proof.
  unfold is_valid_basename, plain_name. destruct s as [|c s]; [intuition congruence|].
  destruct (bytes_eqb_spec (c :: s) (str ".")) as [->|N1]; [cbn [orb]; intuition congruence|]. destruct (bytes_eqb_spec (c :: s) (str "..")) as [->|N2]; [cbn [orb]; intuition congruence|]. cbn [orb].
  rewrite forallb_forall. split.
  - intros F. split; [discriminate|]. split; [intros X; apply F in X; discriminate|]. split; [intros X; apply F in X; discriminate|]. auto.
  - intros (_ & A & B & _) x Hx. destruct (N.eqb_spec x 47) as [->|]; [contradiction|]. destruct (N.eqb_spec x 0) as [->|]; [contradiction|reflexivity].
Qed.
Lemma metric_text m t : metric_to_string m = Ok t -> metric_of t = m /\ line_text t /\ t <> [].
Proof.
  assert (G : forall t, forallb (fun c => negb (is_ascii_ws c)) t = true -> line_text t).
  { clear. intros t F. rewrite forallb_forall in F. assert (D : forall c, In c t -> ~ blank c) by (intros c Hc X; apply is_ascii_ws_iff in X; specialize (F c Hc); rewrite X in F; discriminate).
    split; [intros X; apply (D 10 X); unfold blank; cbn; auto|]. split; [intros c r E; apply D; rewrite E; now left|intros r c E; apply D; rewrite E; apply in_or_app; right; now left]. }
  destruct m; intros [= <-]; (split; [reflexivity|split; [apply G; reflexivity|discriminate]]).
Qed.
Lemma metric_to_string_ok m : m <> NONE -> exists t, metric_to_string m = Ok t.
Proof. destruct m; intros H; try (eexists; reflexivity). contradiction. Qed.
Lemma clean_text t : forallb (fun c => negb (is_ascii_ws c)) t = true -> line_text t.
Proof.
  intros F. rewrite forallb_forall in F. assert (D : forall c, In c t -> ~ blank c) by (intros c Hc X; apply is_ascii_ws_iff in X; specialize (F c Hc); rewrite X in F; discriminate).
  split; [intros X; apply (D 10 X); unfold blank; cbn; auto|]. split; [intros c r E; apply D; rewrite E; now left|intros r c E; apply D; rewrite E; apply in_or_app; right; now left].
Qed.
Lemma type_text t : index_type_from_string (index_type_to_string t) = Ok t /\ line_text (index_type_to_string t) /\ index_type_to_string t <> [].
Proof. destruct t; (split; [reflexivity|split; [apply clean_text; reflexivity|discriminate]]). Qed.

(** ** Maps *)
Lemma kv_ext a b : kv_sorted a -> kv_sorted b -> (forall k, kv_get a k = kv_get b k) -> a = b.
Proof.
  revert b. induction a as [|[k v] a IH]; intros [|[k' v'] b] Sa Sb E; [reflexivity| | |].
  - specialize (E k'). cbn in E. rewrite bytes_eqb_refl in E. discriminate.
  - specialize (E k). cbn in E. rewrite bytes_eqb_refl in E. discriminate.
  - assert (Ha : forall x w, In (x, w) a -> key_lt k x) by (intros x w H; unfold kv_sorted in Sa; inversion Sa as [|? ? _ F]; subst; rewrite Forall_forall in F; apply F; now apply (in_map fst) in H).
    assert (Hb : forall x w, In (x, w) b -> key_lt k' x) by (intros x w H; unfold kv_sorted in Sb; inversion Sb as [|? ? _ F]; subst; rewrite Forall_forall in F; apply F; now apply (in_map fst) in H).
    assert (Ea : kv_get ((k', v') :: b) k = Some v) by (rewrite <- E; cbn; now rewrite bytes_eqb_refl).
    assert (Eb : kv_get ((k, v) :: a) k' = Some v') by (rewrite E; cbn; now rewrite bytes_eqb_refl).
    apply kv_get_In in Ea; [|exact Sb]. apply kv_get_In in Eb; [|exact Sa].
    assert (k = k' /\ v = v') as [<- <-].
    { destruct Ea as [Ea|Ea]; [split; congruence|]. destruct Eb as [Eb|Eb]; [split; congruence|]. exfalso. apply Hb in Ea. apply Ha in Eb. apply (key_lt_irrefl k). eapply key_lt_trans; eassumption. }
    f_equal. assert (Sa' : kv_sorted a) by (unfold kv_sorted in *; inversion Sa; assumption). assert (Sb' : kv_sorted b) by (unfold kv_sorted in *; inversion Sb; assumption).
    apply IH; auto. intros x. specialize (E x). cbn in E. destruct (bytes_eqb_spec k x) as [Ek|] in E; [|exact E]. subst x.
    destruct (kv_get a k) as [w|] eqn:Ga; [apply kv_get_In in Ga; [apply Ha in Ga; now apply key_lt_irrefl in Ga|exact Sa']|].
    destruct (kv_get b k) as [w|] eqn:Gb; [apply kv_get_In in Gb; [apply Hb in Gb; now apply key_lt_irrefl in Gb|exact Sb']|reflexivity].
Qed.
Lemma scalar_map_ok ps : forall m, NoDup (map fst ps) -> kv_sorted m -> (forall k, In k (map fst ps) -> kv_get m k = None) ->
  exists m', scalar_map ps m = Ok m' /\ kv_sorted m' /\ forall k, kv_get m' k = match kv_get ps k with Some v => Some v | None => kv_get m k end.
Proof.
  induction ps as [|[k v] ps IH]; intros m ND S H; cbn [scalar_map kv_get]; [exists m; auto|]. cbn [map fst] in ND. inversion ND as [|? ? NI ND']; subst.
  rewrite (H k) by now left. destruct (IH (kv_put k v m) ND') as (m' & E & S' & G).
  - now apply kv_sorted_put.
  - intros x Hx. rewrite kv_get_put. destruct (bytes_eqb_spec k x) as [->|]; [contradiction|]. apply H. now right.
  - exists m'. split; [exact E|]. split; [exact S'|]. intros x. rewrite G, kv_get_put. destruct (bytes_eqb_spec k x) as [->|]; [|reflexivity].
    destruct (kv_get ps x) as [w|] eqn:Gx; [|reflexivity]. exfalso. apply NI. clear - Gx. induction ps as [|[y z] ps IH]; [discriminate|]. cbn in Gx. destruct (bytes_eqb_spec y x) as [->|]; [now left|right; auto].
Qed.
Lemma scalar_map_inv ps : forall m m', scalar_map ps m = Ok m' -> kv_sorted m -> kv_sorted m' /\ forall k v, kv_get m' k = Some v -> In (k, v) ps \/ kv_get m k = Some v.
Proof.
  induction ps as [|[k v] ps IH]; intros m m' E S; cbn [scalar_map] in E; [injection E as <-; auto|]. destruct (kv_get m k) eqn:G; [discriminate|].
  destruct (IH _ _ E (kv_sorted_put k v m S)) as [S' H]. split; [exact S'|]. intros x w Hx. destruct (H x w Hx) as [Hi|Hg]; [left; now right|]. rewrite kv_get_put in Hg.
  destruct (bytes_eqb_spec k x) as [->|]; [left; left; congruence|now right].
Qed.
Lemma kv_get_first es k v : NoDup (map fst es) -> In (k, v) es -> kv_get es k = Some v.
Proof.
  induction es as [|[x w] es IH]; intros ND H; [destruct H|]. cbn [map fst] in ND. inversion ND as [|? ? NI ND']; subst. cbn [kv_get]. destruct H as [[= -> ->]|H]; [now rewrite bytes_eqb_refl|].
  destruct (bytes_eqb_spec x k) as [->|]; [exfalso; apply NI; now apply (in_map fst) in H|now apply IH].
Qed.
Lemma kv_get_none es k : kv_get es k = None <-> ~ In k (map fst es).
Proof.
  induction es as [|[x w] es IH]; cbn [kv_get map fst]; [intuition|]. destruct (bytes_eqb_spec x k) as [->|NE]; [split; [discriminate|intros H; exfalso; apply H; now left]|]. rewrite IH. cbn [In]. intuition.
Qed.
Lemma kv_get_in es k v : kv_get es k = Some v -> In (k, v) es.
Proof. induction es as [|[x w] es IH]; cbn [kv_get]; [discriminate|]. destruct (bytes_eqb_spec x k) as [->|]; [intros [= ->]; now left|right; auto]. Qed.
Lemma unknown_keys_ok known es : forall x, kv_sorted x -> kv_sorted es ->
  (forall k v, In (k, v) es -> In k known \/ starts_with (str "x_") k = true) ->
  exists x', unknown_keys known es x = Ok x' /\ kv_sorted x'
    /\ forall k, kv_get x' k = if existsb (bytes_eqb k) known then kv_get x k else match kv_get es k with Some v => Some v | None => kv_get x k end.
Proof.
  induction es as [|[k v] es IH]; intros x Sx Ss H; cbn [unknown_keys kv_get]; [exists x; split; [reflexivity|split; [exact Sx|intros k; now destruct (existsb _ _)]]|].
  pose proof (kv_sorted_nodup _ Ss) as ND. cbn [map fst] in ND. inversion ND as [|? ? NI ND']; subst. assert (Ss' : kv_sorted es) by (unfold kv_sorted in *; inversion Ss; assumption).
  destruct (existsb (bytes_eqb k) known) eqn:EK.
  - destruct (IH x Sx Ss') as (x' & E & S' & G); [intros; apply (H k0 v0); now right|]. exists x'. split; [exact E|]. split; [exact S'|]. intros y. rewrite G.
    destruct (existsb (bytes_eqb y) known) eqn:EY; [reflexivity|]. destruct (bytes_eqb_spec k y) as [->|]; [congruence|reflexivity].
  - destruct (H k v (or_introl eq_refl)) as [Hk|Hk].
    { exfalso. assert (existsb (bytes_eqb k) known = true) by (apply existsb_exists; exists k; split; [exact Hk|apply bytes_eqb_refl]). congruence. }
    rewrite Hk. destruct (IH (kv_put k v x) (kv_sorted_put k v x Sx) Ss') as (x' & E & S' & G); [intros; apply (H k0 v0); now right|]. exists x'. split; [exact E|]. split; [exact S'|].
    intros y. rewrite G, kv_get_put. destruct (existsb (bytes_eqb y) known) eqn:EY.
    + destruct (bytes_eqb_spec k y) as [->|]; [congruence|reflexivity].
    + destruct (bytes_eqb_spec k y) as [->|]; [|reflexivity]. apply kv_get_none in NI. now rewrite NI.
Qed.
Lemma unknown_keys_inv known es : forall x x', unknown_keys known es x = Ok x' -> kv_sorted x ->
  kv_sorted x' /\ forall k v, kv_get x' k = Some v -> kv_get x k = Some v \/ (In (k, v) es /\ starts_with (str "x_") k = true).
Proof.
  induction es as [|[k v] es IH]; intros x x' E S; cbn [unknown_keys] in E; [injection E as <-; auto|]. destruct (existsb (bytes_eqb k) known).
  - destruct (IH _ _ E S) as [S' H]. split; [exact S'|]. intros y w Hy. destruct (H y w Hy) as [?|[? ?]]; [now left|right; split; [now right|assumption]].
  - destruct (starts_with (str "x_") k) eqn:EX; [|discriminate]. destruct (IH _ _ E (kv_sorted_put k v x S)) as [S' H]. split; [exact S'|]. intros y w Hy.
    destruct (H y w Hy) as [Hg|[? ?]]; [|right; split; [now right|assumption]]. rewrite kv_get_put in Hg. destruct (bytes_eqb_spec k y) as [->|]; [|now left]. injection Hg as ->. right. split; [now left|exact EX].
Qed.
Lemma extension_entry e : extension e -> entry_ok e.
Proof.
  destruct e as [k v]. intros ((r & E) & A & B & C). cbn [fst snd] in *. unfold entry_ok. cbn [fst snd]. subst k. split; [discriminate|]. split; [exact A|]. split; [exact B|]. split; [|exact C]. intros r' X. discriminate X.
Qed.

(** ** Round trips *)
Lemma extras_keys x known : kv_sorted x -> Forall extension x -> (forall k, In k known -> starts_with (str "x_") k = false) ->
  NoDup (map fst x) /\ (forall k, In k (map fst x) -> starts_with (str "x_") k = true /\ ~ In k known).
Proof.
  intros S F K. split; [now apply kv_sorted_nodup|]. intros k Hk. apply in_map_iff in Hk as (e & <- & He). rewrite Forall_forall in F. destruct (F e He) as ((r & E) & _).
  assert (X : starts_with (str "x_") (fst e) = true) by (rewrite E; apply starts_with_app). split; [exact X|]. intros H. apply K in H. congruence.
Qed.
Lemma nodup_app2 {A} (a b : list A) : NoDup a -> NoDup b -> (forall x, In x b -> ~ In x a) -> NoDup (a ++ b).
Proof.
  induction a as [|x a IH]; intros Ha Hb D; [exact Hb|]. inversion Ha; subst. cbn [app]. constructor.
  - intros X. apply in_app_or in X as [X|X]; [contradiction|]. apply (D x X). now left.
  - apply IH; auto. intros y Hy X. apply (D y Hy). now right.
Qed.
Fixpoint distinct (l : list bytes) : bool := match l with [] => true | x :: r => negb (existsb (bytes_eqb x) r) && distinct r end.
Lemma distinct_nodup l : distinct l = true -> NoDup l.
Proof.
  induction l as [|x l IH]; intros H; [constructor|]. cbn [distinct] in H. apply andb_true_iff in H as [H1 H2]. constructor; [|now apply IH]. intros X.
  apply negb_true_iff in H1. assert (existsb (bytes_eqb x) l = true) by (apply existsb_exists; exists x; split; [exact X|apply bytes_eqb_refl]). congruence.
Qed.
(** The extensions come back from the map of all the entries. *)
Lemma extras_back known base x m : kv_sorted x -> Forall extension x -> (forall k, In k known -> starts_with (str "x_") k = false) ->
  (forall k, In k (map fst base) -> In k known) ->
  kv_sorted m -> (forall k, kv_get m k = kv_get (base ++ x) k) -> unknown_keys known m [] = Ok x.
Proof.
  intros S F K B Sm G. destruct (extras_keys x known S F K) as [ND D].
  assert (GA : forall k, kv_get (base ++ x) k = match kv_get base k with Some v => Some v | None => kv_get x k end).
  { clear. intros k. induction base as [|[y w] base IH]; [reflexivity|]. cbn [app kv_get]. destruct (bytes_eqb y k); [reflexivity|exact IH]. }
  destruct (unknown_keys_ok known m [] ltac:(constructor) Sm) as (x' & E & S' & G').
  - intros k v Hk. apply kv_get_In in Hk; [|exact Sm]. rewrite G, GA in Hk. destruct (kv_get base k) eqn:Gb.
    + left. apply B. apply kv_get_in in Gb. now apply (in_map fst) in Gb.
    + right. apply D. apply kv_get_in in Hk. now apply (in_map fst) in Hk.
  - rewrite E. f_equal. apply kv_ext; auto. intros k. rewrite G', G, GA. cbn [kv_get]. destruct (existsb (bytes_eqb k) known) eqn:EK.
    + apply existsb_exists in EK as (k' & Hk & Ek). apply bytes_eqb_eq in Ek. subst k'. symmetry. apply kv_get_none. intros X. now apply D in X.
    + destruct (kv_get base k) as [v|] eqn:Gb; [|now destruct (kv_get x k)]. apply kv_get_in in Gb. apply (in_map fst) in Gb. apply B in Gb.
      assert (existsb (bytes_eqb k) known = true) by (apply existsb_exists; exists k; split; [exact Gb|apply bytes_eqb_refl]). congruence.
Qed.
Lemma not_x known : forallb (fun k => negb (starts_with (str "x_") k)) known = true -> forall k, In k known -> starts_with (str "x_") k = false.
Proof. intros H k Hk. rewrite forallb_forall in H. specialize (H k Hk). now apply negb_true_iff in H. Qed.
Lemma literal_entry (k : string) v : forallb (fun c => negb (is_ascii_ws c || N.eqb c 61 || N.eqb c 35)) (str k) = true -> str k <> [] -> line_text v -> entry_ok (str k, v).
Proof.
  intros F NE V. unfold entry_ok. cbn [fst snd]. rewrite forallb_forall in F. split; [exact NE|]. split; [|split; [|split; [|exact V]]].
  - apply clean_text. apply forallb_forall. intros c Hc. specialize (F c Hc). destruct (is_ascii_ws c); [discriminate|reflexivity].
  - intros X. apply F in X. now rewrite orb_true_r in X.
  - intros r E. assert (X : In 35 (str k)) by (rewrite E; now left). apply F in X. now rewrite !orb_true_r in X.
Qed.
Definition sm_entries (m : seg_manifest) (metric : bytes) : list (bytes * bytes) :=
  [(str "version", dec (sm_version m)); (str "segment_id", sm_id m); (str "index_type", index_type_to_string (sm_type m)); (str "metric", metric);
   (str "dim", dec (sm_dim m)); (str "count", dec (sm_count m)); (str "ids_file", sm_ids m); (str "vectors_file", sm_vectors m)].
Lemma sm_save_entries m : sm_save m = let* t := metric_to_string (sm_metric m) in Ok (concat (map (fun e => line (fst e) (snd e)) (sm_entries m t ++ sm_extras m))).
Proof.
  unfold sm_save. destruct (metric_to_string (sm_metric m)); reflexivity.
Qed.
Lemma empty_text : line_text [].
Proof. split; [intros []|]. split; [discriminate|]. intros r c E. now destruct r. Qed.
Lemma sm_round_trip m t : good_segment m -> sm_save m = Ok t -> N.of_nat (length t) <= k_max_manifest_bytes -> sm_load t = Ok m.
Proof.
  intros [V I M D C Ids Vec (Xs & Xf)] E L. destruct (metric_to_string_ok _ M) as (mt & EM). rewrite sm_save_entries, EM in E. cbn [bind] in E.
  assert (Et : t = concat (map (fun e => line (fst e) (snd e)) (sm_entries m mt ++ sm_extras m))) by congruence. subst t. clear E.
  destruct (metric_text _ _ EM) as (M1 & M2 & M3). destruct (type_text (sm_type m)) as (T1 & T2 & T3). destruct (segment_name_text _ I) as [I1 I2].
  set (es := sm_entries m mt ++ sm_extras m) in *.
  assert (OK : Forall entry_ok es).
  { subst es. apply Forall_app. split; [|eapply Forall_impl; [apply extension_entry|exact Xf]]. unfold sm_entries.
    repeat (apply Forall_cons || apply Forall_nil); (apply literal_entry; [reflexivity|discriminate|]); try apply dec_text; try assumption; [apply Ids|].
    destruct Vec as [->|[_ Vec]]; [apply empty_text|exact Vec]. }
  destruct (extras_keys (sm_extras m) (map str sm_required) Xs Xf (not_x (map str sm_required) eq_refl)) as [XN XD].
  assert (ND : NoDup (map fst es)).
  { subst es. rewrite map_app. apply nodup_app2; [apply distinct_nodup; reflexivity|exact XN|]. intros k Hk. now apply XD in Hk as [_ Hk]. }
  destruct (scalar_map_ok es [] ND ltac:(constructor) ltac:(reflexivity)) as (mm & ES & SM & G).
  assert (G' : forall k, kv_get mm k = kv_get es k) by (intros k; rewrite G; now destruct (kv_get es k)).
  assert (A : forall k v, In (str k, v) es -> kv_get mm (str k) = Some v) by (intros k v H; rewrite G'; now apply kv_get_first).
  assert (A1 : kv_get mm (str "version") = Some (dec (sm_version m))) by (apply A; subst es; cbn [sm_entries app In]; tauto).
  assert (A2 : kv_get mm (str "segment_id") = Some (sm_id m)) by (apply A; subst es; cbn [sm_entries app In]; tauto).
  assert (A3 : kv_get mm (str "index_type") = Some (index_type_to_string (sm_type m))) by (apply A; subst es; cbn [sm_entries app In]; tauto).
  assert (A4 : kv_get mm (str "metric") = Some mt) by (apply A; subst es; cbn [sm_entries app In]; tauto).
  assert (A5 : kv_get mm (str "dim") = Some (dec (sm_dim m))) by (apply A; subst es; cbn [sm_entries app In]; tauto).
  assert (A6 : kv_get mm (str "count") = Some (dec (sm_count m))) by (apply A; subst es; cbn [sm_entries app In]; tauto).
  assert (A7 : kv_get mm (str "ids_file") = Some (sm_ids m)) by (apply A; subst es; cbn [sm_entries app In]; tauto).
  assert (A8 : kv_get mm (str "vectors_file") = Some (sm_vectors m)) by (apply A; subst es; cbn [sm_entries app In]; tauto).
  unfold sm_load, read_manifest_file. destruct (N.ltb_spec k_max_manifest_bytes (N.of_nat (length (concat (map (fun e => line (fst e) (snd e)) es))))) as [X|_]; [exfalso; exact (N.lt_irrefl _ (N.lt_le_trans _ _ _ X L))|].
  replace (bytes_eqb (firstn 3 (concat (map (fun e => line (fst e) (snd e)) es))) [239; 187; 191]) with false by reflexivity.
  cbn [bind]. rewrite (parse_kv_lines_ok es OK). cbn [bind]. rewrite ES. cbn [bind].
  assert (EC : sm_check mm sm_required = Ok tt).
  { unfold sm_required. cbn [sm_check]. rewrite A1, A2, A3, A4, A5, A6, A7, A8.
    pose proof (dec_nonempty (sm_version m)). pose proof (dec_nonempty (sm_dim m)). pose proof (dec_nonempty (sm_count m)). destruct Ids as [(Ids & _) _].
    destruct (dec (sm_version m)); [contradiction|]. destruct (sm_id m); [contradiction|]. destruct (index_type_to_string (sm_type m)); [contradiction|].
    destruct mt; [contradiction|]. destruct (dec (sm_dim m)); [contradiction|]. destruct (dec (sm_count m)); [contradiction|]. destruct (sm_ids m); [contradiction|]. now destruct (sm_vectors m). }
  rewrite EC. cbn [bind]. unfold at_key. rewrite A1, A2, A3, A4, A5, A6, A7, A8.
  rewrite (parse_uint64_dec (sm_version m)) by (rewrite V; reflexivity). cbn [bind]. rewrite V. cbn [N.eqb k_manifest_version Pos.eqb negb].
  rewrite (proj2 (is_valid_segment_id_iff _) I). cbn [negb]. rewrite T1. cbn [bind]. rewrite M1.
  replace (match sm_metric m with NONE => true | _ => false end) with false by (destruct (sm_metric m); congruence).
  rewrite (parse_uint64_dec (sm_dim m)) by apply D. cbn [bind]. destruct (N.eqb_spec (sm_dim m) 0); [lia|].
  rewrite (parse_uint64_dec (sm_count m)) by apply C. cbn [bind]. destruct (N.eqb_spec (sm_count m) 0); [lia|].
  rewrite (proj2 (is_valid_basename_iff _) (proj1 Ids)). cbn [negb].
  replace (match sm_vectors m with [] => true | _ :: _ => is_valid_basename (sm_vectors m) end) with true.
  2:{ destruct (sm_vectors m) eqn:EV; [reflexivity|]. destruct Vec as [?|[Vec _]]; [discriminate|]. symmetry. now apply is_valid_basename_iff. }
  cbn [negb]. erewrite (extras_back (map str sm_required) (sm_entries m mt) (sm_extras m) mm); auto; [|apply not_x; reflexivity].
  cbn [bind]. destruct m; cbn in *. congruence.
Qed.
Lemma sm_load_good content m : sm_load content = Ok m -> good_segment m.
Proof.
  unfold sm_load. destruct (read_manifest_file content) as [body| | |]; try discriminate. cbn [bind]. destruct (parse_kv_lines body) as [ps| | |] eqn:EP; try discriminate. cbn [bind].
  destruct (scalar_map ps []) as [mm| | |] eqn:ES; try discriminate. cbn [bind]. destruct (sm_check mm sm_required) eqn:EC; try discriminate. cbn [bind].
  destruct (parse_uint64 (at_key mm "version")) as [version| | |]; try discriminate. cbn [bind]. destruct (N.eqb_spec version k_manifest_version) as [EV|]; [|discriminate]. cbn [negb].
  destruct (is_valid_segment_id (at_key mm "segment_id")) eqn:EI; [|discriminate]. cbn [negb].
  destruct (index_type_from_string (at_key mm "index_type")) as [type| | |]; try discriminate. cbn [bind].
  destruct (match metric_of (at_key mm "metric") with NONE => true | _ => false end) eqn:EM; [discriminate|].
  destruct (parse_uint64 (at_key mm "dim")) as [dim| | |] eqn:ED; try discriminate. cbn [bind]. destruct (N.eqb_spec dim 0); [discriminate|].
  destruct (parse_uint64 (at_key mm "count")) as [count| | |] eqn:EN; try discriminate. cbn [bind]. destruct (N.eqb_spec count 0); [discriminate|].
  destruct (is_valid_basename (at_key mm "ids_file")) eqn:EB; [|discriminate]. cbn [negb].
  destruct (match at_key mm "vectors_file" with [] => true | _ :: _ => is_valid_basename (at_key mm "vectors_file") end) eqn:EW; [|discriminate]. cbn [negb].
  destruct (unknown_keys (map str sm_required) mm []) as [x| | |] eqn:EX; try discriminate. cbn [bind]. intros [= <-].
  pose proof (parse_kv_lines_text _ _ EP) as FT. destruct (scalar_map_inv _ _ _ ES ltac:(constructor)) as [SM GM].
  assert (LT : forall k v, kv_get mm k = Some v -> line_text k /\ ~ In 61 k /\ line_text v).
  { intros k v H. destruct (GM k v H) as [Hi|Hi]; [|discriminate]. rewrite Forall_forall in FT. exact (FT (k, v) Hi). }
  assert (LA : forall k, line_text (at_key mm k)) by (intros k; unfold at_key; destruct (kv_get mm (str k)) eqn:G; [eapply LT; exact G|apply empty_text]).
  destruct (unknown_keys_inv _ _ _ _ EX ltac:(constructor)) as [SX GX].
  constructor; cbn [sm_version sm_id sm_metric sm_dim sm_count sm_ids sm_vectors sm_extras].
  - exact EV.
  - now apply is_valid_segment_id_iff.
  - destruct (metric_of _); congruence.
  - split; [lia|eapply parse_uint64_lt; exact ED].
  - split; [lia|eapply parse_uint64_lt; exact EN].
  - split; [now apply is_valid_basename_iff|apply LA].
  - destruct (at_key mm "vectors_file") eqn:E; [now left|]. right. rewrite <- E in *. split; [now apply is_valid_basename_iff|apply LA].
  - split; [exact SX|]. apply Forall_forall. intros [k v] H. apply kv_get_In in H; [|exact SX]. destruct (GX k v H) as [?|[Hi Hx]]; [discriminate|].
    apply starts_with_iff in Hx as (r & Hx). apply kv_get_In in Hi; [|exact SM]. destruct (LT k v Hi) as (L1 & L2 & L3). split; [now exists r|]. split; [exact L1|]. split; [exact L2|exact L3].
Qed.

(** ** Collection manifests *)
Definition cm_entries (m : coll_manifest) (metric : bytes) : list (bytes * bytes) :=
  [(str "version", dec (cm_version m)); (str "dim", dec (cm_dim m)); (str "metric", metric); (str "index_type", index_type_to_string (cm_type m));
   (str "next_segment_id", dec (cm_next m))].
Definition seg_entries (m : coll_manifest) : list (bytes * bytes) := map (fun id => (str "segment", id)) (cm_segments m).
Lemma cm_save_entries m : cm_save m = let* t := metric_to_string (cm_metric m) in Ok (concat (map (fun e => line (fst e) (snd e)) (cm_entries m t ++ seg_entries m ++ cm_extras m))).
Proof.
  unfold cm_save. destruct (metric_to_string (cm_metric m)) as [t| | |]; try reflexivity. cbn [bind]. unfold cm_entries, seg_entries, extras_text.
  rewrite !map_app, !concat_app, map_map. cbn [map concat fst snd]. rewrite app_nil_r. now rewrite <- !app_assoc.
Qed.
Lemma sort_scalars ps : forall s r, (forall k v, In (k, v) ps -> k <> str "segment" /\ k <> str "segments") ->
  sort_pairs (ps ++ r) s = let* m := scalar_map ps (sp_scalars s) in sort_pairs r {| sp_scalars := m; sp_segments := sp_segments s; sp_csv := sp_csv s |}.
Proof.
  induction ps as [|[k v] ps IH]; intros s r H; [now destruct s|]. cbn [app sort_pairs scalar_map]. destruct (H k v (or_introl eq_refl)) as [H1 H2].
  destruct (bytes_eqb_spec k (str "segment")); [contradiction|]. destruct (bytes_eqb_spec k (str "segments")); [contradiction|].
  destruct (kv_get (sp_scalars s) k); [reflexivity|]. rewrite IH by (intros k0 v0 H0; apply (H k0 v0); now right). reflexivity.
Qed.
Lemma sort_segments ids : forall s r, sort_pairs (map (fun id => (str "segment", id)) ids ++ r) s = sort_pairs r {| sp_scalars := sp_scalars s; sp_segments := sp_segments s ++ ids; sp_csv := sp_csv s |}.
Proof.
  induction ids as [|i ids IH]; intros s r; cbn [map app]; [rewrite app_nil_r; now destruct s|]. cbn [sort_pairs]. rewrite bytes_eqb_refl, IH. cbn [sp_scalars sp_segments sp_csv]. now rewrite <- app_assoc.
Qed.
Lemma scalar_map_app a b m : scalar_map (a ++ b) m = let* m' := scalar_map a m in scalar_map b m'.
Proof. revert m. induction a as [|[k v] a IH]; intros m; [reflexivity|]. cbn [app scalar_map]. destruct (kv_get m k); [reflexivity|apply IH]. Qed.
Lemma cm_round_trip m t : good_collection m -> cm_save m = Ok t -> N.of_nat (length t) <= k_max_manifest_bytes -> cm_load t = Ok m.
Proof.
  intros [V D M Nx Sg (Xs & Xf)] E L. destruct (metric_to_string_ok _ M) as (mt & EM). rewrite cm_save_entries, EM in E. cbn [bind] in E.
  assert (Et : t = concat (map (fun e => line (fst e) (snd e)) (cm_entries m mt ++ seg_entries m ++ cm_extras m))) by congruence. subst t. clear E.
  destruct (metric_text _ _ EM) as (M1 & M2 & M3). destruct (type_text (cm_type m)) as (T1 & T2 & T3).
  set (all := cm_entries m mt ++ seg_entries m ++ cm_extras m) in *.
  assert (OK : Forall entry_ok all).
  { subst all. apply Forall_app. split; [|apply Forall_app; split; [|eapply Forall_impl; [apply extension_entry|exact Xf]]].
    - unfold cm_entries. repeat (apply Forall_cons || apply Forall_nil); (apply literal_entry; [reflexivity|discriminate|]); try apply dec_text; assumption.
    - unfold seg_entries. apply Forall_forall. intros e He. apply in_map_iff in He as (id & <- & Hid). apply literal_entry; [reflexivity|discriminate|]. rewrite Forall_forall in Sg. now apply segment_name_text, Sg. }
  destruct (extras_keys (cm_extras m) (str "segment" :: str "segments" :: map str cm_required) Xs Xf (not_x (str "segment" :: str "segments" :: map str cm_required) eq_refl)) as [XN XD].
  set (es := cm_entries m mt ++ cm_extras m).
  assert (ND : NoDup (map fst es)).
  { subst es. rewrite map_app. apply nodup_app2; [apply distinct_nodup; reflexivity|exact XN|]. intros k Hk Hin. apply XD in Hk as [_ Hk]. apply Hk. right. right. exact Hin. }
  destruct (scalar_map_ok es [] ND ltac:(constructor) ltac:(reflexivity)) as (mm & ES & SM & G).
  assert (Sort : sort_pairs all {| sp_scalars := []; sp_segments := []; sp_csv := None |} = Ok {| sp_scalars := mm; sp_segments := cm_segments m; sp_csv := None |}).
  { subst all es. rewrite sort_scalars.
    - rewrite scalar_map_app in ES. cbn [sp_scalars sp_segments sp_csv]. destruct (scalar_map (cm_entries m mt) []) as [m1| | |]; try discriminate ES. cbn [bind] in ES |- *.
      unfold seg_entries. rewrite sort_segments. cbn [sp_scalars sp_segments sp_csv app]. rewrite <- (app_nil_r (cm_extras m)), sort_scalars.
      + cbn [sp_scalars sp_segments sp_csv]. rewrite ES. reflexivity.
      + intros k v H. apply (in_map fst) in H. apply XD in H as [_ H]. cbn [fst] in H. split; intros ->; apply H; [now left|right; now left].
    - intros k v H. cbn [cm_entries In] in H. repeat (destruct H as [[= <- <-]|H]; [split; discriminate|]). destruct H. }
  assert (G' : forall k, kv_get mm k = kv_get es k) by (intros k; rewrite G; now destruct (kv_get es k)).
  assert (A : forall k v, In (str k, v) es -> kv_get mm (str k) = Some v) by (intros k v H; rewrite G'; now apply kv_get_first).
  assert (A1 : kv_get mm (str "version") = Some (dec (cm_version m))) by (apply A; subst es; cbn [cm_entries app In]; tauto).
  assert (A2 : kv_get mm (str "dim") = Some (dec (cm_dim m))) by (apply A; subst es; cbn [cm_entries app In]; tauto).
  assert (A3 : kv_get mm (str "metric") = Some mt) by (apply A; subst es; cbn [cm_entries app In]; tauto).
  assert (A4 : kv_get mm (str "index_type") = Some (index_type_to_string (cm_type m))) by (apply A; subst es; cbn [cm_entries app In]; tauto).
  assert (A5 : kv_get mm (str "next_segment_id") = Some (dec (cm_next m))) by (apply A; subst es; cbn [cm_entries app In]; tauto).
  unfold cm_load, read_manifest_file. destruct (N.ltb_spec k_max_manifest_bytes (N.of_nat (length (concat (map (fun e => line (fst e) (snd e)) all))))) as [X|_]; [exfalso; exact (N.lt_irrefl _ (N.lt_le_trans _ _ _ X L))|].
  replace (bytes_eqb (firstn 3 (concat (map (fun e => line (fst e) (snd e)) all))) [239; 187; 191]) with false by reflexivity.
  cbn [bind]. rewrite (parse_kv_lines_ok all OK). cbn [bind]. rewrite Sort. cbn [bind sp_segments sp_csv sp_scalars].
  replace (match cm_segments m with [] => false | _ :: _ => false end) with false by (now destruct (cm_segments m)).
  assert (EC : cm_check mm cm_required = Ok tt).
  { unfold cm_required. cbn [cm_check]. rewrite A1, A2, A3, A4, A5.
    pose proof (dec_nonempty (cm_version m)). pose proof (dec_nonempty (cm_dim m)). pose proof (dec_nonempty (cm_next m)).
    destruct (dec (cm_version m)); [contradiction|]. destruct (dec (cm_dim m)); [contradiction|]. destruct mt; [contradiction|]. destruct (index_type_to_string (cm_type m)); [contradiction|].
    destruct (dec (cm_next m)); [contradiction|]. reflexivity. }
  rewrite EC. cbn [bind]. unfold at_key. rewrite A1, A2, A3, A4, A5.
  rewrite (parse_uint64_dec (cm_version m)) by (rewrite V; reflexivity). cbn [bind]. rewrite V. cbn [N.eqb k_manifest_version Pos.eqb negb].
  rewrite (parse_uint64_dec (cm_dim m)) by apply D. cbn [bind]. destruct (N.eqb_spec (cm_dim m) 0); [lia|]. rewrite M1.
  replace (match cm_metric m with NONE => true | _ => false end) with false by (destruct (cm_metric m); congruence).
  rewrite T1. cbn [bind]. rewrite (parse_uint64_dec (cm_next m)) by exact Nx. cbn [bind].
  replace (forallb is_valid_segment_id (cm_segments m)) with true.
  2:{ symmetry. apply forallb_forall. intros id Hid. apply is_valid_segment_id_iff. rewrite Forall_forall in Sg. now apply Sg. }
  cbn [negb]. erewrite (extras_back (map str cm_required) (cm_entries m mt) (cm_extras m) mm); auto; [|apply not_x; reflexivity].
  cbn [bind]. destruct m; cbn in *. congruence.
Qed.
Lemma sort_pairs_inv ps : forall s s', sort_pairs ps s = Ok s' -> kv_sorted (sp_scalars s) ->
  kv_sorted (sp_scalars s') /\ (forall k v, kv_get (sp_scalars s') k = Some v -> In (k, v) ps \/ kv_get (sp_scalars s) k = Some v).
Proof.
  induction ps as [|[k v] ps IH]; intros s s' E S; cbn [sort_pairs] in E; [injection E as <-; auto|].
  destruct (bytes_eqb k (str "segment")).
  { destruct (IH _ _ E S) as [A B]. split; [exact A|]. intros x w H. destruct (B x w H); [left; now right|now right]. }
  destruct (bytes_eqb k (str "segments")).
  { destruct (sp_csv s); [discriminate|]. destruct (IH _ _ E S) as [A B]. split; [exact A|]. intros x w H. destruct (B x w H); [left; now right|now right]. }
  destruct (kv_get (sp_scalars s) k); [discriminate|]. destruct (IH _ _ E (kv_sorted_put k v _ S)) as [A B]. split; [exact A|]. intros x w H. destruct (B x w H) as [Hi|Hg]; [left; now right|].
  cbn [sp_scalars] in Hg. rewrite kv_get_put in Hg. destruct (bytes_eqb_spec k x) as [->|]; [left; left; congruence|now right].
Qed.
Lemma cm_load_good content m : cm_load content = Ok m -> good_collection m.
Proof.
  unfold cm_load. destruct (read_manifest_file content) as [body| | |]; try discriminate. cbn [bind]. destruct (parse_kv_lines body) as [ps| | |] eqn:EP; try discriminate. cbn [bind].
  destruct (sort_pairs ps _) as [s| | |] eqn:ES; try discriminate. cbn [bind]. destruct (match sp_segments s, sp_csv s with _ :: _, Some _ => true | _, _ => false end); [discriminate|].
  set (mm := sp_scalars s) in *. destruct (cm_check mm cm_required) eqn:EC; try discriminate. cbn [bind].
  destruct (parse_uint64 (at_key mm "version")) as [version| | |]; try discriminate. cbn [bind]. destruct (N.eqb_spec version k_manifest_version) as [EV|]; [|discriminate]. cbn [negb].
  destruct (parse_uint64 (at_key mm "dim")) as [dim| | |] eqn:ED; try discriminate. cbn [bind]. destruct (N.eqb_spec dim 0); [discriminate|].
  destruct (match metric_of (at_key mm "metric") with NONE => true | _ => false end) eqn:EM; [discriminate|].
  destruct (index_type_from_string (at_key mm "index_type")) as [type| | |]; try discriminate. cbn [bind].
  destruct (parse_uint64 (at_key mm "next_segment_id")) as [next| | |] eqn:EN; try discriminate. cbn [bind].
  destruct (match sp_csv s with Some v => parse_segments_csv v | None => Ok (sp_segments s) end) as [segs| | |]; try discriminate. cbn [bind].
  destruct (forallb is_valid_segment_id segs) eqn:EB; [|discriminate]. cbn [negb].
  destruct (unknown_keys (map str cm_required) mm []) as [x| | |] eqn:EX; try discriminate. cbn [bind]. intros [= <-].
  pose proof (parse_kv_lines_text _ _ EP) as FT. destruct (sort_pairs_inv _ _ _ ES ltac:(constructor)) as [SM GM]. fold mm in SM, GM.
  assert (LT : forall k v, kv_get mm k = Some v -> line_text k /\ ~ In 61 k /\ line_text v).
  { intros k v H. destruct (GM k v H) as [Hi|Hi]; [|discriminate]. rewrite Forall_forall in FT. exact (FT (k, v) Hi). }
  destruct (unknown_keys_inv _ _ _ _ EX ltac:(constructor)) as [SX GX].
  constructor; cbn [cm_version cm_metric cm_dim cm_next cm_segments cm_extras].
  - exact EV.
  - split; [lia|eapply parse_uint64_lt; exact ED].
  - destruct (metric_of _); congruence.
  - eapply parse_uint64_lt; exact EN.
  - apply Forall_forall. intros id Hid. apply is_valid_segment_id_iff. rewrite forallb_forall in EB. now apply EB.
  - split; [exact SX|]. apply Forall_forall. intros [k v] H. apply kv_get_In in H; [|exact SX]. destruct (GX k v H) as [?|[Hi Hx]]; [discriminate|].
    apply starts_with_iff in Hx as (r & Hx). apply kv_get_In in Hi; [|exact SM]. destruct (LT k v Hi) as (L1 & L2 & L3). split; [now exists r|]. split; [exact L1|]. split; [exact L2|exact L3].
Qed.
