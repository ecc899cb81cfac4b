From Coq Require Import String.
From Verif Require Import FilterProofs ScalarDataProofs.
From Verif Require Export DictSpec.

Definition each := fix each (l : list pv) (subs : list filter) : res (list filter) :=
  match l with
  | [] => Ok subs
  | e :: r => let* f := build e in each r (subs ++ [f])
  end.
Definition loop := fix loop (items : list (bytes * pv)) (logic : logic_op) (cs : list condition) (subs : list filter) : res filter :=
  match items with
  | [] => Ok (Filter logic cs subs)
  | (key, v) :: rest =>
      if bytes_eqb key (str "$and") || bytes_eqb key (str "$or") then
        match v with
        | Lst l => let* subs' := each l subs in loop rest (if bytes_eqb key (str "$or") then OR else logic) cs subs'
        | _ => Throws
        end
      else match v with
           | Dict ops => let* cs' := add_ops key ops cs in loop rest logic cs' subs
           | Val x => loop rest logic (cs ++ [cond key EQ x]) subs
           | _ => Throws
           end
  end.
Lemma build_dict items : build (Dict items) = loop items AND [] [].
Proof. reflexivity. Qed.

Fixpoint pv_ind' (P : pv -> Prop) (HN : P PNone) (HV : forall v, P (Val v)) (HL : forall l, Forall P l -> P (Lst l))
  (HD : forall items, Forall (fun i => P (snd i)) items -> P (Dict items)) (d : pv) : P d :=
  match d with
  | PNone => HN
  | Val v => HV v
  | Lst l => HL l ((fix go l : Forall P l := match l with [] => Forall_nil P | x :: r => Forall_cons x (pv_ind' P HN HV HL HD x) (go r) end) l)
  | Dict items => HD items ((fix go l : Forall (fun i => P (snd i)) l :=
                               match l with [] => Forall_nil _ | (k, x) :: r => @Forall_cons _ (fun i => P (snd i)) (k, x) r (pv_ind' P HN HV HL HD x) (go r) end) items)
  end.

Definition clean_cond (m : metadata) (c : condition) (P : Prop) : Prop := evaluate_condition c m = true <-> P.

Lemma scalars_spec l vs : scalars l = Ok vs -> l = map Val vs.
Proof.
  revert vs; induction l as [|[|v|?|?] l IH]; intros vs H; cbn in H; try discriminate H.
  - injection H as <-. reflexivity.
  - destruct (scalars l) as [ws| | |]; cbn in H; try discriminate H. injection H as <-. cbn. f_equal. now apply IH.
Qed.
Lemma scalars_map vs : scalars (map Val vs) = Ok vs.
Proof. induction vs as [|v vs IH]; [reflexivity|]. cbn. now rewrite IH. Qed.

Lemma str_ne a b : bytes_eqb a b = false -> a <> b.
Proof. apply bytes_eqb_neq. Qed.

Lemma cond_eval (m : metadata) key o v (P : value -> Prop) : NoDup (map fst m) -> (forall k w, In (k, w) m -> not_nan w) -> not_nan v ->
  (forall w, op_holds (cond key o v) w <-> P w) ->
  (evaluate_condition (cond key o v) m = true <-> exists w, In (key, w) m /\ P w).
Proof.
  intros ND NM NV H. rewrite condition_lemma; [|exact ND|unfold cond_no_nan; cbn; destruct o; auto; split; auto; intros w; apply NM].
  unfold cond_denotes. cbn [field cond]. split; intros (w & I & K); exists w; (split; [exact I|]); now apply H.
Qed.

Lemma add_op_spec m key name x c : NoDup (map fst m) -> (forall k w, In (k, w) m -> not_nan w) -> (forall v, In v (values x) -> not_nan v) ->
  add_op key name x = Ok c -> (evaluate_condition c m = true <-> exists w, In (key, w) m /\ compares name x w).
Proof.
  intros ND NM NX. unfold add_op. destruct (bytes_eqb_spec name (str "$in")) as [EN|NE].
  - destruct x as [|?|l|?]; intros H; try discriminate H.
    destruct (scalars l) as [vs| | |] eqn:ES; cbn in H; try discriminate H. injection H as <-.
    apply scalars_spec in ES. subst l.
    rewrite condition_lemma; [|exact ND|exact Logic.I]. unfold cond_denotes. cbn [field cond_in op_holds op operands compares].
    split.
    + intros (w & I & u & IU & E). exists w. split; [exact I|]. split; [exact EN|]. exists u. split; [now apply in_map|exact E].
    + intros (w & I & _ & u & IU & E). exists w. split; [exact I|]. apply in_map_iff in IU as (u' & EU & IU). injection EU as <-. now exists u'.
  - destruct x as [|v|?|?]; try discriminate.
    assert (NV : not_nan v) by (apply NX; now left).
    destruct (bytes_eqb_spec name (str "$eq")) as [->|N1];
      [|destruct (bytes_eqb_spec name (str "$gt")) as [->|N2];
        [|destruct (bytes_eqb_spec name (str "$ge")) as [->|N3];
          [|destruct (bytes_eqb_spec name (str "$lt")) as [->|N4];
            [|destruct (bytes_eqb_spec name (str "$le")) as [->|N5]; [|discriminate]]]]];
      intros H; injection H as <-; apply cond_eval; try assumption; intros w; cbn [op_holds op cond operand compares];
      (split; [intros K; tauto|intros K; repeat (destruct K as [[E K]|K]; [first [exact K|discriminate E]|]); destruct K as [E K]; first [exact K|discriminate E]]).
Qed.

Lemma add_ops_spec m key ops : NoDup (map fst m) -> (forall k w, In (k, w) m -> not_nan w) ->
  (forall v, In v (flat_map (fun i : bytes * pv => match i with (_, x) => values x end) ops) -> not_nan v) ->
  forall cs cs', add_ops key ops cs = Ok cs' ->
  (forallb (fun c => evaluate_condition c m) cs' = true <->
   forallb (fun c => evaluate_condition c m) cs = true /\ Forall (fun o => exists w, In (key, w) m /\ compares (fst o) (snd o) w) ops).
Proof.
  intros ND NM. induction ops as [|[name x] ops IH]; intros NO cs cs' H; cbn [add_ops] in H.
  - injection H as <-. split; [intros E; split; [exact E|constructor]|tauto].
  - destruct (add_op key name x) as [c| | |] eqn:EA; cbn in H; try discriminate H.
    rewrite IH in *; [|intros v I; apply NO; cbn [flat_map]; apply in_or_app; now right|exact H].
    rewrite forallb_app. cbn [forallb]. rewrite andb_true_r, andb_true_iff, Forall_cons_iff. cbn [fst snd].
    rewrite (add_op_spec m key name x c ND NM); [tauto|intros v I; apply NO; cbn [flat_map]; apply in_or_app; now left|exact EA].
Qed.

Definition good (m : metadata) (d : pv) : Prop :=
  (forall v, In v (values d) -> not_nan v) -> or_alone d -> forall f, build d = Ok f -> (evaluate f m = true <-> accepts m d).

Lemma each_spec m l : Forall (good m) l -> (forall v, In v (flat_map values l) -> not_nan v) -> all_of (map or_alone l) ->
  forall subs subs', each l subs = Ok subs' ->
  exists fs, subs' = subs ++ fs /\ Forall2 (fun (b : bool) (p : Prop) => b = true <-> p) (map (fun f => evaluate f m) fs) (map (accepts m) l).
Proof.
  induction l as [|e l IH]; intros G NV OA subs subs' H; cbn [each] in H.
  - injection H as <-. exists []. rewrite app_nil_r. split; [reflexivity|constructor].
  - destruct (build e) as [f| | |] eqn:EB; cbn in H; try discriminate H.
    apply Forall_cons_iff in G as [G0 G]. unfold all_of in OA. cbn [map] in OA. apply Forall_cons_iff in OA as [O0 OA].
    destruct (IH G) with (subs := subs ++ [f]) (subs' := subs') as (fs & -> & F); [intros v I; apply NV; cbn [flat_map]; apply in_or_app; now right|exact OA|exact H|].
    exists (f :: fs). rewrite <- app_assoc. split; [reflexivity|]. cbn [map]. constructor; [|exact F].
    apply G0; [intros v I; apply NV; cbn [flat_map]; apply in_or_app; now left|exact O0|exact EB].
Qed.

Lemma forallb_map {A} (g : A -> bool) l : forallb (fun v => v) (map g l) = forallb g l.
Proof. induction l as [|x l IH]; [reflexivity|]. cbn. now rewrite IH. Qed.

Lemma eval_and cs subs m : evaluate (Filter AND cs subs) m = true <->
  forallb (fun c => evaluate_condition c m) cs = true /\ forallb (fun f => evaluate f m) subs = true.
Proof.
  cbn [evaluate]. rewrite <- andb_true_iff, <- (forallb_map _ cs), <- (forallb_map _ subs), <- forallb_app.
  destruct (map (fun c => evaluate_condition c m) cs ++ map (fun s => evaluate s m) subs); reflexivity.
Qed.

(** Items that lead to recursive calls: the elements of the lists *)
Definition item_good (m : metadata) (i : bytes * pv) : Prop := match snd i with Lst l => Forall (good m) l | _ => True end.

Lemma loop_and m items : NoDup (map fst m) -> (forall k w, In (k, w) m -> not_nan w) ->
  Forall (item_good m) items ->
  (forall v, In v (values (Dict items)) -> not_nan v) ->
  ~ In (str "$or") (map fst items) ->
  all_of (map (fun item : bytes * pv => match item with
                           | (key, Lst l) => if bytes_eqb key (str "$and") || bytes_eqb key (str "$or") then all_of (map or_alone l) else True
                           | _ => True
                           end) items) ->
  forall cs subs f, loop items AND cs subs = Ok f ->
  (evaluate f m = true <-> evaluate (Filter AND cs subs) m = true /\ accepts m (Dict items)).
Proof.
  intros ND NM. induction items as [|[key v] items IH]; intros G NV NI OA cs subs f H; cbn [loop] in H.
  - injection H as <-. split; [intros E; split; [exact E|constructor]|tauto].
  - apply Forall_cons_iff in G as [G0 G]. unfold all_of in OA. cbn [map] in OA. apply Forall_cons_iff in OA as [O0 OA].
    cbn [map fst In] in NI.
    assert (NV0 : forall w, In w (values v) -> not_nan w) by (intros w I; apply NV; cbn [values flat_map]; apply in_or_app; now left).
    assert (NV1 : forall w, In w (values (Dict items)) -> not_nan w) by (intros w I; apply NV; cbn [values flat_map]; apply in_or_app; now right).
    assert (NI1 : ~ In (str "$or") (map fst items)) by (intros I; apply NI; now right).
    specialize (IH G NV1 NI1 OA).
    assert (EO : bytes_eqb key (str "$or") = false) by (apply bytes_eqb_neq; intros ->; apply NI; now left).
    rewrite EO, orb_false_r in H. rewrite EO in O0.
    cbn [accepts map]. unfold all_of at 1. rewrite Forall_cons_iff, EO.
    change (Forall (fun p : Prop => p) (map _ items)) with (accepts m (Dict items)).
    destruct (bytes_eqb key (str "$and")) eqn:EA.
    + destruct v as [|?|l|?]; try discriminate H. cbn [orb] in O0.
      destruct (each l subs) as [subs'| | |] eqn:EE; cbn in H; try discriminate H.
      destruct (each_spec m l G0) with (subs := subs) (subs' := subs') as (fs & -> & F2); [exact NV0|exact O0|exact EE|].
      rewrite (IH _ _ _ H), !eval_and, forallb_app, andb_true_iff, <- (forallb_map _ fs), (combine_and _ _ F2). unfold all_of. tauto.
    + destruct v as [|x|?|ops]; try discriminate H.
      * rewrite (IH _ _ _ H), !eval_and, forallb_app, andb_true_iff. cbn [forallb]. rewrite andb_true_r.
        rewrite (cond_eval m key EQ x (fun w => val_eq w x)); [tauto|exact ND|exact NM|apply NV0; now left|reflexivity].
      * destruct (add_ops key ops cs) as [cs'| | |] eqn:EC; cbn in H; try discriminate H.
        rewrite (IH _ _ _ H), !eval_and, (add_ops_spec m key ops ND NM NV0 _ _ EC). tauto.
Qed.

Lemma good_lemma m : NoDup (map fst m) -> (forall k w, In (k, w) m -> not_nan w) ->
  forall d, good m d /\ match d with Lst l => Forall (good m) l | _ => True end.
Proof.
  intros ND NM. induction d as [|v|l IH|items IH] using pv_ind'; split; try exact Logic.I.
  - intros _ _ f H. injection H as <-. cbn. tauto.
  - intros _ _ f H. discriminate H.
  - intros _ _ f H. discriminate H.
  - eapply Forall_impl; [|exact IH]. cbn beta. tauto.
  - assert (G : Forall (item_good m) items) by (eapply Forall_impl; [|exact IH]; intros [k x] [_ K]; exact K).
    intros NV [[(l & -> & NE)|NI] OA] f H; rewrite build_dict in H.
    + apply Forall_cons_iff in G as [G _]. cbn in G. unfold all_of in OA. cbn [map] in OA. apply Forall_cons_iff in OA as [O0 _]. cbn in O0.
      cbn [loop] in H. change (bytes_eqb (str "$or") (str "$and") || bytes_eqb (str "$or") (str "$or")) with true in H.
      change (bytes_eqb (str "$or") (str "$or")) with true in H. cbn [orb] in H.
      destruct (each l []) as [subs'| | |] eqn:EE; cbn in H; try discriminate H. injection H as <-.
      destruct (each_spec m l G) with (subs := @nil filter) (subs' := subs') as (fs & -> & F2);
        [intros w I; apply NV; cbn [values flat_map]; rewrite app_nil_r; exact I|exact O0|exact EE|].
      cbn [app]. cbn [accepts map]. change (bytes_eqb (str "$or") (str "$and")) with false. change (bytes_eqb (str "$or") (str "$or")) with true.
      cbn [evaluate map app].
      assert (E : forall Q : bool, match map (fun f => evaluate f m) fs with [] => true | _ :: _ => Q end = Q).
      { intros Q. destruct fs; [|reflexivity]. destruct l; [congruence|]. inversion F2. }
      assert (S : match map (fun s => evaluate s m) fs with [] => true | _ :: _ => existsb (fun v => v) (map (fun s => evaluate s m) fs) end
        = existsb (fun v => v) (map (fun s => evaluate s m) fs)) by apply E.
      destruct (map (fun s => evaluate s m) fs) as [|b bs] eqn:EM.
      * destruct l; [congruence|]. inversion F2.
      * rewrite (combine_or _ _ F2). unfold any_of, all_of. rewrite Forall_cons_iff. split; [intros K; split; [exact K|constructor]|tauto].
    + rewrite (loop_and m items ND NM G NV NI OA _ _ _ H), eval_and. cbn [forallb]. tauto.
Qed.

Lemma add_op_ok key o : documented_op o -> exists c, add_op key (fst o) (snd o) = Ok c.
Proof.
  destruct o as [n x]. cbn [fst snd]. intros [[E [vs V]]|[I [v V]]]; cbn [fst snd] in *; unfold add_op; rewrite V.
  - rewrite E, bytes_eqb_refl, scalars_map. cbn. eauto.
  - cbn [In] in I. destruct I as [ <- |[ <- |[ <- |[ <- |[ <- |[]]]]]]; vm_compute; eauto.
Qed.
Lemma add_ops_ok key ops : Forall documented_op ops -> forall cs, exists cs', add_ops key ops cs = Ok cs'.
Proof.
  induction 1 as [|[n x] ops H _ IH]; intros cs; cbn [add_ops]; [eauto|].
  destruct (add_op_ok key (n, x) H) as (c & E). cbn [fst snd] in E. rewrite E. cbn. apply IH.
Qed.
Lemma each_ok l : Forall (fun d => documented d -> exists f, build d = Ok f) l -> all_of (map documented l) -> forall subs, exists subs', each l subs = Ok subs'.
Proof.
  unfold all_of. induction 1 as [|e l H _ IH]; intros D subs; cbn [each]; [eauto|].
  cbn [map] in D. apply Forall_cons_iff in D as [D0 D]. destruct (H D0) as (f & E). rewrite E. cbn. now apply IH.
Qed.
Lemma build_ok d : (documented d -> exists f, build d = Ok f) /\ match d with Lst l => Forall (fun e => documented e -> exists f, build e = Ok f) l | _ => True end.
Proof.
  induction d as [|v|l IH|items IH] using pv_ind'; split; try exact Logic.I; try (intros []; fail).
  - eapply Forall_impl; [|exact IH]. cbn beta. tauto.
  - rewrite build_dict. cbn [documented]. unfold all_of at 1. revert IH.
    generalize AND (@nil condition) (@nil filter). induction items as [|[k x] items IHi]; intros lo cs subs IH D; cbn [loop]; [eauto|].
    apply Forall_cons_iff in IH as [[_ I0] IH]. cbn [map] in D. apply Forall_cons_iff in D as [D0 D]. cbn [snd] in I0.
    destruct (bytes_eqb k (str "$and") || bytes_eqb k (str "$or")).
    + destruct x as [|?|l|?]; try contradiction. destruct (each_ok l I0 D0 subs) as (s' & E). rewrite E. cbn. now apply IHi.
    + destruct x as [|?|?|ops]; try contradiction; [now apply IHi|].
      destruct (add_ops_ok k ops D0 cs) as (cs' & E). rewrite E. cbn. now apply IHi.
Qed.
