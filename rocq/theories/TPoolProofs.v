(** Proofs about the thread pool. *)
From Verif Require Export TPoolSpec.

Definition exec (p : wpc) : list nat := match p with Executing t => [t] | _ => [] end.
Definition is_counting (p : wpc) : bool := match p with Counting => true | _ => false end.
Definition active (p : wpc) : bool := match p with Testing | Executing _ | Counting => true | _ => false end.
Record inv (n m : nat) (s : state) : Prop := {
  iv_workers : length (workers s) = n;
  iv_clients : length (clients s) = m;
  iv_places : Permutation (tasks s ++ flat_map exec (workers s) ++ finished s) (seq 0 (enqueued s));
  iv_counted : counted s + count is_counting (workers s) = length (finished s);
  iv_base : base s <= counted s;
  iv_completed : completed s = (N.of_nat (counted s - base s) mod 2 ^ 32)%N;
  iv_exited : In Exited (workers s) -> stop s = true /\ tasks s = [];
  iv_wake : 0 < n -> tasks s <> [] -> (exists p, In p (workers s) /\ active p = true) \/ In Notifying (clients s);
  iv_stop : stop s = true -> In NotifyingAll (clients s) \/ ~ In Asleep (workers s);
  iv_destroyed : In Destroyed (clients s) -> forall p, In p (workers s) -> p = Exited;
  iv_going : In NotifyingAll (clients s) \/ In Joining (clients s) \/ In Destroyed (clients s) -> stop s = true;
  iv_waiting : m = 1 -> forall k, In (Waiting k) (clients s) -> completed s <> k;
}.
Lemma start_inv : forall n m, inv n m (start n m).
Proof.
  intros n m. constructor; cbn [start workers clients tasks finished counted completed base stop enqueued].
  - apply repeat_length.
  - apply repeat_length.
  - replace (flat_map exec (repeat Testing n)) with (@nil nat) by (induction n; cbn; auto). reflexivity.
  - now rewrite count_repeat.
  - lia.
  - reflexivity.
  - intro H. apply repeat_spec in H. discriminate H.
  - now intros _ [].
  - discriminate.
  - intro H. apply repeat_spec in H. discriminate H.
  - intros [H|[H|H]]; apply repeat_spec in H; discriminate H.
  - intros _ k H. apply repeat_spec in H. discriminate H.
Qed.

(** What remains when only one worker changes *)
Lemma in_upd_ne : forall A (l : list A) w p q x, nth_error l w = Some p -> In x (upd l w q) -> x <> q -> In x l.
Proof. intros A l w p q x W H NE. destruct (in_upd_inv l w q x H); [congruence|assumption]. Qed.
Lemma flat_upd : forall A B (f : A -> list B) l w p q, nth_error l w = Some p -> f p = f q -> Permutation (flat_map f (upd l w q)) (flat_map f l).
Proof. intros A B f l w p q W E. destruct (upd_split f l w p W) as (r & P & Q). now rewrite P, Q, E. Qed.
Lemma count_upd_same : forall A (f : A -> bool) l w p q, nth_error l w = Some p -> f p = f q -> count f (upd l w q) = count f l.
Proof. intros A f l w p q W E. pose proof (count_upd _ f l w p q W) as C. rewrite E in C. lia. Qed.

(** A worker goes from Asleep to Testing. *)
Lemma wake_worker : forall n m s w, inv n m s -> nth_error (workers s) w = Some Asleep -> inv n m (set_worker s w Testing).
Proof.
  intros n m s w [A1 A2 A3 A4 A5 A6 A7 A8 A9 A10 A11 A12] W. constructor; cbn [set_worker workers clients tasks finished counted completed base stop enqueued]; try assumption.
  - now rewrite upd_length.
  - rewrite (flat_upd _ _ exec _ _ _ Testing W eq_refl). assumption.
  - rewrite (count_upd_same _ is_counting _ _ _ Testing W eq_refl). assumption.
  - intro H. apply A7. apply (in_upd_ne _ _ _ _ _ _ W H). discriminate.
  - intros _ _. left. exists Testing. split; [now apply (in_upd _ _ Asleep)|reflexivity].
  - intro H. destruct (A9 H) as [K|K]; [now left|]. right. intro Q. apply K. apply (in_upd_ne _ _ _ _ _ _ W Q). discriminate.
  - intros H p P. exfalso. pose proof (A10 H _ (nth_error_In _ _ W)) as E. discriminate E.
Qed.
(** What the state of the clients must satisfy *)
Lemma client_inv : forall n m s c p q, inv n m s -> nth_error (clients s) c = Some p ->
  (p = Notifying -> n = 0 \/ tasks s = [] \/ exists x, In x (workers s) /\ active x = true) ->
  (p = NotifyingAll -> ~ In Asleep (workers s)) -> p <> Destroyed ->
  (q = Destroyed -> forall x, In x (workers s) -> x = Exited) ->
  (q = NotifyingAll \/ q = Joining \/ q = Destroyed -> stop s = true) ->
  (forall k, q = Waiting k -> completed s <> k) ->
  inv n m (set_client s c q).
Proof.
  intros n m s c p q [A1 A2 A3 A4 A5 A6 A7 A8 A9 A10 A11 A12] C N1 N2 N3 D G W. constructor; cbn [set_client workers clients tasks finished counted completed base stop enqueued]; try assumption.
  - now rewrite upd_length.
  - intros P T. destruct (A8 P T) as [H|H]; [now left|]. destruct (in_upd_old _ _ _ q _ C H) as [E|E]; [|now right].
    left. destruct (N1 (eq_sym E)) as [K|[K|K]]; [lia|now destruct T|assumption].
  - intro H. destruct (A9 H) as [K|K]; [|now right]. destruct (in_upd_old _ _ _ q _ C K) as [E|E]; [|now left]. right. apply N2. now symmetry.
  - intros H. destruct (in_upd_inv _ _ _ _ H) as [E|E]; [apply D; now symmetry|now apply A10].
  - intros H. assert (K : (q = NotifyingAll \/ q = Joining \/ q = Destroyed) \/ (In NotifyingAll (clients s) \/ In Joining (clients s) \/ In Destroyed (clients s))).
    { destruct H as [H|[H|H]]; destruct (in_upd_inv _ _ _ _ H); auto 6. }
    destruct K; auto.
  - intros M k H. destruct (in_upd_inv _ _ _ _ H) as [E|E]; [apply W; now symmetry|now apply A12].
Qed.
Lemma existsb_false : forall A (f : A -> bool) l, existsb f l = false -> forall x, In x l -> f x = false.
Proof. intros A f l H x X. destruct (f x) eqn:E; [|reflexivity]. rewrite <- H. symmetry. apply existsb_exists. eauto. Qed.

Lemma work_inv : forall n m s w v s', inv n m s -> work s w v = Some s' -> inv n m s'.
Proof.
  intros n m s w v s' I. pose proof I as [A1 A2 A3 A4 A5 A6 A7 A8 A9 A10 A11 A12]. unfold work.
  destruct (nth_error (workers s) w) as [[| |t| |]|] eqn:W; try discriminate.
  - (* Testing *)
    assert (ND : ~ In Destroyed (clients s)) by (intro D; pose proof (A10 D _ (nth_error_In _ _ W)) as E; discriminate E).
    destruct (stop s) eqn:ST; destruct (tasks s) as [|t rest] eqn:T; intro R; injection R as <-;
      (constructor; cbn [set_worker set_tasks workers clients tasks finished counted completed base stop enqueued]; try assumption; try (now rewrite upd_length); try (let D := fresh in intro D; destruct (ND D))).
    + rewrite T. rewrite (flat_upd _ _ exec _ _ _ Exited W eq_refl). assumption.
    + rewrite (count_upd_same _ is_counting _ _ _ Exited W eq_refl). assumption.
    + intros _. now rewrite ST.
    + rewrite T. now intros _ [].
    + intros _. destruct (A9 eq_refl) as [K|K]; [now left|]. right. intro Q. apply K. apply (in_upd_ne _ _ _ _ _ _ W Q). discriminate.
    + rewrite ST. reflexivity.
    + rewrite <- A3. destruct (upd_split exec _ _ _ W) as (r & P & Q). rewrite P, Q. cbn [exec app]. now rewrite <- Permutation_middle.
    + rewrite (count_upd_same _ is_counting _ _ _ (Executing t) W eq_refl). assumption.
    + intro H. destruct (A7 (in_upd_ne _ _ _ _ _ _ W H ltac:(discriminate))) as [_ E]. discriminate E.
    + intros _ _. left. exists (Executing t). split; [now apply (in_upd _ _ Testing)|reflexivity].
    + intros _. destruct (A9 eq_refl) as [K|K]; [now left|]. right. intro Q. apply K. apply (in_upd_ne _ _ _ _ _ _ W Q). discriminate.
    + rewrite ST. reflexivity.
    + rewrite T. rewrite (flat_upd _ _ exec _ _ _ Asleep W eq_refl). assumption.
    + rewrite (count_upd_same _ is_counting _ _ _ Asleep W eq_refl). assumption.
    + intro H. destruct (A7 (in_upd_ne _ _ _ _ _ _ W H ltac:(discriminate))) as [E _]. discriminate E.
    + rewrite T. now intros _ [].
    + rewrite ST. discriminate.
    + rewrite ST. assumption.
    + rewrite <- A3. destruct (upd_split exec _ _ _ W) as (r & P & Q). rewrite P, Q. cbn [exec app]. now rewrite <- Permutation_middle.
    + rewrite (count_upd_same _ is_counting _ _ _ (Executing t) W eq_refl). assumption.
    + intro H. destruct (A7 (in_upd_ne _ _ _ _ _ _ W H ltac:(discriminate))) as [E _]. discriminate E.
    + intros _ _. left. exists (Executing t). split; [now apply (in_upd _ _ Testing)|reflexivity].
    + rewrite ST. discriminate.
    + rewrite ST. assumption.
  - (* Executing *)
    assert (ND : ~ In Destroyed (clients s)) by (intro D; pose proof (A10 D _ (nth_error_In _ _ W)) as E; discriminate E).
    intro R; injection R as <-. constructor; cbn [set_worker add_finished workers clients tasks finished counted completed base stop enqueued]; try assumption; try (now rewrite upd_length); try (let D := fresh in intro D; destruct (ND D)).
    + rewrite <- A3. destruct (upd_split exec _ _ _ W) as (r & P & Q). rewrite P, Q. cbn [exec app]. apply Permutation_app_head. rewrite app_assoc. now rewrite <- Permutation_cons_append.
    + pose proof (count_upd _ is_counting _ _ _ Counting W) as C. cbn in C. rewrite app_length. cbn [length]. lia.
    + intro H. apply A7. apply (in_upd_ne _ _ _ _ _ _ W H). discriminate.
    + intros _ _. left. exists Counting. split; [now apply (in_upd _ _ (Executing t))|reflexivity].
    + intro H. destruct (A9 H) as [K|K]; [now left|]. right. intro Q. apply K. apply (in_upd_ne _ _ _ _ _ _ W Q). discriminate.
  - (* Counting *)
    assert (ND : ~ In Destroyed (clients s)) by (intro D; pose proof (A10 D _ (nth_error_In _ _ W)) as E; discriminate E).
    destruct (notify_client (clients s) v) as [cs|] eqn:NC; [|discriminate]. intro R; injection R as <-.
    assert (CS : length cs = length (clients s) /\ (forall p, match p with Waiting _ | Checking _ => False | _ => True end -> (In p cs <-> In p (clients s))) /\
                 (m = 1 -> forall k, ~ In (Waiting k) cs)).
    { unfold notify_client in NC. destruct (nth_error (clients s) v) as [p|] eqn:V.
      - destruct (match p with Waiting _ => true | _ => false end) eqn:WP.
        + destruct p; try discriminate WP. injection NC as <-. split; [apply upd_length|]. split.
          * intros q Q. split; intro H.
            -- apply (in_upd_ne _ _ _ _ _ _ V H). intros ->. destruct Q.
            -- destruct (in_upd_old _ _ _ (Checking n0) _ V H) as [E|E]; [subst; destruct Q|assumption].
          * intros -> k H. destruct (clients s) as [|x [|? ?]]; try discriminate A2. destruct v as [|[|?]]; cbn in H; try discriminate V. destruct H as [H|[]]. discriminate H.
        + assert (E : existsb waiting (clients s) = false /\ cs = clients s) by (destruct p; try discriminate WP; destruct (existsb waiting (clients s)); try discriminate NC; injection NC as <-; auto).
          destruct E as [E ->]. split; [reflexivity|]. split; [reflexivity|]. intros _ k H. pose proof (existsb_false _ _ _ E _ H) as K. discriminate K.
      - destruct (existsb waiting (clients s)) eqn:E; [discriminate NC|]. injection NC as <-. split; [reflexivity|]. split; [reflexivity|]. intros _ k H. pose proof (existsb_false _ _ _ E _ H) as K. discriminate K. }
    destruct CS as (CL & CI & CW).
    constructor; cbn [set_worker set_clients add_completed workers clients tasks finished counted completed base stop enqueued]; try assumption; try (now rewrite upd_length).
    + congruence.
    + rewrite (flat_upd _ _ exec _ _ _ Testing W eq_refl). assumption.
    + pose proof (count_upd _ is_counting _ _ _ Testing W) as C. cbn in C. lia.
    + lia.
    + rewrite A6. rewrite N.add_mod_idemp_l by discriminate. f_equal. lia.
    + intro H. apply A7. apply (in_upd_ne _ _ _ _ _ _ W H). discriminate.
    + intros _ _. left. exists Testing. split; [now apply (in_upd _ _ Counting)|reflexivity].
    + intro H. destruct (A9 H) as [K|K]; [left; now apply (CI NotifyingAll)|]. right. intro Q. apply K. apply (in_upd_ne _ _ _ _ _ _ W Q). discriminate.
    + intro H. destruct ND. now apply (CI Destroyed).
    + intro H. apply A11. rewrite <- (CI NotifyingAll), <- (CI Joining), <- (CI Destroyed); auto.
    + intros M k H. now destruct (CW M k).
Qed.
Lemma call_inv : forall n m s c a s', inv n m s -> call s c a = Some s' -> inv n m s'.
Proof.
  intros n m s c a s' I. pose proof I as [A1 A2 A3 A4 A5 A6 A7 A8 A9 A10 A11 A12]. unfold call.
  destruct (nth_error (clients s) c) as [p|] eqn:C; [|discriminate].
  destruct p; destruct a; try discriminate.
  - (* Enqueue *) destruct (stop s) eqn:ST; intro R; injection R as <-; [assumption|].
    constructor; cbn [set_client add_task workers clients tasks finished counted completed base stop enqueued]; try assumption.
    + now rewrite upd_length.
    + rewrite seq_S, <- A3, <- !app_assoc. cbn [Nat.add app]. apply Permutation_app_head. rewrite app_assoc. apply Permutation_cons_append.
    + intro H. destruct (A7 H) as [E _]. congruence.
    + intros _ _. right. now apply (in_upd _ _ Idle).
    + rewrite ST. discriminate.
    + intro H. apply A10. apply (in_upd_ne _ _ _ _ _ _ C H). discriminate.
    + intro H. rewrite ST. apply A11. destruct H as [H|[H|H]]; apply (in_upd_ne _ _ _ _ _ _ C) in H; auto; discriminate.
    + intros M k H. apply A12; [assumption|]. apply (in_upd_ne _ _ _ _ _ _ C H). discriminate.
  - (* Wait *) intro R; injection R as <-. apply (client_inv n m s c Idle); try assumption; try discriminate. intros [H|[H|H]]; discriminate H.
  - (* Reset *) intro R; injection R as <-. constructor; cbn [reset workers clients tasks finished counted completed base stop enqueued]; try assumption.
    + lia.
    + now rewrite Nat.sub_diag.
    + intros -> k H. exfalso. destruct (clients s) as [|x [|? ?]]; try discriminate A2. destruct c as [|[|?]]; try discriminate C. cbn in C. injection C as ->. destruct H as [H|[]]. discriminate H.
  - (* Destroy *) intro R; injection R as <-. constructor; cbn [set_client set_stop workers clients tasks finished counted completed base stop enqueued]; try assumption.
    + now rewrite upd_length.
    + intro H. now destruct (A7 H).
    + intros P T. destruct (A8 P T) as [H|H]; [now left|]. right. destruct (in_upd_old _ _ _ NotifyingAll _ C H) as [E|E]; [discriminate E|assumption].
    + intros _. left. now apply (in_upd _ _ Idle).
    + intro H. apply A10. apply (in_upd_ne _ _ _ _ _ _ C H). discriminate.
    + reflexivity.
    + intros M k H. apply A12; [assumption|]. apply (in_upd_ne _ _ _ _ _ _ C H). discriminate.
  - (* Notify *) destruct (notify_worker (workers s) v) as [ws|] eqn:NW; [|discriminate]. intro R; injection R as <-.
    assert (K : inv n m (set_workers s ws) /\ (n = 0 \/ tasks s = [] \/ exists x, In x ws /\ active x = true)).
    { unfold notify_worker in NW. destruct (match nth_error (workers s) v with Some Asleep => true | _ => false end) eqn:VA.
      - destruct (nth_error (workers s) v) as [[]|] eqn:V; try discriminate VA. injection NW as <-. split; [exact (wake_worker n m s v I V)|].
        right. right. exists Testing. split; [now apply (in_upd _ _ Asleep)|reflexivity].
      - assert (E : existsb asleep (workers s) = false /\ ws = workers s) by (destruct (nth_error (workers s) v) as [[]|]; try discriminate VA; destruct (existsb asleep (workers s)); try discriminate NW; injection NW as <-; auto).
        destruct E as [E ->]. split; [destruct s; exact I|]. destruct (workers s) as [|x l] eqn:X; [left; now rewrite <- A1|]. right.
        pose proof (existsb_false _ _ _ E x (or_introl eq_refl)) as XA. destruct x; try discriminate XA; try (right; eexists; split; [now left|reflexivity]).
        left. apply A7. now left. }
    destruct K as [I' K]. apply (client_inv n m (set_workers s ws) c Notifying); try assumption; try discriminate; [now intros _|intros [H|[H|H]]; discriminate H].
  - (* Check *) intro R; injection R as <-. destruct (N.eqb_spec (completed s) n0) as [E|E]; apply (client_inv n m s c (Checking n0)); try assumption; try discriminate; try (intros [H|[H|H]]; discriminate H).
    intros k H. injection H as <-. exact E.
  - (* Leave *) intro R; injection R as <-. apply (client_inv n m s c (Returned n0)); try assumption; try discriminate. intros [H|[H|H]]; discriminate H.
  - (* NotifyAll *) intro R; injection R as <-. pose proof (A11 (or_introl (nth_error_In _ _ C))) as ST.
    set (f := fun p => if asleep p then Testing else p).
    assert (NA : ~ In Asleep (map f (workers s))) by (intro H; apply in_map_iff in H; destruct H as (x & X & _); unfold f in X; destruct x; discriminate X).
    assert (I' : inv n m (set_workers s (map f (workers s)))).
    { constructor; cbn [set_workers workers clients tasks finished counted completed base stop enqueued]; try assumption.
      - now rewrite map_length.
      - rewrite <- A3. assert (E : flat_map exec (map f (workers s)) = flat_map exec (workers s)) by (clear; induction (workers s) as [|x l IH]; [reflexivity|]; cbn; rewrite IH; now destruct x). now rewrite E.
      - rewrite <- A4. f_equal. unfold count. clear. induction (workers s) as [|x l IH]; [reflexivity|]. destruct x; cbn; auto.
      - intro H. apply A7. apply in_map_iff in H. destruct H as (x & X & XI). unfold f in X. destruct x; try discriminate X. assumption.
      - intros P T. destruct (A8 P T) as [(x & X & XA)|H]; [|now right]. left. exists x. split; [|assumption]. apply in_map_iff. exists x. split; [destruct x; try discriminate XA; reflexivity|assumption].
      - intros _. now right.
      - intros H p P. apply in_map_iff in P. destruct P as (x & X & XI). pose proof (A10 H x XI). subst. reflexivity. }
    apply (client_inv n m (set_workers s (map f (workers s))) c NotifyingAll); try assumption; try discriminate; auto.
  - (* Join *) destruct (forallb _ (workers s)) eqn:F; [|discriminate]. intro R; injection R as <-. pose proof (A11 (or_intror (or_introl (nth_error_In _ _ C)))) as ST.
    apply (client_inv n m s c Joining); try assumption; try discriminate; [|now intros _].
    intros _ x X. rewrite forallb_forall in F. specialize (F x X). destruct x; try discriminate F. reflexivity.
Qed.
Lemma step_inv : forall n m s e s', inv n m s -> step s e = Some s' -> inv n m s'.
Proof.
  intros n m s [w v|w|c a|c] s' I; cbn [step].
  - now apply work_inv.
  - destruct (nth_error (workers s) w) as [[]|] eqn:W; try discriminate. intro R; injection R as <-. now apply wake_worker.
  - now apply call_inv.
  - destruct (nth_error (clients s) c) as [[]|] eqn:C; try discriminate. intro R; injection R as <-. apply (client_inv n m s c (Waiting n0)); try assumption; try discriminate. intros [H|[H|H]]; discriminate H.
Qed.
Lemma run_inv : forall n m sch s s', inv n m s -> run s sch = Some s' -> inv n m s'.
Proof.
  intros n m. induction sch as [|e sch IH]; intros s s' I R; cbn in R; [congruence|].
  destruct (step s e) as [s1|] eqn:E; [|discriminate R]. apply (IH s1); [now apply (step_inv n m s e)|assumption].
Qed.

(** When nothing is queued and nothing runs, every task has been run. *)
Lemma done_all : forall n m s, inv n m s -> tasks s = [] -> flat_map exec (workers s) = [] -> all_finished s.
Proof.
  intros n m s I T E. pose proof (iv_places _ _ _ I) as P. rewrite T, E in P. cbn in P. split; [apply (Permutation_NoDup (Permutation_sym P)), seq_NoDup|].
  intro t. split; intro H.
  - apply (Permutation_in _ P) in H. apply in_seq in H. lia.
  - apply (Permutation_in _ (Permutation_sym P)). apply in_seq. lia.
Qed.
Lemma flat_nil : forall A B (f : A -> list B) l, (forall x, In x l -> f x = []) -> flat_map f l = [].
Proof. intros A B f l H. induction l as [|x l IH]; [reflexivity|]. cbn. rewrite (H x (or_introl eq_refl)). apply IH. intros y Y. apply H. now right. Qed.
Lemma places_length : forall n m s, inv n m s -> length (tasks s) + length (flat_map exec (workers s)) + length (finished s) = enqueued s.
Proof. intros n m s I. pose proof (Permutation_length (iv_places _ _ _ I)) as L. rewrite !app_length, seq_length in L. lia. Qed.
