(** More fuel does not change what the construction of a Vamana graph does. *)
From Verif Require Import PruneModel VBuildSpec.

Lemma ramp_more dist location alpha degree pool : forall f f' lv fs r x, f <= f' ->
  prune_ramp f dist location alpha degree lv pool fs r = Some x -> prune_ramp f' dist location alpha degree lv pool fs r = Some x.
Proof.
  induction f as [|f IH]; intros f' lv fs r x Hle E; [discriminate E|]. destruct f' as [|f']; [lia|]. cbn [prune_ramp] in E |- *.
  destruct (_ && _)%bool; [|assumption].
  destruct (prune_pass dist location alpha degree lv pool fs r) as [r1 fs1].
  eapply IH; eauto. lia.
Qed.
Lemma prune_more f f' p dist node ids x : f <= f' -> prune_ids f p dist node ids = Some x -> prune_ids f' p dist node ids = Some x.
Proof.
  intros L. unfold prune_ids, prune_neighbors. destruct (map _ ids) as [|c l]; [auto|]. unfold occlude_list.
  destruct (std_sort (c :: l)); [auto|]. apply ramp_more. assumption.
Qed.
Lemma lift_more {A B} (o o' : option A) (k : A -> fuelled B) x : (forall a, o = Some a -> o' = Some a) -> lift_opt o k = Done x -> lift_opt o' k = Done x.
Proof. intros H. destruct o as [a|]; cbn; [|discriminate]. now rewrite (H a eq_refl). Qed.
Lemma thread_step_more f f' p dist medoid rows next t x : f <= f' ->
  thread_step f p dist medoid rows next t = Done x -> thread_step f' p dist medoid rows next t = Done x.
Proof.
  intros L. unfold thread_step. destruct (t_pc t) as [|node pool|node pruned|node [|des todo]|node des new todo]; auto.
  - destruct (has_unexpanded_node (vs_pool (t_scratch t))); [auto|]. apply lift_more. intros a. now apply prune_more.
  - destruct (aget rows des) as [row| | |]; cbn [lift_res]; auto. destruct (existsb (N.eqb node) row); [auto|].
    destruct (Nat.ltb (length row) (slack (b_R p))); [auto|]. apply lift_more. intros a. now apply prune_more.
Qed.
Lemma step_more f f' p dist medoid st i x : f <= f' -> step f p dist medoid st i = Done x -> step f' p dist medoid st i = Done x.
Proof.
  intros L. unfold step. destruct (nth_error (v_threads st) i) as [t|]; [|auto].
  destruct (thread_step f p dist medoid (v_rows st) (v_next st) t) as [|o] eqn:E; [discriminate|].
  now rewrite (thread_step_more f f' _ _ _ _ _ _ _ L E).
Qed.
Lemma run_more f f' p dist medoid x : f <= f' -> forall sched st, run f p dist medoid st sched = Done x -> run f' p dist medoid st sched = Done x.
Proof.
  intros L. induction sched as [|i rest IH]; intros st; cbn [run]; [auto|].
  destruct (step f p dist medoid st i) as [|o] eqn:E; [discriminate|]. rewrite (step_more f f' _ _ _ _ _ _ L E). destruct o; auto.
Qed.
Lemma clean_thread_more f f' p dist rows next t x : f <= f' ->
  clean_thread_step f p dist rows next t = Done x -> clean_thread_step f' p dist rows next t = Done x.
Proof.
  intros L. unfold clean_thread_step. destruct (c_new t) as [[node new]|]; [auto|]. destruct (c_todo t) as [|node rest]; [auto|].
  destruct (aget rows node) as [row| | |]; cbn [lift_res]; auto. destruct (Nat.ltb (b_R p) (length row)); [|auto].
  apply lift_more. intros a. now apply prune_more.
Qed.
Lemma clean_step_more f f' p dist st i x : f <= f' -> clean_step f p dist st i = Done x -> clean_step f' p dist st i = Done x.
Proof.
  intros L. unfold clean_step. destruct (nth_error (c_threads st) i) as [t|]; [|auto].
  destruct (clean_thread_step f p dist (c_rows st) (c_next st) t) as [|o] eqn:E; [discriminate|].
  now rewrite (clean_thread_more f f' _ _ _ _ _ _ L E).
Qed.
Lemma clean_run_more f f' p dist x : f <= f' -> forall sched st, clean_run f p dist st sched = Done x -> clean_run f' p dist st sched = Done x.
Proof.
  intros L. induction sched as [|i rest IH]; intros st; cbn [clean_run]; [auto|].
  destruct (clean_step f p dist st i) as [|o] eqn:E; [discriminate|]. rewrite (clean_step_more f f' _ _ _ _ _ L E). destruct o; auto.
Qed.
