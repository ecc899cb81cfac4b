(** C88: the random rotations of RaBitQ and LASER are isometries: computed in
    real numbers they keep every inner product, length and distance, for any
    random bits, and stay inside their buffers. *)
From Coq Require Import Lra Lia.
From Verif Require Import RotateProofs.
Import ListNotations.
Local Open Scope R_scope.

(** The loops of the fast transform compute the Walsh-Hadamard transform of the
    first 2^n floats, for every n, and leave the rest of the buffer alone. *)
Theorem fht_is_walsh_hadamard : forall (n : nat) (v rest : list R), length v = (2 ^ n)%nat ->
  fht n (v ++ rest) = Ok (walsh_hadamard n v ++ rest).
Proof. exact fht_spec. Qed.
Example fht_four : fht 2 [1; 2; 3; 4; 9] = Ok ([1 + 2 + (3 + 4); 1 - 2 + (3 - 4); 1 + 2 - (3 + 4); 1 - 2 - (3 - 4)] ++ [9]).
Proof. exact (fht_is_walsh_hadamard 2 [1; 2; 3; 4] [9] eq_refl). Qed.

(** From the inner products the rest follows. *)
Lemma isometry_of (n m : nat) (f : list R -> res (list R)) (g : list R -> list R) :
  (forall x, (n <= length x)%nat -> f x = Ok (g x) /\ length (g x) = m /\
     forall y, (n <= length y)%nat -> dot (g x) (g y) = dot (firstn n x) (firstn n y)) ->
  (forall x, length x = n -> exists rx, f x = Ok rx /\ length rx = m) /\ isometry (fun x rx => length x = n /\ f x = Ok rx).
Proof.
  intros H. split.
  - intros x Hx. destruct (H x ltac:(lia)) as (E & L & _). now exists (g x).
  - assert (D : forall x y, length x = n -> length y = n -> dot (g x) (g y) = dot x y).
    { intros x y Hx Hy. destruct (H x ltac:(lia)) as (_ & _ & Q). rewrite Q by lia. now rewrite !firstn_all2 by lia. }
    intros x y rx ry [Hx Ex] [Hy Ey] L. destruct (H x ltac:(lia)) as (Fx & Lx & _). destruct (H y ltac:(lia)) as (Fy & Ly & _).
    assert (rx = g x) by congruence. assert (ry = g y) by congruence. subst rx ry.
    split; [lia|]. split; [apply D; assumption|]. split; [apply D; assumption|].
    rewrite !dist2_dot by lia. rewrite !D by assumption. reflexivity.
Qed.

(** The rotator of RaBitQ: for the padding it picks itself, or any larger
    multiple of 64, it rotates every vector within bounds, isometrically. *)
Theorem rabitq_rotation_isometry : forall (dim padded : nat) (flips : list N) (k : kac),
  let width := if (padded =? 0)%nat then padding_requirement dim else padded in
  (padded = 0 \/ dim <= padded)%nat -> (4 * width / 8 <= length flips)%nat -> choose_rotator dim padded flips = Ok k ->
  (forall x, length x = dim -> exists rx, kac_rotate k x = Ok rx /\ length rx = width) /\
  isometry (fun x rx => length x = dim /\ kac_rotate k x = Ok rx).
Proof.
  intros dim padded flips k width HP HF HC. destruct (choose_good dim padded flips k HP HF HC) as (G & ED & EP).
  destruct (scales_kac k G) as (g & Hg). rewrite ED, EP in Hg. exact (isometry_of dim width (kac_rotate k) g Hg).
Qed.
(** It is made for 64 to 4095 dimensions and paddings that are multiples of 64, and refused for all others. *)
Theorem rabitq_rotator_accepts : forall (dim padded : nat) (flips : list N),
  ((exists k, choose_rotator dim padded flips = Ok k) <-> (64 <= dim < 4096 /\ padded mod 64 = 0)%nat) /\
  ((exists k, choose_rotator dim padded flips = Ok k) \/ choose_rotator dim padded flips = Throws).
Proof.
  intros dim padded flips. unfold choose_rotator, kac_new. set (p := if (padded =? 0)%nat then padding_requirement dim else padded).
  assert (PM : (p =? padding_requirement p)%nat = true <-> (padded mod 64 = 0)%nat).
  { assert (Q : forall q, (q =? padding_requirement q)%nat = true <-> (q mod 64 = 0)%nat).
    { intros q. rewrite Nat.eqb_eq. split; intros H; [rewrite H; apply padding_le|]. unfold padding_requirement. apply Nat.mod_divide in H; [|lia]. destruct H as [z ->].
      rewrite Nat.add_comm, Nat.div_add by lia. reflexivity. }
    subst p. destruct (Nat.eqb_spec padded 0) as [->|_]; [|apply Q]. rewrite Q. split; intros _; [reflexivity|apply padding_le]. }
  pose proof (accepted_dims dim) as AD.
  destruct (p =? padding_requirement p)%nat; cbn [negb].
  - destruct (_ && _)%bool.
    + split; [|left; eexists; reflexivity]. split; [intros _; split; [now apply AD|now apply PM]|intros _; eexists; reflexivity].
    + split; [|now right]. split; [intros [k E]; discriminate|]. intros [D _]. apply AD in D. discriminate.
  - split; [|now right]. split; [intros [k E]; discriminate|]. intros [_ D]. apply PM in D. discriminate.
Qed.
(** 100 dimensions are padded to 128: the walks are taken. *)
Example rabitq_rotation_100 : exists k, choose_rotator 100 0 (repeat 165%N 64) = Ok k /\ k_padded k = 128%nat /\ k_trunc k = 64%nat /\
  forall x, length x = 100%nat -> exists rx, kac_rotate k x = Ok rx /\ length rx = 128%nat /\ dot rx rx = dot x x.
Proof.
  eexists. split; [reflexivity|]. split; [reflexivity|]. split; [reflexivity|]. intros x Hx.
  destruct (rabitq_rotation_isometry 100 0 (repeat 165%N 64) _ (or_introl eq_refl) (le_n 64) eq_refl) as [T I].
  destruct (T x Hx) as (rx & E & L). exists rx. split; [exact E|]. split; [exact L|].
  destruct (I x x rx rx (conj Hx E) (conj Hx E) eq_refl) as (_ & _ & Q & _). exact Q.
Qed.
(** A padding below the dimension is accepted, and the rotation then writes
    outside its buffer (it copies dim floats into padded_dim). *)
Theorem rabitq_rotation_refuted_small_padding : forall (dim : nat) (flips : list N) (x : list R), (64 < dim < 4096)%nat ->
  exists k, choose_rotator dim 64 flips = Ok k /\ kac_rotate k x = OutOfBounds.
Proof.
  intros dim flips x H. unfold choose_rotator. change (negb _) with false. cbn [Nat.eqb]. unfold kac_new. rewrite (proj2 (accepted_dims dim)) by lia.
  eexists. split; [reflexivity|]. unfold kac_rotate. cbn [k_dim k_padded]. rewrite (proj2 (Nat.leb_gt dim 64)) by lia. now rewrite Bool.andb_false_r.
Qed.

(** The rotator of LASER, for 33 to 2048 dimensions. *)
Theorem laser_rotation_isometry : forall (dim : nat) (signs : list bool) (f : fhtr),
  (2 ^ Nat.log2_up dim <= length signs)%nat -> fhtr_new dim signs = Ok f ->
  (forall x, length x = dim -> exists rx, fhtr_rotate f x = Ok rx /\ length rx = (2 ^ Nat.log2_up dim)%nat) /\
  isometry (fun x rx => length x = dim /\ fhtr_rotate f x = Ok rx).
Proof.
  intros dim signs f HS HN. destruct (fhtr_dot dim signs f HN HS) as (g & Hg). exact (isometry_of dim (2 ^ Nat.log2_up dim) (fhtr_rotate f) g Hg).
Qed.
Theorem laser_rotator_accepts : forall (dim : nat) (signs : list bool),
  ((exists f, fhtr_new dim signs = Ok f) <-> (32 < dim <= 2048)%nat) /\ ((exists f, fhtr_new dim signs = Ok f) \/ fhtr_new dim signs = Throws).
Proof.
  intros dim signs. unfold fhtr_new.
  assert (Q : ((6 <=? Nat.log2_up dim)%nat && (Nat.log2_up dim <=? 11)%nat)%bool = true <-> (32 < dim <= 2048)%nat).
  { rewrite Bool.andb_true_iff, !Nat.leb_le. split.
    - intros [H1 H2]. assert (1 < dim)%nat by (destruct dim as [|[|d]]; [cbn in H1; lia|cbn in H1; lia|lia]).
      split; [|change 2048%nat with (2 ^ 11)%nat; apply Nat.log2_up_le_pow2; lia]. destruct (Nat.le_gt_cases dim 32) as [L|L]; [|exact L].
      change 32%nat with (2 ^ 5)%nat in L. apply Nat.log2_up_le_pow2 in L; lia.
    - intros [H1 H2]. split; [|change 2048%nat with (2 ^ 11)%nat in H2; apply Nat.log2_up_le_pow2 in H2; lia].
      destruct (Nat.le_gt_cases 6 (Nat.log2_up dim)) as [L|L]; [exact L|]. assert (L2 : (Nat.log2_up dim <= 5)%nat) by lia. apply Nat.log2_up_le_pow2 in L2; [|lia].
      change (2 ^ 5)%nat with 32%nat in L2. lia. }
  destruct (_ && _)%bool.
  - split; [|left; eexists; reflexivity]. split; [intros _; now apply Q|intros _; eexists; reflexivity].
  - split; [|now right]. split; [intros [k E]; discriminate|]. intros D. apply Q in D. discriminate.
Qed.
Example laser_rotation_50 : exists f, fhtr_new 50 (repeat true 64) = Ok f /\ f_log f = 6%nat /\
  forall x, length x = 50%nat -> exists rx, fhtr_rotate f x = Ok rx /\ length rx = 64%nat /\ dot rx rx = dot x x.
Proof.
  eexists. split; [reflexivity|]. split; [reflexivity|]. intros x Hx.
  destruct (laser_rotation_isometry 50 (repeat true 64) _ (le_n 64) eq_refl) as [T I].
  destruct (T x Hx) as (rx & E & L). exists rx. split; [exact E|]. split; [exact L|].
  destruct (I x x rx rx (conj Hx E) (conj Hx E) eq_refl) as (_ & _ & Q & _). exact Q.
Qed.
Print Assumptions fht_is_walsh_hadamard.
Print Assumptions rabitq_rotation_isometry.
Print Assumptions rabitq_rotator_accepts.
Print Assumptions rabitq_rotation_refuted_small_padding.
Print Assumptions laser_rotation_isometry.
Print Assumptions laser_rotator_accepts.
