(** The random rotations: include/utils/rabitq_utils/rotator.hpp (RaBitQ) and
    include/index/graph/laser/utils/rotator.hpp (LASER), with the portable fast
    Hadamard transforms.  Floats are real numbers: rounding is left out.  The
    AVX2 and AVX-512 versions, in inline assembly, and the matrix rotator,
    which leaves its work to Eigen, are not modelled. *)
From Coq Require Export Reals.
From Verif Require Export Arr.
Local Open Scope nat_scope.

(** One step on a pair: buf[lhs], buf[lhs + half] become sum and difference,
    fht.ipp:36-39, laser rotator.hpp:48-53, kacs_walk 280-283 *)
Definition butterfly (buf : list R) (lhs half : nat) : res (list R) :=
  let* u := aget buf (N.of_nat lhs) in
  let* v := aget buf (N.of_nat (lhs + half)) in
  let* buf1 := aput buf (N.of_nat lhs) (u + v)%R in
  aput buf1 (N.of_nat (lhs + half)) (u - v)%R.
(** The loop over a block, [count] pairs from [lhs] on, fht.ipp:35-40 *)
Fixpoint butterflies (buf : list R) (lhs half count : nat) : res (list R) :=
  match count with O => Ok buf | S k => let* buf1 := butterfly buf lhs half in butterflies buf1 (S lhs) half k end.
(** The loop over the blocks, fht.ipp:34-41 *)
Fixpoint fht_blocks (buf : list R) (base half blocks : nat) : res (list R) :=
  match blocks with O => Ok buf | S k => let* buf1 := butterflies buf base half half in fht_blocks buf1 (base + 2 * half) half k end.
(** The loop over the strides, fht.ipp:31-42: [done] of [log_n] rounds are done *)
Fixpoint fht_rounds (buf : list R) (log_n done left : nat) : res (list R) :=
  match left with
  | O => Ok buf
  | S k => let* buf1 := fht_blocks buf 0 (2 ^ done) (2 ^ log_n / (2 * 2 ^ done)) in fht_rounds buf1 log_n (S done) k
  end.
(** fwht_generic_template, fht.ipp:28-43, and fht_float_portable, laser
    rotator.hpp:42-57, which runs the same loops *)
Definition fht (log_n : nat) (buf : list R) : res (list R) := fht_rounds buf log_n 0 log_n.
(** A function run on the buffer from position [off] on *)
Definition at_ptr (off : nat) (f : list R -> res (list R)) (buf : list R) : res (list R) :=
  if off <=? length buf then let* r := f (skipn off buf) in Ok (firstn off buf ++ r) else OutOfBounds.

(** ** FhtKacRotator, 189-336 *)
Record kac := { k_dim : nat; k_padded : nat; k_flip : list N; k_log : nat }.
Definition k_trunc (k : kac) : nat := 2 ^ k_log k.
Definition k_fac (k : kac) : R := (1 / sqrt (INR (k_trunc k)))%R.
(** The constructor, 199-239; the flips are random bytes *)
Definition kac_new (dim padded : nat) (flips : list N) : res kac :=
  let l := Nat.log2 dim in
  if (6 <=? l) && (l <=? 11) then Ok {| k_dim := dim; k_padded := padded; k_flip := firstn (4 * padded / 8) flips; k_log := l |} else Throws.
(** flip_sign, 172-179: [base] is the first byte, [i] the next of [left] coordinates *)
Fixpoint flip_loop (flip : list N) (base : nat) (data : list R) (i left : nat) : res (list R) :=
  match left with
  | O => Ok data
  | S k =>
      let* byte := aget flip (N.of_nat (base + i / 8)) in
      if N.testbit byte (N.of_nat (i mod 8)) then
        let* x := aget data (N.of_nat i) in
        let* data1 := aput data (N.of_nat i) (- x)%R in
        flip_loop flip base data1 (S i) k
      else flip_loop flip base data (S i) k
  end.
Definition flip_sign (flip : list N) (base : nat) (data : list R) (dim : nat) : res (list R) := flip_loop flip base data 0 dim.
(** vec_rescale, 184-187 *)
Definition vec_rescale (data : list R) (dim : nat) (val : R) : res (list R) :=
  if dim <=? length data then Ok (map (fun x => (x * val)%R) (firstn dim data) ++ skipn dim data) else OutOfBounds.
(** kacs_walk, 279-284 *)
Definition kacs_walk (data : list R) (len : nat) : res (list R) := butterflies data 0 (len / 2) (len / 2).
(** The transform of trunc_dim_ coordinates from [start] on, and their scaling *)
Definition fht_scaled (k : kac) (start : nat) (v : list R) : res (list R) :=
  let* v1 := at_ptr start (fht (k_log k)) v in
  at_ptr start (fun s => vec_rescale s (k_trunc k) (k_fac k)) v1.
(** One round: flips, transform, scaling; and with the walk *)
Definition pow2_round (k : kac) (r : nat) (v : list R) : res (list R) :=
  let* v1 := flip_sign (k_flip k) (r * k_padded k / 8) v (k_padded k) in
  fht_scaled k 0 v1.
Definition kac_round (k : kac) (r start : nat) (v : list R) : res (list R) :=
  let* v1 := flip_sign (k_flip k) (r * k_padded k / 8) v (k_padded k) in
  let* v2 := fht_scaled k start v1 in
  kacs_walk v2 (k_padded k).
(** rotate, 288-335, into a buffer of padded_dim_ floats *)
Definition kac_rotate (k : kac) (data : list R) : res (list R) :=
  if (k_dim k <=? length data) && (k_dim k <=? k_padded k) then
    let v := firstn (k_dim k) data ++ repeat 0%R (k_padded k - k_dim k) in
    if k_trunc k =? k_padded k then
      let* v := pow2_round k 0 v in
      let* v := pow2_round k 1 v in
      let* v := pow2_round k 2 v in
      pow2_round k 3 v
    else
      let start := k_padded k - k_trunc k in
      let* v := kac_round k 0 0 v in
      let* v := kac_round k 1 start v in
      let* v := kac_round k 2 0 v in
      let* v := kac_round k 3 start v in
      vec_rescale v (k_padded k) (1 / 4)%R
  else OutOfBounds.
(** padding_requirement, 63-72, for this rotator: round_up_pow2(dim, 64) *)
Definition padding_requirement (dim : nat) : nat := (dim + 63) / 64 * 64.
(** choose_rotator, 343-380, for this rotator; [flips] are the random bytes *)
Definition choose_rotator (dim padded : nat) (flips : list N) : res kac :=
  let padded1 := if padded =? 0 then padding_requirement dim else padded in
  if negb (padded1 =? padding_requirement padded1) then Throws else kac_new dim padded1 flips.

(** ** LASER's FHTRotator, 100-146 *)
Record fhtr := { f_dim : nat; f_log : nat; f_mat : list R }.
(** The constructor, 112-129: a random sign over the root for each coordinate;
    select_fht_float, 59-89, has no transform below 6 or above 11 *)
Definition fhtr_new (dim : nat) (signs : list bool) : res fhtr :=
  let l := Nat.log2_up dim in
  if (6 <=? l) && (l <=? 11) then
    Ok {| f_dim := dim; f_log := l; f_mat := map (fun b : bool => ((if b then 1 else -1) / sqrt (INR (2 ^ l)))%R) (firstn (2 ^ l) signs) |}
  else Throws.
(** rotate_loop_generic, laser_dispatch.hpp:152-160 *)
Fixpoint rotate_loop (src mat : list R) (dim : nat) : res (list R) :=
  match dim with
  | O => Ok []
  | S k =>
      match src, mat with
      | s :: src', m :: mat' => let* rest := rotate_loop src' mat' k in Ok ((s * m)%R :: rest)
      | _, _ => OutOfBounds
      end
  end.
(** rotate, 138-145 *)
Definition fhtr_rotate (f : fhtr) (src : list R) : res (list R) :=
  let* d := rotate_loop src (f_mat f) (f_dim f) in
  fht (f_log f) (d ++ repeat 0%R (2 ^ f_log f - f_dim f)).
