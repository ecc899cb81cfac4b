(** * The resumable PCA step of [Index.fit]

    python/src/alayalite/laser/__init__.py:291-327 and 381,
    python/src/alayalite/laser/_idempotence.py:41-73 and 102-143,
    python/src/alayalite/laser/_pca.py:131-180.

    [Index.fit] reduces the vectors with a PCA and writes the transformed
    vectors to [<prefix>_pca_base.fbin].  The writer goes chunk by chunk and
    takes up an incomplete file where an earlier run has left it.  A sidecar
    file [<prefix>_seed.txt] with the seed is written when everything is built
    and decides whether a later [fit] may keep what it finds.

    Simplified: only the files of the PCA step and the sidecar are kept; the
    vectors are given as a file, so that [fit] writes no raw file; sampling,
    fitting and transforming are one function [tr seed vectors row] giving the
    bytes of a transformed row; the parameter file is the seed and the vectors
    it was fitted on, or nothing when it is absent or not complete. *)

From Coq Require Import List Arith ZArith Bool.
Import ListNotations.

(** Bytes; a vector as its numbers; the content of a file. *)
Definition byte := nat.
Definition row := list nat.
Definition file := list byte.

(** _pca.py:168: four bytes of an int32, low byte first ([n < 2^31]). *)
Definition int32 (n : nat) : list byte :=
  [n mod 256; (n / 256) mod 256; (n / 256 / 256) mod 256;
   (n / 256 / 256 / 256) mod 256].

(** _pca.py:168: [np.array([n, out_dim], dtype=np.int32)]. *)
Definition fbin_header (n dim : nat) : file := int32 n ++ int32 dim.

(** _pca.py:144-146. *)
Definition header_size : nat := 8.
Definition bytes_per_vector (dim : nat) : nat := dim * 4.
Definition num_chunks (chunk n : nat) : nat := (n + chunk - 1) / chunk.

(** _pca.py:147-154: the chunk at which the writer starts. *)
Definition start_chunk (chunk dim : nat) (old : option file) : nat :=
  match old with
  | None => 0
  | Some b =>
      if header_size <? length b
      then ((length b - header_size) / bytes_per_vector dim) / chunk
      else 0
  end.

(** _pca.py:155: [valid_size]. *)
Definition valid_size (chunk dim start : nat) : nat :=
  header_size + start * chunk * bytes_per_vector dim.

(** _pca.py:151-158: the file once a chunk that was left incomplete is cut off
    ([f.truncate]); [valid_size] is never above the size of the file here. *)
Definition truncated (chunk dim : nat) (old : option file) : option file :=
  match old with
  | None => None
  | Some b =>
      if header_size <? length b
      then Some (firstn (valid_size chunk dim (start_chunk chunk dim old)) b)
      else Some b
  end.

(** _pca.py:166-168: with no complete chunk the file is begun anew. *)
Definition begun (chunk dim n : nat) (old : option file) : file :=
  if start_chunk chunk dim old =? 0 then fbin_header n dim
  else match truncated chunk dim old with Some b => b | None => [] end.

(** _pca.py:177-179: [vectors[start_idx:end_idx]]. *)
Definition chunk_of (chunk i : nat) (vs : list row) : list row :=
  firstn (Nat.min (i * chunk + chunk) (length vs) - i * chunk)
         (skipn (i * chunk) vs).

(** _pca.py:170-180: the loop over the chunks that are left; each is
    transformed and appended. *)
Definition append_chunks (chunk : nat) (f : row -> list byte) (vs : list row)
  (start : nat) (b : file) : file :=
  fold_left (fun acc i => acc ++ flat_map f (chunk_of chunk i vs))
            (seq start (num_chunks chunk (length vs) - start)) b.

(** _pca.py:131-180: [pca_transform_and_save]. *)
Definition pca_save (chunk dim : nat) (f : row -> list byte) (vs : list row)
  (old : option file) : file :=
  append_chunks chunk f vs (start_chunk chunk dim old)
    (begun chunk dim (length vs) old).

(** _pca.py:149-180: what a writer that is killed can leave: the file it found,
    the same with the incomplete chunk cut off, or what has been written so far,
    which may end anywhere. *)
Definition pca_killed (chunk dim : nat) (f : row -> list byte) (vs : list row)
  (old left : option file) : Prop :=
  left = old \/ left = truncated chunk dim old \/
  exists k,
    (if start_chunk chunk dim old =? 0 then 0
     else valid_size chunk dim (start_chunk chunk dim old)) <= k /\
    left = Some (firstn k (pca_save chunk dim f vs old)).

(** _idempotence.py:41-55: [validate_pca_base]; the two numbers are compared as
    the bytes that hold them. *)
Definition validate_pca_base (b : option file) (n dim : nat) : bool :=
  match b with
  | None => false
  | Some b =>
      (length b =? 8 + n * dim * 4) &&
      (if list_eq_dec Nat.eq_dec (firstn 8 b) (fbin_header n dim)
       then true else false)
  end.

(** __init__.py:309-310, _idempotence.py:97-99: the files of the PCA step under
    one prefix. *)
Record files := mkFiles {
  sidecar : option Z;                    (* <prefix>_seed.txt *)
  params : option (Z * list row);        (* <prefix>_pca.bin *)
  base : option file                     (* <prefix>_pca_base.fbin *)
}.

(** __init__.py:266-268: a directory just made. *)
Definition no_files : files := mkFiles None None None.

(** _idempotence.py:102-121: [validate_seed_sidecar]. *)
Definition seed_matches (w : files) (seed : Z) : bool :=
  match sidecar w with Some s => (s =? seed)%Z | None => false end.

(** __init__.py:300-302: the gate: a sidecar that does not match is removed. *)
Definition gate (w : files) (seed : Z) : files :=
  if seed_matches w seed then w else mkFiles None (params w) (base w).

(** _idempotence.py:58-73: [validate_pca_params]: size and dimension only, so
    every complete file passes. *)
Definition validate_pca_params (w : files) : bool :=
  match params w with Some _ => true | None => false end.

(** __init__.py:303,311-316: whether the PCA step is skipped. *)
Definition skips (dim : nat) (vs : list row) (skip : bool) (seed : Z) (w : files)
  : bool :=
  skip && seed_matches w seed && validate_pca_base (base w) (length vs) dim
  && validate_pca_params w.

(** __init__.py:300-327 and 381: a [fit] that runs to its end. *)
Definition fit (tr : Z -> list row -> row -> list byte) (chunk dim : nat)
  (vs : list row) (skip : bool) (seed : Z) (w : files) : files :=
  if skips dim vs skip seed w then mkFiles (Some seed) (params w) (base w)
  else mkFiles (Some seed) (Some (seed, vs))
         (Some (pca_save chunk dim (tr seed vs) vs (base w))).

(** __init__.py:300-381: what a [fit] that is killed can leave: nothing done,
    the gate passed, the parameter file not complete, the parameters saved and
    the base file in any state of its writer, or everything but the sidecar. *)
Inductive fit_killed (tr : Z -> list row -> row -> list byte) (chunk dim : nat)
  (vs : list row) (skip : bool) (seed : Z) (w : files) : files -> Prop :=
| killed_before : fit_killed tr chunk dim vs skip seed w w
| killed_gate : fit_killed tr chunk dim vs skip seed w (gate w seed)
| killed_params :
    skips dim vs skip seed w = false ->
    fit_killed tr chunk dim vs skip seed w
      (mkFiles (sidecar (gate w seed)) None (base w))
| killed_base : forall left,
    skips dim vs skip seed w = false ->
    pca_killed chunk dim (tr seed vs) vs (base w) left ->
    fit_killed tr chunk dim vs skip seed w
      (mkFiles (sidecar (gate w seed)) (Some (seed, vs)) left).
