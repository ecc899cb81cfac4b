(** * What a user expects of the files of the PCA step *)

From Coq Require Import List ZArith.
From Verif Require Import PcaFileModel.
Import ListNotations.

(** The base file: the header and then every vector, transformed, in order. *)
Definition base_file (dim : nat) (f : row -> list byte) (vs : list row) : file :=
  fbin_header (length vs) dim ++ concat (map f vs).

(** A transformed row is [dim] floats of four bytes. *)
Definition rows_of (dim : nat) (f : row -> list byte) : Prop :=
  forall v, length (f v) = dim * 4.

(** The files a user expects once [fit] has returned. *)
Definition expected (tr : Z -> list row -> row -> list byte) (dim : nat)
  (vs : list row) (seed : Z) : files :=
  mkFiles (Some seed) (Some (seed, vs)) (Some (base_file dim (tr seed vs) vs)).

(** What lies in the directory after any number of calls for the same vectors
    and the same seed, each of which was killed at any point or ran to its end,
    with [skip_existing] or without. *)
Inductive after_calls (tr : Z -> list row -> row -> list byte) (chunk dim : nat)
  (vs : list row) (seed : Z) : files -> Prop :=
| no_calls : after_calls tr chunk dim vs seed no_files
| call_killed : forall skip w w',
    after_calls tr chunk dim vs seed w ->
    fit_killed tr chunk dim vs skip seed w w' ->
    after_calls tr chunk dim vs seed w'
| call_ended : forall skip w,
    after_calls tr chunk dim vs seed w ->
    after_calls tr chunk dim vs seed (fit tr chunk dim vs skip seed w).

(** The number held by four bytes, low byte first, as readers of the file decode
    it. *)
Definition number4 (b : list byte) : nat :=
  match b with
  | [b0; b1; b2; b3] => b0 + 256 * (b1 + 256 * (b2 + 256 * b3))
  | _ => 0
  end.
