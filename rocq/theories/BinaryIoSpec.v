(** Sequences of values written and read through the binary reader/writer. *)
From Verif Require Import BinaryIoModel.

(** A value of each supported kind, and the kinds themselves (a fixed blob is
    read with a size known to the reader). *)
Inductive item := U8 (v : N) | U32 (v : N) | U64 (v : N) | Str (s : bytes) | Fixed (s : bytes).
Inductive kind := KU8 | KU32 | KU64 | KStr | KFixed (n : nat).
Definition kind_of (i : item) : kind :=
  match i with U8 _ => KU8 | U32 _ => KU32 | U64 _ => KU64 | Str _ => KStr | Fixed s => KFixed (length s) end.

Definition item_ok (i : item) : Prop :=
  match i with
  | U8 v => (v < 2 ^ 8)%N | U32 v => (v < 2 ^ 32)%N | U64 v => (v < 2 ^ 64)%N
  | Str _ | Fixed _ => True
  end.

(** Write a sequence of items. *)
Definition write_item (b : bytes) (i : item) : bytes :=
  match i with
  | U8 v => write_u8 b v | U32 v => write_u32 b v | U64 v => write_u64 b v
  | Str s => write_string b s | Fixed s => write_bytes b s
  end.
Definition write_items (l : list item) : bytes := fold_left write_item l [].

(** Read one item of a kind; [None] if the reader reported nullopt. *)
Definition read_item (k : kind) (r : reader) : res (option item * reader) :=
  match k with
  | KU8 => let* (v, r') := read_u8 r in Ok (option_map U8 v, r')
  | KU32 => let* (v, r') := read_u32 r in Ok (option_map U32 v, r')
  | KU64 => let* (v, r') := read_u64 r in Ok (option_map U64 v, r')
  | KStr => let* (v, r') := read_string r in Ok (option_map Str v, r')
  | KFixed n => let* (v, r') := read_fixed_blob (N.of_nat n) r in Ok (option_map Fixed v, r')
  end.

(** Read a sequence of kinds: the items read before the first nullopt, and
    whether all were read. *)
Fixpoint read_items (ks : list kind) (r : reader) : res (list item * bool * reader) :=
  match ks with
  | [] => Ok ([], true, r)
  | k :: ks' =>
      let* (i, r1) := read_item k r in
      match i with
      | None => Ok ([], false, r1)
      | Some x => let* (l, ok, r2) := read_items ks' r1 in Ok (x :: l, ok, r2)
      end
  end.

Definition total_size (b : bytes) : Prop := (N.of_nat (length b) < 2 ^ 64)%N.
