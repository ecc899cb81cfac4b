(** Model of include/utils/index_encoding.hpp. *)
From Coq Require Import String.
From Verif Require Export ScalarDataModel Double.

(** One lower-case hexadecimal digit, and snprintf "%0<k>x": the [k] low
    hexadecimal digits, most significant first (index_encoding.hpp:31-32, 59-60). *)
Definition hex_digit (d : N) : N := if N.ltb d 10 then (48 + d)%N else (87 + d)%N.
Fixpoint hexn (k : nat) (n : N) : bytes :=
  match k with
  | O => []
  | S k' => hex_digit ((n / 16 ^ N.of_nat k') mod 16) :: hexn k' n
  end.
Definition hex16 (n : N) : bytes := hexn 16 n.

(** std::stoull(s, nullptr, 16), index_encoding.hpp:40, 68.  Simplified: only
    strings of lower-case hexadecimal digits that fit 64 bits are parsed
    (everything the encoders write); other inputs give [None]. *)
Definition hex_val (c : N) : option N :=
  if N.leb 48 c && N.leb c 57 then Some (c - 48)%N
  else if N.leb 97 c && N.leb c 102 then Some (c - 87)%N else None.
Fixpoint unhex (acc : N) (s : bytes) : option N :=
  match s with
  | [] => if N.ltb acc (2 ^ 64) then Some acc else None
  | c :: s' => match hex_val c with Some d => unhex (16 * acc + d) s' | None => None end
  end.

(** encode_int64, index_encoding.hpp:29-34 *)
Definition encode_int64 (v : Z) : bytes := hex16 (N.lxor (int64_bits v) (2 ^ 63)).
(** decode_int64, index_encoding.hpp:39-42 *)
Definition decode_int64 (s : bytes) : option Z :=
  option_map (fun e => int64_of_bits (N.lxor e (2 ^ 63))) (unhex 0 s).

(** The bit manipulation of encode_double, index_encoding.hpp:52-58 *)
Definition double_sort_bits (bits : N) : N :=
  if negb (N.eqb (N.shiftr bits 63) 0) then N.lnot bits 64 else N.lxor bits (2 ^ 63).
(** encode_double, index_encoding.hpp:51-62; a double is its bit pattern. *)
Definition encode_double (bits : N) : bytes := hex16 (double_sort_bits bits).
(** decode_double, index_encoding.hpp:67-77 *)
Definition decode_double (s : bytes) : option N :=
  option_map (fun e => if negb (N.eqb (N.shiftr e 63) 0) then N.lxor e (2 ^ 63) else N.lnot e 64) (unhex 0 s).

(** Separator '_'. *)
Definition us : N := 95.

(** encode_value, index_encoding.hpp:88-105 *)
Definition encode_value (v : value) : bytes :=
  match v with
  | VStr s => str "s_" ++ s
  | VBool b => str "b_" ++ (if b then str "1" else str "0")
  | VInt z => str "i_" ++ encode_int64 z
  | VDouble b => str "d_" ++ encode_double b
  end.

(** make_field_index_key, index_encoding.hpp:111-115 *)
Definition make_field_index_key (field enc : bytes) (id : N) : bytes :=
  str "f_" ++ field ++ [us] ++ enc ++ [us] ++ dec id.
(** make_field_index_prefix, index_encoding.hpp:120-123 *)
Definition make_field_index_prefix (field enc : bytes) : bytes :=
  str "f_" ++ field ++ [us] ++ enc ++ [us].
(** make_field_prefix, index_encoding.hpp:128-130 *)
Definition make_field_prefix (field : bytes) : bytes := str "f_" ++ field ++ [us].

(** key.substr(key.rfind('_') + 1), index_encoding.hpp:137-141 *)
Fixpoint after_last_us (s : bytes) : option bytes :=
  match s with
  | [] => None
  | c :: s' => match after_last_us s' with
               | Some r => Some r
               | None => if N.eqb c us then Some s' else None
               end
  end.
(** extract_id_from_key, index_encoding.hpp:135-142: std::stoull in base 10.
    Simplified: a suffix that is not made of digits gives [None] (stoull
    would throw or parse a prefix); the keys the storage writes end in digits. *)
Definition extract_id_from_key (key : bytes) : option N :=
  match after_last_us key with
  | None => Some 0%N
  | Some r => match r with [] => None | _ => digits_val 0 r end
  end.
