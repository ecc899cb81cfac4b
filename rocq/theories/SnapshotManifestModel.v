(** Model of the snapshot manifest text: include/recovery/snapshot_manifest.hpp,
    and of the CURRENT pointer file of include/recovery/recovery_manager.hpp. *)
From Coq Require Import String.
From Verif Require Export Text.

(** SnapshotManifest, snapshot_manifest.hpp:56-65.  Default values as in the
    struct. *)
Record manifest := {
  m_format_version : N;
  m_snapshot_id : bytes;
  m_reason : bytes;
  m_applied : N;
  m_created : N;
  m_graph_file : bytes;
  m_data_file : bytes;
  m_quant_file : bytes;
  m_rocksdb_dir : bytes;
}.
(** Default member initializers, snapshot_manifest.hpp:57-65 *)
Definition default_manifest : manifest :=
  {| m_format_version := 1; m_snapshot_id := []; m_reason := []; m_applied := 0; m_created := 0;
     m_graph_file := []; m_data_file := []; m_quant_file := []; m_rocksdb_dir := [] |}%N.

(** One [output << key << value << '\n'], snapshot_manifest.hpp:69-77 *)
Definition kv_line (key : string) (value : bytes) : bytes := str key ++ value ++ [chr_nl].

(** serialize, snapshot_manifest.hpp:67-79 *)
Definition serialize (m : manifest) : bytes :=
  kv_line "format_version=" (dec (m_format_version m))
  ++ kv_line "snapshot_id=" (m_snapshot_id m)
  ++ kv_line "reason=" (m_reason m)
  ++ kv_line "applied_through_op_id=" (dec (m_applied m))
  ++ kv_line "created_unix_ms=" (dec (m_created m))
  ++ kv_line "graph_file=" (m_graph_file m)
  ++ kv_line "data_file=" (m_data_file m)
  ++ kv_line "quant_file=" (m_quant_file m)
  ++ kv_line "rocksdb_dir=" (m_rocksdb_dir m).

(** parse_uint64_decimal, snapshot_manifest.hpp:23-36.  std::from_chars for an
    unsigned type accepts digits only (no sign, no blank) and reports
    result_out_of_range when the value does not fit. *)
Definition parse_uint64_decimal (v : bytes) : option N :=
  match v with
  | [] => None
  | _ => match digits_val 0 v with
         | Some n => if N.ltb n (2 ^ 64) then Some n else None
         | None => None
         end
  end.

(** parse_uint32_decimal, snapshot_manifest.hpp:38-46 *)
Definition parse_uint32_decimal (v : bytes) : option N :=
  match parse_uint64_decimal v with
  | Some n => if N.ltb (2 ^ 32 - 1) n then None else Some n
  | None => None
  end.

(** line.pop_back() of a trailing '\r', snapshot_manifest.hpp:92-94 *)
Definition strip_cr (l : bytes) : bytes :=
  match rev l with
  | c :: r => if N.eqb c chr_cr then rev r else l
  | [] => l
  end.

(** Assignment of one key, snapshot_manifest.hpp:101-125; [None] is the early
    [return std::nullopt]. *)
Definition set_field (m : manifest) (key value : bytes) : option manifest :=
  let '{| m_format_version := fv; m_snapshot_id := sid; m_reason := rs; m_applied := ap;
          m_created := cr; m_graph_file := gf; m_data_file := df; m_quant_file := qf;
          m_rocksdb_dir := rd |} := m in
  if bytes_eqb key (str "format_version") then
    option_map (fun v => Build_manifest v sid rs ap cr gf df qf rd) (parse_uint32_decimal value)
  else if bytes_eqb key (str "snapshot_id") then
    Some (Build_manifest fv value rs ap cr gf df qf rd)
  else if bytes_eqb key (str "reason") then
    Some (Build_manifest fv sid value ap cr gf df qf rd)
  else if bytes_eqb key (str "applied_through_op_id") then
    option_map (fun v => Build_manifest fv sid rs v cr gf df qf rd) (parse_uint64_decimal value)
  else if bytes_eqb key (str "created_unix_ms") then
    option_map (fun v => Build_manifest fv sid rs ap v gf df qf rd) (parse_uint64_decimal value)
  else if bytes_eqb key (str "graph_file") then
    Some (Build_manifest fv sid rs ap cr value df qf rd)
  else if bytes_eqb key (str "data_file") then
    Some (Build_manifest fv sid rs ap cr gf value qf rd)
  else if bytes_eqb key (str "quant_file") then
    Some (Build_manifest fv sid rs ap cr gf df value rd)
  else if bytes_eqb key (str "rocksdb_dir") then
    Some (Build_manifest fv sid rs ap cr gf df qf value)
  else Some m.

(** Body of the getline loop, snapshot_manifest.hpp:91-126 *)
Definition parse_line (acc : option manifest) (line : bytes) : option manifest :=
  match acc with
  | None => None
  | Some m =>
      match split_at 61 (strip_cr line) with   (* 61 is '=' *)
      | None => Some m
      | Some (key, value) => set_field m key value
      end
  end.

(** deserialize, snapshot_manifest.hpp:87-131 *)
Definition deserialize (raw : bytes) : option manifest :=
  match fold_left parse_line (getlines raw) (Some default_manifest) with
  | None => None
  | Some m => match m_snapshot_id m with [] => None | _ => Some m end
  end.

(** The text written to CURRENT, recovery_manager.hpp:92 *)
Definition current_text (id : bytes) : bytes := id ++ [chr_nl].

(** while (!value.empty() && ...) value.pop_back(), recovery_manager.hpp:217-220;
    on the reversed string. *)
Fixpoint drop_trailing (r : bytes) : bytes :=
  match r with
  | c :: r' => if N.eqb c chr_nl || N.eqb c chr_cr || N.eqb c chr_sp then drop_trailing r' else r
  | [] => []
  end.
(** Skipping leading blanks, recovery_manager.hpp:221-224 *)
Fixpoint drop_spaces (l : bytes) : bytes :=
  match l with
  | c :: l' => if N.eqb c chr_sp then drop_spaces l' else l
  | [] => []
  end.
(** trim, recovery_manager.hpp:216-226 *)
Definition trim (v : bytes) : bytes := drop_spaces (rev (drop_trailing (rev v))).
