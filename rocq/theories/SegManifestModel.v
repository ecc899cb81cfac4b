(** The text manifests of disk collections:
    include/index/disk/segment_manifest.hpp, the names of
    include/index/disk/types.hpp and include/utils/metric_type.hpp, and
    format_segment_id of include/index/disk/disk_collection.hpp.

    Left out: opening, writing and syncing the file (its content is given), the
    logging, and the texts of the exceptions. *)
From Coq Require Import String.
From Verif Require Export Kv ScalarDataModel.
Local Open Scope N_scope.

(** kManifestVersion, segment_manifest.hpp 25; kMaxManifestBytes, 120 *)
Definition k_manifest_version : N := 1.
Definition k_max_manifest_bytes : N := 1048576.

(** is_ascii_ws, 29 *)
Definition is_ascii_ws (c : N) : bool := N.eqb c 32 || N.eqb c 9 || N.eqb c 13 || N.eqb c 10.
(** The first loop of strip, 32-34 *)
Fixpoint strip_front (l : bytes) : bytes :=
  match l with c :: r => if is_ascii_ws c then strip_front r else l | [] => [] end.
(** strip, 31-39 *)
Definition strip (l : bytes) : bytes := rev (strip_front (rev (strip_front l))).
(** The loop of parse_uint64, 47-63.  The characters are compared as char, so
    bytes above 127 are no digits either way. *)
Fixpoint parse_digits (out : N) (l : bytes) : res N :=
  match l with
  | [] => Ok out
  | c :: r =>
      if N.ltb c 48 || N.ltb 57 c then Throws
      else let d := c - 48 in
           if N.ltb ((2 ^ 64 - 1 - d) / 10) out then Throws else parse_digits (out * 10 + d) r
  end.
(** parse_uint64, 41-65 *)
Definition parse_uint64 (l : bytes) : res N := match l with [] => Throws | _ => parse_digits 0 l end.
(** is_valid_basename, 71-84 *)
Definition is_valid_basename (l : bytes) : bool :=
  match l with
  | [] => false
  | _ => if bytes_eqb l (str ".") || bytes_eqb l (str "..") then false
         else forallb (fun c => negb (N.eqb c 47 || N.eqb c 0)) l
  end.
(** is_valid_segment_id, 86-99 *)
Definition is_valid_segment_id (l : bytes) : bool :=
  if negb (Nat.eqb (length l) 12) then false
  else if negb (bytes_eqb (firstn 4 l) (str "seg_")) then false
  else forallb (fun c => negb (N.ltb c 48 || N.ltb 57 c)) (skipn 4 l).

(** MetricType, metric_type.hpp 14-19, and MetricMap, 22-37 *)
Inductive metric := L2 | IP | COS | NONE.
Definition metric_of (s : bytes) : metric :=
  if bytes_eqb (str "L2") s then L2 else if bytes_eqb (str "IP") s then IP else if bytes_eqb (str "COS") s then COS else NONE.
(** metric_to_string, segment_manifest.hpp 101-109 *)
Definition metric_to_string (m : metric) : res bytes :=
  match m with L2 => Ok (str "L2") | IP => Ok (str "IP") | COS => Ok (str "COS") | NONE => Throws end.
(** DiskIndexType and its names, types.hpp 16-20, 55-78 *)
Inductive index_type := Flat | Vamana | Laser.
Definition index_type_to_string (t : index_type) : bytes :=
  match t with Flat => str "disk_flat" | Vamana => str "disk_vamana" | Laser => str "disk_laser" end.
Definition index_type_from_string (s : bytes) : res index_type :=
  if bytes_eqb s (str "disk_flat") then Ok Flat else if bytes_eqb s (str "disk_vamana") then Ok Vamana
  else if bytes_eqb s (str "disk_laser") then Ok Laser else Throws.

(** read_manifest_file, 122-132, on the content of the file *)
Definition read_manifest_file (content : bytes) : res bytes :=
  if N.ltb k_max_manifest_bytes (N.of_nat (length content)) then Throws
  else if bytes_eqb (firstn 3 content) [239; 187; 191] then Throws else Ok content.
(** body.find(c, pos) and substr in a loop: the pieces between the [c]s *)
Fixpoint split_on (c : N) (l : bytes) : list bytes :=
  match l with
  | [] => [[]]
  | x :: r => if N.eqb x c then [] :: split_on c r
              else match split_on c r with p :: ps => (x :: p) :: ps | [] => [[x]] end
  end.
(** One line of parse_kv_lines, 148-163; [None]: skipped *)
Definition parse_kv_line (line : bytes) : res (option (bytes * bytes)) :=
  let s := strip line in
  match s with
  | [] => Ok None
  | c :: _ => if N.eqb c 35 then Ok None
              else match split_at 61 s with
                   | None => Throws
                   | Some (k, v) => Ok (Some (strip k, strip v))
                   end
  end.
(** parse_kv_lines, 139-166 *)
Fixpoint parse_pairs (lines : list bytes) : res (list (bytes * bytes)) :=
  match lines with
  | [] => Ok []
  | l :: r => let* o := parse_kv_line l in let* ps := parse_pairs r in Ok (match o with Some p => p :: ps | None => ps end)
  end.
Definition parse_kv_lines (body : bytes) : res (list (bytes * bytes)) := parse_pairs (split_on 10 body).
(** The entries of parse_segments_csv, 180-191 *)
Fixpoint csv_entries (l : list bytes) : res (list bytes) :=
  match l with
  | [] => Ok []
  | [] :: _ => Throws
  | e :: r => let* es := csv_entries r in Ok (e :: es)
  end.
(** parse_segments_csv, 168-193 *)
Definition parse_segments_csv (v : bytes) : res (list bytes) :=
  match v with
  | [] => Throws
  | c :: _ => if N.eqb c 44 || N.eqb (last v 0) 44 then Throws else csv_entries (split_on 44 v)
  end.
(** kv[key]: an absent key reads as the empty text *)
Definition at_key (m : kv) (k : string) : bytes := match kv_get m (str k) with Some v => v | None => [] end.
(** "key=value\n" *)
Definition line (k : bytes) (v : bytes) : bytes := k ++ [61] ++ v ++ [10].
(** The loop over x_extras when saving, 228-233, 369-374 *)
Definition extras_text (x : kv) : bytes := concat (map (fun e => line (fst e) (snd e)) x).
(** The loop over the unknown keys when loading, 321-333 and 466-477; the map is
    walked in key order *)
Fixpoint unknown_keys (known : list bytes) (entries : kv) (x : kv) : res kv :=
  match entries with
  | [] => Ok x
  | (k, v) :: r => if existsb (bytes_eqb k) known then unknown_keys known r x
                   else if starts_with (str "x_") k then unknown_keys known r (kv_put k v x) else Throws
  end.
(** The map of the pairs, 253-259: a repeated key throws *)
Fixpoint scalar_map (ps : list (bytes * bytes)) (m : kv) : res kv :=
  match ps with
  | [] => Ok m
  | (k, v) :: r => match kv_get m k with Some _ => Throws | None => scalar_map r (kv_put k v m) end
  end.

(** ** SegmentManifest, 197-206 *)
Record seg_manifest := {
  sm_version : N; sm_id : bytes; sm_type : index_type; sm_metric : metric; sm_dim : N; sm_count : N;
  sm_ids : bytes; sm_vectors : bytes; sm_extras : kv;
}.
(** save, 208-235 *)
Definition sm_save (m : seg_manifest) : res bytes :=
  let* metric := metric_to_string (sm_metric m) in
  Ok (line (str "version") (dec (sm_version m)) ++ line (str "segment_id") (sm_id m)
      ++ line (str "index_type") (index_type_to_string (sm_type m)) ++ line (str "metric") metric
      ++ line (str "dim") (dec (sm_dim m)) ++ line (str "count") (dec (sm_count m))
      ++ line (str "ids_file") (sm_ids m) ++ line (str "vectors_file") (sm_vectors m) ++ extras_text (sm_extras m)).
(** kRequired, 241-250 *)
Definition sm_required : list string := ["version"; "segment_id"; "index_type"; "metric"; "dim"; "count"; "ids_file"; "vectors_file"]%string.
(** 261-278 *)
Fixpoint sm_check (m : kv) (ks : list string) : res unit :=
  match ks with
  | [] => Ok tt
  | k :: r => match kv_get m (str k) with
              | None => Throws
              | Some [] => if bytes_eqb (str k) (str "vectors_file") then sm_check m r else Throws
              | Some _ => sm_check m r
              end
  end.
(** load, 237-337 *)
Definition sm_load (content : bytes) : res seg_manifest :=
  let* body := read_manifest_file content in
  let* pairs := parse_kv_lines body in
  let* m := scalar_map pairs [] in
  let* _ := sm_check m sm_required in
  let* version := parse_uint64 (at_key m "version") in
  if negb (N.eqb version k_manifest_version) then Throws else
  let id := at_key m "segment_id" in
  if negb (is_valid_segment_id id) then Throws else
  let* type := index_type_from_string (at_key m "index_type") in
  let metric := metric_of (at_key m "metric") in
  if match metric with NONE => true | _ => false end then Throws else
  let* dim := parse_uint64 (at_key m "dim") in
  if N.eqb dim 0 then Throws else
  let* count := parse_uint64 (at_key m "count") in
  if N.eqb count 0 then Throws else
  let ids := at_key m "ids_file" in
  let vectors := at_key m "vectors_file" in
  if negb (is_valid_basename ids) then Throws else
  if negb (match vectors with [] => true | _ => is_valid_basename vectors end) then Throws else
  let* extras := unknown_keys (map str sm_required) m [] in
  Ok {| sm_version := version; sm_id := id; sm_type := type; sm_metric := metric; sm_dim := dim; sm_count := count;
        sm_ids := ids; sm_vectors := vectors; sm_extras := extras |}.

(** ** CollectionManifest, 341-348 *)
Record coll_manifest := {
  cm_version : N; cm_dim : N; cm_metric : metric; cm_type : index_type; cm_next : N; cm_segments : list bytes; cm_extras : kv;
}.
(** save, 350-376 *)
Definition cm_save (m : coll_manifest) : res bytes :=
  let* metric := metric_to_string (cm_metric m) in
  Ok (line (str "version") (dec (cm_version m)) ++ line (str "dim") (dec (cm_dim m)) ++ line (str "metric") metric
      ++ line (str "index_type") (index_type_to_string (cm_type m)) ++ line (str "next_segment_id") (dec (cm_next m))
      ++ concat (map (line (str "segment")) (cm_segments m)) ++ extras_text (cm_extras m)).
(** kRequiredScalar, 382-388 *)
Definition cm_required : list string := ["version"; "dim"; "metric"; "index_type"; "next_segment_id"]%string.
(** 428-438 *)
Fixpoint cm_check (m : kv) (ks : list string) : res unit :=
  match ks with
  | [] => Ok tt
  | k :: r => match kv_get m (str k) with None | Some [] => Throws | Some _ => cm_check m r end
  end.
(** The locals of the loop over the pairs, 392-396 *)
Record split_pairs := { sp_scalars : kv; sp_segments : list bytes; sp_csv : option bytes }.
(** 398-420; saw_repeated is [sp_segments] not empty *)
Fixpoint sort_pairs (ps : list (bytes * bytes)) (s : split_pairs) : res split_pairs :=
  match ps with
  | [] => Ok s
  | (k, v) :: r =>
      if bytes_eqb k (str "segment")
      then sort_pairs r {| sp_scalars := sp_scalars s; sp_segments := sp_segments s ++ [v]; sp_csv := sp_csv s |}
      else if bytes_eqb k (str "segments")
      then match sp_csv s with
           | Some _ => Throws
           | None => sort_pairs r {| sp_scalars := sp_scalars s; sp_segments := sp_segments s; sp_csv := Some v |}
           end
      else match kv_get (sp_scalars s) k with
           | Some _ => Throws
           | None => sort_pairs r {| sp_scalars := kv_put k v (sp_scalars s); sp_segments := sp_segments s; sp_csv := sp_csv s |}
           end
  end.
(** load, 378-482 *)
Definition cm_load (content : bytes) : res coll_manifest :=
  let* body := read_manifest_file content in
  let* pairs := parse_kv_lines body in
  let* s := sort_pairs pairs {| sp_scalars := []; sp_segments := []; sp_csv := None |} in
  if match sp_segments s, sp_csv s with _ :: _, Some _ => true | _, _ => false end then Throws else
  let m := sp_scalars s in
  let* _ := cm_check m cm_required in
  let* version := parse_uint64 (at_key m "version") in
  if negb (N.eqb version k_manifest_version) then Throws else
  let* dim := parse_uint64 (at_key m "dim") in
  if N.eqb dim 0 then Throws else
  let metric := metric_of (at_key m "metric") in
  if match metric with NONE => true | _ => false end then Throws else
  let* type := index_type_from_string (at_key m "index_type") in
  let* next := parse_uint64 (at_key m "next_segment_id") in
  let* segments := match sp_csv s with Some v => parse_segments_csv v | None => Ok (sp_segments s) end in
  if negb (forallb is_valid_segment_id segments) then Throws else
  let* extras := unknown_keys (map str cm_required) m [] in
  Ok {| cm_version := version; cm_dim := dim; cm_metric := metric; cm_type := type; cm_next := next; cm_segments := segments; cm_extras := extras |}.

(** ** Segment ids *)
(** format_segment_id, disk_collection.hpp 57-61: %08 pads with zeros on the
    left to eight digits; snprintf keeps what fits into buf[16], 15 characters *)
Definition format_segment_id (n : N) : bytes :=
  firstn 15 (str "seg_" ++ repeat 48 (8 - length (dec n)) ++ dec n).
(** std::stoull(name.substr(4)) of scan_orphans, disk_collection.hpp 1294 and
    1300, on a well-formed id *)
Definition segment_number (name : bytes) : option N := digits_val 0 (skipn 4 name).
