(** python/src/alayalite/client.py: the client, its collections and indices,
    and the directories in which they are kept (collection.py, index.py,
    schema.py, and the recovery directory of python/include/index.hpp).

    A path text is given by the pieces between its slashes: "a/b" is
    ["a"; "b"], "/a" is [""; "a"], "" is [""].

    Simplifications: the contents of a collection or index are a list of
    item numbers; the graph, vector and quantized files of an index are one
    file; the snapshot and log of the recovery directory are one file with
    the contents they give back (RecoveryModel.v); fitting fails only if
    there is a RocksDB already; JSON is not modelled, a schema file is good or
    bad; there are no symbolic links and no missing permissions; a directory
    exists if there is a file in it. *)
From Coq Require Import String.
From Verif Require Export Bytes ScalarDataModel.
Import ListNotations.
Open Scope string_scope.
Open Scope list_scope.

Definition text := list string.
Definition path := list string.
(** os.path.join of two texts *)
Definition is_abs (t : text) : bool := match t with "" :: _ :: _ => true | _ => false end.
Definition join (a b : text) : text :=
  if is_abs b then b
  else match a with
       | [""] => b
       | _ => if String.eqb (last a "x") "" then removelast a ++ b else a ++ b
       end.
(** os.path.dirname, also used for parent_path(): the text before the last
    slash, without slashes at its end unless there is nothing else *)
Fixpoint rstrip (t : text) : text :=
  match t with
  | [] => []
  | x :: r => match rstrip r with [] => if String.eqb x "" then [] else [x] | r' => x :: r' end
  end.
Definition dirname (t : text) : text :=
  match rstrip (removelast t) with [] => match removelast t with [] => [""] | _ => [""; ""] end | r => r end.
(** The directory that a text means, for a process working in [cwd]. *)
Fixpoint go (at_ : path) (t : text) : path :=
  match t with
  | [] => at_
  | x :: r => if String.eqb x "" then go at_ r
              else if String.eqb x "." then go at_ r
              else if String.eqb x ".." then go (removelast at_) r
              else go (at_ ++ [x]) r
  end.
Definition resolve (cwd : path) (t : text) : path := go (if is_abs t then [] else cwd) t.

(** ** Files *)
Inductive kind := KCollection | KIndex.
Inductive file :=
| FSchema (k : kind) (db : text)    (** schema.json: "type" and "rocksdb_path" *)
| FBadSchema                        (** schema.json without a type, or no JSON *)
| FData (items : list N)            (** the files written by save *)
| FDb                               (** RocksDB *)
| FRecovery (items : list N)        (** snapshot and log *)
| FOther.
Definition disk := list (path * file).
Definition path_eqb (a b : path) : bool := if list_eq_dec string_dec a b then true else false.
Fixpoint below (d p : path) : bool :=
  match d, p with
  | [], _ => true
  | x :: d', y :: p' => (String.eqb x y && below d' p')%bool
  | _, [] => false
  end.
Fixpoint read_file (s : disk) (p : path) : option file :=
  match s with [] => None | (q, f) :: r => if path_eqb q p then Some f else read_file r p end.
Definition write_file (s : disk) (p : path) (f : file) : disk := (p, f) :: filter (fun e => negb (path_eqb (fst e) p)) s.
(** os.path.exists of a directory *)
Definition dir_exists (s : disk) (d : path) : bool := existsb (fun e => below d (fst e)) s.
(** shutil.rmtree *)
Definition rmtree (s : disk) (d : path) : disk := filter (fun e => negb (below d (fst e))) s.
(** os.listdir and os.path.isdir, client.py 44 *)
Definition subdirs (s : disk) (d : path) : list string :=
  nodup string_dec (flat_map (fun e => if below d (fst e) then match skipn (List.length d) (fst e) with x :: _ :: _ => [x] | _ => [] end else []) s).

Definition schema_file (d : path) : path := d ++ ["schema.json"].
Definition data_file (d : path) : path := d ++ ["raw.data"].
Definition db_file (d : path) : path := d ++ ["CURRENT"].
(** initialize_recovery, python/include/index.hpp 144-151 *)
Definition recovery_file (cwd : path) (db : text) : path := resolve cwd (dirname db) ++ ["recovery"; "CURRENT"].

(** ** Objects *)
(** Collection: rocksdb_path, and the contents once there are any *)
Record collection := { c_db : text; c_items : option (list N) }.
Definition index := option (list N).
(** Client: __url is absolute, client.py 40 *)
Record client := { cl_url : option text; cl_collections : list (text * collection); cl_indices : list (text * index) }.
Record world := { w_cwd : path; w_base : text; w_disk : disk }.
Definition with_disk (w : world) (s : disk) : world := {| w_cwd := w_cwd w; w_base := w_base w; w_disk := s |}.
Definition text_eqb (a b : text) : bool := path_eqb a b.
Fixpoint assoc {A} (m : list (text * A)) (k : text) : option A :=
  match m with [] => None | (k', v) :: r => if text_eqb k' k then Some v else assoc r k end.
Definition assoc_remove {A} (m : list (text * A)) (k : text) : list (text * A) := filter (fun e => negb (text_eqb (fst e) k)) m.
Definition assoc_put {A} (m : list (text * A)) (k : text) (v : A) : list (text * A) := (k, v) :: assoc_remove m k.
Definition taken (c : client) (name : text) : bool :=
  match assoc (cl_collections c) name, assoc (cl_indices c) name with None, None => false | _, _ => true end.
Definition set_coll (c : client) (m : list (text * collection)) : client :=
  {| cl_url := cl_url c; cl_collections := m; cl_indices := cl_indices c |}.
Definition set_ind (c : client) (m : list (text * index)) : client :=
  {| cl_url := cl_url c; cl_collections := cl_collections c; cl_indices := m |}.

(** create_collection, client.py 119-141, and Collection.__init__,
    collection.py 43-56, with _default_rocksdb_path, 25-30 ([w_base] is
    ALAYALITE_ROCKSDB_DIR); [db] is the argument rocksdb_path, "" if not given *)
Definition create_collection (w : world) (c : client) (name db : text) : res client :=
  if taken c name then Throws
  else
    let db1 := if text_eqb db [""] then match cl_url c with Some url => join (join url name) ["rocksdb"] | None => [""] end else db in
    let db2 := if text_eqb db1 [""] then join (w_base w) name else db1 in
    Ok (set_coll c (assoc_put (cl_collections c) name {| c_db := db2; c_items := None |})).
(** create_index, 143-163 *)
Definition create_index (c : client) (name : text) : res client :=
  if taken c name then Throws else Ok (set_ind c (assoc_put (cl_indices c) name None)).
(** Collection.insert, collection.py 238-296: the first batch is fitted and the
    schema is kept for recovery, _maybe_persist_schema_for_recovery, 84-95.  RawSpace::fit fails if there is a
    RocksDB (raw_space.hpp 150-153, error_if_exists_); PyIndex::fit ends with a
    snapshot (index.hpp 676), PyIndex::insert is logged (699-711) *)
Definition insert (w : world) (c : client) (name : text) (items : list N) : res (world * client) :=
  match assoc (cl_collections c) name with
  | None => Throws
  | Some col =>
      match items with
      | [] => Ok (w, c)
      | _ =>
          let put s all := Ok (with_disk w s, set_coll c (assoc_put (cl_collections c) name {| c_db := c_db col; c_items := Some all |})) in
          match c_items col with
          | None =>
              let dbdir := resolve (w_cwd w) (c_db col) in
              if dir_exists (w_disk w) dbdir then Throws
              else
                let s1 := write_file (w_disk w) (db_file dbdir) FDb in
                let s2 := write_file s1 (recovery_file (w_cwd w) (c_db col)) (FRecovery items) in
                let s3 := if text_eqb (dirname (c_db col)) [""] then s2
                          else write_file s2 (schema_file (resolve (w_cwd w) (dirname (c_db col)))) (FSchema KCollection (c_db col)) in
                put s3 items
          | Some old =>
              let logged := match read_file (w_disk w) (recovery_file (w_cwd w) (c_db col)) with Some (FRecovery l) => l | _ => [] end in
              put (write_file (w_disk w) (recovery_file (w_cwd w) (c_db col)) (FRecovery (logged ++ items))) (old ++ items)
          end
      end
  end.
(** Index.fit, index.py 107-167, without scalar data: once only *)
Definition fit (c : client) (name : text) (items : list N) : res client :=
  match assoc (cl_indices c) name with
  | Some None => Ok (set_ind c (assoc_put (cl_indices c) name (Some items)))
  | _ => Throws
  end.
(** save_collection, client.py 294-313, Collection.save, collection.py 503-512,
    PyIndex::save, index.hpp 505-510 *)
Definition save_collection (w : world) (c : client) (name : text) : res world :=
  match cl_url c, assoc (cl_collections c) name with
  | Some url, Some col =>
      match c_items col with
      | None => Throws
      | Some items =>
          let d := resolve (w_cwd w) (join url name) in
          let s1 := write_file (w_disk w) (data_file d) (FData items) in
          let s2 := write_file s1 (recovery_file (w_cwd w) (c_db col)) (FRecovery items) in
          Ok (with_disk w (write_file s2 (schema_file d) (FSchema KCollection (c_db col))))
      end
  | _, _ => Throws
  end.
(** save_index, 273-292, Index.save, index.py 274-286; an index has no
    rocksdb_path *)
Definition save_index (w : world) (c : client) (name : text) : res world :=
  match cl_url c, assoc (cl_indices c) name with
  | Some url, Some (Some items) =>
      let d := resolve (w_cwd w) (join url name) in
      let s1 := write_file (w_disk w) (data_file d) (FData items) in
      Ok (with_disk w (write_file s1 (schema_file d) (FSchema KIndex [""])))
  | _, _ => Throws
  end.
(** delete_collection, 197-218; delete_index, 220-241 *)
Definition delete_collection (w : world) (c : client) (name : text) (on_disk : bool) : res (world * client) :=
  match assoc (cl_collections c) name with
  | None => Throws
  | Some _ =>
      let c' := set_coll c (assoc_remove (cl_collections c) name) in
      if on_disk then match cl_url c with
                      | None => Throws
                      | Some url => Ok (with_disk w (rmtree (w_disk w) (resolve (w_cwd w) (join url name))), c')
                      end
      else Ok (w, c')
  end.
Definition delete_index (w : world) (c : client) (name : text) (on_disk : bool) : res (world * client) :=
  match assoc (cl_indices c) name with
  | None => Throws
  | Some _ =>
      let c' := set_ind c (assoc_remove (cl_indices c) name) in
      if on_disk then match cl_url c with
                      | None => Throws
                      | Some url => Ok (with_disk w (rmtree (w_disk w) (resolve (w_cwd w) (join url name))), c')
                      end
      else Ok (w, c')
  end.
(** reset, 243-271 *)
Fixpoint rm_all (w : world) (url : text) (names : list text) (s : disk) : disk :=
  match names with [] => s | n :: r => rm_all w url r (rmtree s (resolve (w_cwd w) (join url n))) end.
Definition reset (w : world) (c : client) (on_disk : bool) : res (world * client) :=
  let c' := {| cl_url := cl_url c; cl_collections := []; cl_indices := [] |} in
  if on_disk then match cl_url c with
                  | None => Throws
                  | Some url => Ok (with_disk w (rm_all w url (map fst (cl_collections c) ++ map fst (cl_indices c)) (w_disk w)), c')
                  end
  else Ok (w, c').

(** ** Opening *)
(** Collection.load, collection.py 514-537, Index.load, index.py 288-310,
    PyIndex::load, index.hpp 512-555: from the recovery directory if there is a
    snapshot (which also restores RocksDB), else from the saved files *)
Definition load_collection (w : world) (url name db0 : text) : res (world * collection) :=
  let db := if text_eqb db0 [""] then join (join url name) ["rocksdb"] else db0 in
  let dbdir := resolve (w_cwd w) db in
  match read_file (w_disk w) (recovery_file (w_cwd w) db) with
  | Some (FRecovery items) => Ok (with_disk w (write_file (w_disk w) (db_file dbdir) FDb), {| c_db := db; c_items := Some items |})
  | _ =>
      match read_file (w_disk w) (data_file (resolve (w_cwd w) (join url name))), dir_exists (w_disk w) dbdir with
      | Some (FData items), true =>
          Ok (with_disk w (write_file (w_disk w) (recovery_file (w_cwd w) db) (FRecovery items)), {| c_db := db; c_items := Some items |})
      | _, _ => Throws
      end
  end.
Definition load_index (w : world) (url name : text) : res index :=
  match read_file (w_disk w) (data_file (resolve (w_cwd w) (join url name))) with
  | Some (FData items) => Ok (Some items)
  | _ => Throws
  end.
(** The loop of __init__, client.py 46-57; is_collection_url and is_index_url,
    schema.py 218-233 *)
Fixpoint open_all (w : world) (c : client) (url : text) (names : list string) : res (world * client) :=
  match names with
  | [] => Ok (w, c)
  | x :: rest =>
      match read_file (w_disk w) (schema_file (resolve (w_cwd w) (join url [x]))) with
      | Some (FSchema KCollection db) =>
          let* r := load_collection w url [x] db in
          open_all (fst r) (set_coll c (assoc_put (cl_collections c) [x] (snd r))) url rest
      | Some (FSchema KIndex _) =>
          let* i := load_index w url [x] in
          open_all w (set_ind c (assoc_put (cl_indices c) [x] i)) url rest
      | Some _ => Throws
      | None => open_all w c url rest
      end
  end.
(** Client(url), client.py 29-57 *)
Definition open_client (w : world) (url : option text) : res (world * client) :=
  let c := {| cl_url := url; cl_collections := []; cl_indices := [] |} in
  match url with
  | None => Ok (w, c)
  | Some u => open_all w c u (subdirs (w_disk w) (resolve (w_cwd w) u))
  end.

(** ** Sequences of calls *)
Inductive call :=
| CreateCollection (name db : text) | CreateIndex (name : text) | Insert (name : text) (items : list N) | Fit (name : text) (items : list N)
| SaveCollection (name : text) | SaveIndex (name : text) | DeleteCollection (name : text) (on_disk : bool) | DeleteIndex (name : text) (on_disk : bool)
| Reset (on_disk : bool) | Reopen.
(** One call; a call that raises changes nothing.  Reopen: the process ends
    and a new client is made for the same directory. *)
Definition do_call (w : world) (c : client) (k : call) : res (world * client) :=
  match k with
  | CreateCollection n db => let* c' := create_collection w c n db in Ok (w, c')
  | CreateIndex n => let* c' := create_index c n in Ok (w, c')
  | Insert n items => insert w c n items
  | Fit n items => let* c' := fit c n items in Ok (w, c')
  | SaveCollection n => let* w' := save_collection w c n in Ok (w', c)
  | SaveIndex n => let* w' := save_index w c n in Ok (w', c)
  | DeleteCollection n d => delete_collection w c n d
  | DeleteIndex n d => delete_index w c n d
  | Reset d => reset w c d
  | Reopen => open_client w (cl_url c)
  end.
(** All calls; whether each of them returned. *)
Fixpoint calls (w : world) (c : client) (ks : list call) : world * client * list bool :=
  match ks with
  | [] => (w, c, [])
  | k :: rest =>
      match do_call w c k with
      | Ok (w', c') => let '(w2, c2, l) := calls w' c' rest in (w2, c2, true :: l)
      | _ => let '(w2, c2, l) := calls w c rest in (w2, c2, false :: l)
      end
  end.
