(** C71: the client keeps its collections and indices apart and brings them
    back when it is opened again. *)
From Coq Require Import String.
From Verif Require Import ClientProofs.
Import ListNotations.
Open Scope string_scope.
Open Scope list_scope.

(** For a client of an unused directory, and calls with plain names and
    default places: every call returns or raises as it should, every name shows
    what it should, and no file outside the directory is touched. *)
Theorem client_refines_partial url dir w ks : plain_url url dir ->
  (forall p, below dir p = true -> read_file (w_disk w) p = None) -> Forall plain_call ks ->
  exists w' c', calls w (fresh_client url) ks = (w', c', snd (should_all empty_shelf ks)) /\
    (forall s, plain s -> shown c' [s] = live (fst (should_all empty_shelf ks)) s) /\
    (forall p, below dir p = false -> read_file (w_disk w') p = read_file (w_disk w) p).
Proof.
  intros PU N F. destruct (calls_ok url dir PU (w_disk w) ks empty_shelf w (fresh_client url) F) as (w' & c' & E & I & C).
  - apply start_disk; assumption.
  - apply start_client.
  - exists w', c'. split; [exact E|]. split; [apply C|apply I].
Qed.
(** Whatever the names are: one name is never given to two objects. *)
Theorem client_names_unique w c ks : names_unique c -> names_unique (snd (fst (calls w c ks))).
Proof. apply calls_unique. Qed.

Definition url0 : text := [""; "data"].
Definition w0 : world := {| w_cwd := ["home"]; w_base := ["."; "RocksDB"]; w_disk := [(["etc"; "passwd"], FOther)] |}.
Example url_ok : plain_url url0 ["data"] /\ (forall p, below ["data"] p = true -> read_file (w_disk w0) p = None).
Proof.
  split; [repeat split; try discriminate; repeat constructor; discriminate|].
  intros p B. apply below_iff in B. destruct B as (e & ->). cbn [w0 w_disk read_file]. destruct (path_eqb_spec ["etc"; "passwd"] (["data"] ++ e)) as [E|_]; [discriminate E|reflexivity].
Qed.
(** Two collections and an index: the inserted items come back without saving,
    the index only if saved; a deleted collection frees its name, and its
    database only if deleted on disk. *)
Example session :
  let ks := [CreateCollection ["a"] [""]; CreateIndex ["a"]; Insert ["a"] [1%N; 2%N]; CreateIndex ["i"]; Fit ["i"] [7%N]; CreateIndex ["j"]; Fit ["j"] [8%N]; SaveIndex ["i"];
             Insert ["a"] [3%N]; Reopen; DeleteCollection ["a"] false; CreateCollection ["a"] [""]; Insert ["a"] [4%N]; DeleteCollection ["a"] true;
             CreateCollection ["a"] [""]; Insert ["a"] [5%N]; CreateCollection ["b"] [""]; Insert ["b"] [6%N]; Reset false; Reopen] in
  let '(w, c, l) := calls w0 (fresh_client url0) ks in
  l = [true; false; true; true; true; true; true; true; true; true; true; true; false; true; true; true; true; true; true; true]
  /\ shown c ["a"] = Some (Coll (Some [5%N])) /\ shown c ["b"] = Some (Coll (Some [6%N])) /\ shown c ["i"] = Some (Ind (Some [7%N])) /\ shown c ["j"] = None
  /\ snd (should_all empty_shelf ks) = l.
Proof. vm_compute. repeat split. Qed.

(** A name is joined to the directory as it is: deleting the collection ".."
    deletes the parent of the directory, an absolute name any directory, and the
    empty name all collections of the client. *)
Theorem client_delete_stays_inside_refuted :
  (exists name, let '(w, _, l) := calls w0 (fresh_client url0) [CreateCollection name [""]; DeleteCollection name true] in
     l = [true; true] /\ read_file (w_disk w0) ["etc"; "passwd"] <> None /\ read_file (w_disk w) ["etc"; "passwd"] = None) /\
  (exists name, let '(w, c, l) := calls w0 (fresh_client url0) [CreateCollection ["a"] [""]; Insert ["a"] [1%N]; SaveCollection ["a"]; CreateIndex name; DeleteIndex name true; Reopen] in
     l = [true; true; true; true; true; true] /\ name <> ["a"] /\ shown c ["a"] = None).
Proof.
  split; [exists [""; "etc"]|exists [""]]; vm_compute; repeat split; discriminate.
Qed.
Example delete_parent : let '(w, _, l) := calls w0 (fresh_client url0) [CreateIndex [".."]; DeleteIndex [".."] true] in l = [true; true] /\ w_disk w = [].
Proof. vm_compute. split; reflexivity. Qed.
(** Two collections whose databases are given side by side share one recovery
    directory and one schema: after opening again, one has the contents of the
    other. *)
Theorem client_databases_apart_refuted : exists db1 db2,
  let '(w, c, l) := calls w0 (fresh_client url0)
    [CreateCollection ["a"] db1; CreateCollection ["b"] db2; Insert ["a"] [1%N]; Insert ["b"] [2%N]; SaveCollection ["a"]; SaveCollection ["b"]; Reopen] in
  db1 <> db2 /\ l = [true; true; true; true; true; true; true] /\ shown c ["a"] = Some (Coll (Some [2%N])) /\ shown c ["b"] = Some (Coll (Some [2%N])).
Proof. exists [""; "dbs"; "a"], [""; "dbs"; "b"]. vm_compute. repeat split. discriminate. Qed.
(** A name with a slash is accepted and saved, and not found again. *)
Theorem client_saved_comes_back_refuted : exists name,
  let '(w, c, l) := calls w0 (fresh_client url0) [CreateCollection name [""]; Insert name [1%N]; SaveCollection name; Reopen] in
  l = [true; true; true; true] /\ shown c name = None.
Proof. exists ["a"; "b"]. vm_compute. split; reflexivity. Qed.
(** One directory with a bad schema.json: no client can be opened, and no other
    collection of it be read. *)
Theorem client_opens_refuted : exists w,
  read_file (w_disk w) ["data"; "a"; "schema.json"] = Some (FSchema KCollection [""; "data"; "a"; "rocksdb"]) /\
  read_file (w_disk w) ["data"; "a"; "recovery"; "CURRENT"] = Some (FRecovery [1%N]) /\
  open_client w (Some url0) = Throws.
Proof.
  exists {| w_cwd := ["home"]; w_base := ["."; "RocksDB"];
            w_disk := [(["data"; "a"; "schema.json"], FSchema KCollection [""; "data"; "a"; "rocksdb"]); (["data"; "a"; "recovery"; "CURRENT"], FRecovery [1%N]);
                       (["data"; "x"; "schema.json"], FBadSchema)] |}.
  vm_compute. repeat split.
Qed.

Print Assumptions client_refines_partial.
Print Assumptions client_names_unique.
Print Assumptions client_delete_stays_inside_refuted.
Print Assumptions client_databases_apart_refuted.
Print Assumptions client_saved_comes_back_refuted.
Print Assumptions client_opens_refuted.
