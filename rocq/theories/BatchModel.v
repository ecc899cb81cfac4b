(** Batch searches with several threads: batch_search of DiskCollection
    (include/index/disk/disk_collection.hpp 1122-1229) and of DiskANNIndex
    (include/index/graph/diskann/diskann_index.hpp 512-562).

    A step is one access to something shared: the counter, the flag, the mutex,
    a slot of the output.  A schedule says which thread takes the next step.  The
    search of one query is a function of the query (C47: the segments do not
    change during a search; C40 treats updates of a DiskANN index).  Left out:
    failing to start a thread, null pointers. *)
From Verif Require Export Arr.

(** What the search of a query gives: labels and distances, or an exception *)
Inductive found := Hits (l : list (N * N)) | Raises (e : N).
(** Which of the two functions it is *)
Inductive variant := Collection | DiskANN.
(** A call: the number of queries, top_k, the number of threads, whether
    out_distances is not null, and what each query finds.  (search of DiskANNIndex
    fills all top_k slots, and writes them itself, after the search.) *)
Record call := {
  c_variant : variant;
  c_queries : nat;
  c_top_k : nat;
  c_threads : nat;
  c_distances : bool;
  c_search : nat -> found;
}.
(** The type of the counter: uint64_t, 1183, and uint32_t, 545 *)
Definition modulus (v : variant) : N := match v with Collection => 2 ^ 64 | DiskANN => 2 ^ 32 end%N.

(** Where a thread is *)
Inductive pc :=
| Loop                                              (* 1194 *)
| Fetch                                             (* 1195, 551 *)
| Searching (i : nat)                               (* 1199, 555 *)
| WriteLabel (i : nat) (hits : list (N * N)) (j : nat)      (* 1155-1157 *)
| WriteDistance (i : nat) (hits : list (N * N)) (j : nat)   (* 1158-1162 *)
| Caught (e : N)                                    (* 1208 *)
| Locked (e : N)                                    (* 1209-1211 *)
| Storing                                           (* 1212 *)
| Unlocking                                         (* 1213 *)
| Finished.
(** next_query, aborted, error_mutex (the thread holding it), first_error, the
    output, the threads; std::terminate was called; and, to talk about it, the
    queries searched so far *)
Record state := {
  next : N;
  aborted : bool;
  mutex : option nat;
  first_error : option N;
  labels : list N;
  distances : list N;
  threads : list pc;
  terminated : bool;
  searched : list nat;
}.
Definition set_thread (s : state) (w : nat) (p : pc) : state :=
  {| next := next s; aborted := aborted s; mutex := mutex s; first_error := first_error s; labels := labels s; distances := distances s;
     threads := upd (threads s) w p; terminated := terminated s; searched := searched s |}.
Definition set_next (s : state) (n : N) : state :=
  {| next := n; aborted := aborted s; mutex := mutex s; first_error := first_error s; labels := labels s; distances := distances s;
     threads := threads s; terminated := terminated s; searched := searched s |}.
Definition set_aborted (s : state) : state :=
  {| next := next s; aborted := true; mutex := mutex s; first_error := first_error s; labels := labels s; distances := distances s;
     threads := threads s; terminated := terminated s; searched := searched s |}.
Definition set_mutex (s : state) (m : option nat) : state :=
  {| next := next s; aborted := aborted s; mutex := m; first_error := first_error s; labels := labels s; distances := distances s;
     threads := threads s; terminated := terminated s; searched := searched s |}.
Definition set_error (s : state) (e : N) : state :=
  {| next := next s; aborted := aborted s; mutex := mutex s; first_error := Some e; labels := labels s; distances := distances s;
     threads := threads s; terminated := terminated s; searched := searched s |}.
Definition set_labels (s : state) (l : list N) : state :=
  {| next := next s; aborted := aborted s; mutex := mutex s; first_error := first_error s; labels := l; distances := distances s;
     threads := threads s; terminated := terminated s; searched := searched s |}.
Definition set_distances (s : state) (l : list N) : state :=
  {| next := next s; aborted := aborted s; mutex := mutex s; first_error := first_error s; labels := labels s; distances := l;
     threads := threads s; terminated := terminated s; searched := searched s |}.
Definition set_terminated (s : state) : state :=
  {| next := next s; aborted := aborted s; mutex := mutex s; first_error := first_error s; labels := labels s; distances := distances s;
     threads := threads s; terminated := true; searched := searched s |}.
Definition add_searched (s : state) (i : nat) : state :=
  {| next := next s; aborted := aborted s; mutex := mutex s; first_error := first_error s; labels := labels s; distances := distances s;
     threads := threads s; terminated := terminated s; searched := searched s ++ [i] |}.

(** The head of the loop: DiskANN has no flag *)
Definition again (v : variant) : pc := match v with Collection => Loop | DiskANN => Fetch end.
(** One step of thread [w]: [None] when it cannot take one.  The load of aborted is
    relaxed: [stale] says that it does not yet see the store of another thread. *)
Definition step (c : call) (s : state) (w : nat) (stale : bool) : option (res state) :=
  if terminated s then None
  else match nth_error (threads s) w with
       | None | Some Finished => None
       | Some Loop => Some (Ok (set_thread s w (if aborted s && negb stale then Finished else Fetch)))
       | Some Fetch =>
           let i := next s in
           let s' := set_next s ((i + 1) mod modulus (c_variant c))%N in
           Some (Ok (set_thread s' w (if N.leb (N.of_nat (c_queries c)) i then Finished else Searching (N.to_nat i))))
       | Some (Searching i) =>
           let s' := add_searched s i in
           Some (Ok (match c_search c i, c_variant c with
                     | Hits h, _ => set_thread s' w (WriteLabel i (firstn (c_top_k c) h) 0)
                     | Raises e, Collection => set_thread s' w (Caught e)
                     | Raises e, DiskANN => set_thread (set_terminated s') w Finished
                     end))
       | Some (WriteLabel i hits j) =>
           Some (match nth_error hits j with
                 | Some h => let* l := aput (labels s) (N.of_nat (i * c_top_k c + j)) (fst h) in Ok (set_thread (set_labels s l) w (WriteLabel i hits (S j)))
                 | None => Ok (set_thread s w (if c_distances c then WriteDistance i hits 0 else again (c_variant c)))
                 end)
       | Some (WriteDistance i hits j) =>
           Some (match nth_error hits j with
                 | Some h => let* l := aput (distances s) (N.of_nat (i * c_top_k c + j)) (snd h) in Ok (set_thread (set_distances s l) w (WriteDistance i hits (S j)))
                 | None => Ok (set_thread s w (again (c_variant c)))
                 end)
       | Some (Caught e) => match mutex s with None => Some (Ok (set_thread (set_mutex s (Some w)) w (Locked e))) | Some _ => None end
       | Some (Locked e) => Some (Ok (set_thread (match first_error s with None => set_error s e | Some _ => s end) w Storing))
       | Some Storing => Some (Ok (set_thread (set_aborted s) w Unlocking))
       | Some Unlocking => Some (Ok (set_thread (set_mutex s None) w Finished))
       end.
(** A schedule: [None] when it lets a thread run that cannot *)
Fixpoint run (c : call) (s : state) (schedule : list (nat * bool)) : option (res state) :=
  match schedule with
  | [] => Some (Ok s)
  | (w, stale) :: rest => match step c s w stale with
                          | Some (Ok s') => run c s' rest
                          | other => other
                          end
  end.
(** The threads are started, 1181-1190, 545-549.  The caller filled the output with
    [l] and [d].  (The number of threads of DiskANN, 537, is c_threads here.) *)
Definition workers (c : call) : nat := match c_variant c with Collection => Nat.min (c_threads c) (c_queries c) | DiskANN => c_threads c end.
Definition start (c : call) (l d : list N) : state :=
  {| next := 0; aborted := false; mutex := None; first_error := None; labels := l; distances := d; threads := repeat (again (c_variant c)) (workers c); terminated := false; searched := [] |}.
(** Every thread is joined, 1218-1220, 559-561 *)
Definition joined (s : state) : bool := forallb (fun p => match p with Finished => true | _ => false end) (threads s).

(** The path with one thread, 1169-1175, 538-543: the output, and the exception
    that left the loop.  write_to_output, 1152-1163 *)
Fixpoint write_slots (f : N * N -> N) (buffer : list N) (at_ : nat) (hits : list (N * N)) : res (list N) :=
  match hits with [] => Ok buffer | h :: rest => let* b := aput buffer (N.of_nat at_) (f h) in write_slots f b (S at_) rest end.
Fixpoint one_thread (c : call) (l d : list N) (queries : list nat) : res (list N * list N * option N) :=
  match queries with
  | [] => Ok (l, d, None)
  | i :: rest =>
      match c_search c i with
      | Raises e => Ok (l, d, Some e)
      | Hits h =>
          let* l' := write_slots fst l (i * c_top_k c) (firstn (c_top_k c) h) in
          let* d' := if c_distances c then write_slots snd d (i * c_top_k c) (firstn (c_top_k c) h) else Ok d in
          one_thread c l' d' rest
      end
  end.
