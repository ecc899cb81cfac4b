(** The reads through a shared io_uring: include/storage/io/uring_reactor.hpp.

    Any number of batches ("waves") are submitted, completed, reaped and waited
    for, interleaved in any way; the kernel may take part of what is submitted,
    refuse it, and complete it in any order with any result.  A step is what is
    done under a lock and seen by no other thread before the lock is released,
    or one access to a frame.  Accesses to the frame of a batch that has ended
    are [OutOfBounds].  in_flight_, read only by the destructor (103-118), is
    changed together with the ring. *)
From Verif Require Export Arr.
Local Open Scope nat_scope.

(** Where a batch is in read_batch, 155-205 *)
Inductive place :=
| Submitting (submitted : nat)                        (* the loop, 175-184 *)
| Flushing (submitted chunk flushed spins : nat)      (* in submit_reads, holding sq_mutex_ *)
| Deducting (submitted : nat)                         (* 186-188 *)
| Polling (submitted : nat) (failed : bool)           (* 190-196 *)
| Returned (failures : N)                             (* 203 *)
| Thrown.                                             (* 198-201 *)
(** The frame: requests (sizes and results), WaveState, 218-221 *)
Record wave := { w_sizes : list N; w_results : list Z; w_remaining : N; w_failures : N; w_at : place }.
Definition w_count (w : wave) : nat := length (w_sizes w).
Definition ended (w : wave) : bool := match w_at w with Returned _ | Thrown => true | _ => false end.
(** std::atomic<uint32_t>::fetch_sub *)
Definition sub32 (a b : N) : N := ((a + 2 ^ 32 - b) mod 2 ^ 32)%N.
(** user_data of an SQE: the batch and the read in it *)
Notation entry := (nat * nat)%type.
Record reactor := {
  r_depth : nat;                        (* depth_ *)
  r_ring : nat;                         (* entries of the submission queue *)
  r_sq : list entry;                    (* prepared *)
  r_kernel : list entry;                (* taken by the kernel *)
  r_cq : list (entry * Z);              (* completed *)
  r_hand : option (entry * Z * nat);    (* being dispatched, under cq_mutex_, and how far *)
  r_lock : option nat;                  (* sq_mutex_ *)
  r_poisoned : bool;
  r_waves : list wave;
}.
(** The constructor, 95-101 *)
Definition start (depth ring : nat) : reactor :=
  {| r_depth := depth; r_ring := ring; r_sq := []; r_kernel := []; r_cq := []; r_hand := None; r_lock := None; r_poisoned := false; r_waves := [] |}.
(** The return value of io_uring_submit, 281-301 *)
Inductive answer := Took (n : nat) | Eintr | Busy | Hard.
(** kSubmitRetries, 306 *)
Definition retries : nat := 1024.

Definition set_place (w : wave) (p : place) : wave :=
  {| w_sizes := w_sizes w; w_results := w_results w; w_remaining := w_remaining w; w_failures := w_failures w; w_at := p |}.
Definition with_waves (s : reactor) (l : list wave) : reactor :=
  {| r_depth := r_depth s; r_ring := r_ring s; r_sq := r_sq s; r_kernel := r_kernel s; r_cq := r_cq s; r_hand := r_hand s; r_lock := r_lock s; r_poisoned := r_poisoned s; r_waves := l |}.
Definition with_ring (s : reactor) (sq kernel : list entry) (lock : option nat) (poisoned : bool) : reactor :=
  {| r_depth := r_depth s; r_ring := r_ring s; r_sq := sq; r_kernel := kernel; r_cq := r_cq s; r_hand := r_hand s; r_lock := lock; r_poisoned := poisoned; r_waves := r_waves s |}.
Definition with_cq (s : reactor) (kernel : list entry) (cq : list (entry * Z)) (hand : option (entry * Z * nat)) : reactor :=
  {| r_depth := r_depth s; r_ring := r_ring s; r_sq := r_sq s; r_kernel := kernel; r_cq := cq; r_hand := hand; r_lock := r_lock s; r_poisoned := r_poisoned s; r_waves := r_waves s |}.
Definition put_wave (s : reactor) (i : nat) (w : wave) : reactor := with_waves s (upd (r_waves s) i w).

(** read_batch up to its loop, 157-174; count is a uint32_t *)
Definition arrive (sizes : list N) (s : reactor) : option (res reactor) :=
  if (N.of_nat (length sizes) <? 2 ^ 32)%N then
    Some (Ok (with_waves s (r_waves s ++
      [{| w_sizes := sizes; w_results := map (fun _ => 0%Z) sizes; w_remaining := N.of_nat (length sizes); w_failures := 0;
          w_at := match sizes with [] => Returned 0 | _ => Submitting 0 end |}])))
  else None.
(** What the loop does with the value of submit_reads, 178-183 *)
Definition after_chunk (w : wave) (submitted chunk flushed : nat) : wave :=
  set_place w (if flushed <? chunk then Deducting (submitted + flushed)
    else if submitted + flushed <? w_count w then Submitting (submitted + flushed) else Polling (submitted + flushed) false).
(** submit_reads from taking the lock to the first io_uring_submit, 259-279;
    io_uring_get_sqe fails when the submission queue is full *)
Definition enter (i : nat) (s : reactor) : option (res reactor) :=
  match nth_error (r_waves s) i with
  | Some w =>
      match w_at w, r_lock s with
      | Submitting sub, None =>
          let chunk := Nat.min (w_count w - sub) (r_depth s) in
          let room := r_ring s - length (r_sq s) in
          let new := map (fun k => (i, k)) (seq sub chunk) in
          if r_poisoned s then Some (Ok (put_wave s i (after_chunk w sub chunk 0)))
          else if chunk <=? room then Some (Ok (put_wave (with_ring s (r_sq s ++ new) (r_kernel s) (Some i) false) i (set_place w (Flushing sub chunk 0 0))))
          else Some (Ok (put_wave (with_ring s (r_sq s ++ firstn room new) (r_kernel s) None true) i (after_chunk w sub chunk 0)))
      | _, _ => None
      end
  | None => None
  end.
(** One turn of the loop around io_uring_submit, 280-303.  The try_reap of a
    retry is a reaper like any other. *)
Definition submit (i : nat) (a : answer) (s : reactor) : option (res reactor) :=
  match nth_error (r_waves s) i with
  | Some w =>
      match w_at w with
      | Flushing sub chunk fl spins =>
          let poison := Some (Ok (put_wave (with_ring s (r_sq s) (r_kernel s) None true) i (after_chunk w sub chunk fl))) in
          match a with
          | Took n =>
              if (0 <? n) && (n <=? length (r_sq s)) then
                let fl1 := fl + n in
                let more := fl1 <? chunk in
                Some (Ok (put_wave (with_ring s (skipn n (r_sq s)) (r_kernel s ++ firstn n (r_sq s)) (if more then r_lock s else None) (r_poisoned s)) i
                  (if more then set_place w (Flushing sub chunk fl1 spins) else after_chunk w sub chunk fl1)))
              else None
          | Eintr => Some (Ok s)
          | Busy => if S spins <? retries then Some (Ok (put_wave s i (set_place w (Flushing sub chunk fl (S spins))))) else poison
          | Hard => poison
          end
      | _ => None
      end
  | None => None
  end.
(** The deduction, 186-188 *)
Definition deduct (i : nat) (s : reactor) : option (res reactor) :=
  match nth_error (r_waves s) i with
  | Some w =>
      match w_at w with
      | Deducting sub =>
          Some (Ok (put_wave s i {| w_sizes := w_sizes w; w_results := w_results w; w_remaining := sub32 (w_remaining w) (N.of_nat (w_count w - sub)); w_failures := w_failures w; w_at := Polling sub true |}))
      | _ => None
      end
  | None => None
  end.
(** The end of the waiting loop, 190-203 *)
Definition resume (i : nat) (s : reactor) : option (res reactor) :=
  match nth_error (r_waves s) i with
  | Some w =>
      match w_at w with
      | Polling _ failed => if N.eqb (w_remaining w) 0 then Some (Ok (put_wave s i (set_place w (if failed then Thrown else Returned (w_failures w))))) else None
      | _ => None
      end
  | None => None
  end.
(** The kernel completes read [e] with result [r] *)
Fixpoint drop_entry (e : entry) (l : list entry) : option (list entry) :=
  match l with
  | [] => None
  | x :: t => if (fst x =? fst e) && (snd x =? snd e) then Some t else option_map (cons x) (drop_entry e t)
  end.
Definition complete (e : entry) (r : Z) (s : reactor) : option (res reactor) :=
  option_map (fun k => Ok (with_cq s k (r_cq s ++ [(e, r)]) (r_hand s))) (drop_entry e (r_kernel s)).
(** try_reap, 136-148, with cq_mutex_ taken, and dispatch_cqe, 240-249, up to
    the call.  Who reaps makes no difference. *)
Definition reap (s : reactor) : option (res reactor) :=
  match r_hand s, r_cq s with
  | None, (e, r) :: t => Some (Ok (with_cq s (r_kernel s) t (Some (e, r, 0))))
  | _, _ => None
  end.
(** on_slot_complete, 231-238: the result, the failures, the countdown *)
Definition in_frame (s : reactor) (i : nat) : res wave :=
  let* w := aget (r_waves s) (N.of_nat i) in if ended w then OutOfBounds else Ok w.
Definition bad (size : N) (r : Z) : bool := ((r <? 0) || negb (Z.to_N r =? size)%N)%Z%bool.
Definition dispatch (s : reactor) : option (res reactor) :=
  match r_hand s with
  | Some ((i, k), r, O) => Some (
      let* w := in_frame s i in
      let* results := aput (w_results w) (N.of_nat k) r in
      Ok (put_wave (with_cq s (r_kernel s) (r_cq s) (Some ((i, k), r, 1))) i
        {| w_sizes := w_sizes w; w_results := results; w_remaining := w_remaining w; w_failures := w_failures w; w_at := w_at w |}))
  | Some ((i, k), r, S O) => Some (
      let* w := in_frame s i in
      let* size := aget (w_sizes w) (N.of_nat k) in
      Ok (put_wave (with_cq s (r_kernel s) (r_cq s) (Some ((i, k), r, 2))) i
        {| w_sizes := w_sizes w; w_results := w_results w; w_remaining := w_remaining w; w_failures := if bad size r then (w_failures w + 1)%N else w_failures w; w_at := w_at w |}))
  | Some ((i, k), r, _) => Some (
      let* w := in_frame s i in
      Ok (put_wave (with_cq s (r_kernel s) (r_cq s) None) i
        {| w_sizes := w_sizes w; w_results := w_results w; w_remaining := sub32 (w_remaining w) 1; w_failures := w_failures w; w_at := w_at w |}))
  | None => None
  end.

Inductive action := Arrive (sizes : list N) | Enter (i : nat) | Submit (i : nat) (a : answer) | Deduct (i : nat) | Resume (i : nat) | Complete (e : entry) (r : Z) | Reap | Dispatch.
(** [None]: the step cannot be taken now *)
Definition step (a : action) (s : reactor) : option (res reactor) :=
  match a with
  | Arrive sizes => arrive sizes s
  | Enter i => enter i s
  | Submit i x => submit i x s
  | Deduct i => deduct i s
  | Resume i => resume i s
  | Complete e r => complete e r s
  | Reap => reap s
  | Dispatch => dispatch s
  end.
Fixpoint run (acts : list action) (s : reactor) : option (res reactor) :=
  match acts with
  | [] => Some (Ok s)
  | a :: rest => match step a s with Some (Ok s1) => run rest s1 | x => x end
  end.
