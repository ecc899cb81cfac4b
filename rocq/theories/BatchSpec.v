(** What a batch search should do: for each query what searching it alone gives. *)
From Coq Require Export Permutation.
From Verif Require Export BatchModel.

(** A slot of the output after the query has been searched: a slot without a hit
    keeps what the caller put there. *)
Definition slot (f : N * N -> N) (c : call) (initial : list N) (q j : nat) : option N :=
  match c_search c q with
  | Hits h => match nth_error h j with Some x => Some (f x) | None => nth_error initial (q * c_top_k c + j) end
  | Raises _ => nth_error initial (q * c_top_k c + j)
  end.
(** The output buffer holds the results of all queries. *)
Definition filled (f : N * N -> N) (c : call) (initial out : list N) : Prop :=
  length out = length initial /\ forall q j, q < c_queries c -> j < c_top_k c -> nth_error out (q * c_top_k c + j) = slot f c initial q j.
(** Nothing but results was written. *)
Definition sound (f : N * N -> N) (c : call) (initial out : list N) : Prop :=
  length out = length initial /\ forall q j, q < c_queries c -> j < c_top_k c ->
    nth_error out (q * c_top_k c + j) = nth_error initial (q * c_top_k c + j) \/ nth_error out (q * c_top_k c + j) = slot f c initial q j.
(** The call: there are threads, the buffers have a slot for each hit, and the
    counter does not wrap. *)
Record call_ok (c : call) (l d : list N) : Prop := {
  co_threads : 0 < c_threads c;
  co_queries : 0 < c_queries c;
  co_labels : length l = c_queries c * c_top_k c;
  co_distances : c_distances c = true -> length d = c_queries c * c_top_k c;
  co_counter : (N.of_nat (c_queries c) + N.of_nat (c_threads c) < modulus (c_variant c))%N;
}.
Definition raises (c : call) (q : nat) : Prop := q < c_queries c /\ exists e, c_search c q = Raises e.
(** The schedule runs to the end: every thread has been joined, or the process is
    gone. *)
Definition completes (c : call) (l d : list N) (schedule : list (nat * bool)) (s : state) : Prop := run c (start c l d) schedule = Some (Ok s) /\ (joined s = true \/ terminated s = true).
