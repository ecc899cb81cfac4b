(** Product quantization, /repo/include/index/graph/diskann/pq_table.hpp: training,
    encoding, distances by table lookup, files.

    The arithmetic on floats is a parameter: [arith] holds the operations the code uses,
    so what is proved for every [arith] holds for floats.  Simplified: a row-major array
    of vectors given by the caller is the list of its rows; null pointers are not
    modelled; sizes are small enough for no product of sizes to overflow; the points that
    k-means++ and the reseeding of empty clusters take are arbitrary; a float is written
    to a file as the four bytes of its bits. *)
From Coq Require Export QArith.
From Verif Require Export Arr.
Import ListNotations.
Local Open Scope nat_scope.

(** What the code does with floats: 0.0f, the largest float, +, -, <, the squared L2
    distance given by simd::get_l2_sqr_func (505-509), the average over all training
    vectors (94-104), the mean of a cluster in double precision (576-611), and the bits. *)
Record arith (T : Type) := {
  a_zero : T; a_max : T; a_add : T -> T -> T; a_sub : T -> T -> T; a_lt : T -> T -> bool;
  a_l2 : list T -> list T -> T; a_avg : list T -> T; a_mean : list T -> T; a_bits : T -> N; a_of_bits : N -> T }.
Arguments a_zero {T}. Arguments a_max {T}. Arguments a_add {T}. Arguments a_sub {T}. Arguments a_lt {T}.
Arguments a_l2 {T}. Arguments a_avg {T}. Arguments a_mean {T}. Arguments a_bits {T}. Arguments a_of_bits {T}.

(** pq_table.hpp 47: kPQNumCentroids *)
Definition kCentroids : nat := 256.
(** Reading [len] numbers from [off] on, and overwriting from [off] on *)
Definition slice {A} (l : list A) (off len : nat) : res (list A) :=
  if Nat.leb (off + len) (length l) then Ok (firstn len (skipn off l)) else OutOfBounds.
Definition put_slice {A} (l : list A) (off : nat) (xs : list A) : res (list A) :=
  if Nat.leb (off + length xs) (length l) then Ok (firstn off l ++ xs ++ skipn (off + length xs) l) else OutOfBounds.
Fixpoint each {A B} (f : A -> res B) (l : list A) : res (list B) :=
  match l with [] => Ok [] | x :: r => let* y := f x in let* ys := each f r in Ok (y :: ys) end.

(** 673-681: the members of PQTable *)
Record pq (T : Type) := {
  q_dim : nat; q_chunks : nat; q_cd : nat; q_points : nat;
  q_centroid : list T; q_codebook : list T; q_codes : list N; q_sym : list T }.
Arguments q_dim {T}. Arguments q_chunks {T}. Arguments q_cd {T}. Arguments q_points {T}.
Arguments q_centroid {T}. Arguments q_codebook {T}. Arguments q_codes {T}. Arguments q_sym {T}.
Definition pq_new {T} : pq T :=
  {| q_dim := 0; q_chunks := 0; q_cd := 0; q_points := 0; q_centroid := []; q_codebook := []; q_codes := []; q_sym := [] |}.

Section Table.
Context {T : Type} (ar : arith T).

(** argmin_centroid, 616-630: the loop over the centroids *)
Fixpoint argmin_loop (cd : nat) (point cents : list T) (ks : list nat) (best : T) (best_k : nat) : res nat :=
  match ks with
  | [] => Ok best_k
  | k :: rest =>
      let* cent := slice cents (k * cd) cd in
      let d := a_l2 ar point cent in
      if a_lt ar d best then argmin_loop cd point cents rest d k else argmin_loop cd point cents rest best best_k
  end.
Definition argmin_centroid (cd : nat) (point cents : list T) : res nat :=
  argmin_loop cd point cents (seq 0 kCentroids) (a_max ar) 0.

(** build_residual, 517-521, also 106-114 and 260-262 *)
Definition residual (g v : list T) : list T := map (fun '(a, b) => a_sub ar a b) (combine v g).
(** nearest_centroid, 511-515 *)
Definition nearest_centroid (t : pq T) (chunk : list T) (c : nat) : res N :=
  let* cents := slice (q_codebook t) (c * kCentroids * q_cd t) (kCentroids * q_cd t) in
  let* k := argmin_centroid (q_cd t) chunk cents in Ok (N.modulo (N.of_nat k) 256).
(** encode_residual_to_row, 523-527: the codes of one vector *)
Definition encode_row (t : pq T) (r : list T) : res (list N) :=
  each (fun c => let* x := slice r (c * q_cd t) (q_cd t) in nearest_centroid t x c) (seq 0 (q_chunks t)).
(** encode_to_code, 232-243 *)
Definition encode_to_code (t : pq T) (v : list T) : res (list N) :=
  match q_codebook t with [] => Throws | _ => encode_row t (residual (q_centroid t) v) end.

(** build_symmetric_distance_table, 529-548 *)
Definition sym_row (cd : nat) (cents : list T) (lhs : nat) : res (list T) :=
  let* a := slice cents (lhs * cd) cd in
  each (fun rhs => let* b := slice cents (rhs * cd) cd in Ok (a_l2 ar a b)) (seq 0 kCentroids).
Definition sym_chunk (t : pq T) (c : nat) : res (list T) :=
  let* cents := slice (q_codebook t) (c * kCentroids * q_cd t) (kCentroids * q_cd t) in
  let* rows := each (sym_row (q_cd t) cents) (seq 0 kCentroids) in Ok (concat rows).
Definition build_symmetric (t : pq T) : res (pq T) :=
  let* s := match q_codebook t with [] => Ok [] | _ => let* l := each (sym_chunk t) (seq 0 (q_chunks t)) in Ok (concat l) end in
  Ok {| q_dim := q_dim t; q_chunks := q_chunks t; q_cd := q_cd t; q_points := q_points t;
        q_centroid := q_centroid t; q_codebook := q_codebook t; q_codes := q_codes t; q_sym := s |}.

(** ** Training *)
(** The choices for one chunk: the points taken by k-means++, and those given to empty
    clusters (raw draws, 600) *)
Record random := { r_pick : nat -> nat; r_draw : nat -> N }.
Definition point (data : list (list T)) (i : nat) : res (list T) := aget data (N.of_nat i).
(** kmeanspp_init, 632-671; simplified: the choice is arbitrary *)
Definition kmeanspp_init (rnd : random) (data : list (list T)) : res (list (list T)) :=
  each (fun k => point data (r_pick rnd k mod length data)) (seq 0 kCentroids).
(** 597-613: the new centroids, and the position in the stream of draws *)
Fixpoint update_centroids (rnd : random) (cd : nat) (data : list (list T)) (assign : list nat) (ks : list nat) (p : nat)
  : res (list (list T) * nat) :=
  match ks with
  | [] => Ok ([], p)
  | k :: rest =>
      let members := map snd (filter (fun e => Nat.eqb (fst e) k) (combine assign data)) in
      match members with
      | [] => let* x := point data (N.to_nat (N.modulo (r_draw rnd p) (N.of_nat (length data)))) in
              let* r := update_centroids rnd cd data assign rest (S p) in Ok (x :: fst r, snd r)
      | _ => let x := map (fun d => a_mean ar (map (fun v => nth d v (a_zero ar)) members)) (seq 0 cd) in
             let* r := update_centroids rnd cd data assign rest p in Ok (x :: fst r, snd r)
      end
  end.
(** 580-613: the Lloyd iterations *)
Fixpoint lloyd (rnd : random) (iters : nat) (cd : nat) (data : list (list T)) (cents : list (list T)) (p : nat) : res (list (list T)) :=
  match iters with
  | O => Ok cents
  | S k =>
      let* assign := each (fun x => argmin_centroid cd x (concat cents)) data in
      let* r := update_centroids rnd cd data assign (seq 0 kCentroids) p in
      lloyd rnd k cd data (fst r) (snd r)
  end.
(** train_chunk, 557-614 *)
Definition train_chunk (rnd : random) (iters cd : nat) (data : list (list T)) : res (list (list T)) :=
  let n := length data in
  if Nat.leb n kCentroids then
    let* last := point data (n - 1) in Ok (data ++ repeat last (kCentroids - n))
  else let* c0 := kmeanspp_init rnd data in lloyd rnd iters cd data c0 0.
(** One chunk of the loop of chunk_worker, 128-140 *)
Definition train_one (rnds : nat -> random) (iters cd : nat) (res_ : list (list T)) (codebook : list T) (c : nat) : res (list T) :=
  let* data := each (fun r => slice r (c * cd) cd) res_ in
  let* cents := train_chunk (rnds c) iters cd data in
  put_slice codebook (c * kCentroids * cd) (concat cents).
Fixpoint train_all (rnds : nat -> random) (iters cd : nat) (res_ : list (list T)) (codebook : list T) (order : list nat) : res (list T) :=
  match order with
  | [] => Ok codebook
  | c :: rest => let* cb := train_one rnds iters cd res_ codebook c in train_all rnds iters cd res_ cb rest
  end.
(** train, 71-154: [order] is the order in which the workers finish the chunks; the codes
    and the symmetric table stay as they are *)
Definition train (rnds : nat -> random) (iters : nat) (order : list nat) (t : pq T) (data : list (list T)) (dim chunks : nat) : res (pq T) :=
  if (Nat.eqb (length data) 0 || Nat.eqb dim 0 || Nat.eqb chunks 0)%bool then Throws
  else if negb (Nat.eqb (dim mod chunks) 0) then Throws
  else
    let cd := dim / chunks in
    let g := map (fun d => a_avg ar (map (fun v => nth d v (a_zero ar)) data)) (seq 0 dim) in
    let* cb := train_all rnds iters cd (map (residual g) data) (repeat (a_zero ar) (chunks * kCentroids * cd)) order in
    Ok {| q_dim := dim; q_chunks := chunks; q_cd := cd; q_points := q_points t;
          q_centroid := g; q_codebook := cb; q_codes := q_codes t; q_sym := q_sym t |}.

(** ** Encoding *)
Definition with_codes (t : pq T) (n : nat) (codes : list N) : pq T :=
  {| q_dim := q_dim t; q_chunks := q_chunks t; q_cd := q_cd t; q_points := n;
     q_centroid := q_centroid t; q_codebook := q_codebook t; q_codes := codes; q_sym := q_sym t |}.
(** The loop body of encode_worker, 189-194 *)
Fixpoint encode_points (t : pq T) (data : list (list T)) (is : list nat) (codes : list N) : res (list N) :=
  match is with
  | [] => Ok codes
  | i :: rest =>
      let* v := point data i in
      let* row := encode_row t (residual (q_centroid t) v) in
      let* codes' := put_slice codes (i * q_chunks t) row in encode_points t data rest codes'
  end.
(** kBlock, 180 *)
Definition kBlock : nat := 4096.
(** 183-195: a block of points *)
Fixpoint encode_blocks (t : pq T) (data : list (list T)) (order : list nat) (codes : list N) : res (list N) :=
  match order with
  | [] => Ok codes
  | b :: rest =>
      let start := b * kBlock in
      let last := Nat.min (start + kBlock) (length data) in
      let* codes' := encode_points t data (seq start (last - start)) codes in encode_blocks t data rest codes'
  end.
(** encode, 164-210: [order] is the order in which the workers do the blocks *)
Definition encode (order : list nat) (t : pq T) (data : list (list T)) : res (pq T) :=
  match q_codebook t with
  | [] => Throws
  | _ => if Nat.eqb (length data) 0 then Throws
         else let* codes := encode_blocks t data order (repeat 0%N (length data * q_chunks t)) in
              build_symmetric (with_codes t (length data) codes)
  end.
(** encode_one, 214-230 *)
Definition encode_one (t : pq T) (v : list T) (id : nat) : res (pq T) :=
  match q_codebook t with
  | [] => Throws
  | _ =>
      let t' := if Nat.ltb (q_points t) (id + 1)
                then with_codes t (id + 1) (firstn ((id + 1) * q_chunks t) (q_codes t ++ repeat 0%N ((id + 1) * q_chunks t - length (q_codes t))))
                else t in
      let* row := encode_row t' (residual (q_centroid t') v) in
      let* codes := put_slice (q_codes t') (id * q_chunks t') row in
      Ok (with_codes t' (q_points t') codes)
  end.

(** ** Distances *)
(** preprocess_query, 256-271 *)
Definition preprocess_query (t : pq T) (query : list T) : res (list T) :=
  let scratch := residual (q_centroid t) query in
  let* rows := each (fun c =>
      let* qchunk := slice scratch (c * q_cd t) (q_cd t) in
      each (fun k => let* cent := slice (q_codebook t) (c * kCentroids * q_cd t + k * q_cd t) (q_cd t) in Ok (a_l2 ar qchunk cent)) (seq 0 kCentroids))
    (seq 0 (q_chunks t)) in
  Ok (concat rows).
(** The loop of pq_distance, 282-284 *)
Fixpoint lookup_sum (table : list T) (row : nat -> res N) (cs : list nat) (sum : T) : res T :=
  match cs with
  | [] => Ok sum
  | c :: rest =>
      let* code := row c in
      let* x := aget table (N.of_nat (c * kCentroids) + code)%N in lookup_sum table row rest (a_add ar sum x)
  end.
(** pq_distance, 279-286: nothing checks [id] *)
Definition pq_distance (t : pq T) (id : nat) (table : list T) : res T :=
  lookup_sum table (fun c => aget (q_codes t) (N.of_nat (id * q_chunks t + c))) (seq 0 (q_chunks t)) (a_zero ar).
(** pq_distance_batch, 300-333: the tile of at most 96 points and 64 chunks *)
Definition kTilePoints : nat := 96.
Definition kTileChunks : nat := 64.
Definition gather (t : pq T) (ids : list nat) : res (list N) :=
  let* rows := each (fun id => slice (q_codes t) (id * q_chunks t) (q_chunks t)) ids in
  let tile := concat rows in
  if Nat.leb (length tile) (kTilePoints * kTileChunks) then Ok tile else OutOfBounds.
(** 326-331: one chunk for all points of the tile *)
Fixpoint add_chunk (t : pq T) (table : list T) (tile : list N) (c i : nat) (o : list T) : res (list T) :=
  match o with
  | [] => Ok []
  | x :: rest =>
      let* code := aget tile (N.of_nat (i * q_chunks t + c)) in
      let* y := aget table (N.of_nat (c * kCentroids) + code)%N in
      let* r := add_chunk t table tile c (S i) rest in Ok (a_add ar x y :: r)
  end.
Fixpoint add_chunks (t : pq T) (table : list T) (tile : list N) (cs : list nat) (o : list T) : res (list T) :=
  match cs with
  | [] => Ok o
  | c :: rest => let* o' := add_chunk t table tile c 0 o in add_chunks t table tile rest o'
  end.
(** 314-332; [fuel]: one more than the number of tiles is enough *)
Fixpoint batch_tiles (fuel : nat) (t : pq T) (ids : list nat) (table : list T) : res (list T) :=
  match fuel, ids with
  | O, _ => Ok []
  | _, [] => Ok []
  | S k, _ =>
      let now := firstn kTilePoints ids in
      let* tile := gather t now in
      let* o := add_chunks t table tile (seq 0 (q_chunks t)) (repeat (a_zero ar) (length now)) in
      let* rest := batch_tiles k t (skipn kTilePoints ids) table in Ok (o ++ rest)
  end.
Definition pq_distance_batch (t : pq T) (ids : list nat) (table : list T) : res (list T) :=
  if Nat.ltb kTileChunks (q_chunks t) then each (fun id => pq_distance t id table) ids
  else batch_tiles (length ids) t ids table.
(** pq_symmetric_distance, 335-361: from a code row of the caller, and between points *)
Fixpoint sym_sum (t : pq T) (lhs rhs : nat -> res N) (cs : list nat) (sum : T) : res T :=
  match cs with
  | [] => Ok sum
  | c :: rest =>
      let* a := lhs c in
      let* b := rhs c in
      let* x := aget (q_sym t) (N.of_nat (c * kCentroids) * 256 + a * 256 + b)%N in sym_sum t lhs rhs rest (a_add ar sum x)
  end.
Definition sym_from_code (t : pq T) (lhs : nat -> res N) (rhs : nat) : res T :=
  if Nat.leb (q_points t) rhs then Throws
  else match q_sym t with
       | [] => Throws
       | _ => sym_sum t lhs (fun c => aget (q_codes t) (N.of_nat (rhs * q_chunks t + c))) (seq 0 (q_chunks t)) (a_zero ar)
       end.
Definition pq_symmetric_distance (t : pq T) (lhs rhs : nat) : res T :=
  if (Nat.leb (q_points t) lhs || Nat.leb (q_points t) rhs)%bool then Throws
  else sym_from_code t (fun c => aget (q_codes t) (N.of_nat (lhs * q_chunks t + c))) rhs.

(** ** Files *)
Definition float_bytes (l : list T) : bytes := flat_map (fun x => le_enc 4 (a_bits ar x)) l.
Fixpoint read_floats (n : nat) (l : bytes) : list T :=
  match n with O => [] | S k => a_of_bits ar (le_dec (firstn 4 l)) :: read_floats k (skipn 4 l) end.
(** save, 370-398: the two files *)
Definition save (t : pq T) : res (bytes * bytes) :=
  match q_codebook t with
  | [] => Throws
  | _ => Ok (float_bytes (q_centroid t) ++ float_bytes (q_codebook t), q_codes t)
  end.
(** load, 405-467 *)
Definition load (pivots compressed : bytes) (n dim chunks : nat) : res (pq T) :=
  if (Nat.eqb n 0 || Nat.eqb dim 0 || Nat.eqb chunks 0 || negb (Nat.eqb (dim mod chunks) 0))%bool then Throws
  else
    let cd := dim / chunks in
    let floats := chunks * kCentroids * cd in
    if negb (Nat.eqb (length pivots) ((dim + floats) * 4)) then Throws
    else if negb (Nat.eqb (length compressed) (n * chunks)) then Throws
    else build_symmetric {| q_dim := dim; q_chunks := chunks; q_cd := cd; q_points := n;
                            q_centroid := read_floats dim pivots; q_codebook := read_floats floats (skipn (dim * 4) pivots);
                            q_codes := compressed; q_sym := [] |}.
(** from_codebook, 470-493 *)
Definition from_codebook (dim chunks : nat) (g cb : list T) : res (pq T) :=
  if (Nat.eqb dim 0 || Nat.eqb chunks 0 || negb (Nat.eqb (dim mod chunks) 0))%bool then Throws
  else if negb (Nat.eqb (length g) dim) then Throws
  else if negb (Nat.eqb (length cb) (chunks * kCentroids * (dim / chunks))) then Throws
  else build_symmetric {| q_dim := dim; q_chunks := chunks; q_cd := dim / chunks; q_points := 0;
                          q_centroid := g; q_codebook := cb; q_codes := []; q_sym := [] |}.
End Table.

(** Exact arithmetic: what the operations are meant to compute; [big] stands for the
    largest float. *)
Fixpoint Ql2 (a b : list Q) : Q :=
  match a, b with x :: a', y :: b' => ((x - y) * (x - y) + Ql2 a' b')%Q | _, _ => 0%Q end.
Definition Qmean (l : list Q) : Q := (fold_right Qplus 0 l / inject_Z (Z.of_nat (length l)))%Q.
Definition exact (big : Q) : arith Q :=
  {| a_zero := 0%Q; a_max := big; a_add := Qplus; a_sub := Qminus; a_lt := fun a b => negb (Qle_bool b a);
     a_l2 := Ql2; a_avg := Qmean; a_mean := Qmean; a_bits := fun _ => 0%N; a_of_bits := fun _ => 0%Q |}.
