(** Splitting a data set into shards and building it shard by shard:
    compute_closest_centers (include/index/graph/vamana/kmeans_partition.hpp:78-174),
    shard_data_by_centroids (include/index/graph/vamana/shard_assigner.hpp:46-244),
    compute_medoid_streaming (include/index/graph/vamana/shard_merger.hpp:63-149),
    determine_num_parts_with_ram_budget (include/index/graph/vamana/budget_estimator.hpp:114-178),
    load_fbin and run_partition_merge (include/index/graph/vamana/build_dispatch.hpp:148-168,
    250-404).

    Simplified: files are byte strings, paths and I/O errors other than short
    reads are left out; a float that is not a NaN is the integer that orders it
    among the floats (its bit pattern, negated for negative numbers); the
    distances of a vector to the centres are given, whatever the rounding of
    the matrix product; products of sizes do not wrap. *)
From Verif Require Export GraphFileModel Arr DeleteModel.
Import ListNotations.

(** A float or a double; [None] is a NaN. *)
Definition fl := option Z.
(** std::numeric_limits<float>::max() and <double>::max(), by bit pattern *)
Definition flt_max : Z := 2139095039.
Definition dbl_max : Z := 9218868437227405311.
(** a < b and a >= b; false if one is a NaN *)
Definition flt (a b : fl) : bool := match a, b with Some x, Some y => Z.ltb x y | _, _ => false end.
Definition fge (a b : fl) : bool := match a, b with Some x, Some y => Z.leb y x | _, _ => false end.

(** ** compute_closest_centers, for one point: [row] holds its distances *)
(** k == 1, kmeans_partition.hpp:137-150 *)
Fixpoint argmin (row : list fl) (j : nat) (best : fl) (best_id : nat) : nat :=
  match row with
  | [] => best_id
  | d :: row' => if flt d best then argmin row' (S j) d j else argmin row' (S j) best best_id
  end.
(** Bubbling the last element down, 162-166; [above] are the elements before
    it, last first *)
Fixpoint bubble (x : fl * nat) (above : list (fl * nat)) : list (fl * nat) :=
  match above with
  | y :: above' => if flt (fst x) (fst y) then y :: bubble x above' else x :: above
  | [] => [x]
  end.
(** One step of the scan, 157-167; [top] with its last element first *)
Definition top_step (top : list (fl * nat)) (d : fl) (j : nat) : list (fl * nat) :=
  match top with
  | [] => []
  | back :: above => if fge d (fst back) then top else bubble (d, j) above
  end.
Fixpoint top_scan (row : list fl) (j : nat) (top : list (fl * nat)) : list (fl * nat) :=
  match row with [] => top | d :: row' => top_scan row' (S j) (top_step top d j) end.
(** 137-172: the ids written for the point *)
Definition closest (k : nat) (row : list fl) : list nat :=
  if Nat.eqb k 1 then [argmin row 0 (Some flt_max) 0]
  else rev (map snd (top_scan row 0 (repeat (Some flt_max, 0) k))).

(** ** shard_data_by_centroids *)
(** ShardOutputStreams, shard_assigner.hpp:52-91: what follows the headers *)
Record output := { o_data : bytes; o_ids : bytes; o_count : N }.
Definition empty_output : output := {| o_data := []; o_ids := []; o_count := 0 |}.
(** append, 76-81 *)
Definition append (vec : bytes) (gid : N) (o : output) : output :=
  {| o_data := o_data o ++ vec; o_ids := o_ids o ++ le_enc 4 gid; o_count := ((o_count o + 1) mod 2 ^ 32)%N |}.
(** A shard on disk: data file, idmap file and counts[i] *)
Record shard_files := { f_data : bytes; f_ids : bytes; f_count : N }.
(** finalize, 83-90, after the constructor, 57-74 *)
Definition finalize (dim : N) (o : output) : shard_files :=
  {| f_data := le_enc 4 (o_count o) ++ le_enc 4 dim ++ o_data o;
     f_ids := le_enc 4 (o_count o) ++ le_enc 4 1 ++ o_ids o;
     f_count := o_count o |}.
(** 210-214 *)
Fixpoint scatter_point (vec : bytes) (gid : N) (ids : list nat) (outs : list output) : res (list output) :=
  match ids with
  | [] => Ok outs
  | s :: ids' =>
      let* o := aget outs (N.of_nat s) in
      let* outs' := aput outs (N.of_nat s) (append vec gid o) in
      scatter_point vec gid ids' outs'
  end.
(** 207-215.  [dist g v]: the distances computed for vector [v], number [g] *)
Fixpoint scatter_block (dist : nat -> bytes -> list fl) (k : nat) (g : nat) (vecs : list bytes) (outs : list output) : res (list output) :=
  match vecs with
  | [] => Ok outs
  | v :: vecs' =>
      let* outs' := scatter_point v (N.of_nat g mod 2 ^ 32) (closest k (dist g v)) outs in
      scatter_block dist k (S g) vecs' outs'
  end.
(** A block of [n] rows of [w] bytes *)
Fixpoint rows_of (n w : nat) (b : bytes) : list bytes :=
  match n with O => [] | S n' => firstn w b :: rows_of n' w (skipn w b) end.
(** The loop of 185-222; [w] bytes a vector *)
Fixpoint shard_loop (fuel : nat) (dist : nat -> bytes -> list fl) (k w block num : nat) (processed : nat) (inp : bytes) (outs : list output)
  : fuelled (res (list output)) :=
  match fuel with
  | O => OutOfFuel
  | S fuel' =>
      if Nat.ltb processed num then
        let cur := Nat.min block (num - processed) in
        match take_bytes (cur * w) inp with
        | None => Done Throws
        | Some (b, rest) =>
            match scatter_block dist k processed (rows_of cur w b) outs with
            | Ok outs' => shard_loop fuel' dist k w block num (processed + cur) rest outs'
            | OutOfBounds => Done OutOfBounds
            | InvalidBool => Done InvalidBool
            | Throws => Done Throws
            end
        end
      else Done (Ok outs)
  end.
(** The whole, 127-244, with the check of 238-242 *)
Definition shard_data (fuel : nat) (dist : nat -> bytes -> list fl) (file : bytes) (centers k block : nat) : fuelled (res (list shard_files)) :=
  if Nat.eqb centers 0 || Nat.eqb k 0 || Nat.ltb centers k then Done Throws
  else match (let* (num, r1) := read_u32 file in
              let* (dim, r2) := read_u32 r1 in
              if N.eqb num 0 || N.eqb dim 0 then Throws else Ok (num, dim, r2)) with
       | Ok (num, dim, inp) =>
           let n := N.to_nat num in
           match shard_loop fuel dist k (N.to_nat dim * 4) (Nat.min block n) n 0 inp (repeat empty_output centers) with
           | OutOfFuel => OutOfFuel
           | Done (Ok outs) =>
               let files := map (finalize dim) outs in
               if N.eqb (fold_left (fun t f => t + f_count f)%N files 0%N) (num * N.of_nat k) then Done (Ok files) else Done Throws
           | Done OutOfBounds => Done OutOfBounds
           | Done InvalidBool => Done InvalidBool
           | Done Throws => Done Throws
           end
       | OutOfBounds => Done OutOfBounds
       | InvalidBool => Done InvalidBool
       | Throws => Done Throws
       end.

(** ** compute_medoid_streaming, second pass: [dist p] is the distance of point
    [p] to the centroid of the first pass *)
(** acc < th_best, shard_merger.hpp:129-132, and th_best < local_best, 134-140,
    and local_best < best_dist, 142-145 *)
Definition better (a b : fl * nat) : fl * nat := if flt (fst a) (fst b) then a else b.
(** One thread over its share of a block; all start from DBL_MAX and id 0 *)
Definition scan_share (dist : nat -> fl) (share : list nat) : fl * nat :=
  fold_left (fun b p => better (dist p, p) b) share (Some dbl_max, 0).
(** One block, the threads in the order in which they reach the critical section *)
Definition scan_block (dist : nat -> fl) (threads : list (list nat)) : fl * nat :=
  fold_left (fun b share => better (scan_share dist share) b) threads (Some dbl_max, 0).
(** 104-148 *)
Definition medoid_streaming (dist : nat -> fl) (blocks : list (list (list nat))) : nat :=
  snd (fold_left (fun b threads => better (scan_block dist threads) b) blocks (Some dbl_max, 0)).

(** ** determine_num_parts_with_ram_budget.  [rams n]: the estimated sizes of the
    [n] shards that k-means finds; the sizes and the budget are doubles.
    [num_train] points were sampled. *)
(** max_shard_ram, budget_estimator.hpp:154-163 *)
Definition max_ram (rams : list fl) : fl := fold_left (fun m r => if flt m r then r else m) rams (Some 0%Z).
(** The growth loop, 133-177 *)
Fixpoint grow_parts (fuel : nat) (rams : nat -> list fl) (num_train max_parts : nat) (budget : fl) (parts : nat) : fuelled (res nat) :=
  match fuel with
  | O => OutOfFuel
  | S fuel' =>
      if Nat.leb parts max_parts then
        if Nat.ltb num_train parts then Done Throws
        else if fge budget (max_ram (rams parts)) then Done (Ok parts)
        else grow_parts fuel' rams num_train max_parts budget (parts + 2)
      else Done Throws
  end.
(** 114-178; the test of the sampling rate is left out *)
Definition determine_num_parts (fuel : nat) (rams : nat -> list fl) (num_train num_test max_parts : nat) (budget : fl) : fuelled (res nat) :=
  if fge (Some 0%Z) budget then Done Throws
  else if Nat.eqb num_train 0 || Nat.eqb num_test 0 then Done Throws
  else grow_parts fuel rams num_train max_parts budget 3.

(** ** run_partition_merge, from the choice of the centroids on *)
(** load_fbin, build_dispatch.hpp:148-168: the vectors and their dimension *)
Definition load_fbin (file : bytes) : res (list bytes * N) :=
  let* (num, r1) := read_u32 file in
  let* (dim, r2) := read_u32 r1 in
  if N.eqb num 0 || N.eqb dim 0 then Throws
  else match take_bytes (N.to_nat num * (N.to_nat dim * 4)) r2 with
       | None => Throws
       | Some (b, _) => Ok (rows_of (N.to_nat num) (N.to_nat dim * 4) b, dim)
       end.
(** shard_R, 292 *)
Definition shard_degree (R : N) : N := N.max 1 ((2 * R mod 2 ^ 32) / 3).
(** The loop over shards, 354-389.  [build s vectors]: graph and entry point that
    the builder (VBuildModel.v) makes of the vectors of shard [s] *)
Fixpoint build_shards (build : nat -> list bytes -> list (list N) * N) (R dim : N) (s : nat) (files : list shard_files) : res (list bytes) :=
  match files with
  | [] => Ok []
  | f :: files' =>
      let* (vecs, sdim) := load_fbin (f_data f) in
      if negb (N.eqb sdim dim) then Throws
      else let* rest := build_shards build R dim (S s) files' in
           Ok (save_graph (fst (build s vecs)) (shard_degree R) (snd (build s vecs)) 0 :: rest)
  end.
(** 346-404: k_base is 2, [parts] centroids, [medoid] the global entry point *)
Definition partition_merge (fuel : nat) (dist : nat -> bytes -> list fl) (build : nat -> list bytes -> list (list N) * N)
    (shuffle : N -> list N -> list N) (file : bytes) (dim R : N) (parts block : nat) (medoid : N) : fuelled (res (bytes * bytes)) :=
  match shard_data fuel dist file parts 2 block with
  | OutOfFuel => OutOfFuel
  | Done r => Done (let* files := r in
                    let* graphs := build_shards build R dim 0 files in
                    merge_shards shuffle graphs (map f_ids files) R medoid 0)
  end.
