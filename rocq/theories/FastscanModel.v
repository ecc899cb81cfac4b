(** RaBitQ codes and lookup tables: include/utils/rabitq_utils/fastscan.hpp,
    lut.hpp and include/space/quant/rabitq.hpp, with the use of them in
    include/space/rabitq_space.hpp; and the same of the LASER index:
    include/index/graph/laser/quantization/fastscan_impl.hpp,
    laser/space/bitwise.hpp, laser/utils/scalar_quantize.hpp,
    laser/qg/qg_query.hpp and include/simd/laser_dispatch.hpp.

    Bytes and 16-bit words are numbers of type N, a vector register is the list
    of its bytes or of its 16-bit words, lowest first.  Simplifications:
    floating-point numbers are exact (rationals); reads outside the given
    arrays give 0 (the sizes in the theorems exclude them). *)
From Coq Require Export QArith Qround.
From Verif Require Export Arr.
Local Open Scope nat_scope.

(** fastscan.hpp 40-49; fastscan_impl.hpp 34-54; laser_dispatch.hpp 98-99 *)
Definition kPos : list nat := [3; 3; 2; 3; 1; 3; 2; 3; 0; 3; 2; 3; 1; 3; 2; 3].
Definition kPerm0 : list nat := [0; 8; 1; 9; 2; 10; 3; 11; 4; 12; 5; 13; 6; 14; 7; 15].

(** ** Packing *)
(** get_column, fastscan.hpp 83-98, fastscan_impl.hpp 56-71 *)
Definition get_column (src : list N) (rows cols row col : nat) : list N :=
  let max_k := Nat.min (rows - row) 32 in
  map (fun k => nth ((k + row) * cols + col) src 0%N) (seq 0 max_k) ++ repeat 0%N (32 - max_k).
(** Two times 16 bytes from the nibbles of a column, 134-141 *)
Definition pair_up (nibbles : list N) : list N :=
  map (fun p => N.lor (nth p nibbles 0%N) (N.shiftl (nth (p + 16) nibbles 0%N) 4)) kPerm0.
(** The loop body of pack_codes, 128-143 *)
Definition pack_column (col : list N) : list N :=
  pair_up (map (fun x => N.shiftr x 4) col) ++ pair_up (map (fun x => N.land x 15) col).
(** pack_codes, 111-145 *)
Definition pack_codes (dim : nat) (codes : list N) (num : nat) : list N :=
  flat_map (fun b => flat_map (fun i => pack_column (get_column codes num (dim / 8) (32 * b) i)) (seq 0 (dim / 8))) (seq 0 ((num + 31) / 32)).
(** RaBitQQuantizer::pack_binary, rabitq.hpp 29-43, for one vector: the bits of
    eight dimensions, the first one highest *)
Definition pack_byte (x : list bool) : N :=
  fold_left (fun cur j => N.lor cur (N.shiftl (N.b2n (nth j x false)) (N.of_nat (7 - j)))) (seq 0 8) 0%N.
Definition pack_binary (dim : nat) (x : list bool) : list N :=
  map (fun i => pack_byte (skipn (8 * i) x)) (seq 0 (dim / 8)).

(** ** LASER: packing through 64-bit words *)
(** space::pack_binary, bitwise.hpp 34-46 *)
Definition pack_word (x : list bool) : N :=
  fold_left (fun cur j => N.lor cur (N.shiftl (N.b2n (nth j x false)) (N.of_nat (63 - j)))) (seq 0 64) 0%N.
Definition laser_pack_binary (dim : nat) (x : list bool) : list N :=
  map (fun i => pack_word (skipn (64 * i) x)) (seq 0 (dim / 64)).
(** The bytes of the words in memory, as copied by memcpy; x86 and ARM are
    little-endian; fastscan_impl.hpp 121-122 *)
Definition word_bytes (w : N) : list N := map (fun k => N.land (N.shiftr w (8 * N.of_nat k)) 255) (seq 0 8).
(** The swaps of 124-131 turn the eight bytes round *)
Definition swap4 (l : list N) : list N :=
  fold_left (fun a k => let x := nth k a 0%N in let y := nth (7 - k) a 0%N in upd (upd a k y) (7 - k) x) (seq 0 4) l.
(** 133-138 *)
Definition swap_nibbles (b : N) : N := N.lor (N.land (N.shiftl (N.land b 15) 4) 255) (N.shiftr b 4).
(** pack_codes_helper, 82-113: the low nibbles come first *)
Definition helper_column (col : list N) : list N :=
  pair_up (map (fun x => N.land x 15) col) ++ pair_up (map (fun x => N.shiftr x 4) col).
Definition pack_codes_helper (dim : nat) (codes : list N) (num : nat) : list N :=
  flat_map (fun b => flat_map (fun i => helper_column (get_column codes num (dim / 8) (32 * b) i)) (seq 0 (dim / 8))) (seq 0 ((num + 31) / 32)).
(** pack_codes, 115-140 *)
Definition laser_pack_codes (dim : nat) (binary : list N) (num : nat) : list N :=
  pack_codes_helper dim (map swap_nibbles (flat_map (fun w => swap4 (word_bytes w)) binary)) num.

(** ** Lookup tables *)
Definition lowbit (j : nat) : nat := nth j [0; 1; 2; 1; 4; 1; 2; 1; 8; 1; 2; 1; 4; 1; 2; 1] 0.
(** The 16 entries for four dimensions, fastscan.hpp 407-410 *)
Definition lut_entries {T} (add : T -> T -> T) (zero : T) (q : list T) : list T :=
  fold_left (fun l j => l ++ [add (nth (j - lowbit j) l zero) (nth (nth j kPos 0) q zero)]) (seq 1 15) [zero].
(** pack_lut, fastscan.hpp 403-415, pack_lut_impl, fastscan_impl.hpp 143-156 *)
Definition pack_lut {T} (add : T -> T -> T) (zero : T) (dim : nat) (q : list T) : list T :=
  flat_map (fun i => lut_entries add zero (skipn (4 * i) q)) (seq 0 (dim / 4)).

(** ** Accumulation, one entry at a time *)
(** result[i] += x, a uint16_t *)
Definition add_at (r : list N) (i : nat) (x : N) : list N := upd r i (N.modulo (nth i r 0%N + x) 65536).
(** One lane of accumulate_scalar, fastscan.hpp 61-67 and 71-77 *)
Definition scalar_lane (codes lp : list N) (o : nat) (r : list N) (lane : nat) : list N :=
  let code := nth (o + lane) codes 0%N in
  let p := nth lane kPerm0 0 in
  add_at (add_at r p (nth (o + N.to_nat (N.land code 15)) lp 0%N)) (p + 16) (nth (o + N.to_nat (N.shiftr code 4)) lp 0%N).
(** accumulate_scalar, 53-80 *)
Definition accumulate_scalar (codes lp : list N) (dim : nat) : list N :=
  fold_left (fun r i => fold_left (scalar_lane codes lp (32 * i + 16)) (seq 0 16) (fold_left (scalar_lane codes lp (32 * i)) (seq 0 16) r))
            (seq 0 ((4 * dim + 31) / 32)) (repeat 0%N 32).
(** accumulate_impl_generic, laser_dispatch.hpp 101-126: the same sums, both
    tables of a pair for each lane *)
Definition generic_lane (packed lut : list N) (o : nat) (r : list N) (lane : nat) : list N :=
  let p := nth lane kPerm0 0 in
  let c0 := nth (o + lane) packed 0%N in
  let c1 := nth (o + 16 + lane) packed 0%N in
  let r1 := add_at r p (nth (o + N.to_nat (N.land c0 15)) lut 0%N) in
  let r2 := add_at r1 (p + 16) (nth (o + N.to_nat (N.shiftr c0 4)) lut 0%N) in
  let r3 := add_at r2 p (nth (o + 16 + N.to_nat (N.land c1 15)) lut 0%N) in
  add_at r3 (p + 16) (nth (o + 16 + N.to_nat (N.shiftr c1 4)) lut 0%N).
Definition accumulate_generic (codes lut : list N) (dim : nat) : list N :=
  fold_left (fun r i => fold_left (generic_lane codes lut (32 * i)) (seq 0 16) r) (seq 0 ((dim / 4 + 1) / 2)) (repeat 0%N 32).

(** ** Accumulation with vector registers *)
Definition load (n : nat) (m : list N) (i : nat) : list N := firstn n (skipn i m).
Fixpoint words (bytes : list N) : list N :=
  match bytes with a :: b :: r => (a + 256 * b)%N :: words r | _ => [] end.
Definition unwords (ws : list N) : list N := flat_map (fun w => [N.modulo w 256; N.div w 256]) ws.
(** _mm256_and_si256 with the mask 0x0f, _mm256_srli_epi16, _mm256_shuffle_epi8,
    _mm256_add_epi16, _mm256_sub_epi16, _mm256_slli_epi16 and the same for 512 *)
Definition and_low (c : list N) : list N := map (fun x => N.land x 15) c.
Definition srli16 (k : N) (ws : list N) : list N := map (fun w => N.shiftr w k) ws.
Definition slli16 (k : N) (ws : list N) : list N := map (fun w => N.modulo (N.shiftl w k) 65536) ws.
Definition shuffle8 (lut idx : list N) : list N :=
  map (fun p => let x := nth p idx 0%N in if N.testbit x 7 then 0%N else nth (16 * (p / 16) + N.to_nat (N.land x 15)) lut 0%N) (seq 0 (length idx)).
Definition map2 (f : N -> N -> N) (a b : list N) : list N := map (fun '(x, y) => f x y) (combine a b).
Definition add16 : list N -> list N -> list N := map2 (fun x y => N.modulo (x + y) 65536).
Definition sub16 : list N -> list N -> list N := map2 (fun x y => N.modulo (x + 65536 - y) 65536).
(** _mm256_permute2f128_si256 (without the zeroing bits) and
    _mm256_blend_epi32 *)
Definition permute2f128 (imm : N) (a b : list N) : list N :=
  map (fun w => let ctl := N.to_nat (N.land (N.shiftr imm (N.of_nat (4 * (w / 8)))) 3) in
                nth (8 * (ctl mod 2) + w mod 8) (if ctl <? 2 then a else b) 0%N) (seq 0 16).
Definition blend_epi32 (imm : N) (a b : list N) : list N :=
  map (fun w => if N.testbit imm (N.of_nat (w / 2)) then nth w b 0%N else nth w a 0%N) (seq 0 16).
(** _mm512_mask_blend_epi64 and _mm512_shuffle_i64x2 *)
Definition mask_blend_epi64 (mask : N) (a b : list N) : list N :=
  map (fun w => if N.testbit mask (N.of_nat (w / 4)) then nth w b 0%N else nth w a 0%N) (seq 0 32).
Definition shuffle_i64x2 (imm : N) (a b : list N) : list N :=
  map (fun w => let ctl := N.to_nat (N.land (N.shiftr imm (N.of_nat (2 * (w / 8)))) 3) in
                nth (8 * ctl + w mod 8) (if w / 8 <? 2 then a else b) 0%N) (seq 0 32).
Record accus := { accu0 : list N; accu1 : list N; accu2 : list N; accu3 : list N }.
(** The loop body for [n] bytes, fastscan.hpp 176-195, 232-243 and 245-256 *)
Definition simd_block (n : nat) (codes lp : list N) (a : accus) (i : nat) : accus :=
  let c := load n codes i in
  let lut := load n lp i in
  let lo := and_low c in
  let hi := and_low (unwords (srli16 4 (words c))) in
  let res_lo := words (shuffle8 lut lo) in
  let res_hi := words (shuffle8 lut hi) in
  {| accu0 := add16 (accu0 a) res_lo; accu1 := add16 (accu1 a) (srli16 8 res_lo);
     accu2 := add16 (accu2 a) res_hi; accu3 := add16 (accu3 a) (srli16 8 res_hi) |}.
Definition zeros (w : nat) : accus :=
  {| accu0 := repeat 0%N w; accu1 := repeat 0%N w; accu2 := repeat 0%N w; accu3 := repeat 0%N w |}.
(** accumulate with AVX2, 220-268, and accumulate_impl_avx2,
    laser_dispatch.hpp 239-289 *)
Definition accumulate_avx2 (codes lp : list N) (dim : nat) : list N :=
  let a := fold_left (fun a i => simd_block 32 codes lp (simd_block 32 codes lp a (64 * i)) (64 * i + 32)) (seq 0 ((4 * dim + 63) / 64)) (zeros 16) in
  let a0 := sub16 (accu0 a) (slli16 8 (accu1 a)) in
  let dis0 := add16 (permute2f128 33 a0 (accu1 a)) (blend_epi32 240 a0 (accu1 a)) in
  let a2 := sub16 (accu2 a) (slli16 8 (accu3 a)) in
  let dis1 := add16 (permute2f128 33 a2 (accu3 a)) (blend_epi32 240 a2 (accu3 a)) in
  dis0 ++ dis1.
(** accumulate with AVX-512, 157-218, and accumulate_impl_avx512,
    laser_dispatch.hpp 191-237 *)
Definition accumulate_avx512 (codes lp : list N) (dim : nat) : list N :=
  let a := fold_left (fun a i => simd_block 64 codes lp a (64 * i)) (seq 0 ((4 * dim + 63) / 64)) (zeros 32) in
  let a0 := sub16 (accu0 a) (slli16 8 (accu1 a)) in
  let a2 := sub16 (accu2 a) (slli16 8 (accu3 a)) in
  let ret1 := add16 (mask_blend_epi64 240 a0 (accu1 a)) (shuffle_i64x2 78 a0 (accu1 a)) in
  let ret2 := add16 (mask_blend_epi64 240 a2 (accu3 a)) (shuffle_i64x2 78 a2 (accu3 a)) in
  add16 (add16 (repeat 0%N 32) (shuffle_i64x2 136 ret1 ret2)) (shuffle_i64x2 221 ret1 ret2).
Inductive level := Scalar | Avx2 | Avx512.
(** accumulate, 149-273 *)
Definition accumulate (lv : level) (codes lp : list N) (dim : nat) : list N :=
  if Nat.eqb (dim mod 16) 0 then
    match lv with Scalar => accumulate_scalar codes lp dim | Avx2 => accumulate_avx2 codes lp dim | Avx512 => accumulate_avx512 codes lp dim end
  else accumulate_scalar codes lp dim.
(** get_accumulate_func, laser_dispatch.hpp 547-556 *)
Definition laser_accumulate (lv : level) (codes lut : list N) (dim : nat) : list N :=
  match lv with Scalar => accumulate_generic codes lut dim | Avx2 => accumulate_avx2 codes lut dim | Avx512 => accumulate_avx512 codes lut dim end.

(** ** RaBitQ estimates *)
Local Open Scope Q_scope.
Definition Qsum (l : list Q) : Q := fold_left Qplus l 0.
Definition dot (a b : list Q) : Q := Qsum (map (fun '(x, y) => x * y) (combine a b)).
Definition minus (a b : list Q) : list Q := map (fun '(x, y) => x - y) (combine a b).
Definition Qminl (l : list Q) : Q := match l with [] => 0 | x :: r => fold_left (fun m y => if Qle_bool m y then m else y) r x end.
Definition Qmaxl (l : list Q) : Q := match l with [] => 0 | x :: r => fold_left (fun m y => if Qle_bool y m then m else y) r x end.
(** Rounding to the nearest integer: std::round, halves away from zero, and
    _mm512_cvtps_epi32, halves to even *)
Definition round_away (x : Q) : Z := if Qle_bool 0 x then Qfloor (x + (1#2)) else Qceiling (x - (1#2)).
Definition round_even (x : Q) : Z :=
  let f := Qfloor (x + (1#2)) in if (Qeq_bool (inject_Z f) (x + (1#2)) && Z.odd f)%bool then (f - 1)%Z else f.
(** Lut, lut.hpp 91-117; scalar_quantize_optimized, 52-75.  With a zero width
    the quotient is not a number and its conversion to uint8_t undefined. *)
Record lut := { lut_table : list N; lut_delta : Q; lut_sum_vl : Q }.
Definition make_lut (lv : level) (dim : nat) (q : list Q) : res lut :=
  let f := pack_lut Qplus 0 dim q in
  let vl := Qminl f in
  let vr := Qmaxl f in
  let delta := (vr - vl) / 255 in
  if Qeq_bool delta 0 then OutOfBounds
  else
    let round := match lv with Avx512 => round_even | _ => round_away end in
    Ok {| lut_table := map (fun v => Z.to_N (Z.modulo (round ((v - vl) / delta)) 256)) f;
          lut_delta := delta; lut_sum_vl := vl * inject_Z (Z.of_nat (4 * dim / 16)) |}.
(** cal_fac_and_qc, rabitq.hpp 54-104, for L2: the code and the two factors of
    a rotated neighbour *)
Definition code_of (data centroid : list Q) : list bool := map (fun x => negb (Qle_bool x 0)) (minus data centroid).
Definition y_bar (x : list bool) : list Q := map (fun b : bool => (if b then 1 else 0) - (1#2)) x.
Definition factors (data centroid : list Q) : Q * Q :=
  let r := minus data centroid in
  let y := y_bar (code_of data centroid) in
  let l2 := dot r r in
  let ip := dot r y in
  (* an inner product of 0 is replaced by infinity, the quotients are then 0 *)
  if Qeq_bool ip 0 then (l2, 0) else (l2 + 2 * l2 * dot centroid y / ip, - (2) * l2 / ip).
(** The same for inner products and cosines, 89-95 *)
Definition factors_ip (data centroid : list Q) : Q * Q :=
  let r := minus data centroid in
  let y := y_bar (code_of data centroid) in
  let l2 := dot r r in
  let ip := dot r y in
  if Qeq_bool ip 0 then (1 - dot r centroid, 0) else (1 - dot r centroid + l2 * dot centroid y / ip, - l2 / ip).
(** batch_quantize, rabitq.hpp 119-156, for the neighbours of a node *)
Definition batch_codes (dim : nat) (datas : list (list Q)) (centroid : list Q) : list N :=
  pack_codes dim (flat_map (fun d => pack_binary dim (code_of d centroid)) datas) (length datas).
(** QueryComputer, rabitq_space.hpp 527-567 with estimate_distances,
    fastscan.hpp 276-309: the estimated distances of the 32 neighbours; [g_add] is
    the exact distance of query and node *)
Definition estimates (lv : level) (dim : nat) (packed : list N) (facs : list (Q * Q)) (q : list Q) (g_add : Q) : res (list Q) :=
  let* t := make_lut lv dim q in
  let bias := lut_sum_vl t + Qsum q * (- (1#2)) in
  let nth_segments := accumulate lv packed (lut_table t) dim in
  Ok (map (fun '(n, (f_add, f_rescale)) => f_rescale * (inject_Z (Z.of_N n) * lut_delta t + bias) + f_add + g_add) (combine nth_segments facs)).

(** ** LASER queries *)
(** scalar::quantize, scalar_quantize.hpp 45-77, and query_prepare,
    qg_query.hpp 58-72: six bits, rounded after adding one half *)
Record laser_query := { lq_bytes : list N; lq_width : Q; lq_lower : Q; lq_sum : Z; lq_lut : list N }.
Definition laser_prepare (dim : nat) (q : list Q) : res laser_query :=
  let lo := Qminl q in
  let hi := Qmaxl q in
  let width := (hi - lo) / 63 in
  if Qeq_bool width 0 then OutOfBounds
  else
    let bytes := map (fun v => Z.to_N (Z.modulo (round_away ((v - lo) / width + (1#2))) 256)) q in
    Ok {| lq_bytes := bytes; lq_width := width; lq_lower := lo;
          lq_sum := fold_left (fun s b => (s + Z.of_N b)%Z) bytes 0%Z;
          lq_lut := pack_lut (fun a b => N.modulo (a + b) 256) 0%N dim bytes |}.
(** convert_accum_to_float, laser_dispatch.hpp 145-152, 374-422: the words are
    taken as int16_t *)
Definition as_int16 (w : N) : Z := if N.ltb w 32768 then Z.of_N w else (Z.of_N w - 65536)%Z.
Definition laser_convert (lv : level) (sumq : Z) (r : list N) : list Z := map (fun w => (2 * as_int16 w - sumq)%Z) r.
(** scan_neighbors, qg_scanner.hpp 55-88, up to the conversion, for the block
    [b] of 32 neighbours *)
Definition laser_scan (lv : level) (dim : nat) (packed : list N) (q : laser_query) (b : nat) : list Z :=
  laser_convert lv (lq_sum q) (laser_accumulate lv (skipn (b * (4 * dim)) packed) (lq_lut q) dim).
