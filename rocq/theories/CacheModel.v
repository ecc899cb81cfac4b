(** The page cache of the updatable disk index:
    include/index/graph/diskann/disk_page_cache.hpp and the page functions of
    include/index/graph/diskann/disk_page_io.hpp.

    Every section under a shard's mutex is one step; the device reads of the
    searches (and of the reactor waves) happen between such steps.  Left out:
    how records sit in a page (LayoutModel), the transient cache of
    coordinates, the extension of the file (a page behind its end makes the
    read fail), and wrap-around of the 64-bit page versions. *)
From Verif Require Export ScalarDataModel.
Local Open Scope N_scope.

Definition page := list N.
(** Shard, disk_page_io.hpp 525-531, with the DiskPageCache members lru_ and
    pages_, disk_page_cache.hpp 93-126.  An entry is the bytes and the dirty
    flag. *)
Definition entry : Type := page * bool.
Record shard := { sd_lru : list N; sd_pages : list (N * entry) }.
(** A device read of a search under way: page, version and number of device
    writes seen when it started, and what it has read. *)
Record fetch := { ft_off : N; ft_ver : N; ft_count : N; ft_buf : option page }.
(** Disk, shards, page versions (525-531; each page has its own shard, so one
    function for all), outcomes of the coming device accesses ([Some junk]: it
    fails, and a failing write leaves [junk] on the disk), number of device
    writes per page, and the searches. *)
Record world := { w_disk : N -> page; w_shards : N -> shard; w_ver : N -> N; w_io : list (option page); w_count : N -> N; w_fetch : N -> option fetch }.
(** DiskPageIO members: page size, number of shards, capacity of each *)
Record io_conf := { k_page : N; k_shards : N; k_cap : N }.
(** The constructor, disk_page_io.hpp 75-99 (kNumShards, 508) *)
Definition io_new (page_size capacity : N) : io_conf :=
  let shards := if N.eqb capacity 0 then 64 else N.min (N.max capacity 1) 64 in
  {| k_page := page_size; k_shards := shards; k_cap := if N.eqb capacity 0 then 0 else N.max 1 (capacity / shards) |}.
Definition world0 (disk : N -> page) (io : list (option page)) : world :=
  {| w_disk := disk; w_shards := fun _ => {| sd_lru := []; sd_pages := [] |}; w_ver := fun _ => 0; w_io := io; w_count := fun _ => 0; w_fetch := fun _ => None |}.
(** shard_for, 534-536 *)
Definition shard_of (k : io_conf) (off : N) : N := (off / k_page k) mod k_shards k.

Definition set_shard (w : world) (s : N) (sd : shard) : world :=
  {| w_disk := w_disk w; w_shards := fun x => if N.eqb x s then sd else w_shards w x; w_ver := w_ver w; w_io := w_io w; w_count := w_count w; w_fetch := w_fetch w |}.
(** ++shard.versions[off], 982 and 986 *)
Definition bump (w : world) (off : N) : world :=
  {| w_disk := w_disk w; w_shards := w_shards w; w_ver := fun x => if N.eqb x off then w_ver w x + 1 else w_ver w x; w_io := w_io w; w_count := w_count w; w_fetch := w_fetch w |}.
Definition set_fetch (w : world) (t : N) (f : option fetch) : world :=
  {| w_disk := w_disk w; w_shards := w_shards w; w_ver := w_ver w; w_io := w_io w; w_count := w_count w; w_fetch := fun x => if N.eqb x t then f else w_fetch w x |}.
(** write_page_to_disk, 989-1000 *)
Definition pwrite (w : world) (off : N) (p : page) : world * bool :=
  let set q := fun x => if N.eqb x off then q else w_disk w x in
  let cnt := fun x => if N.eqb x off then w_count w x + 1 else w_count w x in
  match w_io w with
  | Some junk :: io => ({| w_disk := set junk; w_shards := w_shards w; w_ver := w_ver w; w_io := io; w_count := cnt; w_fetch := w_fetch w |}, false)
  | _ => ({| w_disk := set p; w_shards := w_shards w; w_ver := w_ver w; w_io := tl (w_io w); w_count := cnt; w_fetch := w_fetch w |}, true)
  end.
(** read_page_from_disk, 964-970 *)
Definition pread (w : world) (off : N) : world * option page :=
  let w' := {| w_disk := w_disk w; w_shards := w_shards w; w_ver := w_ver w; w_io := tl (w_io w); w_count := w_count w; w_fetch := w_fetch w |} in
  match w_io w with Some _ :: _ => (w', None) | _ => (w', Some (w_disk w off)) end.

(** ** DiskPageCache *)
(** pages_.find *)
Fixpoint lookup (off : N) (ps : list (N * entry)) : option entry :=
  match ps with [] => None | (k, e) :: r => if N.eqb k off then Some e else lookup off r end.
Definition drop (off : N) (ps : list (N * entry)) : list (N * entry) := filter (fun ke => negb (N.eqb (fst ke) off)) ps.
Definition replace (off : N) (e : entry) (ps : list (N * entry)) : list (N * entry) :=
  map (fun ke => if N.eqb (fst ke) off then (off, e) else ke) ps.
(** touch, 101-104: the node moves to the front *)
Definition touch (off : N) (lru : list N) : list N := off :: filter (fun x => negb (N.eqb x off)) lru.
(** read, 23-34 *)
Definition c_read (cap : N) (sd : shard) (off : N) : option (page * shard) :=
  if N.eqb cap 0 then None
  else match lookup off (sd_pages sd) with
       | Some (p, _) => Some (p, {| sd_lru := touch off (sd_lru sd); sd_pages := sd_pages sd |})
       | None => None
       end.
Definition back (lru : list N) : res N := match lru with [] => OutOfBounds | x :: r => Ok (last r x) end.
(** evict_excess, 109-121; the loop runs at most once per page *)
Fixpoint evict_excess (n : nat) (cap : N) (w : world) (s : N) : res (world * bool) :=
  let sd := w_shards w s in
  match n with
  | O => Ok (w, true)
  | S n' =>
      if N.leb (N.of_nat (length (sd_pages sd))) cap then Ok (w, true)
      else let* v := back (sd_lru sd) in
           let (w1, ok) := match lookup v (sd_pages sd) with Some (q, true) => pwrite w v q | _ => (w, true) end in
           if negb ok then Ok (w1, false)
           else evict_excess n' cap (set_shard w1 s {| sd_lru := removelast (sd_lru sd); sd_pages := drop v (sd_pages sd) |}) s
  end.
(** write, 36-79; [false]: the flush callback has thrown *)
Definition c_write (cap : N) (w : world) (s off : N) (p : page) (dirty : bool) : res (world * bool) :=
  if N.eqb cap 0 then Ok (w, true)
  else
    let sd := w_shards w s in
    match lookup off (sd_pages sd) with
    | Some (_, d) => Ok (set_shard w s {| sd_lru := touch off (sd_lru sd); sd_pages := replace off (p, d || dirty) (sd_pages sd) |}, true)
    | None =>
        if N.leb cap (N.of_nat (length (sd_pages sd)))
        then
          let* (w1, ok) := evict_excess (length (sd_pages sd)) cap w s in
          if negb ok then Ok (w1, false)
          else
            let sd1 := w_shards w1 s in
            let* v := back (sd_lru sd1) in
            match lookup v (sd_pages sd1) with
            | None => Ok (set_shard w1 s {| sd_lru := off :: removelast (sd_lru sd1); sd_pages := (off, (p, dirty)) :: sd_pages sd1 |}, true)
            | Some (q, d) =>
                let (w2, ok) := if d then pwrite w1 v q else (w1, true) in
                if negb ok then Ok (w2, false)
                else Ok (set_shard w2 s {| sd_lru := off :: removelast (sd_lru sd1); sd_pages := (off, (p, dirty)) :: drop v (sd_pages sd1) |}, true)
            end
        else Ok (set_shard w s {| sd_lru := off :: sd_lru sd; sd_pages := (off, (p, dirty)) :: sd_pages sd |}, true)
    end.
(** flush_dirty, 81-90.  The pages are visited in the order of the hash table,
    here the given one. *)
Fixpoint flush_dirty (w : world) (s : N) (order : list N) : world * bool :=
  match order with
  | [] => (w, true)
  | off :: rest =>
      match lookup off (sd_pages (w_shards w s)) with
      | Some (p, true) =>
          let (w1, ok) := pwrite w off p in
          if negb ok then (w1, false)
          else flush_dirty (set_shard w1 s {| sd_lru := sd_lru (w_shards w s); sd_pages := replace off (p, false) (sd_pages (w_shards w s)) |}) s rest
      | _ => flush_dirty w s rest
      end
  end.

(** ** DiskPageIO *)
(** read_page_locked_off, 950-962 *)
Definition read_locked (k : io_conf) (w : world) (off : N) : res (world * option page) :=
  let s := shard_of k off in
  match c_read (k_cap k) (w_shards w s) off with
  | Some (p, sd) => Ok (set_shard w s sd, Some p)
  | None => match pread w off with
            | (w1, None) => Ok (w1, None)
            | (w1, Some p) => let* (w2, ok) := c_write (k_cap k) w1 s off p false in Ok (w2, if ok then Some p else None)
            end
  end.
(** write_page_locked, 972-987 *)
Definition write_locked (k : io_conf) (w : world) (off : N) (p : page) : res (world * bool) :=
  let* (w1, ok) := if N.eqb (k_cap k) 0 then Ok (pwrite w off p) else c_write (k_cap k) w (shard_of k off) off p true in
  Ok (if ok then bump w1 off else w1, ok).

(** What the threads do.  [Page off p]: the bytes [p] are handed out for page
    [off]; [Threw]: an exception. *)
Inductive answer := Page (off : N) (p : page) | Missed | Acked | Threw | Idle.
Inductive cop :=
  | CRead (off : N)                    (* read_page_locked, under the lock *)
  | CWrite (off : N) (p : page)        (* write_page_locked *)
  | CFlush (s : N) (order : list N)    (* one shard of flush_dirty_pages *)
  | CPeek (t off : N)                  (* search_peek_page *)
  | CFetch (t : N) (torn : page)       (* the device read is over *)
  | CFill (t : N).                     (* search_fill_page *)
Definition cstep (k : io_conf) (w : world) (o : cop) : res (world * answer) :=
  match o with
  | CRead off => let* (w1, r) := read_locked k w off in Ok (w1, match r with Some p => Page off p | None => Threw end)
  | CWrite off p => let* (w1, ok) := write_locked k w off p in Ok (w1, if ok then Acked else Threw)
  (* flush_dirty_pages, 484-493, for one shard *)
  | CFlush s order => let (w1, ok) := flush_dirty w s order in Ok (w1, if ok then Acked else Threw)
  (* search_peek_page 754-762, the first part of read_page_snapshot 791-802,
     the first phase of wave_load_pages 625-645, read_node_reactor 690-699 *)
  | CPeek t off =>
      let s := shard_of k off in
      match c_read (k_cap k) (w_shards w s) off with
      | Some (p, sd) => Ok (set_shard w s sd, Page off p)
      | None => Ok (set_fetch w t (Some {| ft_off := off; ft_ver := w_ver w off; ft_count := w_count w off; ft_buf := None |}), Missed)
      end
  (* The read without the lock.  If the page was written to the device since
     the start the bytes can be anything. *)
  | CFetch t torn =>
      match w_fetch w t with
      | Some f => let buf := if N.eqb (w_count w (ft_off f)) (ft_count f) then w_disk w (ft_off f) else torn in
                  Ok (set_fetch w t (Some {| ft_off := ft_off f; ft_ver := ft_ver f; ft_count := ft_count f; ft_buf := Some buf |}), Idle)
      | None => Ok (w, Idle)
      end
  (* search_fill_page 770-788, the rest of read_page_snapshot 804-821 *)
  | CFill t =>
      match w_fetch w t with
      | Some {| ft_off := off; ft_ver := ver; ft_buf := Some buf |} =>
          let w := set_fetch w t None in
          let s := shard_of k off in
          match c_read (k_cap k) (w_shards w s) off with
          | Some (p, sd) => Ok (set_shard w s sd, Page off p)
          | None =>
              if negb (N.eqb (w_ver w off) ver)
              then let* (w1, r) := read_locked k w off in Ok (w1, match r with Some p => Page off p | None => Threw end)
              else let* (w1, ok) := c_write (k_cap k) w s off buf false in Ok (w1, if ok then Page off buf else Threw)
          end
      | _ => Ok (w, Idle)
      end
  end.
Fixpoint crun (k : io_conf) (w : world) (ops : list cop) : res (world * list answer) :=
  match ops with
  | [] => Ok (w, [])
  | o :: rest => let* (w1, a) := cstep k w o in let* (w2, l) := crun k w1 rest in Ok (w2, a :: l)
  end.
