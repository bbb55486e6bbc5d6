(** Model of src/mem/allocation_tracker.c and src/mem/allocator.c.
    Memory: live blocks by base address. The C library's malloc is a parameter (which address and bytes it
    returns, or NULL). The hash map of allocations is a finite map, as proved for src/data/hashmap.c (C12-C15);
    the order in which hashmap_foreach visits it is a parameter. The file/function/line recorded for reports
    and the map's lock are not modelled (each function is one atomic step). *)
From Verif Require Import CBase CStr.

(** canary, src/mem/allocation_tracker.c:60: "tinybird"; canary_size is 8 once initialised (line 92) *)
Definition canary : list Z := [116;105;110;121;98;105;114;100].
Definition canary_size : Z := 8.
(** ALLOCTOR_ID, src/mem/allocator.c:37 *)
Definition ALLOCTOR_ID : Z := 99.

(** allocation_t, src/mem/allocation_tracker.c:38-50; ptr is the map's key *)
Record alloc := { a_id : Z; a_size : Z; a_freed : bool }.
(** the tracker (on: allocations != NULL, lines 62-64) and the heap *)
Record st := { on : bool; amap : list (Z * alloc); hp : Z -> option (list Z) }.
Definition hset (h : Z -> option (list Z)) (a : Z) (v : option (list Z)) : Z -> option (list Z) :=
  fun b => if b =? a then v else h b.
(** malloc: for a size, NULL or an address and the bytes found there *)
Definition libc := Z -> option (Z * list Z).
(** whether calloc(sizeof(allocation_t)) and hashmap_put (its internal calloc) succeed *)
Record meta := { calloc_ok : bool; put_ok : bool }.

(** hashmap_get / hashmap_put / hashmap_remove *)
Fixpoint mget (m : list (Z * alloc)) (p : Z) : option alloc :=
  match m with [] => None | (q, al) :: m => if q =? p then Some al else mget m p end.
Definition mdel (m : list (Z * alloc)) (p : Z) : list (Z * alloc) := filter (fun x => negb (fst x =? p)) m.
Definition mset (m : list (Z * alloc)) (p : Z) (al : alloc) : list (Z * alloc) := (p, al) :: mdel m p.

(** allocation_tracker_resize_for_canary, src/mem/allocation_tracker.c:216-219; size_t arithmetic wraps *)
Definition resize_for_canary (s : st) (size : Z) : Z := if on s then u64 (size + 2 * canary_size) else size.

(** allocation_tracker_notify_alloc, src/mem/allocation_tracker.c:144-183. [ptr] is 0 for NULL.
    An existing entry of the map is updated in place; a failed hashmap_put is ignored by the code. *)
Definition notify_alloc (mt : meta) (s : st) (id ptr size : Z) : outcome (Z * st) :=
  if negb (on s) || (ptr =? 0) then Ret (ptr, s)                         (* 147-150 *)
  else
    let rp := ptr + canary_size in                                       (* 151-152 *)
    do m <- match mget (amap s) rp with                                  (* 154 *)
            | Some al => if a_freed al then Ret (mset (amap s) rp {| a_id := id; a_size := size; a_freed := false |})
                         else Abrt                                       (* 157 *)
            | None => if calloc_ok mt then                               (* 161-162 *)
                        if put_ok mt then Ret (mset (amap s) rp {| a_id := id; a_size := size; a_freed := false |})   (* 163-168 *)
                        else Ret (amap s)
                      else Abrt
            end;
    do blk <- match hp s ptr with Some b => Ret b | None => Ub end;
    do blk <- mwrite blk 0 canary;                                       (* 180 *)
    do blk <- mwrite blk (canary_size + size) canary;                    (* 181 *)
    Ret (rp, {| on := on s; amap := m; hp := hset (hp s) ptr (Some blk) |}).

(** allocation_memory_corruption_checker, src/mem/allocation_tracker.c:221-239 *)
Fixpoint check_canary (fuel : nat) (blk : list Z) (size i : Z) : outcome unit :=
  match fuel with
  | O => Ret tt
  | S fuel =>
    do b <- mload blk i;
    do k <- mload canary i;
    if negb (b =? k) then Abrt
    else do e <- mload blk (canary_size + size + i);
         if negb (e =? k) then Abrt else check_canary fuel blk size (i + 1)
  end.
Definition corruption_checker (s : st) (p : Z) (al : alloc) : outcome unit :=
  match hp s (p - canary_size) with
  | Some blk => check_canary 8 blk (a_size al) 0
  | None => Ub
  end.

(** allocation_tracker_notify_free, src/mem/allocation_tracker.c:185-202 *)
Definition notify_free (s : st) (id p : Z) : outcome (Z * st) :=
  if negb (on s) || (p =? 0) then Ret (p, s)                             (* 187-190 *)
  else match mget (amap s) p with                                        (* 191 *)
  | None => Abrt                                                         (* 192 *)
  | Some al =>
    if a_freed al then Abrt                                              (* 193 *)
    else if negb (a_id al =? id) then Abrt                               (* 194 *)
    else do _ <- corruption_checker s p al;                              (* 195-196 *)
         Ret (p - canary_size, {| on := on s; amap := mdel (amap s) p; hp := hp s |})   (* 200-201 *)
  end.

(** allocation_tracker_ptr_size, src/mem/allocation_tracker.c:204-214 *)
Definition ptr_size (s : st) (id p : Z) : outcome Z :=
  if negb (on s) || (p =? 0) then Ret 0
  else match mget (amap s) p with
  | None => Abrt
  | Some al => if negb (a_id al =? id) then Abrt else Ret (a_size al)
  end.

(** allocation_tracker_expect_no_allocations, src/mem/allocation_tracker.c:128-142, with
    allocation_entry_freed_checker, lines 241-263, for the entries in the order hashmap_foreach visits them.
    Result: the byte count and the (pointer, size) reports, last report first *)
Fixpoint expect_loop (s : st) (order : list (Z * alloc)) (sum : Z) (reports : list (Z * Z)) : outcome (Z * list (Z * Z)) :=
  match order with
  | [] => Ret (sum, reports)
  | (p, al) :: order =>
    if a_freed al then expect_loop s order sum reports
    else do _ <- corruption_checker s p al;                              (* 248 *)
         expect_loop s order (u64 (sum + a_size al)) ((p, a_size al) :: reports)   (* 247, 251-253 *)
  end.
Definition expect_no_allocations (s : st) (order : list (Z * alloc)) : outcome (Z * list (Z * Z)) :=
  if negb (on s) then Ret (0, []) else expect_loop s order 0 [].

(** allocation_tracker_init, lines 86-103 (the map is created); allocation_tracker_uninit, lines 106-117;
    allocation_tracker_reset, lines 119-126 *)
Definition tracker_init (s : st) : st := if on s then s else {| on := true; amap := []; hp := hp s |}.
Definition tracker_uninit (s : st) : st := if on s then {| on := false; amap := []; hp := hp s |} else s.
Definition tracker_reset (s : st) : st := {| on := on s; amap := []; hp := hp s |}.

(** malloc(n), calloc(1, n), free of the C library *)
Definition c_malloc (lc : libc) (s : st) (n : Z) : Z * st :=
  match lc n with
  | None => (0, s)
  | Some (a, bytes) => (a, {| on := on s; amap := amap s; hp := hset (hp s) a (Some bytes) |})
  end.
Definition c_calloc (lc : libc) (s : st) (n : Z) : Z * st :=
  match lc n with
  | None => (0, s)
  | Some (a, _) => (a, {| on := on s; amap := amap s; hp := hset (hp s) a (Some (repeat 0 (Z.to_nat n))) |})
  end.
Definition c_free (s : st) (a : Z) : outcome st :=
  match hp s a with
  | Some _ => Ret {| on := on s; amap := amap s; hp := hset (hp s) a None |}
  | None => Ub
  end.

(** lcu_malloc_trace, src/mem/allocator.c:92-101 (and lcu_malloc, 103-106) *)
Definition lcu_malloc (lc : libc) (mt : meta) (s : st) (size : Z) : outcome (Z * st) :=
  let '(ptr, s) := c_malloc lc s (resize_for_canary s size) in
  if ptr =? 0 then Ret (0, s) else notify_alloc mt s ALLOCTOR_ID ptr size.

(** lcu_calloc_trace, src/mem/allocator.c:108-118: item_count * item_size is size_t *)
Definition lcu_calloc (lc : libc) (mt : meta) (s : st) (count size : Z) : outcome (Z * st) :=
  let request := u64 (count * size) in
  let '(ptr, s) := c_calloc lc s (resize_for_canary s request) in
  if ptr =? 0 then Ret (0, s) else notify_alloc mt s ALLOCTOR_ID ptr request.

(** the block a user pointer points into and the offset of the pointer in it *)
Definition user_base (s : st) (p : Z) : Z := if on s then p - canary_size else p.
Definition user_off (s : st) : Z := if on s then canary_size else 0.
(** memcpy(p, bytes, n) through a user pointer *)
Definition user_write (s : st) (p off : Z) (bytes : list Z) : outcome st :=
  match hp s (user_base s p) with
  | None => Ub
  | Some blk => do blk <- mwrite blk (user_off s + off) bytes;
                Ret {| on := on s; amap := amap s; hp := hset (hp s) (user_base s p) (Some blk) |}
  end.
Definition user_read (s : st) (p n : Z) : outcome (list Z) :=
  match hp s (user_base s p) with
  | None => Ub
  | Some blk => mread blk (user_off s) n
  end.

(** lcu_strdup_trace, src/mem/allocator.c:39-56; [str]: the text without its terminator *)
Definition lcu_strdup (lc : libc) (mt : meta) (s : st) (str : list Z) : outcome (Z * st) :=
  let size := zlen str + 1 in
  let '(ptr, s) := c_malloc lc s (resize_for_canary s size) in
  if ptr =? 0 then Ret (0, s)
  else do (p, s) <- notify_alloc mt s ALLOCTOR_ID ptr size;
       do s <- user_write s p 0 (str ++ [0]);
       Ret (p, s).
(** lcu_strndup_trace, src/mem/allocator.c:63-85 *)
Definition lcu_strndup (lc : libc) (mt : meta) (s : st) (str : list Z) (len : Z) : outcome (Z * st) :=
  let size := if len <? zlen str then len else zlen str in               (* 65-69 *)
  let '(ptr, s) := c_malloc lc s (resize_for_canary s (size + 1)) in
  if ptr =? 0 then Ret (0, s)
  else do (p, s) <- notify_alloc mt s ALLOCTOR_ID ptr (size + 1);
       do s <- user_write s p 0 (ztake size str);                        (* 82 *)
       do s <- user_write s p size [0];                                  (* 83 *)
       Ret (p, s).

(** lcu_free, src/mem/allocator.c:172-183 *)
Definition lcu_free (s : st) (p : Z) : outcome st :=
  if p =? 0 then Ret s
  else do (rp, s) <- notify_free s ALLOCTOR_ID p;
       if rp =? 0 then Ret s else c_free s rp.

(** lcu_realloc_trace, src/mem/allocator.c:131-165; size + 2048U is size_t *)
Definition lcu_realloc (lc : libc) (mt : meta) (s : st) (p size : Z) : outcome (Z * st) :=
  if size =? 0 then                                                      (* 133-141 *)
    (if p =? 0 then Ret (0, s) else do s <- lcu_free s p; Ret (0, s))
  else if p =? 0 then lcu_malloc lc mt s (u64 (size + 2048))             (* 143-147 *)
  else
    do cur <- ptr_size s ALLOCTOR_ID p;                                  (* 149 *)
    if negb (cur =? 0) && (size <=? cur) then Ret (p, s)                 (* 150-154 *)
    else
      do (np, s) <- lcu_malloc lc mt s (u64 (size + 2048));              (* 157 *)
      if np =? 0 then Ret (0, s)                                         (* 158-161 *)
      else
        do bytes <- user_read s p cur;
        do s <- user_write s np 0 bytes;                                 (* 162 *)
        do s <- lcu_free s p;                                            (* 163 *)
        Ret (np, s).
