(** Model of the life cycle (create, destroy, growth of internal buffers) of the objects of src/ring, src/mem/
    stringbuilder.c and src/log/file_logger.c, at the level of allocated blocks and the pointers stored in them.
    A block is a list of cells, one per structure member that holds a pointer or a flag (numbers are kept only where
    a member exists to be skipped). A pointer is a block and a cell offset: structures embedded in a larger block
    have an offset above 0 and cannot be passed to free. Running threads and open files are blocks as well: they are
    created by pthread_create/fopen and released by pthread_join/fclose.
    Simplified: the contents of data areas are in the other models (C01-C09, C23, C29, C30, C44); a worker thread
    makes its own allocations when it is joined, not before. *)
From Verif Require Import CBase RingBuffer2Model.

Inductive val := VU | V0 | VT | VI (z : Z) | VP (b o : nat).    (* uninitialised, NULL/false/0, true, number, pointer *)
(** mine: obtained by the library; otherwise it belongs to the caller *)
Record block := mk_b { mine : bool; cells : list val }.
(** orc: the answers of malloc, sem_init, pthread_create, fopen to come, in order (success once the list is used up) *)
Record st := mk_s { orc : list bool; hp : nat -> option block; nxt : nat }.
Definition M (A : Type) : Type := st -> outcome (A * st).
Definition ret {A} (a : A) : M A := fun s => Ret (a, s).
Definition bnd {A B} (m : M A) (f : A -> M B) : M B := fun s => match m s with Ret (a, s') => f a s' | Ub => Ub | Abrt => Abrt | NoFuel => NoFuel end.
Notation "x <-- m ;; k" := (bnd m (fun x => k)) (at level 90, m at level 89, k at level 90, right associativity).
Notation "m ;;; k" := (bnd m (fun _ => k)) (at level 90, k at level 90, right associativity).
Definition ubm {A} : M A := fun _ => Ub.
Definition upd (h : nat -> option block) (b : nat) (x : option block) : nat -> option block := fun c => if Nat.eqb c b then x else h c.
Definition tick : M bool := fun s => match orc s with [] => Ret (true, s) | b :: t => Ret (b, mk_s t (hp s) (nxt s)) end.
Definition fresh (own : bool) (c : list val) : M val := fun s => Ret (VP (nxt s) 0, mk_s (orc s) (upd (hp s) (nxt s) (Some (mk_b own c))) (S (nxt s))).
(** malloc, calloc *)
Definition malloc_ (n : nat) : M val := ok <-- tick ;; if ok then fresh true (repeat VU n) else ret V0.
Definition calloc_ (n : nat) : M val := ok <-- tick ;; if ok then fresh true (repeat V0 n) else ret V0.
(** free *)
Definition free_ (p : val) : M unit := fun s =>
  match p with
  | V0 => Ret (tt, s)
  | VP b O => match hp s b with Some (mk_b true _) => Ret (tt, mk_s (orc s) (upd (hp s) b None) (nxt s)) | _ => Ub end
  | _ => Ub
  end.
Definition load (p : val) (i : nat) : M val := fun s =>
  match p with
  | VP b o => match hp s b with Some k => match nth_error (cells k) (o + i) with Some VU => Ub | Some v => Ret (v, s) | None => Ub end | None => Ub end
  | _ => Ub
  end.
Fixpoint lput (n : nat) (x : val) (l : list val) : option (list val) :=
  match l, n with
  | _ :: l, O => Some (x :: l)
  | a :: l, S n => match lput n x l with Some l' => Some (a :: l') | None => None end
  | [], _ => None
  end.
Definition store (p : val) (i : nat) (v : val) : M unit := fun s =>
  match p with
  | VP b o => match hp s b with
              | Some k => match lput (o + i) v (cells k) with Some c => Ret (tt, mk_s (orc s) (upd (hp s) b (Some (mk_b (mine k) c))) (nxt s)) | None => Ub end
              | None => Ub end
  | _ => Ub
  end.
Definition isnull (v : val) : M bool := match v with V0 => ret true | VP _ _ => ret false | _ => ubm end.
Definition truth (v : val) : M bool := match v with V0 => ret false | VT => ret true | _ => ubm end.
Definition off (p : val) (n : nat) : val := match p with VP b o => VP b (o + n) | v => v end.
Definition pure {A} (o : outcome A) : M A := fun s => match o with Ret a => Ret (a, s) | Ub => Ub | Abrt => Abrt | NoFuel => NoFuel end.

(** ** src/ring/ringbuffer.c: cells 0 need_free_myself, 1 in, 2 out, 3 size, 4 buf (lines 50-57) *)
(** RingBuffer_create_with_mem, lines 62-88 *)
Definition rb_with_mem (buf : val) (buf_size : Z) : M val :=
  n <-- isnull buf ;; if n then ret V0
  else if buf_size <? u32 (24 + 4) then ret V0
  else let sz := u32 (buf_size - 24) in
       sz2 <-- pure (if is_power_of_2 sz then Ret sz else do r <- roundup_pow_of_two sz; Ret (Z.shiftr r 1)) ;;
       store buf 0 V0 ;;; store buf 4 (off buf 5) ;;; store buf 3 (VI sz2) ;;; store buf 1 (VI 0) ;;; store buf 2 (VI 0) ;;; ret buf.
(** RingBuffer_create, lines 90-119 *)
Definition rb_create_ (buf_size : Z) : M val :=
  if buf_size <? 2 then ret V0
  else sz <-- pure (if is_power_of_2 buf_size then Ret buf_size else roundup_pow_of_two buf_size) ;;
       raw <-- calloc_ 5 ;;
       n <-- isnull raw ;; if n then ret V0
       else r <-- rb_with_mem raw (u32 (24 + sz)) ;;
            n <-- isnull r ;; if n then free_ raw ;;; ret V0 else store r 0 VT ;;; ret r.
(** RingBuffer_destroy, lines 121-139: takes the variable's value, gives its new value *)
Definition rb_destroy_ (v : val) : M val :=
  n <-- isnull v ;; if n then ret v
  else store v 1 (VI 0) ;;; store v 2 (VI 0) ;;; store v 3 (VI 0) ;;;
       own <-- load v 0 ;; own <-- truth own ;;
       (if own then store v 4 V0 ;;; store v 0 V0 ;;; free_ v else ret tt) ;;; ret V0.

(** ** src/ring/ring_buf.c: cells 0 need_free_myself, 1 pbuf, 2 size, 3 offset_read, 4 offset_write (lines 17-24) *)
(** ring_buf_create_with_mem, lines 30-48 *)
Definition rg_with_mem (buf : val) (buf_size : Z) : M val :=
  n <-- isnull buf ;; if n then ret V0
  else if buf_size <? 40 + 3 then ret V0
  else store buf 0 V0 ;;; store buf 2 (VI (buf_size - 40)) ;;; store buf 1 (off buf 5) ;;; store buf 4 (VI 0) ;;; store buf 3 (VI 0) ;;; ret buf.
(** ring_buf_create, lines 50-73 *)
Definition rg_create (size : Z) : M val :=
  if size <? 3 then ret V0
  else raw <-- malloc_ 5 ;;
       n <-- isnull raw ;; if n then ret V0
       else r <-- rg_with_mem raw (u64 (size + 40)) ;;
            n <-- isnull r ;; if n then free_ raw ;;; ret V0 else store r 0 VT ;;; ret r.
(** ring_buf_destroy, lines 182-200 *)
Definition rg_destroy (v : val) : M val :=
  n <-- isnull v ;; if n then ret v
  else own <-- load v 0 ;; own <-- truth own ;;
       (if own then store v 0 V0 ;;; store v 1 V0 ;;; free_ v else ret tt) ;;; ret V0.

(** ** src/ring/msg_queue.c: cell 0 ring_buf_p, the ring structure follows (lines 6-9, 28-29) *)
(** msg_queue_create, lines 16-36 *)
Definition mq_create_ (buf_size : Z) : M val :=
  if buf_size <? 4 + 4 then ret V0
  else q <-- malloc_ 6 ;;
       n <-- isnull q ;; if n then ret V0
       else r <-- rb_with_mem (off q 1) buf_size ;;
            store q 0 r ;;; n <-- isnull r ;; if n then free_ q ;;; ret V0 else ret q.
(** msg_queue_destroy, lines 120-129: the variable's value is dereferenced without a test *)
Definition mq_destroy (v : val) : M val :=
  r <-- load v 0 ;; n <-- isnull r ;; if n then ret v
  else r' <-- rb_destroy_ r ;; store v 0 r' ;;; free_ v ;;; ret V0.

(** ** src/ring/fixed_msg_queue.c: cells 0 ring_buf_p, 1 one_msg_byte_size, then the ring structure (lines 6-10) *)
(** fixed_msg_queue_create, lines 12-35; the product is computed in 32 bits *)
Definition fq_create_ (one cap : Z) : M val :=
  if (one <? 1) || (cap <? 1) then ret V0
  else q <-- malloc_ 7 ;;
       n <-- isnull q ;; if n then ret V0
       else store q 1 (VI one) ;;; r <-- rb_with_mem (off q 2) (u32 (one * cap)) ;;
            store q 0 r ;;; n <-- isnull r ;; if n then free_ q ;;; ret V0 else ret q.
(** fixed_msg_queue_destroy, lines 87-97 *)
Definition fq_destroy (v : val) : M val :=
  n <-- isnull v ;; if n then ret v
  else r <-- load v 0 ;; r' <-- rb_destroy_ r ;; store v 0 r' ;;; free_ v ;;; ret V0.

(** ** src/ring/autocover_buffer.c: cell 0 ring *)
(** auto_cover_buf_create, lines 28-51 *)
Definition ac_create_ (cap : Z) : M val :=
  a <-- calloc_ 1 ;;
  n <-- isnull a ;; if n then ret V0
  else r <-- rb_create_ cap ;; store a 0 r ;;; n <-- isnull r ;; if n then free_ a ;;; ret V0 else ret a.
(** auto_cover_buf_destroy, lines 170-180 *)
Definition ac_destroy (v : val) : M val :=
  n <-- isnull v ;; if n then ret v
  else r <-- load v 0 ;; r' <-- rb_destroy_ r ;; store v 0 r' ;;; free_ v ;;; ret V0.

(** ** src/mem/stringbuilder.c: cell 0 buffer *)
(** stringbuilder_create, lines 18-40 *)
Definition sb_create_ : M val :=
  b <-- malloc_ 1 ;;
  n <-- isnull b ;; if n then ret V0
  else d <-- malloc_ 1 ;;
       n <-- isnull d ;; if n then free_ b ;;; ret V0 else store b 0 d ;;; ret b.
(** stringbuilder_destroy, lines 42-53 *)
Definition sb_destroy (v : val) : M val :=
  n <-- isnull v ;; if n then ret v
  else d <-- load v 0 ;; free_ d ;;; store v 0 V0 ;;; free_ v ;;; ret V0.
(** realloc: a new block, the old one released; or nothing *)
Definition realloc_ (p : val) (n : nat) : M val :=
  ok <-- tick ;; if ok then q <-- fresh true (repeat VU n) ;; free_ p ;;; ret q else ret V0.
(** sb_ensure_space when the buffer is too small, lines 77-83 *)
Definition sb_grow (v : val) : M Z :=
  d <-- load v 0 ;; d' <-- realloc_ d 1 ;; n <-- isnull d' ;; if n then ret (-4) else store v 0 d' ;;; ret 0.

(** ** src/thread/portable_thread_posix.c *)
(** portable_sem_init, lines 239-263: the new value of the variable *)
Definition sem_init_ : M val :=
  p <-- malloc_ 1 ;;
  n <-- isnull p ;; if n then ret V0
  else ok <-- tick ;; if ok then store p 0 (VI 0) ;;; ret p else free_ p ;;; ret V0.
(** portable_sem_post, lines 279-289 *)
Definition sem_post_ (v : val) : M unit := n <-- isnull v ;; if n then ret tt else load v 0 ;;; ret tt.
(** portable_sem_destroy, lines 305-318 *)
Definition sem_destroy_ (v : val) : M val := n <-- isnull v ;; if n then ret v else load v 0 ;;; free_ v ;;; ret V0.
(** portable_thread_create, lines 44-76: the thread is a block holding its argument *)
Definition thread_create_ (arg : val) : M val :=
  p <-- malloc_ 1 ;;
  n <-- isnull p ;; if n then ret V0
  else ok <-- tick ;; if ok then t <-- fresh true [arg] ;; store p 0 t ;;; ret p else free_ p ;;; ret V0.

(** ** handlers: src/ring/msg_queue_handler.c, src/ring/fixed_msg_queue_handler.c (fixed = true), src/log/file_logger.c *)
(** handler: cells 0 user_data, 1 fn_handle_msg (VT: file_logger's), 2 flag2exit, 3 thread_handler, 4 semaphore, 5 msg_queue_p.
    file logger: cells 0 msg_queue, 1 cur_fp, 2 msg_cache_p *)
(** what a worker does before it exits *)
Inductive wev := WGrow | WMsg (piece_full : bool).
(** handle_log_queue_msg, src/log/file_logger.c:207-252 *)
Definition fl_handle (u : val) (piece_full : bool) : M unit :=
  f <-- load u 1 ;; n <-- isnull f ;;
  (if n then ok <-- tick ;; if ok then f' <-- fresh true [VI 0] ;; store u 1 f' else ret tt else ret tt) ;;;   (* 214-225 fopen *)
  f <-- load u 1 ;; n <-- isnull f ;; if n then ret tt
  else if piece_full then free_ f ;;; store u 1 V0 else ret tt.                                              (* 245-250 fclose *)
(** the loop of thread_worker_handle_msg, src/ring/msg_queue_handler.c:62-101: the final value of poped_msg_buf *)
Fixpoint wloop (l : list wev) (h buf : val) : M val :=
  match l with
  | [] => ret buf
  | WGrow :: l => free_ buf ;;; buf' <-- malloc_ 1 ;; n <-- isnull buf' ;; if n then ret buf' else wloop l h buf'   (* 76-87 *)
  | WMsg f :: l => cb <-- load h 1 ;; cb <-- truth cb ;; (if cb then u <-- load h 0 ;; fl_handle u f else ret tt) ;;; wloop l h buf
  end.
(** thread_worker_handle_msg, lines 44-111; thread_fun_handle_msg, fixed_msg_queue_handler.c:39-77 (no buffer) *)
Definition worker (fixed : bool) (l : list wev) (h : val) : M unit :=
  if fixed then store h 2 VT
  else buf <-- malloc_ 1 ;;
       n <-- isnull buf ;; if n then store h 2 VT
       else buf' <-- wloop l h buf ;; store h 2 VT ;;; free_ buf'.
(** portable_thread_join, portable_thread_posix.c:79-91 *)
Definition thread_join_ (fixed : bool) (l : list wev) (p : val) : M unit :=
  n <-- isnull p ;; if n then ret tt
  else t <-- load p 0 ;; arg <-- load t 0 ;; worker fixed l arg ;;; free_ t ;;; free_ p.
Definition q_create (fixed : bool) (n : Z) : M val := if fixed then fq_create_ 1048 n else mq_create_ n.   (* sizeof(fixed_handler_msg_t) *)
Definition q_destroy (fixed : bool) (v : val) : M val := if fixed then fq_destroy v else mq_destroy v.
(** msg_queue_handler_destroy, msg_queue_handler.c:167-190; fixed_msg_queue_handler.c:158-181 *)
Definition hd_destroy (fixed : bool) (l : list wev) (v : val) : M val :=
  n <-- isnull v ;; if n then ret v
  else store v 2 VT ;;; s <-- load v 4 ;; sem_post_ s ;;;
       t <-- load v 3 ;; n <-- isnull t ;; (if n then ret tt else thread_join_ fixed l t) ;;;
       s <-- load v 4 ;; s' <-- sem_destroy_ s ;; store v 4 s' ;;;
       q <-- load v 5 ;; n <-- isnull q ;; (if n then ret tt else q' <-- q_destroy fixed q ;; store v 5 q') ;;;
       store v 5 V0 ;;; free_ v ;;; ret V0.
(** msg_queue_handler_create, msg_queue_handler.c:113-141 (size at least 4); fixed_msg_queue_handler.c:79-107 (at least 2) *)
Definition hd_create (fixed : bool) (n : Z) (user_data cb : val) : M val :=
  if n <? (if fixed then 2 else 4) then ret V0
  else h <-- calloc_ 6 ;;
       z <-- isnull h ;; if z then ret V0
       else store h 2 V0 ;;; store h 0 user_data ;;; store h 1 cb ;;;
            s <-- sem_init_ ;; store h 4 s ;;;
            q <-- q_create fixed n ;; store h 5 q ;;;
            z <-- isnull q ;;
            bad <-- (if z then ret true else t <-- thread_create_ h ;; store h 3 t ;;; isnull t) ;;
            if bad then hd_destroy fixed [] h ;;; ret V0 else ret h.
(** file_logger_init, file_logger.c:54-120: len = strlen of the folder, qs = log_queue_size, rep: strreplace returns a
    string and not NULL (line 96) *)
Definition fl_init (len qs : Z) (rep : bool) : M val :=
  if len <? 2 then ret V0 else if qs <? 2 then ret V0
  else msg <-- calloc_ 1 ;;
       n <-- isnull msg ;; if n then ret V0
       else h <-- calloc_ 3 ;;
            n <-- isnull h ;; if n then free_ msg ;;; ret V0
            else store h 2 msg ;;; q <-- hd_create false (u32 (qs * 1024)) h VT ;; store h 0 q ;;;
                 n <-- isnull q ;; if n then free_ msg ;;; free_ h ;;; ret V0
                 else p <-- (if rep then fresh true [VI 0] else ret V0) ;; load p 0 ;;; free_ p ;;; ret h.
(** file_logger_log: growth of the message cache, lines 131-143 *)
Definition fl_grow (v : val) : M bool :=
  c <-- load v 2 ;; c' <-- realloc_ c 1 ;; n <-- isnull c' ;; if n then ret false else store v 2 c' ;;; ret true.
(** file_logger_deinit, lines 180-205: result and new value of the variable *)
Definition fl_deinit (l : list wev) (v : val) : M (Z * val) :=
  n <-- isnull v ;; if n then ret (-1, v)
  else q <-- load v 0 ;; n <-- isnull q ;; (if n then ret tt else q' <-- hd_destroy false l q ;; store v 0 q') ;;;
       c <-- load v 2 ;; n <-- isnull c ;; (if n then ret tt else free_ c ;;; store v 2 V0) ;;;
       f <-- load v 1 ;; n <-- isnull f ;; (if n then ret tt else free_ f ;;; store v 1 V0) ;;;
       free_ v ;;; ret (0, V0).

(** ** Programs: variables of the handle types *)
Inductive kind := KRing | KRingMem | KRg | KRgMem | KMq | KFq | KAc | KSb | KHd | KFhd | KFl.
(** n, m: the size arguments; for a file logger: the queue size and the length of the folder name *)
Definition create (k : kind) (n m : Z) (rep : bool) : M val :=
  match k with
  | KRing => rb_create_ n
  | KRingMem => u <-- fresh false (repeat VU 5) ;; rb_with_mem u n        (* a buffer of the caller *)
  | KRg => rg_create n
  | KRgMem => u <-- fresh false (repeat VU 5) ;; rg_with_mem u n
  | KMq => mq_create_ n
  | KFq => fq_create_ n m
  | KAc => ac_create_ n
  | KSb => sb_create_
  | KHd => hd_create false n V0 V0
  | KFhd => hd_create true n V0 V0
  | KFl => fl_init m n rep
  end.
Definition destroy (k : kind) (l : list wev) (v : val) : M val :=
  match k with
  | KRing | KRingMem => rb_destroy_ v
  | KRg | KRgMem => rg_destroy v
  | KMq => mq_destroy v
  | KFq => fq_destroy v
  | KAc => ac_destroy v
  | KSb => sb_destroy v
  | KHd => hd_destroy false l v
  | KFhd => hd_destroy true l v
  | KFl => r <-- fl_deinit l v ;; ret (snd r)
  end.
(** growing the buffer of a string builder or file logger *)
Definition grow (k : kind) (v : val) : M unit :=
  match k with
  | KSb => sb_grow v ;;; ret tt
  | KFl => fl_grow v ;;; ret tt
  | _ => ret tt
  end.
Inductive op := Create (x : nat) (n m : Z) (rep : bool) | Destroy (x : nat) (l : list wev) | Grow (x : nat).
