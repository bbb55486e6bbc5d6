(** Model of src/thread/pthread_win_simple/semaphore_win_simple.c.
    The kernel is a list of named semaphore objects with a value and the number of open handles; an object
    whose last handle is closed is gone. A handle is the index of its object.
    Simplified: one handle table for all processes; error codes of CreateSemaphoreA other than success are
    one parameter. *)
From Verif Require Import CBase ThreadLib CStr.

Definition EINVAL : Z := 22.
Definition ENOMEM : Z := 12.
Definition EEXIST : Z := 17.
Definition ENOENT : Z := 2.
Definition EACCES : Z := 13.
Definition ENOSPC : Z := 28.
Definition EAGAIN : Z := 11.
Definition ETIMEDOUT : Z := 138.
(** semaphore_win_simple.h:59 *)
Definition SEM_VALUE_MAX : Z := two31 - 1.

Record kobj := mk_k { kname : list Z; kval : Z; kmax : Z; krefs : Z }.
Definition kernel : Type := list kobj.
Fixpoint zeqb (a b : list Z) : bool := match a, b with [], [] => true | x :: a, y :: b => (x =? y) && zeqb a b | _, _ => false end.
Fixpoint lookup_from (i : nat) (name : list Z) (k : kernel) : option nat :=
  match k with [] => None | o :: k => if zeqb (kname o) name && (0 <? krefs o) then Some i else lookup_from (S i) name k end.
Definition lookup : list Z -> kernel -> option nat := lookup_from 0.
Definition add_ref (i : nat) (d : Z) (k : kernel) : kernel :=
  match nth_error k i with Some o => lset i (mk_k (kname o) (kval o) (kmax o) (krefs o + d)) k | None => k end.
(** CreateSemaphoreA: an existing object is opened, its value left alone; (handle, existed, kernel) *)
Definition create_semaphore (name : list Z) (v m : Z) (k : kernel) : nat * bool * kernel :=
  match lookup name k with Some i => (i, true, add_ref i 1 k) | None => (length k, false, k ++ [mk_k name v m 1]) end.
(** CloseHandle: false when the handle is not open *)
Definition close_handle (i : nat) (k : kernel) : bool * kernel :=
  match nth_error k i with Some o => if 0 <? krefs o then (true, add_ref i (-1) k) else (false, k) | None => (false, k) end.

(** "Global\" *)
Definition prefix : list Z := [71; 108; 111; 98; 97; 108; 92].
(** why CreateSemaphoreA fails, lines 65-78 *)
Inductive denial := Denied | BadHandle | Other.
Definition errno_of (d : denial) : Z := match d with Denied => EACCES | BadHandle => ENOENT | Other => ENOSPC end.

(** lines 46-61: the name given to the kernel; None: refused. junk: what the stack buffer of 512 bytes holds *)
Definition full_name (junk name : list Z) (value : Z) : outcome (option (list Z)) :=
  let len := s32 (zlen name) in
  if (SEM_VALUE_MAX <? value) || (512 - 8 <? len) || (len <? 1) then Ret None
  else do b <- mwrite junk 0 prefix;
       do src <- mread (name ++ [0]) 0 len;
       do b <- mwrite b 7 src;
       do b <- mstore b (len + 7) 0;
       do s <- cstr_at b 0; Ret (Some s).
(** sem_open_internal, lines 43-96, on a semaphore that is not NULL: errno (0: none), the handle left in the
    semaphore, the kernel *)
Definition open_internal (junk name : list Z) (creat excl : bool) (value : Z) (deny : option denial) (k : kernel) : outcome (Z * option nat * kernel) :=
  do n <- full_name junk name value;
  match n with
  | None => Ret (EINVAL, None, k)
  | Some s =>
      match deny with
      | Some d => Ret (errno_of d, None, k)
      | None =>
          let '(h, existed, k1) := create_semaphore s value SEM_VALUE_MAX k in
          if existed then
            if creat && excl then Ret (EEXIST, Some h, snd (close_handle h k1)) else Ret (0, Some h, k1)
          else if negb creat then Ret (ENOENT, Some h, k1) else Ret (0, Some h, k1)
      end
  end.

(** 16 hexadecimal digits, what %p prints (lines 112-120) *)
Fixpoint hex (n : nat) (x : Z) : list Z :=
  match n with O => [] | S n => hex n (x / 16) ++ [let d := x mod 16 in if d <? 10 then 48 + d else 55 + d] end.
(** sem_init, lines 110-124, for the semaphore at an address *)
Definition init_name (addr : Z) : outcome (list Z) :=
  do r <- snprintf_at (repeat 0 24) 0 24 (prefix ++ hex 16 addr); cstr_at (fst r) 0.
Definition sem_init (junk : list Z) (addr : Z) (value : Z) (deny : option denial) (k : kernel) : outcome (Z * option nat * kernel) :=
  if SEM_VALUE_MAX <? value then Ret (EINVAL, None, k)
  else do n <- init_name addr; open_internal junk n true true value deny k.

(** sem_open, lines 357-372: errno, the semaphore (its handle), the kernel; mem: calloc succeeds *)
Definition sem_open (mem : bool) (junk name : list Z) (creat excl : bool) (value : Z) (deny : option denial) (k : kernel) : outcome (Z * option nat * kernel) :=
  if negb mem then Ret (ENOMEM, None, k)
  else do r <- open_internal junk name creat excl value deny k;
       let '(e, h, k1) := r in Ret (e, (if e =? 0 then h else None), k1).
(** sem_destroy and sem_close, lines 321-341 and 382-385: errno, whether the memory is freed, the kernel *)
Definition sem_close (h : nat) (internal : bool) (k : kernel) : Z * bool * kernel :=
  let '(ok, k1) := close_handle h k in ((if ok then 0 else EINVAL), internal, k1).

(** arch_rel_time_in_ms, lines 192-222: the time left, in milliseconds, for the deadline sec.nsec when the
    system time is ft (100 ns units since 1601) *)
Definition i64 (x : Z) : outcome Z := if (- (two64 / 2) <=? x) && (x <? two64 / 2) then Ret x else Ub.
Definition DELTA : Z := 116444736000000000.
Definition rel_ms (sec nsec ft : Z) : outcome Z :=
  do a <- i64 (sec * 1000);
  do t1 <- i64 (a + Z.quot nsec 1000000);
  do b <- i64 (ft - DELTA);
  do t <- i64 (t1 - Z.quot b 10000);
  Ret (if (t <? 0) || (4294967295 <=? t) then 0 else t).

(** The operations of any number of threads on one open semaphore, one step per kernel call.
    pcs: W sem_wait (line 142), T sem_trywait (167), D sem_timedwait (244), P sem_post (273), G1, G2
    sem_getvalue (294, 297) *)
Inductive pc := Idle | PW | PT | PD | PP | G1 | G2.
(** results: errno (0: none); getvalue: the value *)
Inductive ev := EWait (t : nat) (e : Z) | ETry (t : nat) (e : Z) | ETimed (t : nat) (e : Z) | EPost (t : nat) (e : Z) | EGet (t : nat) (e v : Z).
Record sst := mk_s { sv : Z; smax : Z; pcs : list pc; slog : list ev }.
Definition s_init (n : nat) (v m : Z) : sst := mk_s v m (repeat Idle n) [].
Definition fin (s : sst) (v : Z) (t : nat) (e : ev) : option sst := Some (mk_s v (smax s) (lset t Idle (pcs s)) (e :: slog s)).
Definition goto (s : sst) (v : Z) (t : nat) (p : pc) : option sst := Some (mk_s v (smax s) (lset t p (pcs s)) (slog s)).
Definition exec (t : nat) (s : sst) : option sst :=
  match nth_error (pcs s) t with
  | None | Some Idle => None
  | Some PW => if 0 <? sv s then fin s (sv s - 1) t (EWait t 0) else None
  | Some PT => if 0 <? sv s then fin s (sv s - 1) t (ETry t 0) else fin s (sv s) t (ETry t EAGAIN)
  | Some PD => if 0 <? sv s then fin s (sv s - 1) t (ETimed t 0) else None
  | Some PP => if sv s <? smax s then fin s (sv s + 1) t (EPost t 0) else fin s (sv s) t (EPost t EINVAL)
  | Some G1 => if 0 <? sv s then goto s (sv s - 1) t G2 else fin s (sv s) t (EGet t 0 0)
  | Some G2 => if sv s <? smax s then fin s (sv s + 1) t (EGet t 0 (sv s + 1)) else fin s (sv s) t (EGet t EINVAL 0)
  end.
Inductive act := AStep (t : nat) | ATimeout (t : nat) | ACall (t : nat) (p : pc).
Definition callable (p : pc) : bool := match p with PW | PT | PD | PP | G1 => true | _ => false end.
Definition do_act (a : act) (s : sst) : option sst :=
  match a with
  | AStep t => exec t s
  | ATimeout t => match nth_error (pcs s) t with Some PD => if 0 <? sv s then None else fin s (sv s) t (ETimed t ETIMEDOUT) | _ => None end
  | ACall t p => match nth_error (pcs s) t with Some Idle => if callable p then goto s (sv s) t p else None | _ => None end
  end.
Fixpoint run (l : list act) (s : sst) : option sst :=
  match l with [] => Some s | a :: r => match do_act a s with Some s' => run r s' | None => None end end.
