(** Model of the reader/writer lock of src/thread/pthread_win_simple/pthread_win_simple.c (lines 325-463):
    any number of threads that take and release one initialised lock, one step per statement that touches
    shared data, in every interleaving.
    Simplified: memory is sequentially consistent; a kernel mutex is a lock with an owner;
    WaitForMultipleObjects(wait for all) takes the mutex in the same step in which it finds the event set;
    the kernel calls do not fail (so pri_pthread_rwlock_remove_writer, lines 379-398, is not reached); a
    thread that holds the lock does not ask for it again, and only a holder calls unlock. Initialisation is
    in LazyModel. *)
From Verif Require Import CBase ThreadLib.

(** control points, named after the line about to be executed; w: the holder that unlocks is a writer *)
Inductive pc :=
| Idle | HoldR | HoldW
| R342 | R346 | R347 | R348 | R349
| W366 | W369 | W370 | W371 | W418 | W422 | W423 | W424 | W425 | W426 | W427 | W428
| U450 (w : bool) | U453 (w : bool) | U454 (w : bool) | U455 (w : bool) | U455b | U456.

(** what happened: t asks for writing (line 369), gets the lock for reading (346) or writing (422), gives it
    back (455) *)
Inductive ev := EReqW (t : nat) | EGotR (t : nat) | EGotW (t : nat) | EUnlock (t : nat).

(** pthread_win_simple.h:51-59: m_readers, m_writersWaiting, m_writers, the two manual-reset events, the
    owner of m_mutex *)
Record rst := mk_r { readers : Z; wwait : Z; writers : Z; rev_ : bool; wev : bool; mx : option nat; pcs : list pc; rlog : list ev }.
Definition set_readers s x := mk_r x (wwait s) (writers s) (rev_ s) (wev s) (mx s) (pcs s) (rlog s).
Definition set_wwait s x := mk_r (readers s) x (writers s) (rev_ s) (wev s) (mx s) (pcs s) (rlog s).
Definition set_writers s x := mk_r (readers s) (wwait s) x (rev_ s) (wev s) (mx s) (pcs s) (rlog s).
Definition set_rev s x := mk_r (readers s) (wwait s) (writers s) x (wev s) (mx s) (pcs s) (rlog s).
Definition set_wev s x := mk_r (readers s) (wwait s) (writers s) (rev_ s) x (mx s) (pcs s) (rlog s).
Definition set_mx s x := mk_r (readers s) (wwait s) (writers s) (rev_ s) (wev s) x (pcs s) (rlog s).
Definition set_pc s t p := mk_r (readers s) (wwait s) (writers s) (rev_ s) (wev s) (mx s) (lset t p (pcs s)) (rlog s).
Definition emit s e := mk_r (readers s) (wwait s) (writers s) (rev_ s) (wev s) (mx s) (pcs s) (e :: rlog s).

(** lines 261-275: calloc, both events created set, mutex free *)
Definition rw_init (n : nat) : rst := mk_r 0 0 0 true true None (repeat Idle n) [].

Definition go (s : rst) (t : nat) (p : pc) : outcome (option rst) := Ret (Some (set_pc s t p)).
Definition take (t : nat) (s : rst) (p : pc) : outcome (option rst) :=
  match mx s with None => go (set_mx s (Some t)) t p | Some _ => Ret None end.

(** one statement of thread t; Ret None: the thread cannot move now; Abrt: a failed assertion *)
Definition exec (t : nat) (s : rst) : outcome (option rst) :=
  match nth_error (pcs s) t with
  | None | Some Idle | Some HoldR | Some HoldW => Ret None
  (* pthread_rwlock_rdlock, lines 340-355 *)
  | Some R342 => if rev_ s then take t s R346 else Ret None
  | Some R346 => go (emit (set_readers s (u64 (readers s + 1))) (EGotR t)) t R347
  | Some R347 => go (set_wev s false) t R348
  | Some R348 => go (set_mx s None) t R349
  | Some R349 => if writers s =? 0 then go s t HoldR else Abrt
  (* pri_pthread_rwlock_add_writer, lines 366-372 *)
  | Some W366 => take t s W369
  | Some W369 => go (emit (set_wwait s (u64 (wwait s + 1))) (EReqW t)) t (if u64 (wwait s + 1) =? 1 then W370 else W371)
  | Some W370 => go (set_rev s false) t W371
  | Some W371 => go (set_mx s None) t W418
  (* pthread_rwlock_wrlock, lines 417-435 *)
  | Some W418 => if wev s then take t s W422 else Ret None
  | Some W422 => go (emit (set_wwait s (u64 (wwait s - 1))) (EGotW t)) t W423
  | Some W423 => go (set_readers s (u64 (readers s + 1))) t W424
  | Some W424 => go (set_writers s (u64 (writers s + 1))) t W425
  | Some W425 => go (set_rev s false) t W426
  | Some W426 => go (set_wev s false) t W427
  | Some W427 => go (set_mx s None) t W428
  | Some W428 => if writers s =? 1 then go s t HoldW else Abrt
  (* pthread_rwlock_unlock, lines 449-462 *)
  | Some (U450 w) => take t s (U453 w)
  | Some (U453 w) => go (set_writers s 0) t (U454 w)
  | Some (U454 w) => go (if wwait s =? 0 then set_rev s true else s) t (U455 w)
  | Some (U455 w) => go (emit (set_readers s (u64 (readers s - 1))) (EUnlock t)) t (if u64 (readers s - 1) =? 0 then U455b else U456)
  | Some U455b => go (set_wev s true) t U456
  | Some U456 => go (set_mx s None) t Idle
  end.

(** what a thread outside the library may do *)
Inductive act := AStep (t : nat) | ARead (t : nat) | AWrite (t : nat) | AUnlock (t : nat).
Definition do_act (a : act) (s : rst) : outcome (option rst) :=
  match a with
  | AStep t => exec t s
  | ARead t => match nth_error (pcs s) t with Some Idle => go s t R342 | _ => Ret None end
  | AWrite t => match nth_error (pcs s) t with Some Idle => go s t W366 | _ => Ret None end
  | AUnlock t => match nth_error (pcs s) t with Some HoldR => go s t (U450 false) | Some HoldW => go s t (U450 true) | _ => Ret None end
  end.
Fixpoint run (l : list act) (s : rst) : option rst :=
  match l with [] => Some s | a :: r => match do_act a s with Ret (Some s') => run r s' | _ => None end end.
Definition reach (n : nat) (s : rst) : Prop := exists l, run l (rw_init n) = Some s.
