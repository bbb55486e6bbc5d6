(** Model of mutexes and of static initialisation in src/thread/pthread_win_simple/pthread_win_simple.c:
    pthread_mutex_init, _destroy, _lock, _unlock (lines 90-164) and the initialisation of a reader/writer
    lock (pthread_rwlock_init and _destroy, lines 254-306; the double check of lines 308-323 has the shape of
    lines 128-145 and is not modelled again): any number of threads that lock and unlock one mutex, one step per statement that
    touches shared data, in every interleaving.
    Simplified: memory is sequentially consistent; the addresses calloc returns are below the three marker
    values (-1, -2, -3); ptw32_mutex_test_init_lock is a lock with a holder (the MCS lock itself is C45). *)
From Verif Require Import CBase ThreadLib.

(** the variable of the user: NULL, PTHREAD_MUTEX_INITIALIZER (Mark 1), PTHREAD_RECURSIVE_MUTEX_INITIALIZER
    (Mark 2), PTHREAD_ERRORCHECK_MUTEX_INITIALIZER (Mark 3), or a pointer to the i-th object allocated *)
Inductive cellv := Null | Mark (k : nat) | Obj (i : nat).
Definition is_mark (c : cellv) : bool := match c with Mark _ => true | _ => false end.
Definition is_null (c : cellv) : bool := match c with Null => true | _ => false end.

(** a critical section: the thread inside and how often it entered; None before InitializeCriticalSection *)
Definition cs : Type := option (option (nat * Z)).

Inductive pc :=
| Idle
| L124 | L128 | L131 | L132 | L98 | L103 (i : nat) | L104 (i : nat) | L136 | L140 (r : Z) | L146 | L147 (i : nat)
| U153 | U157 | U161 | U162 (i : nat).

(** a call of lock or unlock returned r *)
Inductive ev := ELock (t : nat) (r : Z) | EUnlock (t : nat) (r : Z).
Record mst := mk_m { cell : cellv; objs : list cs; ilk : option nat; pcs : list pc; mlog : list ev }.
Definition set_cell s x := mk_m x (objs s) (ilk s) (pcs s) (mlog s).
Definition set_objs s x := mk_m (cell s) x (ilk s) (pcs s) (mlog s).
Definition set_ilk s x := mk_m (cell s) (objs s) x (pcs s) (mlog s).
Definition set_pc s t p := mk_m (cell s) (objs s) (ilk s) (lset t p (pcs s)) (mlog s).
Definition emit s e := mk_m (cell s) (objs s) (ilk s) (pcs s) (e :: mlog s).
Definition go (s : mst) (t : nat) (p : pc) : outcome (option mst) := Ret (Some (set_pc s t p)).
Definition done (s : mst) (t : nat) (e : ev) : outcome (option mst) := Ret (Some (set_pc (emit s e) t Idle)).

Definition EINVAL : Z := 22.
Definition ENOMEM : Z := 12.

(** EnterCriticalSection, LeaveCriticalSection *)
Definition enter (t : nat) (s : mst) (i : nat) : outcome (option (list cs)) :=
  match nth_error (objs s) i with
  | Some (Some None) => Ret (Some (lset i (Some (Some (t, 1))) (objs s)))
  | Some (Some (Some (u, k))) => if Nat.eqb u t then Ret (Some (lset i (Some (Some (t, k + 1))) (objs s))) else Ret None
  | _ => Ub
  end.
Definition leave (t : nat) (s : mst) (i : nat) : outcome (list cs) :=
  match nth_error (objs s) i with
  | Some (Some (Some (u, k))) => if Nat.eqb u t then Ret (lset i (Some (if k =? 1 then None else Some (t, k - 1))) (objs s)) else Ub
  | _ => Ub
  end.

(** one statement of thread t *)
Definition exec (t : nat) (s : mst) : outcome (option mst) :=
  match nth_error (pcs s) t with
  | None | Some Idle => Ret None
  (* pthread_mutex_lock, lines 121-149; the mutex argument is not NULL *)
  | Some L124 => if is_null (cell s) then done s t (ELock t EINVAL) else go s t L128
  | Some L128 => go s t (if is_mark (cell s) then L131 else L146)
  | Some L131 => match ilk s with None => go (set_ilk s (Some t)) t L132 | Some _ => Ret None end
  | Some L132 => go s t (if is_mark (cell s) then L98 else L136)
  | Some L136 => go s t (L140 (if is_null (cell s) then EINVAL else 0))
  | Some L98 => Ret None                                   (* calloc, lines 98-102: action AAlloc *)
  | Some (L103 i) => go (set_objs s (lset i (Some None) (objs s))) t (L104 i)
  | Some (L104 i) => go (set_cell s (Obj i)) t (L140 0)
  | Some (L140 r) => if r =? 0 then go (set_ilk s None) t L146 else done (set_ilk s None) t (ELock t r)
  | Some L146 => match cell s with Obj i => go s t (L147 i) | _ => Ub end
  | Some (L147 i) => do x <- enter t s i; match x with Some l => done (set_objs s l) t (ELock t 0) | None => Ret None end
  (* pthread_mutex_unlock, lines 151-164 *)
  | Some U153 => if is_null (cell s) then done s t (EUnlock t EINVAL) else go s t U157
  | Some U157 => match cell s with Mark 1 => done s t (EUnlock t 0) | _ => go s t U161 end
  | Some U161 => match cell s with Obj i => go s t (U162 i) | _ => Ub end
  | Some (U162 i) => do l <- leave t s i; done (set_objs s l) t (EUnlock t 0)
  end.

(** the thread inside the critical section of the mutex *)
Definition inside_cs (s : mst) : option nat :=
  match cell s with Obj i => match nth_error (objs s) i with Some (Some (Some (u, _))) => Some u | _ => None end | _ => None end.

(** what threads do: lock at any time, unlock what they have locked; whether calloc succeeds *)
Inductive act := AStep (t : nat) | AAlloc (t : nat) (ok : bool) | ALock (t : nat) | AUnlock (t : nat).
Definition do_act (a : act) (s : mst) : outcome (option mst) :=
  match a with
  | AStep t => exec t s
  | AAlloc t ok => match nth_error (pcs s) t with
                   | Some L98 => if ok then go (set_objs s (objs s ++ [None])) t (L103 (length (objs s))) else go s t (L140 ENOMEM)
                   | _ => Ret None end
  | ALock t => match nth_error (pcs s) t with Some Idle => go s t L124 | _ => Ret None end
  | AUnlock t => match nth_error (pcs s) t, inside_cs s with
                 | Some Idle, Some u => if Nat.eqb u t then go s t U153 else Ret None
                 | _, _ => Ret None end
  end.
Fixpoint run (l : list act) (s : mst) : option mst :=
  match l with [] => Some s | a :: r => match do_act a s with Ret (Some s') => run r s' | _ => None end end.

(** a static initialiser, or a mutex made by pthread_mutex_init (lines 98-104) *)
Definition static (k n : nat) : mst := mk_m (Mark k) [] None (repeat Idle n) [].
Definition dynamic (n : nat) : mst := mk_m (Obj 0) [Some None] None (repeat Idle n) [].
Definition reach (s0 s : mst) : Prop := exists l, run l s0 = Some s.

(** pthread_mutex_destroy, lines 108-119, as one step: the result, the variable, whether the object was freed *)
Definition destroy (c : cellv) : outcome (Z * cellv * bool) :=
  match c with Null => Ret (EINVAL, Null, false) | Mark _ => Ub | Obj _ => Ret (0, Null, true) end.

(** pthread_rwlock_init, lines 254-277: what calloc and the three kernel calls (mutex, read event, write
    event) give; the result, the variable, and the handles still open afterwards *)
Definition rwlock_destroy (c : cellv) (h : list bool) : Z * cellv * list bool :=
  (* lines 279-306: each handle that is not NULL is closed *)
  match c with Null => (EINVAL, c, h) | Mark _ => (0, c, h) | Obj _ => (0, Null, map (fun _ => false) h) end.
Definition rwlock_init (c : cellv) (mem : bool) (hm hr hw : bool) : Z * cellv * list bool :=
  match c with
  | Null => (EINVAL, c, [])
  | _ => if negb mem then (ENOMEM, c, [])
         else if negb hm || negb hr || negb hw then (-2, c, snd (rwlock_destroy (Obj 0) [hm; hr; hw]))
         else (0, Obj 0, [hm; hr; hw])
  end.
