(** Model of the condition variable of src/thread/pthread_win_simple/pthread_win_simple.c (lines 168-250):
    any number of threads that lock and unlock one user mutex and call wait, signal and broadcast on one
    condition variable, one step per statement that touches shared data, in every interleaving.
    Simplified: memory is sequentially consistent; a critical section (pthread_mutex_lock/unlock, lines
    121-164) is a lock with an owner, and the user mutex is not locked twice by one thread; wait is called
    by a thread that holds the mutex; the kernel semaphore is a counter with the limit 0x7FFFFFFF;
    pthread_cond_destroy and failing calls of the kernel are left out. *)
From Verif Require Import CBase ThreadLib.

(** control points, named after the line about to be executed; g is the local [generation] *)
Inductive pc :=
| Idle
| W186 | W187 | W188 | W189 (g : Z) | W190 (g : Z)
| W192 (g : Z) | W193 (g : Z) | W194 (g : Z) | W196 (g : Z) | W198 (g : Z) | W199 (g : Z)
| W204 (g : Z) (wake : Z) | W205 (g : Z) (wake : Z)
| W211 | W212
| S219 | S220 | S223 | S224 | S226 (wake : Z) | S227 (wake : Z)
| B237 | B238 | B241 (wake : Z) | B242 (wake : Z) | B244 (wake : Z) | B245 (wake : Z).

(** what happened: t is registered as a waiter (line 187), a signal or broadcast decides (lines 220, 238),
    t leaves the set of waiters (line 198), wait returns to t (line 213) *)
Inductive ev := EWait (t : nat) | ESignal (t : nat) | EBcast (t : nat) | EWake (t : nat) | ERet (t : nat).

(** pthread_win_simple.h:41-48: mWaiting, mWake, mGeneration, the count of mSemaphore, the owner of mLock;
    [mtx]: the owner of the user mutex; the log has the newest event first *)
Record cst := mk_c { waiting : Z; wake : Z; gen : Z; sem : Z; lck : option nat; mtx : option nat; pcs : list pc; clog : list ev }.
Definition set_waiting s x := mk_c x (wake s) (gen s) (sem s) (lck s) (mtx s) (pcs s) (clog s).
Definition set_wake s x := mk_c (waiting s) x (gen s) (sem s) (lck s) (mtx s) (pcs s) (clog s).
Definition set_gen s x := mk_c (waiting s) (wake s) x (sem s) (lck s) (mtx s) (pcs s) (clog s).
Definition set_sem s x := mk_c (waiting s) (wake s) (gen s) x (lck s) (mtx s) (pcs s) (clog s).
Definition set_lck s x := mk_c (waiting s) (wake s) (gen s) (sem s) x (mtx s) (pcs s) (clog s).
Definition set_mtx s x := mk_c (waiting s) (wake s) (gen s) (sem s) (lck s) x (pcs s) (clog s).
Definition set_pc s t p := mk_c (waiting s) (wake s) (gen s) (sem s) (lck s) (mtx s) (lset t p (pcs s)) (clog s).
Definition emit s e := mk_c (waiting s) (wake s) (gen s) (sem s) (lck s) (mtx s) (pcs s) (e :: clog s).

(** lines 168-173: pthread_cond_init creates the semaphore with count 0 and the lock; it leaves mWaiting,
    mWake and mGeneration as they were in memory (w, k, g). n threads, none inside. *)
Definition cond_init (w k g : Z) (n : nat) : cst := mk_c w k g 0 None None (repeat Idle n) [].

(** ReleaseSemaphore: fails without effect when the limit of line 170 would be exceeded *)
Definition sem_max : Z := 2147483647.
Definition release (s : cst) (n : Z) : cst := if sem s + n <=? sem_max then set_sem s (sem s + n) else s.

Definition lock_c (t : nat) (s : cst) (p : pc) : option cst :=
  match lck s with None => Some (set_pc (set_lck s (Some t)) t p) | Some _ => None end.

(** one statement of thread t; None: the thread cannot move now *)
Definition exec (t : nat) (s : cst) : option cst :=
  match nth_error (pcs s) t with
  | None | Some Idle => None
  (* pthread_cond_wait, lines 182-214 *)
  | Some W186 => lock_c t s W187
  | Some W187 => Some (set_pc (emit (set_waiting s (u64 (waiting s + 1))) (EWait t)) t W188)
  | Some W188 => Some (set_pc s t (W189 (gen s)))
  | Some (W189 g) => Some (set_pc (set_lck s None) t (W190 g))
  | Some (W190 g) => Some (set_pc (set_mtx s None) t (W192 g))
  | Some (W192 g) => if 0 <? sem s then Some (set_pc (set_sem s (sem s - 1)) t (W193 g)) else None
  | Some (W193 g) => lock_c t s (W194 g)
  | Some (W194 g) => Some (set_pc s t (if wake s =? 0 then W204 g 0 else W196 g))
  | Some (W196 g) => Some (set_pc s t (if gen s =? g then W204 g 1 else W198 g))
  | Some (W198 g) => Some (set_pc (emit (set_wake s (u64 (wake s - 1))) (EWake t)) t (W199 g))
  | Some (W199 g) => Some (set_pc (set_waiting s (u64 (waiting s - 1))) t W211)
  | Some (W204 g k) => Some (set_pc (set_lck s None) t (W205 g k))
  | Some (W205 g k) => Some (set_pc (if k =? 0 then s else release s 1) t (W192 g))
  | Some W211 => Some (set_pc (set_lck s None) t W212)
  | Some W212 => match mtx s with None => Some (set_pc (emit (set_mtx s (Some t)) (ERet t)) t Idle) | Some _ => None end
  (* pthread_cond_signal, lines 216-232 *)
  | Some S219 => lock_c t s S220
  | Some S220 => Some (set_pc (emit s (ESignal t)) t (if wake s <? waiting s then S223 else S226 0))
  | Some S223 => Some (set_pc (set_wake s (u64 (wake s + 1))) t S224)
  | Some S224 => Some (set_pc (set_gen s (u64 (gen s + 1))) t (S226 1))
  | Some (S226 k) => Some (set_pc (set_lck s None) t (S227 k))
  | Some (S227 k) => Some (set_pc (if k =? 0 then s else release s 1) t Idle)
  (* pthread_cond_broadcast, lines 234-250 *)
  | Some B237 => lock_c t s B238
  | Some B238 => Some (set_pc (emit s (EBcast t)) t (if wake s <? waiting s then B241 (u64 (waiting s - wake s)) else B244 0))
  | Some (B241 k) => Some (set_pc (set_wake s (waiting s)) t (B242 k))
  | Some (B242 k) => Some (set_pc (set_gen s (u64 (gen s + 1))) t (B244 k))
  | Some (B244 k) => Some (set_pc (set_lck s None) t (B245 k))
  | Some (B245 k) => Some (set_pc (if k =? 0 then s else release s (s32 k)) t Idle)
  end.

(** what a thread outside the library may do; AStep is a step inside one of the three calls *)
Inductive act := AStep (t : nat) | ALock (t : nat) | AUnlock (t : nat) | AWait (t : nat) | ASignal (t : nat) | ABcast (t : nat).
Definition idle (s : cst) (t : nat) : bool := match nth_error (pcs s) t with Some Idle => true | _ => false end.
Definition owns (o : option nat) (t : nat) : bool := match o with Some u => Nat.eqb u t | None => false end.
Definition do_act (a : act) (s : cst) : option cst :=
  match a with
  | AStep t => exec t s
  | ALock t => if idle s t then match mtx s with None => Some (set_mtx s (Some t)) | Some _ => None end else None
  | AUnlock t => if idle s t && owns (mtx s) t then Some (set_mtx s None) else None
  | AWait t => if idle s t && owns (mtx s) t then Some (set_pc s t W186) else None
  | ASignal t => if idle s t then Some (set_pc s t S219) else None
  | ABcast t => if idle s t then Some (set_pc s t B237) else None
  end.

Fixpoint run (l : list act) (s : cst) : option cst :=
  match l with [] => Some s | a :: r => match do_act a s with Some s' => run r s' | None => None end end.
(** every history from a condition variable initialised in memory w, k, g *)
Definition reach (w k g : Z) (n : nat) (s : cst) : Prop := exists l, run l (cond_init w k g n) = Some s.
