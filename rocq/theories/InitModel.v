(** Model of src/thread/portable_thread_posix.c (handles of mutexes, rwlocks, semaphores, threads) and of the
    global initialisation: src/lcu.c, time_util_global_init/cleanup (src/time/time_util.c:134-164),
    xlog_global_init/cleanup (src/log/xlog.c:118-137).
    A handle is NULL or the number of an object in a heap that knows which objects are still allocated. *)
From Verif Require Import CBase ThreadLib.

Definition heap : Type := list bool.
Definition handle : Type := option nat.
Definition live (h : heap) (i : nat) : bool := match nth_error h i with Some b => b | None => false end.
(** free: undefined unless allocated *)
Definition free_ (h : heap) (i : nat) : outcome heap := if live h i then Ret (lset i false h) else Ub.
(** what the environment answers to an init: malloc succeeds; the code the pthread/sem function returns *)
Record env := mk_e { e_mem : bool; e_ret : Z }.

(** portable_mutex_init, portable_rwlock_init, portable_sem_init, lines 96-120, 160-184, 239-263, on a variable
    that is not NULL: result, variable, heap *)
Definition p_init (e : env) (h : heap) : Z * handle * heap :=
  if negb (e_mem e) then (-2, None, h)
  else if e_ret e =? 0 then (0, Some (length h), h ++ [true]) else (e_ret e, None, h ++ [false]).
(** portable_*_destroy, lines 142-155, 187-200, 305-318; r: what the pthread function returns *)
Definition p_destroy (r : Z) (v : handle) (h : heap) : outcome (Z * handle * heap) :=
  match v with
  | None => Ret (-1, None, h)
  | Some i => do h' <- free_ h i; Ret (r, None, h')
  end.
(** the other functions: lock, rdlock, wrlock, unlock of an rwlock, wait, post, getvalue *)
Definition p_use (r : Z) (v : handle) (h : heap) : outcome Z :=
  match v with None => Ret (-1) | Some i => if live h i then Ret r else Ub end.
(** portable_mutex_unlock, lines 132-140: the variable's value is not checked *)
Definition p_mutex_unlock (r : Z) (v : handle) (h : heap) : outcome Z :=
  match v with None => Ub | Some i => if live h i then Ret r else Ub end.
(** portable_thread_create, lines 44-76: the same shape as p_init; portable_thread_join, lines 79-91: the handle is
    passed by value and freed whatever pthread_join (r) says *)
Definition p_join (r : Z) (v : handle) (h : heap) : outcome (Z * heap) :=
  match v with
  | None => Ret (-1, h)
  | Some i => if live h i then do h' <- free_ h i; Ret (r, h') else Ub
  end.

(** ** Global state: g_init_times, the locks of g_time_caches, g_xlog_mutex *)
Record glob := mk_gl { times : Z; lock0 : handle; lock1 : handle; mutex : handle; hp : heap }.
Definition g0 : glob := mk_gl 0 None None None [].
(** time_util_global_init, lines 134-148 (the results of portable_rwlock_init are ignored) *)
Definition init_if_null (e : env) (v : handle) (h : heap) : handle * heap :=
  match v with Some _ => (v, h) | None => let '(_, v', h') := p_init e h in (v', h') end.
Definition time_init (e0 e1 : env) (g : glob) : Z * glob :=
  let '(l0, h) := init_if_null e0 (lock0 g) (hp g) in
  let '(l1, h) := init_if_null e1 (lock1 g) h in (0, mk_gl (times g) l0 l1 (mutex g) h).
(** time_util_global_cleanup, lines 149-164 *)
Definition time_cleanup (g : glob) : outcome (Z * glob) :=
  do a <- p_destroy 0 (lock0 g) (hp g);
  do b <- p_destroy 0 (lock1 g) (snd a);
  Ret (0, mk_gl (times g) None None (mutex g) (snd b)).
(** xlog_global_init, xlog_global_cleanup *)
Definition xlog_init (e : env) (g : glob) : Z * glob :=
  match mutex g with
  | Some _ => (1, g)
  | None => let '(_, m, h) := p_init e (hp g) in (0, mk_gl (times g) (lock0 g) (lock1 g) m h)
  end.
Definition xlog_cleanup (g : glob) : outcome (Z * glob) :=
  match mutex g with
  | None => Ret (1, g)
  | Some _ => do a <- p_destroy 0 (mutex g) (hp g); Ret (0, mk_gl (times g) (lock0 g) (lock1 g) None (snd a))
  end.
Definition set_times (g : glob) (n : Z) : glob := mk_gl n (lock0 g) (lock1 g) (mutex g) (hp g).
(** lcu_global_init, src/lcu.c:13-23; unsigned int has 32 bits *)
Definition lcu_init (e0 e1 e2 : env) (g : glob) : Z * glob :=
  let g1 := set_times g (u32 (times g + 1)) in
  if 0 <? times g then (0, g1)
  else let '(r, g2) := time_init e0 e1 g1 in let '(r', g3) := xlog_init e2 g2 in (Z.lor r r', g3).
(** lcu_global_cleanup, src/lcu.c:25-35 *)
Definition lcu_cleanup (g : glob) : outcome (Z * glob) :=
  if times g =? 0 then Ret (0, g)
  else let g1 := set_times g (u32 (times g - 1)) in
       if 0 <? times g1 then Ret (0, g1)
       else do a <- xlog_cleanup g1; do b <- time_cleanup (snd a); Ret (Z.lor (fst a) (fst b), snd b).

(** any sequence of calls; the results, newest first *)
Inductive op := LcuInit (e0 e1 e2 : env) | LcuCleanup | TimeInit (e0 e1 : env) | TimeCleanup | XlogInit (e : env) | XlogCleanup.
Definition do_op (o : op) (g : glob) : outcome (Z * glob) :=
  match o with
  | LcuInit a b c => Ret (lcu_init a b c g)
  | LcuCleanup => lcu_cleanup g
  | TimeInit a b => Ret (time_init a b g)
  | TimeCleanup => time_cleanup g
  | XlogInit a => Ret (xlog_init a g)
  | XlogCleanup => xlog_cleanup g
  end.
Fixpoint run_ops (l : list op) (g : glob) : outcome glob :=
  match l with [] => Ret g | o :: l => do r <- do_op o g; run_ops l (snd r) end.

(** ** lcu_global_init called by several threads: the increment of line 15 is a load and a store, lines 20-21 one
    step. pcs: I15 load; J15 n store after loading n; K20 initialise; L27 .. cleanup the same way *)
Inductive tpc := TIdle | I15 | J15 (n : Z) | K20 | L27 | M27 (n : Z) | N32.
Inductive tev := EInit (t : nat) | ECleanup (t : nat).
Record tst := mk_t { tg : glob; tpcs : list tpc; tlog : list tev }.
Definition t0 (n : nat) : tst := mk_t g0 (repeat TIdle n) [].
Definition yes : env := mk_e true 0.
Definition tgo (s : tst) (g : glob) (t : nat) (p : tpc) : option tst := Some (mk_t g (lset t p (tpcs s)) (tlog s)).
Definition tret (s : tst) (g : glob) (t : nat) (e : tev) : option tst := Some (mk_t g (lset t TIdle (tpcs s)) (e :: tlog s)).
Definition texec (t : nat) (s : tst) : option tst :=
  let g := tg s in
  match nth_error (tpcs s) t with
  | None | Some TIdle => None
  | Some I15 => tgo s g t (J15 (times g))
  | Some (J15 n) => if 0 <? n then tret s (set_times g (u32 (n + 1))) t (EInit t) else tgo s (set_times g (u32 (n + 1))) t K20
  | Some K20 => tret s (snd (xlog_init yes (snd (time_init yes yes g)))) t (EInit t)
  | Some L27 => if times g =? 0 then tret s g t (ECleanup t) else tgo s g t (M27 (times g))
  | Some (M27 n) => if 0 <? u32 (n - 1) then tret s (set_times g (u32 (n - 1))) t (ECleanup t) else tgo s (set_times g (u32 (n - 1))) t N32
  | Some N32 => match (do a <- xlog_cleanup g; time_cleanup (snd a)) with Ret b => tret s (snd b) t (ECleanup t) | _ => None end
  end.
Inductive tact := TStep (t : nat) | TInit (t : nat) | TClean (t : nat).
Definition tdo (a : tact) (s : tst) : option tst :=
  match a with
  | TStep t => texec t s
  | TInit t => match nth_error (tpcs s) t with Some TIdle => tgo s (tg s) t I15 | _ => None end
  | TClean t => match nth_error (tpcs s) t with Some TIdle => tgo s (tg s) t L27 | _ => None end
  end.
Fixpoint trun (l : list tact) (s : tst) : option tst :=
  match l with [] => Some s | a :: l => match tdo a s with Some s' => trun l s' | None => None end end.
