(** Model of the memory of a thread pool, src/thread/thpool.c: creation, jobs and destruction, with failing calls, in the
    heap of LifeModel.v. What the threads do is in ThpoolModel.v; here a worker's turn (pull, run, free) is one step, and
    a created thread has come alive when thpool_init looks and has left when thpool_destroy has waited.
    win: on the Windows layer pthread_mutex_init allocates (pthread_win_simple.c:90-106) and pthread_cond_init creates a
    semaphore and a mutex (168-173); these calls succeed. Otherwise such objects live inside their structure.
    Simplified: the function and argument of a job, and overflow of the counters, are left out. *)
From Verif Require Import CBase LifeModel.

(** pthread_mutex_init, pthread_cond_init on member i *)
Definition mutex_init (win : bool) (p : val) (i : nat) : M unit := if win then x <-- fresh true [VI 0] ;; store p i x else store p i (VI 0).
Definition cond_init (win : bool) (p : val) (i : nat) : M unit := mutex_init win p i ;;; mutex_init win p (S i).
(** bsem_init, lines 526-534: cells 0 mutex, 1-2 cond, 3 v *)
Definition bsem_init (win : bool) (h : val) : M unit := mutex_init win h 0 ;;; cond_init win h 1 ;;; store h 3 (VI 0).
Definition num (v : val) : M Z := match v with VI z => ret z | _ => ubm end.

(** struct thpool_: cells 0 threads, 1 num_threads_alive, 2 front, 3 rear, 4 len, 5 has_jobs, 6 thcount_lock, 7-8 threads_all_idle,
    9 rwmutex (lines 60-91) *)
(** jobqueue_init, lines 420-434 *)
Definition jobqueue_init (win : bool) (p : val) : M bool :=
  store p 4 (VI 0) ;;; store p 2 V0 ;;; store p 3 V0 ;;;
  h <-- malloc_ 4 ;; store p 5 h ;;;
  n <-- isnull h ;; if n then ret false else mutex_init win p 9 ;;; bsem_init win h ;;; ret true.
(** jobqueue_pull, lines 482-509; a job is one cell, prev *)
Definition jobqueue_pull (p : val) : M val :=
  j <-- load p 2 ;; l <-- load p 4 ;; l <-- num l ;;
  if l =? 0 then ret j
  else if l =? 1 then store p 2 V0 ;;; store p 3 V0 ;;; store p 4 (VI 0) ;;; ret j
  else v <-- load j 0 ;; store p 2 v ;;; store p 4 (VI (l - 1)) ;;; h <-- load p 5 ;; store h 3 (VI 1) ;;; ret j.
(** jobqueue_push, lines 454-476 *)
Definition jobqueue_push (p j : val) : M unit :=
  store j 0 V0 ;;; l <-- load p 4 ;; l <-- num l ;;
  (if l =? 0 then store p 2 j ;;; store p 3 j
   else r <-- load p 3 ;; store r 0 j ;;; store p 3 j) ;;;
  store p 4 (VI (l + 1)) ;;; h <-- load p 5 ;; store h 3 (VI 1).
(** jobqueue_clear, lines 438-449; at most fuel turns *)
Fixpoint clear_loop (fuel : nat) (p : val) : M unit :=
  match fuel with
  | O => fun _ => NoFuel
  | S f => l <-- load p 4 ;; l <-- num l ;; if l =? 0 then ret tt else j <-- jobqueue_pull p ;; free_ j ;;; clear_loop f p
  end.
Definition jobqueue_clear (win : bool) (fuel : nat) (p : val) : M unit :=
  clear_loop fuel p ;;; store p 2 V0 ;;; store p 3 V0 ;;; h <-- load p 5 ;; bsem_init win h ;;; store p 4 (VI 0).
(** jobqueue_destroy, lines 513-516 *)
Definition jobqueue_destroy (win : bool) (fuel : nat) (p : val) : M unit := jobqueue_clear win fuel p ;;; h <-- load p 5 ;; free_ h.

(** thread_init for n .. num_threads - 1, lines 307-321 and 166-171: how many threads run; a struct thread: cells 0 thpool_p, 1 id.
    If pthread_create fails, pthread_detach gets an indeterminate id (line 319) *)
Fixpoint threads_init (p t : val) (n left : nat) : M Z :=
  match left with
  | O => ret 0
  | S l =>
    th <-- malloc_ 2 ;; store t n th ;;;
    z <-- isnull th ;;
    k <-- (if z then ret 0 else store th 0 p ;;; store th 1 (VI (Z.of_nat n)) ;;; ok <-- tick ;; if ok then ret 1 else ubm) ;;
    r <-- threads_init p t (S n) l ;; ret (k + r)
  end.
(** THang: thpool_init waits for ever, lines 174-176 *)
Inductive tres := TNull | THang | TPool (p : val).
(** thpool_init, lines 125-179 *)
Definition tp_init (win : bool) (num_threads : Z) : M tres :=
  let n := Z.to_nat (if num_threads <? 0 then 0 else num_threads) in
  p <-- malloc_ 10 ;; z <-- isnull p ;; if z then ret TNull
  else store p 1 (VI 0) ;;;
    ok <-- jobqueue_init win p ;; if negb ok then free_ p ;;; ret TNull
    else t <-- malloc_ n ;; store p 0 t ;;; z <-- isnull t ;;
      if z then jobqueue_destroy win 1 p ;;; free_ p ;;; ret TNull
      else mutex_init win p 6 ;;; cond_init win p 7 ;;;
        k <-- threads_init p t 0 n ;; store p 1 (VI k) ;;;
        if k =? Z.of_nat n then ret (TPool p) else ret THang.
(** thpool_add_work of a non-NULL function, lines 190-203 *)
Definition tp_add (p : val) : M Z :=
  j <-- malloc_ 1 ;; z <-- isnull j ;; if z then ret (-2) else jobqueue_push p j ;;; ret 0.
(** a worker's turn, lines 384-390: was there a job *)
Definition tp_turn (p : val) : M bool := j <-- jobqueue_pull p ;; z <-- isnull j ;; if z then ret false else free_ j ;;; ret true.
(** lines 248-250 *)
Fixpoint threads_free (t : val) (n left : nat) : M unit :=
  match left with O => ret tt | S l => th <-- load t n ;; free_ th ;;; threads_free t (S n) l end.
(** thpool_destroy of a pool, lines 222-252 *)
Definition tp_destroy (win : bool) (fuel : nat) (p : val) : M unit :=
  k <-- load p 1 ;; total <-- num k ;;
  store p 1 (VI 0) ;;; jobqueue_destroy win fuel p ;;;
  t <-- load p 0 ;; threads_free t 0 (Z.to_nat total) ;;; free_ t ;;; free_ p.

Inductive op := Add | Turn.
Definition step (p : val) (o : op) : M Z := match o with Add => tp_add p | Turn => b <-- tp_turn p ;; ret (if b then 1 else 0) end.
Fixpoint run (p : val) (l : list op) : M (list Z) := match l with [] => ret [] | o :: l => r <-- step p o ;; rs <-- run p l ;; ret (r :: rs) end.
