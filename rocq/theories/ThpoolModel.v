(** Model of src/thread/thpool.c as a transition system: N worker threads (thread_do) and any number of client threads, one step per
    statement that touches shared data, in every interleaving.
    Simplified: memory is sequentially consistent and int accesses are atomic (the code reads jobqueue.len in thpool_wait and
    num_threads_alive in thpool_destroy without their locks); a job is named by the number of its allocation, so a freed job's address is
    never reused; usleep/sleep and the one-second limit of thpool_destroy are left out (both its loops do the same); pause/resume (signals),
    thread names, failing allocations, overflow of the int counters and the NULL function check of thpool_add_work are left out; a job may call thpool_add_work, but not thpool_wait or thpool_destroy. *)
From Verif Require Import CBase.

(** what happened, for the specification *)
Inductive ev :=
| EAdd (j : nat)          (* job j has been put in the queue *)
| EAdded (t j : nat)      (* thpool_add_work returned 0 to thread t *)
| ETake (j : nat)         (* a worker removed job j from the queue *)
| EStart (j : nat)        (* job j's function is called *)
| EDone (j : nat)         (* job j's function returned *)
| ECall (t : nat)         (* thread t calls thpool_wait *)
| ERet (t : nat).         (* thpool_wait returned to thread t *)

(** lines 49-91: struct bsem, jobqueue, thpool_. The field prev of a job is jprev. next_job counts malloc. *)
Record sh := mk_sh {
  rw : option nat; tc : option nat; bm : option nat;      (* owners of rwmutex, thcount_lock, bsem mutex *)
  bv : Z; len : Z; front : option nat; rear : option nat; jprev : nat -> option nat;
  wrk : Z; alv : Z; keep : bool; up : bool; freed : bool; next_job : nat; log : list ev }.
Definition set_rw s x := mk_sh x (tc s) (bm s) (bv s) (len s) (front s) (rear s) (jprev s) (wrk s) (alv s) (keep s) (up s) (freed s) (next_job s) (log s).
Definition set_tc s x := mk_sh (rw s) x (bm s) (bv s) (len s) (front s) (rear s) (jprev s) (wrk s) (alv s) (keep s) (up s) (freed s) (next_job s) (log s).
Definition set_bm s x := mk_sh (rw s) (tc s) x (bv s) (len s) (front s) (rear s) (jprev s) (wrk s) (alv s) (keep s) (up s) (freed s) (next_job s) (log s).
Definition set_bv s x := mk_sh (rw s) (tc s) (bm s) x (len s) (front s) (rear s) (jprev s) (wrk s) (alv s) (keep s) (up s) (freed s) (next_job s) (log s).
Definition set_len s x := mk_sh (rw s) (tc s) (bm s) (bv s) x (front s) (rear s) (jprev s) (wrk s) (alv s) (keep s) (up s) (freed s) (next_job s) (log s).
Definition set_front s x := mk_sh (rw s) (tc s) (bm s) (bv s) (len s) x (rear s) (jprev s) (wrk s) (alv s) (keep s) (up s) (freed s) (next_job s) (log s).
Definition set_rear s x := mk_sh (rw s) (tc s) (bm s) (bv s) (len s) (front s) x (jprev s) (wrk s) (alv s) (keep s) (up s) (freed s) (next_job s) (log s).
Definition set_jprev s j x := mk_sh (rw s) (tc s) (bm s) (bv s) (len s) (front s) (rear s) (fun i => if Nat.eqb i j then x else jprev s i) (wrk s) (alv s) (keep s) (up s) (freed s) (next_job s) (log s).
Definition set_wrk s x := mk_sh (rw s) (tc s) (bm s) (bv s) (len s) (front s) (rear s) (jprev s) x (alv s) (keep s) (up s) (freed s) (next_job s) (log s).
Definition set_alv s x := mk_sh (rw s) (tc s) (bm s) (bv s) (len s) (front s) (rear s) (jprev s) (wrk s) x (keep s) (up s) (freed s) (next_job s) (log s).
Definition set_keep s x := mk_sh (rw s) (tc s) (bm s) (bv s) (len s) (front s) (rear s) (jprev s) (wrk s) (alv s) x (up s) (freed s) (next_job s) (log s).
Definition set_up s x := mk_sh (rw s) (tc s) (bm s) (bv s) (len s) (front s) (rear s) (jprev s) (wrk s) (alv s) (keep s) x (freed s) (next_job s) (log s).
Definition set_freed s x := mk_sh (rw s) (tc s) (bm s) (bv s) (len s) (front s) (rear s) (jprev s) (wrk s) (alv s) (keep s) (up s) x (next_job s) (log s).
Definition new_job s := mk_sh (rw s) (tc s) (bm s) (bv s) (len s) (front s) (rear s) (jprev s) (wrk s) (alv s) (keep s) (up s) (freed s) (S (next_job s)) (log s).
Definition emit s e := mk_sh (rw s) (tc s) (bm s) (bv s) (len s) (front s) (rear s) (jprev s) (wrk s) (alv s) (keep s) (up s) (freed s) (next_job s) (log s ++ [e]).

(** where bsem_post returns: into jobqueue_pull (job taken) or jobqueue_push (own: the job that called thpool_add_work, or a client) *)
Inductive back := BPull (j : nat) | BPush (own : option nat) (j : nat).
(** control points, named after the line about to be executed *)
Inductive pc :=
| B545 (b : back) | B546 (b : back) | B547 (b : back) | B548 (b : back)
| T365 | T366 | T367 | T369
| W563 | W564 | W565 | Wblk | Wwoken | W567 | W568
| T373 | T377 | T378 | T379
| P484 | P485 | P487 (o : option nat) | P493 (j : nat) | P494 (j : nat) | P495 (j : nat) | P499 (j : nat) | P500 (j : nat) | P507 (o : option nat)
| T388 (j : nat) | Trun (j : nat) | T389 (j : nat)
| T392 | T393 | T394 | T395 | T397
| X399 | X400 | X401 | Xend
| Cidle
| A190 (own : option nat)
| A456 (own : option nat) (j : nat) | A457 (own : option nat) (j : nat) | A459 (own : option nat) (j : nat) | A462 (own : option nat) (j : nat) | A463 (own : option nat) (j : nat)
| A467 (own : option nat) (j : nat) | A472 (own : option nat) (j : nat) | A475 (own : option nat) (j : nat) | A203 (own : option nat) (j : nat)
| Q209 | Q210 | Q210b | Q211 | Qblk | Qwoken | Q213 | Q214
| D225 | D232 | D554 | D555 | D556 | D557 | D245.

Definition goto (s : sh) (p : pc) : outcome (option (sh * pc)) := Ret (Some (s, p)).
(** pthread_mutex_lock: blocks while the mutex is owned *)
Definition lock (get : sh -> option nat) (set : sh -> option nat -> sh) (t : nat) (s : sh) (p : pc) : outcome (option (sh * pc)) :=
  match get s with None => goto (set s (Some t)) p | Some _ => Ret None end.
Definition run_of (own : option nat) : pc := match own with Some i => Trun i | None => Cidle end.

(** One statement of thread t. Ret None: the thread cannot move now. Ub: NULL is dereferenced. *)
Definition exec (t : nat) (p : pc) (s : sh) : outcome (option (sh * pc)) :=
  match p with
  (* bsem_post, lines 544-549; line 547 is in [step] *)
  | B545 b => lock bm set_bm t s (B546 b)
  | B546 b => goto (set_bv s 1) (B547 b)
  | B547 _ => Ret None
  | B548 b => goto (set_bm s None) (match b with BPull j => P507 (Some j) | BPush own j => A475 own j end)
  (* thread_do, lines 364-404 *)
  | T365 => lock tc set_tc t s T366
  | T366 => goto (set_alv s (alv s + 1)) T367
  | T367 => goto (set_tc s None) T369
  | T369 => goto s (if keep s then W563 else X399)
  (* bsem_wait, lines 562-569; pthread_cond_wait releases the mutex and blocks in one step *)
  | W563 => lock bm set_bm t s W564
  | W564 => goto s (if bv s =? 1 then W567 else W565)
  | W565 => goto (set_bm s None) Wblk
  | Wblk => Ret None
  | Wwoken => lock bm set_bm t s W564
  | W567 => goto (set_bv s 0) W568
  | W568 => goto (set_bm s None) T373
  | T373 => goto s (if keep s then T377 else X399)
  | T377 => lock tc set_tc t s T378
  | T378 => goto (set_wrk s (wrk s + 1)) T379
  | T379 => goto (set_tc s None) P484
  (* jobqueue_pull, lines 482-509 *)
  | P484 => lock rw set_rw t s P485
  | P485 => goto s (P487 (front s))
  | P487 o => if len s =? 0 then goto s (P507 o)
              else match o with
                   | None => Ub          (* line 499 reads job_p->prev; with len = 1 the code would return NULL *)
                   | Some j => goto s (if len s =? 1 then P493 j else P499 j)
                   end
  | P493 j => goto (set_front s None) (P494 j)
  | P494 j => goto (set_rear s None) (P495 j)
  | P495 j => goto (emit (set_len s 0) (ETake j)) (P507 (Some j))
  | P499 j => goto (set_front s (jprev s j)) (P500 j)
  | P500 j => goto (emit (set_len s (len s - 1)) (ETake j)) (B545 (BPull j))
  | P507 o => goto (set_rw s None) (match o with Some j => T388 j | None => T392 end)
  (* lines 385-397 *)
  | T388 j => goto (emit s (EStart j)) (Trun j)
  | Trun j => goto (emit s (EDone j)) (T389 j)
  | T389 j => goto s T392
  | T392 => lock tc set_tc t s T393
  | T393 => goto (set_wrk s (wrk s - 1)) T394
  | T394 => goto s (if wrk s =? 0 then T395 else T397)
  | T395 => Ret None
  | T397 => goto (set_tc s None) T369
  | X399 => lock tc set_tc t s X400
  | X400 => goto (set_alv s (alv s - 1)) X401
  | X401 => goto (set_tc s None) Xend
  | Xend => Ret None
  | Cidle => Ret None
  (* thpool_add_work and jobqueue_push, lines 183-204 and 454-476 *)
  | A190 own => goto (new_job s) (A456 own (next_job s))
  | A456 own j => lock rw set_rw t s (A457 own j)
  | A457 own j => goto (set_jprev s j None) (A459 own j)
  | A459 own j => goto s (if len s =? 0 then A462 own j else A467 own j)
  | A462 own j => goto (set_front s (Some j)) (A463 own j)
  | A463 own j => goto (set_rear s (Some j)) (A472 own j)
  | A467 own j => match rear s with Some r => goto (set_jprev s r (Some j)) (A463 own j) | None => Ub end
  | A472 own j => goto (emit (set_len s (len s + 1)) (EAdd j)) (B545 (BPush own j))
  | A475 own j => goto (set_rw s None) (A203 own j)
  | A203 own j => goto (emit s (EAdded t j)) (run_of own)
  (* thpool_wait, lines 208-214 *)
  | Q209 => lock tc set_tc t s Q210
  | Q210 => goto s (if len s =? 0 then Q210b else Q211)
  | Q210b => goto s (if wrk s =? 0 then Q213 else Q211)
  | Q211 => goto (set_tc s None) Qblk
  | Qblk => Ret None
  | Qwoken => lock tc set_tc t s Q210
  | Q213 => goto (set_tc s None) Q214
  | Q214 => goto (emit s (ERet t)) Cidle
  (* thpool_destroy, lines 218-253, with bsem_post_all, lines 553-558 (line 556 is in [step]) *)
  | D225 => goto (set_keep s false) D232
  | D232 => goto s (if alv s =? 0 then D245 else D554)
  | D554 => lock bm set_bm t s D555
  | D555 => goto (set_bv s 1) D556
  | D556 => Ret None
  | D557 => goto (set_bm s None) D232
  | D245 => goto (set_freed s true) Cidle
  end.

Record state := mk_st { shr : sh; pcs : nat -> pc }.
Definition upd_pc (f : nat -> pc) (t : nat) (p : pc) : nat -> pc := fun i => if Nat.eqb i t then p else f i.
Definition is_idle (p : pc) : bool := match p with Cidle => true | _ => false end.

(** Steps of the code that is running. Threads 0 .. N-1 are the workers, the others are clients. *)
Inductive run (N : nat) (x : state) : state -> Prop :=
| s_exec : forall t s' p', exec t (pcs x t) (shr x) = Ret (Some (s', p')) -> run N x (mk_st s' (upd_pc (pcs x) t p'))
(* line 547: pthread_cond_signal: one blocked worker is woken, if there is one *)
| s_sig : forall t b u, pcs x t = B547 b -> pcs x u = Wblk -> run N x (mk_st (shr x) (upd_pc (upd_pc (pcs x) u Wwoken) t (B548 b)))
| s_sig0 : forall t b, pcs x t = B547 b -> (forall u, pcs x u <> Wblk) -> run N x (mk_st (shr x) (upd_pc (pcs x) t (B548 b)))
(* line 395: one thread blocked in thpool_wait is woken, if there is one *)
| s_all : forall t u, pcs x t = T395 -> pcs x u = Qblk -> run N x (mk_st (shr x) (upd_pc (upd_pc (pcs x) u Qwoken) t T397))
| s_all0 : forall t, pcs x t = T395 -> (forall u, pcs x u <> Qblk) -> run N x (mk_st (shr x) (upd_pc (pcs x) t T397))
(* line 556: every blocked worker is woken *)
| s_bcast : forall t, pcs x t = D556 -> run N x (mk_st (shr x) (upd_pc (fun u => match pcs x u with Wblk => Wwoken | p => p end) t D557))
(* thpool_init returns, lines 173-178 *)
| s_up : alv (shr x) = Z.of_nat N -> up (shr x) = false -> run N x (mk_st (set_up (shr x) true) (pcs x)).

(** Steps of the surroundings: spurious wake-ups of the condition variables, and calls. The clients call the API as they like once
    thpool_init has returned; nobody calls thpool_destroy while another call is under way, and no call begins once it has cleared
    threads_keepalive.
    Only the clients in W call thpool_wait. *)
Inductive env (N : nat) (W : nat -> Prop) (x : state) : state -> Prop :=
| s_spur : forall t, pcs x t = Wblk -> env N W x (mk_st (shr x) (upd_pc (pcs x) t Wwoken))
| s_spurq : forall t, pcs x t = Qblk -> env N W x (mk_st (shr x) (upd_pc (pcs x) t Qwoken))
| s_add : forall t, (N <= t)%nat -> pcs x t = Cidle -> up (shr x) = true -> keep (shr x) = true -> env N W x (mk_st (shr x) (upd_pc (pcs x) t (A190 None)))
| s_addj : forall t j, pcs x t = Trun j -> keep (shr x) = true -> env N W x (mk_st (shr x) (upd_pc (pcs x) t (A190 (Some j))))
| s_wait : forall t, (N <= t)%nat -> W t -> pcs x t = Cidle -> up (shr x) = true -> keep (shr x) = true ->
    env N W x (mk_st (emit (shr x) (ECall t)) (upd_pc (pcs x) t Q209))
| s_destroy : forall t, (N <= t)%nat -> (forall u, (N <= u)%nat -> pcs x u = Cidle) -> up (shr x) = true -> keep (shr x) = true ->
    env N W x (mk_st (shr x) (upd_pc (pcs x) t D225)).

(** No thread moves once thpool_destroy has freed the pool (moving would be a use after free). *)
Definition step (N : nat) (W : nat -> Prop) (x y : state) : Prop := freed (shr x) = false /\ (run N x y \/ env N W x y).

(** thpool_init, lines 125-171, jobqueue_init, lines 420-434, bsem_init, lines 526-534: the state in which all threads have been created *)
Definition start (N : nat) : state :=
  mk_st (mk_sh None None None 0 0 None None (fun _ => None) 0 0 true false false 0 []) (fun t => if (t <? N)%nat then T365 else Cidle).
Inductive reach (N : nat) (W : nat -> Prop) : state -> Prop :=
| reach_0 : reach N W (start N)
| reach_S : forall x y, reach N W x -> step N W x y -> reach N W y.
