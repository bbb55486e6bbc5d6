(** Model of thread creation, joining and detaching in src/thread/pthread_win_simple/pthread_win_simple.c
    (lines 17-81 and 467-485): any number of thread records, each with an owner (the thread that creates it
    and then joins or detaches it, once) and a worker (the created thread), in every interleaving.
    Simplified: memory is sequentially consistent; ptw32_thread_reuse_lock is a lock with a holder (the MCS
    lock itself is C45); the thread handle is signalled when the worker has returned (line 484) and
    WaitForSingleObject on it does not fail; the identifiers CreateThread stores are not zero. *)
From Verif Require Import CBase ThreadLib.

(** worker, by the line about to be executed; W472: inside the start routine *)
Inductive wpc := WNone | W472 | W473 (v : Z) | W476 | W477 | W478 | W480 | W481 | W483 | W484 | WEnd.
(** owner; OEnd r v: the last call returned r (join: with the value v) *)
Inductive opc :=
| ONone | C25 | C29 | C32 | C33 | OHave
| J39 | J47 | J49 | J53 | J56 (v : option Z)
| D62 | D67 | D68 | D70 | D71 | D73 | D77 | D79
| OEnd (r : Z) (v : option Z).

(** pthread_win_simple.h:20-28: mThreadID is zero, mDetached, mExitCode (0: NULL), mThreadHandle is NULL; the
    record has been allocated, how often it was freed, how often its handle was closed; [got]: what the
    variable of the creator holds is the record. *)
Record rec := mk_t { wp : wpc; op : opc; id0 : bool; det : bool; ecode : Z; hnull : bool; born : bool; frees : Z; closes : Z; got : bool }.
Definition set_wp r x := mk_t x (op r) (id0 r) (det r) (ecode r) (hnull r) (born r) (frees r) (closes r) (got r).
Definition set_op r x := mk_t (wp r) x (id0 r) (det r) (ecode r) (hnull r) (born r) (frees r) (closes r) (got r).
Definition set_id0 r x := mk_t (wp r) (op r) x (det r) (ecode r) (hnull r) (born r) (frees r) (closes r) (got r).
Definition set_det r x := mk_t (wp r) (op r) (id0 r) x (ecode r) (hnull r) (born r) (frees r) (closes r) (got r).
Definition set_ecode r x := mk_t (wp r) (op r) (id0 r) (det r) x (hnull r) (born r) (frees r) (closes r) (got r).
Definition set_hnull r x := mk_t (wp r) (op r) (id0 r) (det r) (ecode r) x (born r) (frees r) (closes r) (got r).
Definition set_born r x := mk_t (wp r) (op r) (id0 r) (det r) (ecode r) (hnull r) x (frees r) (closes r) (got r).
Definition set_frees r x := mk_t (wp r) (op r) (id0 r) (det r) (ecode r) (hnull r) (born r) x (closes r) (got r).
Definition set_closes r x := mk_t (wp r) (op r) (id0 r) (det r) (ecode r) (hnull r) (born r) (frees r) x (got r).
Definition set_got r x := mk_t (wp r) (op r) (id0 r) (det r) (ecode r) (hnull r) (born r) (frees r) (closes r) x.

(** the records and who holds ptw32_thread_reuse_lock: (i, true) the owner of record i, (i, false) its worker *)
Record tst := mk_ts { recs : list rec; lk : option (nat * bool) }.
Definition fresh : rec := mk_t WNone ONone true false 0 true false 0 0 false.
Definition t_init (n : nat) : tst := mk_ts (repeat fresh n) None.

(** what a step does to the lock *)
Inductive lockop := Keep | Take | Drop.
Definition rstep := outcome (option (rec * lockop)).
Definition out (r : rec) (o : lockop) : rstep := Ret (Some (r, o)).
(** an access to the record, to the thread behind the handle *)
Definition live (r : rec) : bool := born r && (frees r =? 0).
Definition use (r : rec) (k : rstep) : rstep := if live r then k else Ub.
Definition useh (r : rec) (k : rstep) : rstep := if hnull r then Ub else if closes r =? 0 then k else Ub.
Definition do_free (r : rec) : rec := set_frees r (frees r + 1).
Definition do_close (r : rec) : rec := set_closes r (closes r + 1).

(** pri_win_thread_start_routine, lines 467-485 *)
Definition wexec (r : rec) : rstep :=
  match wp r with
  | WNone | W472 | WEnd => Ret None
  | W473 v => use r (out (set_wp (set_ecode r v) W476) Keep)
  | W476 => out (set_wp r W477) Take
  | W477 => use r (out (set_wp (set_id0 r true) W478) Keep)
  | W478 => use r (out (set_wp r (if det r then W480 else W483)) Keep)
  | W480 => use r (useh r (out (set_wp (do_close r) W481) Keep))
  | W481 => use r (out (set_wp (do_free r) W483) Keep)
  | W483 => out (set_wp r W484) Drop
  | W484 => out (set_wp r WEnd) Keep
  end.

Definition EINVAL : Z := 22.
(** the worker has returned: its handle is signalled *)
Definition signalled (r : rec) : bool := match wp r with WEnd => true | _ => false end.
(** pthread_create after malloc (lines 22-34), pthread_join (37-58), pthread_detach (60-81); line 25, where
    CreateThread may fail, is the action ACreateThread *)
Definition oexec (r : rec) : rstep :=
  match op r with
  | ONone | C25 | OHave | OEnd _ _ => Ret None
  | C29 => use r (out (set_op (do_free r) (OEnd (-1) None)) Keep)
  | C32 => use r (useh r (out (set_op (set_wp r W472) C33) Keep))
  | C33 => out (set_op (set_got r true) OHave) Keep
  | J39 => use r (out (set_op r (if det r then OEnd EINVAL None else J47)) Keep)
  | J47 => use r (useh r (if signalled r then out (set_op r J49) Keep else Ret None))
  | J49 => use r (useh r (out (set_op (set_hnull (do_close r) true) J53) Keep))
  | J53 => use r (out (set_op r (J56 (Some (ecode r)))) Keep)
  | J56 v => use r (out (set_op (do_free r) (OEnd 0 v)) Keep)
  | D62 => use r (out (set_op r (if det r then OEnd EINVAL None else D67)) Keep)
  | D67 => out (set_op r D68) Take
  | D68 => use r (out (set_op r (if id0 r then D70 else D77)) Keep)
  | D70 => use r (useh r (if signalled r then out (set_op r D71) Keep else Ret None))
  | D71 => use r (useh r (out (set_op (set_hnull (do_close r) true) D73) Keep))
  | D73 => use r (out (set_op (do_free r) D79) Keep)
  | D77 => use r (out (set_op (set_det r true) D79) Keep)
  | D79 => out (set_op r (OEnd 0 None)) Drop
  end.

Inductive act :=
| AStep (i : nat) (o : bool)          (* o: the owner of record i, otherwise its worker *)
| ACreate (i : nat) (ok : bool)       (* pthread_create, lines 19-24; malloc fails if not ok *)
| ACreateThread (i : nat) (ok : bool) (* lines 25-31 *)
| AReturn (i : nat) (v : Z)           (* the start routine returns v, line 472 *)
| AJoin (i : nat) | ADetach (i : nat).

Definition upd (s : tst) (i : nat) (o : bool) (x : rstep) : outcome (option tst) :=
  match x with
  | Ret None => Ret None
  | Ret (Some (r, Keep)) => Ret (Some (mk_ts (lset i r (recs s)) (lk s)))
  | Ret (Some (r, Take)) => match lk s with None => Ret (Some (mk_ts (lset i r (recs s)) (Some (i, o)))) | Some _ => Ret None end
  | Ret (Some (r, Drop)) => Ret (Some (mk_ts (lset i r (recs s)) None))
  | Ub => Ub | Abrt => Abrt | NoFuel => NoFuel
  end.
Definition do_act (a : act) (s : tst) : outcome (option tst) :=
  let at_ i o f := match nth_error (recs s) i with Some r => upd s i o (f r) | None => Ret None end in
  match a with
  | AStep i o => at_ i o (if o then oexec else wexec)
  | ACreate i ok => at_ i true (fun r => match op r with
      | ONone => if ok then out (set_op (set_born r true) C25) Keep else out (set_op r (OEnd EINVAL None)) Keep
      | _ => Ret None end)
  | ACreateThread i ok => at_ i true (fun r => match op r with
      | C25 => if ok then use r (out (set_op (set_hnull (set_id0 r false) false) C32) Keep) else use r (out (set_op r C29) Keep)
      | _ => Ret None end)
  | AReturn i v => at_ i false (fun r => match wp r with W472 => use r (out (set_wp r (W473 v)) Keep) | _ => Ret None end)
  | AJoin i => at_ i true (fun r => match op r with OHave => out (set_op r J39) Keep | _ => Ret None end)
  | ADetach i => at_ i true (fun r => match op r with OHave => out (set_op r D62) Keep | _ => Ret None end)
  end.
Fixpoint run (l : list act) (s : tst) : option tst :=
  match l with [] => Some s | a :: r => match do_act a s with Ret (Some s') => run r s' | _ => None end end.
Definition reach (n : nat) (s : tst) : Prop := exists l, run l (t_init n) = Some s.
