(** Model of thpool_pause, thpool_resume and thread_hold, src/thread/thpool.c:41, 125-127, 255-288, for any number
    of pools and workers. threads_on_hold (line 41) is one variable for all pools.
    A worker runs jobs, or executes the signal handler: H260 before the store of line 260, H261 in the loop.
    SIGUSR1 is blocked while its handler runs; one further signal stays pending.
    Simplified: thpool_pause is one action (a signal may be delivered at any later time anyway); sleep is not
    modelled. *)
From Verif Require Import CBase ThreadLib.

Inductive mode := Run | H260 | H261.
Record worker := mk_w { pool : nat; pend : bool; md : mode }.
(** hlog: the workers that executed a step of a job, newest first *)
Record hst := mk_h { hold : bool; ws : list worker; hlog : list nat }.
Inductive act :=
| AWork (t : nat)            (* a step of a job *)
| ASignal (t : nat)          (* a pending signal is delivered *)
| AHandler (t : nat)         (* a step of the handler *)
| APause (p : nat)           (* thpool_pause, lines 269-276 *)
| AResume (p : nat)          (* thpool_resume, lines 279-286 *)
| AInit.                     (* thpool_init of another pool, line 127 *)
Definition set_w (s : hst) (t : nat) (w : worker) : hst := mk_h (hold s) (lset t w (ws s)) (hlog s).
Definition step (a : act) (s : hst) : option hst :=
  match a with
  | AWork t => match nth_error (ws s) t with Some (mk_w p q Run) => Some (mk_h (hold s) (ws s) (t :: hlog s)) | _ => None end
  | ASignal t => match nth_error (ws s) t with Some (mk_w p true Run) => Some (set_w s t (mk_w p false H260)) | _ => None end
  | AHandler t =>
      match nth_error (ws s) t with
      | Some (mk_w p q H260) => Some (mk_h true (lset t (mk_w p q H261) (ws s)) (hlog s))      (* 260 *)
      | Some (mk_w p q H261) => if hold s then None else Some (set_w s t (mk_w p q Run))       (* 261-266 *)
      | _ => None
      end
  | APause p => Some (mk_h (hold s) (map (fun w => if Nat.eqb (pool w) p then mk_w (pool w) true (md w) else w) (ws s)) (hlog s))
  | AResume _ => Some (mk_h false (ws s) (hlog s))
  | AInit => Some (mk_h false (ws s) (hlog s))
  end.
Fixpoint run (l : list act) (s : hst) : option hst := match l with [] => Some s | a :: l => match step a s with Some s' => run l s' | None => None end end.
(** workers of the given pools, all running *)
Definition start (ps : list nat) : hst := mk_h false (map (fun p => mk_w p false Run) ps) [].
