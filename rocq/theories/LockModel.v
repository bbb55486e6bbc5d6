(** Threads that use one object whose methods take a lock given by the user: auto_cover_buf (/repo/src/ring/autocover_buffer.c:18-26, 57-168)
    and hashmap (/repo/src/data/hashmap.c:56-61, 252-390). A method runs step by step; other threads may be scheduled between any two steps.
    Simplified: the user's lock is a correct non-recursive mutex; each step is an access to the object; steps see memory in one order. *)
From Verif Require Import CBase.

(** ** Code that runs in steps on a shared object: Step: one access; Enter: taking the object's lock (again) *)
Inductive body (S A : Type) : Type :=
| Done (a : A)
| Step (f : S -> outcome (S * body S A))
| Enter (b : body S A).
Arguments Done {S A}. Arguments Step {S A}. Arguments Enter {S A}.
Fixpoint bbind {S A B} (b : body S A) (k : A -> body S B) : body S B :=
  match b with
  | Done a => k a
  | Step f => Step (fun s => match f s with Ret (s', b') => Ret (s', bbind b' k) | Ub => Ub | Abrt => Abrt | NoFuel => NoFuel end)
  | Enter b => Enter (bbind b k)
  end.
Definition act {S A} (f : S -> outcome (S * A)) : body S A := Step (fun s => do (s', a) <- f s; Ret (s', Done a)).
(** the code run alone, with no other thread (a second Enter of a non-recursive lock would wait for ever) *)
Fixpoint run {S A} (b : body S A) (s : S) : outcome (S * A) :=
  match b with
  | Done a => Ret (s, a)
  | Step f => match f s with Ret (s', b') => run b' s' | Ub => Ub | Abrt => Abrt | NoFuel => NoFuel end
  | Enter _ => NoFuel
  end.

Section Obj.
Variables (S C R : Type).
Variables (code : C -> body S R) (locked : C -> bool).
(** the calls the threads may make *)
Variable ok : C -> Prop.
(** a thread; In: it holds the lock; Bare: it runs a method that takes no lock *)
Inductive pc := Idle | Wait (c : C) | In (c : C) (b : body S R) | Bare (c : C) (b : body S R) | Out (c : C) (r : R).
Inductive ev := ECall (t : nat) (c : C) | ERet (t : nat) (c : C) (r : R).
(** holder: the thread that has the lock; log: oldest event first *)
Record st := mk_st { obj : S; holder : option nat; pcs : nat -> pc; log : list ev }.
Definition upd (p : nat -> pc) (t : nat) (x : pc) : nat -> pc := fun u => if Nat.eqb u t then x else p u.
Definition begin (c : C) : pc := if locked c then Wait c else Bare c (code c).
(** one step of thread t *)
Inductive tstep (t : nat) : st -> st -> Prop :=
| t_call s c : pcs s t = Idle -> ok c -> tstep t s (mk_st (obj s) (holder s) (upd (pcs s) t (begin c)) (log s ++ [ECall t c]))
| t_acquire s c : pcs s t = Wait c -> holder s = None -> tstep t s (mk_st (obj s) (Some t) (upd (pcs s) t (In c (code c))) (log s))
| t_step s c f o b : pcs s t = In c (Step f) -> f (obj s) = Ret (o, b) -> tstep t s (mk_st o (holder s) (upd (pcs s) t (In c b)) (log s))
| t_enter s c b : pcs s t = In c (Enter b) -> holder s = None -> tstep t s (mk_st (obj s) (Some t) (upd (pcs s) t (In c b)) (log s))
| t_release s c r : pcs s t = In c (Done r) -> tstep t s (mk_st (obj s) None (upd (pcs s) t (Out c r)) (log s))
| t_bare s c f o b : pcs s t = Bare c (Step f) -> f (obj s) = Ret (o, b) -> tstep t s (mk_st o (holder s) (upd (pcs s) t (Bare c b)) (log s))
| t_bare_end s c r : pcs s t = Bare c (Done r) -> tstep t s (mk_st (obj s) (holder s) (upd (pcs s) t (Out c r)) (log s))
| t_return s c r : pcs s t = Out c r -> tstep t s (mk_st (obj s) (holder s) (upd (pcs s) t Idle) (log s ++ [ERet t c r])).
(** the next access of thread t is undefined (or aborts) *)
Definition faults (t : nat) (s : st) : Prop :=
  exists c f, (pcs s t = In c (Step f) \/ pcs s t = Bare c (Step f)) /\ forall o b, f (obj s) <> Ret (o, b).
Definition boot (o : S) : st := mk_st o None (fun _ => Idle) [].
(** every schedule *)
Inductive reach (o : S) : st -> Prop :=
| r_boot : reach o (boot o)
| r_step s t s' : reach o s -> tstep t s s' -> reach o s'.
End Obj.
Arguments Idle {S C R}. Arguments Wait {S C R}. Arguments In {S C R}. Arguments Bare {S C R}. Arguments Out {S C R}.
Arguments ECall {C R}. Arguments ERet {C R}. Arguments mk_st {S C R}. Arguments obj {S C R}. Arguments holder {S C R}. Arguments pcs {S C R}. Arguments log {S C R}.
Arguments faults {S C R}. Arguments tstep {S C R}. Arguments reach {S C R}. Arguments boot {S C R}. Arguments upd {S C R}. Arguments begin {S C R}.
