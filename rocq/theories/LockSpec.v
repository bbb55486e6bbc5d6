(** Specification for C74: atomic (linearizable) histories. *)
From Verif Require Import CBase LockModel.
Section Lin.
Variables (C R : Type).
(** a history with the moment at which each call takes effect *)
Inductive lev := LCall (t : nat) (c : C) | LPoint (t : nat) (c : C) (r : R) | LRet (t : nat) (c : C) (r : R).
(** what the callers see of it *)
Fixpoint seen (h : list lev) : list (ev C R) :=
  match h with [] => [] | LCall t c :: h => ECall t c :: seen h | LPoint _ _ _ :: h => seen h | LRet t c r :: h => ERet t c r :: seen h end.
(** the calls in the order in which they take effect, with their results *)
Fixpoint points (h : list lev) : list (C * R) :=
  match h with [] => [] | LPoint _ c r :: h => (c, r) :: points h | _ :: h => points h end.
(** each thread makes one call after the other; each takes effect once, between its call and its return, and returns the result it had then *)
Inductive phase := PNone | PCalled (c : C) | PDone (c : C) (r : R).
Definition next_phase (t : nat) (p : phase) (e : lev) (p' : phase) : Prop :=
  match e with
  | LCall u c => if Nat.eqb u t then p = PNone /\ p' = PCalled c else p' = p
  | LPoint u c r => if Nat.eqb u t then p = PCalled c /\ p' = PDone c r else p' = p
  | LRet u c r => if Nat.eqb u t then p = PDone c r /\ p' = PNone else p' = p
  end.
Inductive phases (t : nat) : phase -> list lev -> phase -> Prop :=
| ph_nil p : phases t p [] p
| ph_cons p e p' h q : next_phase t p e p' -> phases t p' h q -> phases t p (e :: h) q.
Definition threads_ok (h : list lev) : Prop := forall t, exists p, phases t PNone h p.
(** the callers' history is explained by legal: an allowed sequence of atomic calls *)
Definition linearizable (legal : list (C * R) -> Prop) (log : list (ev C R)) : Prop :=
  exists h, seen h = log /\ threads_ok h /\ legal (points h).
End Lin.
Arguments linearizable {C R}. Arguments LCall {C R}. Arguments LPoint {C R}. Arguments LRet {C R}. Arguments seen {C R}. Arguments points {C R}. Arguments PNone {C R}. Arguments PCalled {C R}. Arguments PDone {C R}.
Arguments threads_ok {C R}. Arguments phases {C R}. Arguments next_phase {C R}.
