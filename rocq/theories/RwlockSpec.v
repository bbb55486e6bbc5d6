(** What a reader/writer lock promises, in terms of the history (newest event first). Independent of the code. *)
From Verif Require Import CBase RwlockModel.

(** the threads that hold the lock for reading, for writing, and those that have asked for writing and do not hold it yet *)
Fixpoint rholders (h : list ev) : list nat :=
  match h with [] => [] | EGotR t :: h => t :: rholders h | EUnlock t :: h => remove Nat.eq_dec t (rholders h) | _ :: h => rholders h end.
Fixpoint wholders (h : list ev) : list nat :=
  match h with [] => [] | EGotW t :: h => t :: wholders h | EUnlock t :: h => remove Nat.eq_dec t (wholders h) | _ :: h => wholders h end.
Fixpoint wqueue (h : list ev) : list nat :=
  match h with [] => [] | EReqW t :: h => t :: wqueue h | EGotW t :: h => remove Nat.eq_dec t (wqueue h) | _ :: h => wqueue h end.

(** a reader gets the lock only when no writer holds it or has asked for it, a writer only when nobody holds it *)
Fixpoint legal (h : list ev) : Prop :=
  match h with
  | [] => True
  | EReqW t :: h => legal h /\ ~ In t (rholders h) /\ ~ In t (wholders h) /\ ~ In t (wqueue h)
  | EGotR t :: h => legal h /\ wholders h = [] /\ wqueue h = [] /\ ~ In t (rholders h)
  | EGotW t :: h => legal h /\ rholders h = [] /\ wholders h = [] /\ In t (wqueue h)
  | EUnlock t :: h => legal h /\ (In t (rholders h) \/ In t (wholders h))
  end.

(** between the return of the lock call and the call of unlock *)
Definition reading (s : rst) (t : nat) : Prop := nth_error (pcs s) t = Some HoldR.
Definition writing (s : rst) (t : nat) : Prop := nth_error (pcs s) t = Some HoldW.
(** inside a call *)
Definition inside (p : pc) : bool := match p with Idle | HoldR | HoldW => false | _ => true end.
Definition in_rdlock (p : pc) : bool := match p with R342 | R346 | R347 | R348 | R349 => true | _ => false end.
(** no thread inside a call can move *)
Definition at_rest (s : rst) : Prop := forall t, exec t s = Ret None.
