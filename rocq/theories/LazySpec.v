(** What a (recursive) mutex promises, in terms of the history of returned calls, newest first. *)
From Verif Require Import CBase LazyModel.

(** how often thread t has locked the mutex and not yet unlocked it *)
Fixpoint depth (t : nat) (h : list ev) : Z :=
  match h with
  | [] => 0
  | ELock u r :: h => depth t h + (if Nat.eqb u t && (r =? 0) then 1 else 0)
  | EUnlock u r :: h => depth t h - (if Nat.eqb u t && (r =? 0) then 1 else 0)
  end.
(** a lock that succeeds finds no other thread holding the mutex; one that fails was out of memory; unlock succeeds *)
Fixpoint legal (h : list ev) : Prop :=
  match h with
  | [] => True
  | ELock t r :: h => legal h /\ (r = 0 /\ (forall u, u <> t -> depth u h = 0) \/ r = ENOMEM)
  | EUnlock t r :: h => legal h /\ r = 0 /\ 0 < depth t h
  end.
(** nobody inside the library can move, and nobody waits for the answer of calloc *)
Definition at_rest (s : mst) : Prop := forall t, exec t s = Ret None /\ nth_error (pcs s) t <> Some L98.
