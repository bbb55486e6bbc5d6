(** What a condition variable promises, in terms of the history of calls. Independent of the code.
    A history has the newest event first. *)
From Verif Require Import CBase CondModel.

(** the threads that have started to wait and have not been woken *)
Fixpoint waiters (h : list ev) : list nat :=
  match h with
  | [] => []
  | EWait t :: h => t :: waiters h
  | EWake t :: h => remove Nat.eq_dec t (waiters h)
  | _ :: h => waiters h
  end.

(** wake-ups that have been granted and not been used: a signal grants one if some waiter has none, a
    broadcast grants one to each waiter *)
Fixpoint pending (h : list ev) : Z :=
  match h with
  | [] => 0
  | ESignal _ :: h => if pending h <? zlen (waiters h) then pending h + 1 else pending h
  | EBcast _ :: h => zlen (waiters h)
  | EWake _ :: h => pending h - 1
  | _ :: h => pending h
  end.

(** since thread t started to wait, a signal or broadcast has granted a wake-up *)
Fixpoint signalled (t : nat) (h : list ev) : Prop :=
  match h with
  | [] => False
  | EWait u :: h => t <> u /\ signalled t h
  | ESignal _ :: h | EBcast _ :: h => (pending h < zlen (waiters h) /\ In t (waiters h)) \/ signalled t h
  | _ :: h => signalled t h
  end.

(** every wake-up is one that was granted, after the woken thread started to wait *)
Fixpoint legal (h : list ev) : Prop :=
  match h with
  | [] => True
  | EWait t :: h => legal h /\ ~ In t (waiters h)
  | EWake t :: h => legal h /\ In t (waiters h) /\ 0 < pending h /\ signalled t h
  | _ :: h => legal h
  end.

Definition is_notify (e : ev) : Prop := match e with ESignal _ | EBcast _ => True | _ => False end.
Definition silent (h : list ev) : Prop := Forall (fun e => ~ is_notify e) h.

(** the number of signals and broadcasts in a history (an upper bound of the number of generations) *)
Fixpoint notifies (h : list ev) : Z :=
  match h with [] => 0 | ESignal _ :: h | EBcast _ :: h => 1 + notifies h | _ :: h => notifies h end.
Fixpoint wakes (h : list ev) : Z := match h with [] => 0 | EWake _ :: h => 1 + wakes h | _ :: h => wakes h end.

(** inside a call, from its first statement to its last *)
Definition inside_wait (p : pc) : bool :=
  match p with
  | W186 | W187 | W188 | W189 _ | W190 _ | W192 _ | W193 _ | W194 _ | W196 _ | W198 _ | W199 _ | W204 _ _ | W205 _ _ | W211 | W212 => true
  | _ => false
  end.
(** no thread inside a call can move: each waits for a wake-up, or for a mutex another thread holds *)
Definition at_rest (s : cst) : Prop := forall t, exec t s = None.

(** wake-ups granted so far: one per signal that finds a waiter without one, one per such waiter for a broadcast *)
Fixpoint granted (h : list ev) : Z :=
  match h with
  | [] => 0
  | ESignal _ :: h => (if pending h <? zlen (waiters h) then 1 else 0) + granted h
  | EBcast _ :: h => (zlen (waiters h) - pending h) + granted h
  | _ :: h => granted h
  end.
(** thread t has been woken since it last started to wait *)
Fixpoint woken (t : nat) (h : list ev) : Prop :=
  match h with
  | [] => False
  | EWait u :: h => t <> u /\ woken t h
  | EWake u :: h => t = u \/ woken t h
  | _ :: h => woken t h
  end.
