(** What a counting semaphore promises, in terms of the history of returned calls, newest first. *)
From Verif Require Import CBase ThreadLib SemModel.

(** how the calls that returned changed a semaphore that started with v0 units *)
Definition gain (e : ev) : Z :=
  match e with
  | EPost _ r => if r =? 0 then 1 else 0
  | EWait _ r | ETry _ r | ETimed _ r => if r =? 0 then -1 else 0
  | EGet _ _ _ => 0
  end.
Fixpoint units (v0 : Z) (h : list ev) : Z := match h with [] => v0 | e :: h => units v0 h + gain e end.
(** calls of sem_getvalue that failed *)
Fixpoint getfails (h : list ev) : Z := match h with [] => 0 | EGet _ e _ :: h => getfails h + (if e =? 0 then 0 else 1) | _ :: h => getfails h end.
(** threads in the middle of sem_getvalue *)
Definition peek (p : pc) : Z := match p with G2 => 1 | _ => 0 end.
Definition peeking (s : sst) : Z := lsum peek (pcs s).
(** nobody inside a call can move (a timeout aside) *)
Definition at_rest (s : sst) : Prop := forall t, exec t s = None.
(** the time in nanoseconds: deadline, system time *)
Definition deadline (sec nsec : Z) : Z := sec * 1000000000 + nsec.
Definition system_time (ft : Z) : Z := (ft - DELTA) * 100.
