(** What a user of pthread_create, join and detach relies on. *)
From Verif Require Import CBase ThreadLib PthModel.

(** the record i at the end of its owner's calls: create failed (malloc, CreateThread), joined with value v, detached *)
Definition owner_done (r : rec) : Prop := exists e v, op r = OEnd e v.
Definition worker_over (r : rec) : Prop := wp r = WNone \/ wp r = WEnd.
(** nothing is left of it: if the record was allocated it was freed once, and its handle, if it got one, closed once *)
Definition released (r : rec) : Prop := frees r = (if born r then 1 else 0) /\ closes r = (if got r then 1 else 0).
(** nobody inside the library can move *)
Definition at_rest (s : tst) : Prop := forall i o, do_act (AStep i o) s = Ret None.
(** the start routine of record i is running *)
Definition running (s : tst) (i : nat) : Prop := exists r, nth_error (recs s) i = Some r /\ wp r = W472.
