(** What a user of the thread pool may rely on, in terms of what happened (the log of events) only. *)
From Verif Require Import CBase ThpoolModel.

(** the jobs queued / taken / started / finished, in order *)
Fixpoint adds (l : list ev) : list nat := match l with [] => [] | EAdd j :: l => j :: adds l | _ :: l => adds l end.
Fixpoint takes (l : list ev) : list nat := match l with [] => [] | ETake j :: l => j :: takes l | _ :: l => takes l end.
Fixpoint starts (l : list ev) : list nat := match l with [] => [] | EStart j :: l => j :: starts l | _ :: l => starts l end.
Fixpoint dones (l : list ev) : list nat := match l with [] => [] | EDone j :: l => j :: dones l | _ :: l => dones l end.

(** since thread t's last call of thpool_wait there was a moment when every job ever submitted was done *)
Definition idle_since (t : nat) (l : list ev) : Prop :=
  exists l2 l3, l = l2 ++ l3 /\ In (ECall t) l2 /\ ~ In (ECall t) l3 /\ forall j, In (EAdd j) l2 -> In (EDone j) l2.

(** may event e happen after l? Jobs are taken first in, first out; started once, after they were taken; done once, after they were started;
    thpool_wait returns only if the pool was idle since it was called. *)
Definition allowed (l : list ev) (e : ev) : Prop :=
  match e with
  | EAdd j => ~ In (EAdd j) l
  | EAdded _ j => In (EAdd j) l
  | ETake j => exists q, adds l = takes l ++ j :: q
  | EStart j => In (ETake j) l /\ ~ In (EStart j) l
  | EDone j => In (EStart j) l /\ ~ In (EDone j) l
  | ECall t => True
  | ERet t => idle_since t l
  end.
Definition legal (l : list ev) : Prop := forall l1 e l2, l = l1 ++ e :: l2 -> allowed l1 e.

(** nothing is running and nothing can run until a thread calls the API again (or a condition variable wakes up without cause) *)
Definition quiescent (N : nat) (x : state) : Prop := forall y, ~ run N x y.
Definition all_done (x : state) : Prop := forall j, In (EAdd j) (log (shr x)) -> In (EDone j) (log (shr x)).
(** at most one thread calls thpool_wait *)
Definition single (W : nat -> Prop) : Prop := forall a b, W a -> W b -> a = b.
(** one step of the running code while the pool is not being destroyed *)
Definition runs (N : nat) (x y : state) : Prop := freed (shr x) = false /\ run N x y /\ keep (shr y) = true.
(** a call of thpool_wait by thread t has not returned *)
Definition pendw (t : nat) (l : list ev) : Prop := exists l1 l2, l = l1 ++ ECall t :: l2 /\ ~ In (ERet t) l2.
