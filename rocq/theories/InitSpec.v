From Verif Require Import CBase ThreadLib InitModel.
(** the number of objects allocated *)
Fixpoint allocated (h : heap) : Z := match h with [] => 0 | b :: h => (if b then 1 else 0) + allocated h end.
Definition held (v : handle) : Z := match v with Some _ => 1 | None => 0 end.
(** how many users there are after a history, oldest call first: inits not yet undone; cleanups without a user
    count nothing *)
Fixpoint users (n : Z) (l : list op) : Z :=
  match l with [] => n | LcuInit _ _ _ :: l => users (n + 1) l | LcuCleanup :: l => users (Z.max 0 (n - 1)) l | _ :: l => users n l end.
Definition lcu_only (o : op) : Prop := match o with LcuInit _ _ _ | LcuCleanup => True | _ => False end.
(** nothing fails *)
Definition fine (e : env) : Prop := e_mem e = true /\ e_ret e = 0.
Definition no_failure (o : op) : Prop := match o with LcuInit a b c => fine a /\ fine b /\ fine c | TimeInit a b => fine a /\ fine b | XlogInit a => fine a | _ => True end.
