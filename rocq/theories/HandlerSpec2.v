(** The messages waiting in a message queue handler, read off the log of calls, returns and callbacks (newest first). *)
From Verif Require Import CBase HandlerModel HandlerSpec.

(** the log as it was when the latest push was called *)
Fixpoint at_hpush (l : list hev) : list hev :=
  match l with
  | [] => []
  | HPush _ :: l => l
  | _ :: l => at_hpush l
  end.
(** accepted messages that have not been passed to the callback *)
Definition hwaiting (l : list hev) : list (list Z) := skipn (length (callbacks l)) (haccepted l).
