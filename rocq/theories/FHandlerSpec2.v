(** How full a fixed message queue handler is, read off the log of calls, returns and callbacks (newest first). *)
From Verif Require Import CBase FHandlerModel FHandlerSpec.

(** the log as it was when the latest push was called *)
Fixpoint at_kpush (l : list kev) : list kev :=
  match l with
  | [] => []
  | KPush _ :: l => l
  | _ :: l => at_kpush l
  end.
(** messages number 0 .. kupto - 1 have left the queue: the latest callback was for number kupto - 1 (0: no callback yet) *)
Fixpoint kupto (l : list kev) : Z :=
  match l with
  | [] => 0
  | KCb k _ :: _ => k + 1
  | _ :: l => kupto l
  end.
