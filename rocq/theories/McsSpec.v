(** What users of the queue lock see. *)
From Verif Require Import CBase McsModel.

(** the thread is between the return of acquire and the call of release *)
Definition holds_lock (s : mst) (t : Z) : Prop := exists n, pcs s t = PHeld n.
(** the thread is inside acquire and has queued *)
Definition queued (s : mst) (t : Z) : Prop :=
  exists n, match pcs s t with
            | PLink n' _ | PSet (SNext n' _) | PSetEv (SNext n' _) _ => n' = n
            | PWait1 (WReady n') | PWait2 (WReady n') | PWait3 (WReady n') _ | PWait4 (WReady n') _ | PWait5 (WReady n') _ => n' = n
            | _ => False
            end.
(** blocked in WaitForSingleObject *)
Definition stuck (s : mst) (t : Z) : Prop := exists k e, pcs s t = PWait4 k (Some e) /\ evs s e = EvOpen false.
(** order in which threads queued / got the lock, oldest first *)
Fixpoint arrived (l : list mev) : list (Z * Z) :=
  match l with [] => [] | EArrive n t :: l => arrived l ++ [(n, t)] | _ :: l => arrived l end.
Fixpoint got (l : list mev) : list (Z * Z) :=
  match l with [] => [] | EGot n t :: l => got l ++ [(n, t)] | _ :: l => got l end.

(** no thread is still about to touch node n as its predecessor's node *)
Definition quiet (s : mst) (n : Z) : Prop := forall u m, pcs s u <> PSet (SNext m n).
(** CreateEvent never fails, and a node is used again only when no thread is about to touch it *)
Definition calm (s : mst) (a : mact) : Prop :=
  match a with MAcquire _ n | MTry _ n => quiet s n | MStep _ ok => ok = true | MRelease _ => True end.

(** the node with which a thread holds the lock, has queued for it or is giving it away (up to the point
    where the successor, if any, has become first) *)
Definition inq (p : pc) : option Z :=
  match p with
  | PIdle | PInit1 _ _ | PInit2 _ _ | PInit3 _ _ | PTry _ | PXchg _ | PSetEv (SReady _ _) _ => None
  | _ => own p
  end.
(** steps a thread has left at most before its call returns or it waits for a release *)
Definition left_steps (p : pc) : Z :=
  match p with
  | PIdle | PHeld _ => 0
  | PInit1 _ _ => 12 | PInit2 _ _ => 11 | PInit3 _ _ => 10 | PTry _ => 1 | PXchg _ => 9 | PLink _ _ => 8
  | PSet (SNext _ _) => 7 | PSetEv (SNext _ _) _ => 6
  | PWait1 (WReady _) => 5 | PWait2 (WReady _) => 4 | PWait3 (WReady _) _ => 3 | PWait4 (WReady _) _ => 2 | PWait5 (WReady _) _ => 1
  | PRel1 _ => 10 | PRel2 _ => 9
  | PWait1 (WNext _) => 8 | PWait2 (WNext _) => 7 | PWait3 (WNext _) _ => 6 | PWait4 (WNext _) _ => 5 | PWait5 (WNext _) _ => 4
  | PRel3 _ => 3 | PSet (SReady _ _) => 2 | PSetEv (SReady _ _) _ => 1
  end.
