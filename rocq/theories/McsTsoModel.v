(** Model of /repo/src/thread/pthread_win_simple/ptw32_mcs_lock.c on a machine with store buffers (x86-TSO): the lock functions of McsModel, in which the
    plain stores (lines 193-195, 263-265, 204) go into the thread's store buffer and reach memory later, in order. Every other access of these functions
    to shared memory is a locked instruction (PTW32_INTERLOCKED_..., lines 135, 155, 163, 198, 227, 233, 244, 266): it happens when the thread's buffer is
    empty; so do the calls of the event API, which follow locked instructions. Beside the lock there is data: memory words that a thread reads and writes
    with plain instructions while it holds the lock. Otherwise as in McsModel (one lock, ptw32_mcs_node_transfer and the node's lock field left out). *)
From Verif Require Import CBase McsModel.

(** a store on its way: a node's nextFlag, readyFlag (always 0), next; a data word *)
Inductive lw := LNf (n : Z) | LRf (n : Z) | LNx (n : Z) (x : option Z) | LD (a v : Z).
(** accesses to the data, newest first *)
Inductive dev := DW (t a v : Z) | DR (t a v : Z).
(** mk: memory, program points and log as in McsModel; mb: the store buffers, oldest first; md: the data words in memory *)
Record tm := mk_tm { mk : mst; mb : Z -> list lw; md : Z -> Z; ml : list dev }.
Definition mset_k m x := mk_tm x (mb m) (md m) (ml m).
Definition push_w m t e := mk_tm (mk m) (upd (mb m) t (mb m t ++ [e])) (md m) (ml m).
Definition dlogm m e := mk_tm (mk m) (mb m) (md m) (e :: ml m).

(** one step of thread [t] inside a lock function; Ret None: it cannot move now *)
Definition tmexec (m : tm) (t : Z) (ok : bool) : outcome (option tm) :=
  match pcs (mk m) t with
  | PInit1 n y => Ret (Some (mset_k (push_w m t (LNf n)) (go (mk m) t (PInit2 n y))))
  | PInit2 n y => Ret (Some (mset_k (push_w m t (LRf n)) (go (mk m) t (PInit3 n y))))
  | PInit3 n y => Ret (Some (mset_k (push_w m t (LNx n None)) (go (mk m) t (if y then PTry n else PXchg n))))
  | PLink n p => Ret (Some (mset_k (push_w m t (LNx p (Some n))) (go (mk m) t (PSet (SNext n p)))))
  | _ => match mb m t with
         | [] => do r <- mexec (mk m) t ok; Ret (match r with Some k => Some (mset_k m k) | None => None end)
         | _ => Ret None
         end
  end.
(** the store reaches memory *)
Definition mcommit (m : tm) (e : lw) : tm :=
  match e with
  | LNf n => mset_k m (set_nfl (mk m) n F0)
  | LRf n => mset_k m (set_rfl (mk m) n F0)
  | LNx n x => mset_k m (set_nxt (mk m) n x)
  | LD a v => mk_tm (mk m) (mb m) (upd (md m) a v) (ml m)
  end.
Definition pop_w m t b := mk_tm (mk m) (upd (mb m) t b) (md m) (ml m).
(** what a thread with buffer [b] reads where memory holds [x] *)
Fixpoint fwd (b : list lw) (a x : Z) : Z := match b with [] => x | LD a' v :: b => fwd b a (if a' =? a then v else x) | _ :: b => fwd b a x end.

Inductive tmact := TMAcquire (t n : Z) | TMTry (t n : Z) | TMStep (t : Z) (ok : bool) | TMRelease (t : Z) | TMFlush (t : Z) | TMWrite (t a v : Z) | TMRead (t a : Z).
Inductive tmstep : tm -> tmact -> tm -> Prop :=
| TMSAcquire m t n : pcs (mk m) t = PIdle -> (forall u, own (pcs (mk m) u) <> Some n) -> tmstep m (TMAcquire t n) (mset_k m (go (mk m) t (PInit1 n false)))
| TMSTry m t n : pcs (mk m) t = PIdle -> (forall u, own (pcs (mk m) u) <> Some n) -> tmstep m (TMTry t n) (mset_k m (go (mk m) t (PInit1 n true)))
| TMSStep m t ok m' : tmexec m t ok = Ret (Some m') -> tmstep m (TMStep t ok) m'
| TMSRelease m t n : pcs (mk m) t = PHeld n -> tmstep m (TMRelease t) (mset_k m (memit (go (mk m) t (PRel1 n)) (ERelease n t)))
| TMSFlush m t e b : mb m t = e :: b -> tmstep m (TMFlush t) (mcommit (pop_w m t b) e)
| TMSWrite m t n a v : pcs (mk m) t = PHeld n -> tmstep m (TMWrite t a v) (dlogm (push_w m t (LD a v)) (DW t a v))
| TMSRead m t n a : pcs (mk m) t = PHeld n -> tmstep m (TMRead t a) (dlogm m (DR t a (fwd (mb m t) a (md m a)))).

(** the lock word is 0, nobody is inside, the data words are [d0] *)
Definition tmboot (d0 : Z -> Z) (m : tm) : Prop := boot (mk m) /\ (forall t, mb m t = []) /\ md m = d0 /\ ml m = [].
Inductive tmreach (d0 : Z -> Z) (P : tm -> tmact -> Prop) : tm -> Prop :=
| TM0 m : tmboot d0 m -> tmreach d0 P m
| TMS m a m' : tmreach d0 P m -> P m a -> tmstep m a m' -> tmreach d0 P m'.
