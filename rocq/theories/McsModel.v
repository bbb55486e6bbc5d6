(** Model of /repo/src/thread/pthread_win_simple/ptw32_mcs_lock.c: the MCS queue lock of the Windows pthread
    emulation, for one lock and any number of threads and nodes. Every access to shared memory and every
    call of the Windows event API is one step; the steps of the threads interleave freely (sequentially
    consistent memory). Nodes, threads and event handles are numbered. ptw32_mcs_node_transfer
    (lines 286-308, called nowhere in the repository) is not modelled. The node's lock field (line 192) always names the one lock here. *)
From Verif Require Import CBase.

(** a flag word (HANDLE): 0, -1, or an event handle *)
Inductive flagv := F0 | F1 | FE (e : Z).
(** an auto-reset event (CreateEvent(NULL, FALSE, FALSE, NULL), line 161): closed/never created, or open
    with its signal *)
Inductive evst := EvNone | EvOpen (b : bool).

(** whose flag is set: the predecessor's nextFlag (line 205), the successor's readyFlag (line 249) *)
Inductive setk := SNext (n p : Z) | SReady (n m : Z).
(** which flag is waited on: the own readyFlag (line 206), the own nextFlag (line 243) *)
Inductive waitk := WReady (n : Z) | WNext (n : Z).

(** where a thread is; the first argument is its node *)
Inductive pc :=
| PIdle
| PInit1 (n : Z) (try : bool)    (* line 193 / 262 *)
| PInit2 (n : Z) (try : bool)    (* line 194 / 263 *)
| PInit3 (n : Z) (try : bool)    (* line 195 / 264 *)
| PTry (n : Z)                   (* line 266 *)
| PXchg (n : Z)                  (* line 198 *)
| PLink (n p : Z)                (* line 204 *)
| PSet (k : setk)                (* ptw32_mcs_flag_set, line 135 *)
| PSetEv (k : setk) (e : Z)      (* line 142 *)
| PWait1 (k : waitk)             (* ptw32_mcs_flag_wait, line 155 *)
| PWait2 (k : waitk)             (* line 161 *)
| PWait3 (k : waitk) (e : option Z)  (* line 163; None: CreateEvent failed and returned NULL *)
| PWait4 (k : waitk) (e : option Z)  (* line 169 *)
| PWait5 (k : waitk) (e : option Z)  (* line 172 *)
| PHeld (n : Z)                  (* acquire has returned *)
| PRel1 (n : Z)                  (* line 227 *)
| PRel2 (n : Z)                  (* line 233 *)
| PRel3 (n : Z).                 (* line 244 *)

(** newest first: the thread with its node has queued (line 198), has got the lock, has called release;
    a try was refused *)
Inductive mev := EArrive (n t : Z) | EGot (n t : Z) | ERelease (n t : Z) | EBusy (t : Z).

Record mst := mk_m { tail : option Z; nxt : Z -> option Z; nfl : Z -> flagv; rfl : Z -> flagv;
                     evs : Z -> evst; nev : Z; pcs : Z -> pc; mlog : list mev }.
Definition upd {V} (f : Z -> V) (i : Z) (v : V) : Z -> V := fun j => if j =? i then v else f j.
Definition go s t p := mk_m (tail s) (nxt s) (nfl s) (rfl s) (evs s) (nev s) (upd (pcs s) t p) (mlog s).
Definition set_tail s x := mk_m x (nxt s) (nfl s) (rfl s) (evs s) (nev s) (pcs s) (mlog s).
Definition set_nxt s n x := mk_m (tail s) (upd (nxt s) n x) (nfl s) (rfl s) (evs s) (nev s) (pcs s) (mlog s).
Definition set_nfl s n x := mk_m (tail s) (nxt s) (upd (nfl s) n x) (rfl s) (evs s) (nev s) (pcs s) (mlog s).
Definition set_rfl s n x := mk_m (tail s) (nxt s) (nfl s) (upd (rfl s) n x) (evs s) (nev s) (pcs s) (mlog s).
Definition set_ev s e x := mk_m (tail s) (nxt s) (nfl s) (rfl s) (upd (evs s) e x) (nev s) (pcs s) (mlog s).
Definition memit s e := mk_m (tail s) (nxt s) (nfl s) (rfl s) (evs s) (nev s) (pcs s) (e :: mlog s).

Definition sflag s k := match k with SNext _ p => nfl s p | SReady _ m => rfl s m end.
Definition set_sflag s k x := match k with SNext _ p => set_nfl s p x | SReady _ m => set_rfl s m x end.
Definition wflag s k := match k with WReady n => rfl s n | WNext n => nfl s n end.
Definition set_wflag s k x := match k with WReady n => set_rfl s n x | WNext n => set_nfl s n x end.
(** after ptw32_mcs_flag_set: line 206, or release returns *)
Definition after_set (k : setk) : pc := match k with SNext n _ => PWait1 (WReady n) | SReady _ _ => PIdle end.
(** after ptw32_mcs_flag_wait: acquire returns (the lock is held), or line 244 *)
Definition after_wait s t (k : waitk) : mst :=
  match k with WReady n => memit (go s t (PHeld n)) (EGot n t) | WNext n => go s t (PRel3 n) end.

(** one step of thread [t]; [ok]: a CreateEvent in this step succeeds. Result None: the thread is not
    inside a lock function, or it is blocked in WaitForSingleObject *)
Definition mexec (s : mst) (t : Z) (ok : bool) : outcome (option mst) :=
  match pcs s t with
  | PIdle | PHeld _ => Ret None
  | PInit1 n y => Ret (Some (go (set_nfl s n F0) t (PInit2 n y)))
  | PInit2 n y => Ret (Some (go (set_rfl s n F0) t (PInit3 n y)))
  | PInit3 n y => Ret (Some (go (set_nxt s n None) t (if y then PTry n else PXchg n)))
  | PTry n =>
      match tail s with
      | None => Ret (Some (memit (memit (go (set_tail s (Some n)) t (PHeld n)) (EArrive n t)) (EGot n t)))
      | Some _ => Ret (Some (memit (go s t PIdle) (EBusy t)))
      end
  | PXchg n =>
      let s' := memit (set_tail s (Some n)) (EArrive n t) in
      match tail s with
      | None => Ret (Some (memit (go s' t (PHeld n)) (EGot n t)))
      | Some p => Ret (Some (go s' t (PLink n p)))
      end
  | PLink n p => Ret (Some (go (set_nxt s p (Some n)) t (PSet (SNext n p))))
  | PSet k =>
      match sflag s k with
      | F0 => Ret (Some (go (set_sflag s k F1) t (after_set k)))
      | F1 => Ret (Some (go s t (after_set k)))     (* SetEvent(-1): no such event *)
      | FE e => Ret (Some (go s t (PSetEv k e)))
      end
  | PSetEv k e =>
      match evs s e with
      | EvNone => Ub                                (* SetEvent on a closed handle *)
      | EvOpen _ => Ret (Some (go (set_ev s e (EvOpen true)) t (after_set k)))
      end
  | PWait1 k => match wflag s k with F0 => Ret (Some (go s t (PWait2 k))) | _ => Ret (Some (after_wait s t k)) end
  | PWait2 k =>
      if ok then
        let s' := mk_m (tail s) (nxt s) (nfl s) (rfl s) (upd (evs s) (nev s) (EvOpen false)) (nev s + 1) (pcs s) (mlog s) in
        Ret (Some (go s' t (PWait3 k (Some (nev s)))))
      else Ret (Some (go s t (PWait3 k None)))
  | PWait3 k eo =>
      match wflag s k with
      | F0 => Ret (Some (go (set_wflag s k (match eo with Some e => FE e | None => F0 end)) t (PWait4 k eo)))
      | _ => Ret (Some (go s t (PWait5 k eo)))
      end
  | PWait4 k eo =>
      match eo with
      | None => Ret (Some (go s t (PWait5 k eo)))   (* WaitForSingleObject(NULL) fails at once *)
      | Some e => match evs s e with
                  | EvNone => Ub
                  | EvOpen false => Ret None
                  | EvOpen true => Ret (Some (go (set_ev s e (EvOpen false)) t (PWait5 k eo)))
                  end
      end
  | PWait5 k eo =>
      match eo with
      | None => Ret (Some (after_wait s t k))
      | Some e => Ret (Some (after_wait (set_ev s e EvNone) t k))
      end
  | PRel1 n => match nxt s n with Some m => Ret (Some (go s t (PSet (SReady n m)))) | None => Ret (Some (go s t (PRel2 n))) end
  | PRel2 n =>
      match tail s with
      | Some x => if x =? n then Ret (Some (go (set_tail s None) t PIdle)) else Ret (Some (go s t (PWait1 (WNext n))))
      | None => Ret (Some (go s t (PWait1 (WNext n))))
      end
  | PRel3 n => match nxt s n with Some m => Ret (Some (go s t (PSet (SReady n m)))) | None => Ub end (* next == NULL *)
  end.

(** the node a thread has handed to a lock function that has not returned, or holds the lock with *)
Definition own (p : pc) : option Z :=
  match p with
  | PIdle => None
  | PInit1 n _ | PInit2 n _ | PInit3 n _ | PTry n | PXchg n | PLink n _ | PHeld n | PRel1 n | PRel2 n | PRel3 n => Some n
  | PSet (SNext n _) | PSet (SReady n _) | PSetEv (SNext n _) _ | PSetEv (SReady n _) _ => Some n
  | PWait1 (WReady n) | PWait2 (WReady n) | PWait3 (WReady n) _ | PWait4 (WReady n) _ | PWait5 (WReady n) _ => Some n
  | PWait1 (WNext n) | PWait2 (WNext n) | PWait3 (WNext n) _ | PWait4 (WNext n) _ | PWait5 (WNext n) _ => Some n
  end.

(** what can happen: a call of acquire or try_acquire with a node nobody uses, a step inside a lock
    function, a call of release by the thread that holds the lock *)
Inductive mact := MAcquire (t n : Z) | MTry (t n : Z) | MStep (t : Z) (ok : bool) | MRelease (t : Z).
Inductive mstep : mst -> mact -> mst -> Prop :=
| MSAcquire s t n : pcs s t = PIdle -> (forall u, own (pcs s u) <> Some n) -> mstep s (MAcquire t n) (go s t (PInit1 n false))
| MSTry s t n : pcs s t = PIdle -> (forall u, own (pcs s u) <> Some n) -> mstep s (MTry t n) (go s t (PInit1 n true))
| MSStep s t ok s' : mexec s t ok = Ret (Some s') -> mstep s (MStep t ok) s'
| MSRelease s t n : pcs s t = PHeld n -> mstep s (MRelease t) (memit (go s t (PRel1 n)) (ERelease n t)).

(** the lock word is 0, nothing else matters *)
Definition boot (s : mst) : Prop := tail s = None /\ (forall t, pcs s t = PIdle) /\ mlog s = [].
(** executions all of whose actions satisfy [P] *)
Inductive mreach (P : mst -> mact -> Prop) : mst -> Prop :=
| MR0 s : boot s -> mreach P s
| MRS s a s' : mreach P s -> P s a -> mstep s a s' -> mreach P s'.
