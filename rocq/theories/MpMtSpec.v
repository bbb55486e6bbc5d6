(** Specification for C77: what the history of a shared pool says. *)
From Verif Require Import CBase MpliteModel MpliteSpec MpMtModel.

(** call c, alone and in one go, takes the pool from h to h' and returns r; own: what the callers own before it *)
Definition atomic (h : mp) (own : list blk) (c : call) (r : res) (h' : mp) : Prop :=
  match c with
  | CMalloc m | CCalloc m => exists x, mplite_malloc h m = Ret (h', x) /\ r = RPtr x      (* the memset of mplite_calloc: writes after it *)
  | CFree p => mplite_free h (Some p) = Ret h' /\ r = RVoid /\ ok_op own (OFree p)
  | CRealloc p m => exists x, mplite_realloc h (Some p) m = Ret (h', x) /\ r = RPtr x /\ ok_op own (ORealloc p m)
  | CResize p m => exists b, mplite_resize h (Some p) m = Ret b /\ r = RInt (if b then MPLITE_OK else MPLITE_ERR_INVPAR) /\ h' = h /\ exists x, List.In x own /\ b_ptr x = p
  | CMaxmem => exists v, mplite_maxmem h = Ret v /\ r = RInt v /\ h' = h
  | CFreemem => exists v, mplite_freemem h = Ret v /\ r = RInt v /\ h' = h
  end.
Definition size_ok_of (c : call) : Prop := match c with CMalloc m | CCalloc m => - two31 <= m < two31 | _ => True end.
(** l is explained by calls that run one after the other, each in one go at its LOp, from the pool h0 to the pool h, where the callers own own *)
Inductive serial (h0 : mp) : list lev -> mp -> list blk -> Prop :=
| s_nil : serial h0 [] h0 []
| s_call l h own t c : serial h0 l h own -> serial h0 (l ++ [LCall t c]) h own
| s_ret l h own t c r : serial h0 l h own -> serial h0 (l ++ [LRet t c r]) h own
| s_write l h own t p off bytes m : serial h0 l h own -> ok_op own (OWrite p off bytes) -> mwrite (mp_mem h) (p + off) bytes = Ret m ->
    serial h0 (l ++ [LWrite t p off bytes]) (set_mem h m) (c_step (mp_sz h0) own (OWrite p off bytes) None)
| s_op l h own t c r h' : serial h0 l h own -> size_ok_of c -> atomic h own c r h' -> serial h0 (l ++ [LOp t c r]) h' (own_step (mp_sz h0) own c r).
(** each thread: call, the moment at which it takes effect, (for mplite_calloc: the bytes cleared,) return with the result it had then *)
Inductive phase := PNone | PCalled (c : call) | PDone (c : call) (r : res).
Definition next_phase (t : nat) (p : phase) (e : lev) (p' : phase) : Prop :=
  match e with
  | LCall u c => if Nat.eqb u t then p = PNone /\ p' = PCalled c else p' = p
  | LOp u c r => if Nat.eqb u t then p = PCalled c /\ p' = PDone c r else p' = p
  | LWrite u q off bytes => if Nat.eqb u t then p' = p /\ (p = PNone \/ exists m, p = PDone (CCalloc m) (RPtr (Some q)) /\ 0 <= off < m /\ bytes = [0]) else p' = p
  | LRet u c r => if Nat.eqb u t then p = PDone c r /\ p' = PNone else p' = p
  end.
Inductive phases (t : nat) : phase -> list lev -> phase -> Prop :=
| ph_nil p : phases t p [] p
| ph_cons p e p' h q : next_phase t p e p' -> phases t p' h q -> phases t p (e :: h) q.
(** a thread is inside a call that has not taken effect *)
Definition pending (x : pc) : option call := match x with PSize c | Wait c _ | In c _ _ => Some c | _ => None end.
(** thread t's next step is undefined, aborts or fails an ASSERT *)
Definition faults (locked : bool) (t : nat) (ch : choice) (s : st) : Prop := exists o, tick locked t ch s = Yes o /\ forall s', o <> Ret s'.
(** from s, threads inside a call (no new call, no user's write) can take the shared pool to s' *)
Inductive later : st -> st -> Prop :=
| l_0 s : later s s
| l_S s t s1 s' : tick true t Go s = Yes (Ret s1) -> later s1 s' -> later s s'.
