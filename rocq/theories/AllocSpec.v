(** Specification for C39 and C40: what the tracked allocator is to do, in terms of the list of live
    allocations (pointer, requested size). *)
From Verif Require Import CBase CStr AllocModel.

Definition live := list (Z * Z).
Fixpoint size_of (l : live) (p : Z) : option Z :=
  match l with [] => None | (q, n) :: l => if q =? p then Some n else size_of l p end.
Definition is_live (l : live) (p : Z) : Prop := exists n, In (p, n) l.
Definition drop_live (l : live) (p : Z) : live := filter (fun x => negb (fst x =? p)) l.
Fixpoint total (l : live) : Z := match l with [] => 0 | (_, n) :: l => n + total l end.

(** both canaries of an allocation are as they were written *)
Definition intact (s : st) (p n : Z) : Prop :=
  exists u, hp s (p - 8) = Some (canary ++ u ++ canary) /\ zlen u = n.
(** the user's bytes of an allocation *)
Definition content (s : st) (p n : Z) : option (list Z) :=
  match hp s (p - 8) with Some blk => Some (zsub 8 n blk) | None => None end.

(** a program: calls of the API, and anything else the program does to memory *)
Inductive op :=
| OMalloc (n : Z) | OCalloc (count n : Z) | OStrdup (str : list Z) | OStrndup (str : list Z) (len : Z)
| ORealloc (p n : Z) | OFree (p : Z)
| OMemory (h : Z -> option (list Z)).
Definition run_op (lc : libc) (mt : meta) (s : st) (o : op) : outcome (Z * st) :=
  match o with
  | OMalloc n => lcu_malloc lc mt s n
  | OCalloc c n => lcu_calloc lc mt s c n
  | OStrdup str => lcu_strdup lc mt s str
  | OStrndup str len => lcu_strndup lc mt s str len
  | ORealloc p n => lcu_realloc lc mt s p n
  | OFree p => do s <- lcu_free s p; Ret (0, s)
  | OMemory h => Ret (0, {| on := on s; amap := amap s; hp := h |})
  end.
(** malloc returns a fresh non-null block of the size asked for *)
Definition libc_ok (lc : libc) (s : st) : Prop :=
  forall n a b, lc n = Some (a, b) -> 0 < a /\ hp s a = None /\ zlen b = n.
(** sizes for which no size_t computation wraps; other code may do anything to memory, canaries included,
    except free the blocks of live allocations behind the allocator's back *)
Definition op_ok (l : live) (o : op) : Prop :=
  match o with
  | OMalloc n => 0 <= n < two64 - 16
  | OCalloc c n => 0 <= c /\ 0 <= n /\ c * n < two64 - 16
  | OStrdup str => zlen str < two64 - 17
  | OStrndup str len => 0 <= len /\ zlen str < two64 - 17
  | ORealloc p n => 0 <= n < two64 - 2064
  | OFree _ => True
  | OMemory h => forall p n, In (p, n) l -> exists blk, h (p - 8) = Some blk /\ zlen blk = n + 16
  end.
(** the live allocations after a call that returned r *)
Definition add_live (l : live) (r n : Z) : live := if r =? 0 then l else (r, n) :: l.
Definition live_after (l : live) (o : op) (r : Z) : live :=
  match o with
  | OMalloc n => add_live l r n
  | OCalloc c n => add_live l r (c * n)
  | OStrdup str => add_live l r (zlen str + 1)
  | OStrndup str len => add_live l r (Z.min len (zlen str) + 1)
  | ORealloc p n =>
    if n =? 0 then drop_live l p
    else if p =? 0 then add_live l r (n + 2048)
    else if (r =? p) || (r =? 0) then l
    else (r, n + 2048) :: drop_live l p
  | OFree p => drop_live l p
  | OMemory _ => l
  end.
(** every history of such calls since the tracker was initialised *)
Definition all_good : meta := {| calloc_ok := true; put_ok := true |}.
Inductive reach : st -> live -> Prop :=
| reach0 h : reach (tracker_init {| on := false; amap := []; hp := h |}) []
| reach1 s l lc o r s' : reach s l -> libc_ok lc s -> op_ok l o ->
    run_op lc all_good s o = Ret (r, s') -> reach s' (live_after l o r).
