(** One mplite pool used by several threads: /repo/src/mem/mplite.c with the lock of mplite_setlock (lines 41-46, 121-263, 339-561). The code
    between mplite_enter and mplite_leave runs access by access; so do the parts outside the lock: mplite_size (line 174 and 207) and the memset
    of mplite_calloc (line 156). Other threads, and the user's own writes into its blocks, may come between any two accesses.
    Simplified: the lock given is a correct non-recursive mutex (Wait and Done below take and release it); steps see memory in one order; the
    pointers given are not NULL; the eight counters are read in one step and written in one step (they are touched under the lock
    only); a control byte that is read twice in a row (lines 507, 509) is read once; mplite_print_stats is left out. Pool, counters and ASSERT as in MpliteModel. *)
From Verif Require Import CBase MpliteModel MpliteSpec.

(** ** Code as a sequence of accesses *)
Record cnt := mk_cnt { k_nalloc : Z; k_total : Z; k_excess : Z; k_out : Z; k_count : Z; k_maxout : Z; k_maxcount : Z; k_maxreq : Z }.
Definition getc (h : mp) : cnt := mk_cnt (mp_nalloc h) (mp_total h) (mp_excess h) (mp_out h) (mp_count h) (mp_maxout h) (mp_maxcount h) (mp_maxreq h).
Definition setc (h : mp) (s : cnt) : mp := set_stats h (k_nalloc s) (k_total s) (k_excess s) (k_out s) (k_count s) (k_maxout s) (k_maxcount s) (k_maxreq s).
(** Ld/St: an int in the pool; LdB/StB: a byte in the pool; LdC/StC: aCtrl; LdF/StF: aiFreelist; LdS/StS: the counters; Bad: a failed ASSERT or
    an int overflow *)
Inductive prog (A : Type) : Type :=
| Done (a : A)
| Ld (off : Z) (k : Z -> prog A) | St (off v : Z) (k : prog A)
| LdB (off : Z) (k : Z -> prog A) | StB (off v : Z) (k : prog A)
| LdC (i : Z) (k : Z -> prog A) | StC (i v : Z) (k : prog A)
| LdF (l : Z) (k : Z -> prog A) | StF (l v : Z) (k : prog A)
| LdS (k : cnt -> prog A) | StS (s : cnt) (k : prog A)
| Bad.
Arguments Done {A}. Arguments Ld {A}. Arguments St {A}. Arguments LdB {A}. Arguments StB {A}. Arguments LdC {A}. Arguments StC {A}.
Arguments LdF {A}. Arguments StF {A}. Arguments LdS {A}. Arguments StS {A}. Arguments Bad {A}.
(** one access *)
Definition exec {A} (h : mp) (b : prog A) : outcome (mp * prog A) :=
  match b with
  | Done a => Ret (h, Done a)
  | Ld off k => do v <- load_int (mp_mem h) off; Ret (h, k v)
  | St off v k => do m <- store_int (mp_mem h) off v; Ret (set_mem h m, k)
  | LdB off k => do v <- mload (mp_mem h) off; Ret (h, k v)
  | StB off v k => do m <- mstore (mp_mem h) off v; Ret (set_mem h m, k)
  | LdC i k => do v <- mload (mp_ctrl h) i; Ret (h, k v)
  | StC i v k => do c <- mstore (mp_ctrl h) i v; Ret (set_ctrl h c, k)
  | LdF l k => do v <- mload (mp_free h) l; Ret (h, k v)
  | StF l v k => do f <- mstore (mp_free h) l v; Ret (set_free h f, k)
  | LdS k => Ret (h, k (getc h))
  | StS s k => Ret (setc h s, k)
  | Bad => Abrt
  end.

Section Code.
Context {A : Type}.
Notation prog := (prog A).
(** szAtom and nBlock, which never change *)
Variables (sz n : Z).
Definition chk (b : bool) (k : prog) : prog := if b then k else Bad.
Definition int_ (v : Z) (k : Z -> prog) : prog := match sint v with Ret v => k v | _ => Bad end.
(** mplite_link, lines 356-371 *)
Definition link_code (i l : Z) (k : prog) : prog :=
  chk ((0 <=? i) && (i <? n)) (chk ((0 <=? l) && (l <=? 30)) (LdC i (fun c => chk (Z.land c 31 =? l)
    (LdF l (fun x => St (i * sz) x (St (i * sz + 4) (-1)
      (let e := StF l i k in if 0 <=? x then chk (x <? n) (St (x * sz + 4) i e) else e))))))).
(** mplite_unlink, lines 377-398 *)
Definition unlink_code (i l : Z) (k : prog) : prog :=
  chk ((0 <=? i) && (i <? n)) (chk ((0 <=? l) && (l <=? 30)) (LdC i (fun c => chk (Z.land c 31 =? l)
    (Ld (i * sz) (fun next => Ld (i * sz + 4) (fun prev =>
      let e := if 0 <=? next then St (next * sz + 4) prev k else k in
      if prev <? 0 then StF l next e else St (prev * sz) next e)))))).
(** the loop of lines 442-443 *)
Fixpoint find_code (fuel : nat) (bin : Z) (k : Z -> prog) : prog :=
  if bin <=? 30 then LdF bin (fun x => if x <? 0 then match fuel with O => Bad | S fuel => find_code fuel (bin + 1) k end else k bin) else k bin.
(** the loop of lines 452-460 *)
Fixpoint split_code (d : nat) (i l : Z) (k : prog) : prog :=
  match d with
  | O => k
  | S d =>
    let bin := l + Z.of_nat d in
    StC (i + Z.shiftl 1 bin) (Z.lor 32 bin) (link_code (i + Z.shiftl 1 bin) bin (split_code d i l k))
  end.
(** mplite_malloc_unsafe, lines 414-486 *)
Definition malloc_code (nbyte : Z) (k : option Z -> prog) : prog :=
  if (nbyte <=? 0) || (1073741824 <? nbyte) then k None
  else
    LdS (fun s => let go :=
      match round_loop 32 sz 0 nbyte with
      | Ret (full, l) =>
        find_code 31 l (fun bin =>
          if 30 <? bin then k None
          else LdF bin (fun i => unlink_code i bin (split_code (Z.to_nat (bin - l)) i l (StC i l
            (LdS (fun s =>
              let count := u32 (k_count s + 1) in
              let out := u32 (k_out s + full) in
              StS (mk_cnt (u64 (k_nalloc s + 1)) (u64 (k_total s + full)) (u64 (k_excess s + (full - nbyte))) out count
                 (if k_maxout s <? out then out else k_maxout s) (if k_maxcount s <? count then count else k_maxcount s) (k_maxreq s))
                (k (Some (i * sz)))))))))
      | _ => Bad
      end in
      if k_maxreq s <? nbyte then StS (mk_cnt (k_nalloc s) (k_total s) (k_excess s) (k_out s) (k_count s) (k_maxout s) (k_maxcount s) nbyte) go else go).
(** the loop of lines 523-552 *)
Fixpoint merge_code (fuel : nat) (i l : Z) (k : Z -> Z -> prog) : prog :=
  if l <? 30 then
    let size := Z.shiftl 1 l in
    let odd := Z.land (Z.shiftr i l) 1 =? 1 in
    let b := if odd then i - size else i + size in
    chk (negb odd || (0 <=? b))
      (if negb odd && (n <=? b) then k i l
       else LdC b (fun c =>
         if negb (c =? Z.lor 32 l) then k i l
         else unlink_code b l
           (if b <? i then StC b (Z.lor 32 (l + 1)) (StC i 0 (match fuel with O => Bad | S fuel => merge_code fuel b (l + 1) k end))
            else StC i (Z.lor 32 (l + 1)) (StC b 0 (match fuel with O => Bad | S fuel => merge_code fuel i (l + 1) k end)))))
  else k i l.
(** mplite_free_unsafe, lines 494-561 *)
Definition free_code (p : Z) (k : prog) : prog :=
  let i := Z.quot p sz in
  chk ((0 <=? i) && (i <? n)) (chk (Z.rem p sz =? 0)
    (LdC i (fun c => chk (Z.land c 32 =? 0)
      (let l := Z.land c 31 in
       let size := Z.shiftl 1 l in
       chk (u32 (i + size - 1) <? n)
         (StC i (Z.lor c 32) (LdC (i + size - 1) (fun c2 => StC (i + size - 1) (Z.lor c2 32)
           (LdS (fun s => chk (0 <? k_count s) (chk (u32 (size * sz) <=? k_out s)
             (let count := u32 (k_count s - 1) in
              let out := u32 (k_out s - size * sz) in
              StS (mk_cnt (k_nalloc s) (k_total s) (k_excess s) out count (k_maxout s) (k_maxcount s) (k_maxreq s))
                (chk ((0 <? out) || (count =? 0)) (chk ((0 <? count) || (out =? 0))
                  (StC i (Z.lor 32 l) (merge_code 31 i l (fun i l => link_code i l k)))))))))))))))).
(** memcpy of m bytes (line 183), byte by byte *)
Fixpoint copy_code (m : nat) (p q : Z) (k : prog) : prog :=
  match m with O => k | S m => LdB p (fun v => StB q v (copy_code m (p + 1) (q + 1) k)) end.
(** the loop of lines 224-227 and the product of line 231 *)
Fixpoint maxmem_code (j : nat) (k : Z -> prog) : prog :=
  match j with
  | O => k 0
  | S j => LdF (Z.of_nat j) (fun x => if x =? -1 then maxmem_code j k else int_ (Z.shiftl 1 (Z.of_nat j) * sz) k)
  end.
(** the loops of lines 247-258, and the product of line 261 *)
Fixpoint walk_code (fuel : nat) (index blocksize total : Z) (k : Z -> prog) : prog :=
  if index =? -1 then k total
  else match fuel with
       | O => Bad
       | S fuel => Ld (index * sz) (fun nx => int_ (total + blocksize) (fun t => walk_code fuel nx blocksize t k))
       end.
Fixpoint freemem_code (j : nat) (total : Z) (k : Z -> prog) : prog :=
  match j with
  | O => k total
  | S j => let i := 30 - Z.of_nat j in LdF i (fun x => walk_code (S (Z.to_nat n)) x (Z.shiftl 1 i) total (fun t => freemem_code j t k))
  end.
End Code.

(** ** The calls *)
Inductive call := CMalloc (m : Z) | CCalloc (m : Z) | CFree (p : Z) | CRealloc (p m : Z) | CResize (p m : Z) | CMaxmem | CFreemem.
Inductive res := RVoid | RPtr (p : option Z) | RInt (v : Z).
Definition MPLITE_OK := 0.
Definition MPLITE_ERR_INVPAR := -1.
(** the code between mplite_enter and mplite_leave; old: nOld of line 174 *)
Definition section (sz n : Z) (c : call) (old : Z) : prog res :=
  match c with
  | CMalloc m | CCalloc m => malloc_code sz n m (fun r => Done (RPtr r))                        (* line 132 *)
  | CFree p => free_code sz n p (Done RVoid)                                                  (* line 147 *)
  | CRealloc p m => malloc_code sz n m (fun r => match r with                                 (* lines 180-185 *)
      | None => Done (RPtr None)
      | Some q => copy_code (Z.to_nat old) p q (free_code sz n p (Done (RPtr (Some q)))) end)
  | CResize _ _ => Done RVoid                                                                 (* takes no lock *)
  | CMaxmem => maxmem_code sz 31 (fun v => Done (RInt v))                                     (* lines 224-233 *)
  | CFreemem => freemem_code sz n 31 0 (fun t => int_ (t * sz) (fun v => Done (RInt v)))      (* lines 247-261 *)
  end.
(** lines 168-169, 201-202 *)
Definition bad_size (m : Z) : bool := (m <=? 0) || negb (Z.land m (m - 1) =? 0).

(** ** Threads. PSize: before mplite_size; Wait: before mplite_enter; In: holds the lock; Fill: in the memset of mplite_calloc; Out: about to return *)
Inductive pc := Idle | PSize (c : call) | Wait (c : call) (old : Z) | In (c : call) (old : Z) (b : prog res) | Fill (q m k : Z) | Out (c : call) (r : res).
(** the history: calls, the moments at which they take effect, the writes into blocks (the user's, and those of the memset), the returns *)
Inductive lev := LCall (t : nat) (c : call) | LOp (t : nat) (c : call) (r : res) | LWrite (t : nat) (p off : Z) (bytes : list Z) | LRet (t : nat) (c : call) (r : res).
(** live (for the statements only): the blocks handed out and not given back, as in MpliteSpec; log: oldest event first *)
Record st := mk_st { obj : mp; holder : option nat; pcs : nat -> pc; live : list blk; log : list lev }.
Definition upd_pc (p : nat -> pc) (t : nat) (x : pc) : nat -> pc := fun u => if Nat.eqb u t then x else p u.
(** what the callers own when call c takes effect with result r *)
Definition own_step (sz : Z) (live : list blk) (c : call) (r : res) : list blk :=
  match c, r with
  | CMalloc m, RPtr x | CCalloc m, RPtr x => c_step sz live (OMalloc m) x
  | CFree p, _ => c_step sz live (OFree p) None
  | CRealloc p m, RPtr x => c_step sz live (ORealloc p m) x
  | _, _ => live
  end.
Definition ptr_of (c : call) : option Z := match c with CFree p | CRealloc p _ | CResize p _ => Some p | _ => None end.
(** the pointer a thread has given to a call, or a call is about to give to it *)
Definition busy (x : pc) : option Z :=
  match x with
  | Idle => None
  | PSize c | Wait c _ | In c _ _ => ptr_of c
  | Fill q _ _ => Some q
  | Out c (RPtr (Some q)) => Some q
  | Out (CRealloc p _) _ | Out (CResize p _) _ => Some p
  | Out _ _ => None
  end.
Inductive choice := Call (c : call) | Write (p off : Z) (bytes : list Z) | Go.
Inductive result := No | Yes (o : outcome st).
Definition go (s : st) (t : nat) (x : pc) : st := mk_st (obj s) (holder s) (upd_pc (pcs s) t x) (live s) (log s).
Definition say (s : st) (e : lev) : st := mk_st (obj s) (holder s) (pcs s) (live s) (log s ++ [e]).
Definition set_obj (s : st) (o : mp) : st := mk_st o (holder s) (pcs s) (live s) (log s).
Definition set_holder (s : st) (x : option nat) : st := mk_st (obj s) x (pcs s) (live s) (log s).
Definition set_live (s : st) (l : list blk) : st := mk_st (obj s) (holder s) (pcs s) l (log s).
(** call c of thread t takes effect with result r *)
Definition point (s : st) (t : nat) (c : call) (r : res) : st := say (set_live s (own_step (mp_sz (obj s)) (live s) c r)) (LOp t c r).
(** thread t writes bytes at p + off *)
Definition poke (s : st) (t : nat) (p off : Z) (bytes : list Z) : outcome st :=
  do m <- mwrite (mp_mem (obj s)) (p + off) bytes;
  Ret (say (set_live (set_obj s (set_mem (obj s) m)) (c_step (mp_sz (obj s)) (live s) (OWrite p off bytes) None)) (LWrite t p off bytes)).
(** up to the first access: lines 126-129, 168-172, 201-205 *)
Definition enter (s : st) (t : nat) (c : call) : st :=
  let s := say s (LCall t c) in
  match c with
  | CMalloc m | CCalloc m => if m <=? 0 then go (point s t c (RPtr None)) t (Out c (RPtr None)) else go s t (Wait c 0)
  | CFree _ | CMaxmem | CFreemem => go s t (Wait c 0)
  | CRealloc p m => if bad_size m then go (point s t c (RPtr None)) t (Out c (RPtr None)) else go s t (PSize c)
  | CResize p m => if bad_size m then go (point s t c (RInt MPLITE_ERR_INVPAR)) t (Out c (RInt MPLITE_ERR_INVPAR)) else go s t (PSize c)
  end.
(** after mplite_leave; mplite_calloc goes on with the memset: lines 154-157 *)
Definition leave (c : call) (r : res) : pc := match c, r with CCalloc m, RPtr (Some q) => Fill q m 0 | _, _ => Out c r end.
(** mplite_size and what follows: lines 174-178, 207-213 *)
Definition sized (s : st) (t : nat) (c : call) (old : Z) : st :=
  match c with
  | CRealloc p m => if m <=? old then go (point s t c (RPtr (Some p))) t (Out c (RPtr (Some p))) else go s t (Wait c old)
  | _ => let m := match c with CResize _ m => m | _ => 0 end in
         let r := RInt (if m <=? old then MPLITE_OK else MPLITE_ERR_INVPAR) in go (point s t c r) t (Out c r)
  end.
(** one step of thread t; locked = false: no lock was set (lines 41-46 with lock.acquire == NULL) *)
Definition tick (locked : bool) (t : nat) (ch : choice) (s : st) : result :=
  match pcs s t, ch with
  | Idle, Call c => Yes (Ret (enter s t c))
  | Idle, Write p off bytes => Yes (poke s t p off bytes)
  | PSize c, Go => Yes (do old <- mplite_size (obj s) (match ptr_of c with Some p => p | None => 0 end); Ret (sized s t c old))
  | Wait c old, Go =>
      match holder s, locked with
      | Some _, true => No
      | _, _ => Yes (Ret (go (set_holder s (Some t)) t (In c old (section (mp_sz (obj s)) (mp_n (obj s)) c old))))
      end
  | In c old (Done r), Go => Yes (Ret (go (point (set_holder s None) t c r) t (leave c r)))
  | In c old b, Go => Yes (do (o, b') <- exec (obj s) b; Ret (go (set_obj s o) t (In c old b')))
  | Fill q m k, Go => if k <? m then Yes (do s <- poke s t q k [0]; Ret (go s t (Fill q m (k + 1)))) else Yes (Ret (go s t (Out (CCalloc m) (RPtr (Some q)))))
  | Out c r, Go => Yes (Ret (go (say s (LRet t c r)) t Idle))
  | _, _ => No
  end.
(** the rules for callers: sizes are ints; a pointer is used only while its block is held and no thread is inside a call with it *)
Definition held (s : st) (p : Z) : Prop := (exists b, List.In b (live s) /\ b_ptr b = p) /\ forall u, busy (pcs s u) <> Some p.
Definition allowed (s : st) (ch : choice) : Prop :=
  match ch with
  | Call (CMalloc m) | Call (CCalloc m) => - two31 <= m < two31
  | Call (CFree p) => held s p
  | Call (CRealloc p m) | Call (CResize p m) => - two31 <= m < two31 /\ held s p
  | Call CMaxmem | Call CFreemem | Go => True
  | Write p off bytes => held s p /\ exists b, List.In b (live s) /\ b_ptr b = p /\ 0 <= off /\ off + zlen bytes <= zlen (b_data b)
  end.
Definition boot (h0 : mp) : st := mk_st h0 None (fun _ => Idle) [] [].
(** every schedule *)
Inductive reach (locked : bool) (h0 : mp) : st -> Prop :=
| r_boot : reach locked h0 (boot h0)
| r_step s t ch s' : reach locked h0 s -> allowed s ch -> tick locked t ch s = Yes (Ret s') -> reach locked h0 s'.
