(** The tracked allocator used by several threads: src/mem/allocator.c:92-183 and src/mem/allocation_tracker.c:128-263 with the tracker on.
    One step for each call of the map, of the C library, and for each access to a record (allocation_t) or to the canaries.
    Simplified: the map's functions are atomic and wait for the map's lock (C74); malloc and calloc of the C library are thread safe;
    calloc of a record and hashmap_put succeed (C39 shows what happens otherwise); file, function and line are left out; comparing or
    writing one canary is one step, and so is comparing both; steps see memory in one order. *)
From Verif Require Import CBase CStr AllocModel.
From Coq Require Export Permutation.

(** allocation_t, allocation_tracker.c:38-50 *)
Record rec := mk_rec { r_id : Z; r_size : Z; r_freed : bool; r_ptr : Z }.
Definition zero_rec : rec := mk_rec 0 0 false 0.
(** what a call hands over to its caller: pointers with their sizes *)
Notation blocks := (list (Z * Z)).
(** threads. M: lcu_malloc_trace (a: the block, n: the size asked for; k: the pointer and size that lcu_realloc still has to copy);
    F: lcu_free of p (q: what the caller gets afterwards); R: lcu_realloc; E: allocation_tracker_expect_no_allocations *)
Inductive pc :=
| Idle
| MAlloc (n : Z) (k : option (Z * Z))                  (* allocator.c:95 *)
| MGet (a n : Z) (k : option (Z * Z))                  (* allocation_tracker.c:154 *)
| MOld (a n e : Z) (k : option (Z * Z))                (* 157 *)
| MNew (a n : Z) (k : option (Z * Z))                  (* 161 *)
| MPut (a n e : Z) (k : option (Z * Z))                (* 163 *)
| MSet (i : nat) (a n e : Z) (k : option (Z * Z))      (* 165, 166, 167, 168, 180, 181 *)
| FGet (p : Z) (q : blocks)                            (* 191-192 *)
| FFreed (p e : Z) (q : blocks)                        (* 193 *)
| FId (p e : Z) (q : blocks)                           (* 194 *)
| FSet (p e : Z) (q : blocks)                          (* 195 *)
| FCheck (p e : Z) (q : blocks)                        (* 196, 221-239 *)
| FRem (p : Z) (q : blocks)                            (* 200 *)
| FFree (p : Z) (q : blocks)                           (* allocator.c:181 *)
| RGet (p size : Z)                                    (* allocator.c:149, allocation_tracker.c:210-211 *)
| RId (p e size : Z)                                   (* 212 *)
| RSize (p e size : Z)                                 (* 213; allocator.c:150 *)
| RCopy (p cur a n : Z)                                (* allocator.c:162 *)
| EWait (at_call : blocks)                             (* allocation_tracker.c:140; at_call: see below *)
| EFreed (rest : list (Z * Z)) (sum : Z) (reps at_call : blocks)          (* 244; rest: the (key, record) still to visit *)
| ESize (e : Z) (rest : list (Z * Z)) (sum : Z) (reps at_call : blocks)   (* 247 *)
| ECheck (e : Z) (rest : list (Z * Z)) (sum : Z) (reps at_call : blocks)  (* 248 *)
| EReport (e : Z) (rest : list (Z * Z)) (sum : Z) (reps at_call : blocks) (* 251 *)
| Out (give : blocks).                                 (* about to return *)
Inductive call := CMalloc (n : Z) | CFree (p : Z) | CRealloc (p size : Z) | CExpect.
(** what the rest of the world decides at a step: the call made, the block malloc gives, the address of the record calloc gives, the order
    in which hashmap_foreach visits; CWrite: the program writes through a pointer it got *)
Inductive choice := CCall (c : call) | CBlock (a : Z) (bytes : list Z) | CNull | CRec (e : Z) | COrder (l : list (Z * Z)) | CGo | CWrite (p off : Z) (bytes : list Z).
(** a finished leak check: what was live when it was called, what is live when it returns, what it reported *)
Record report := mk_report { rp_begin : blocks; rp_end : blocks; rp_list : blocks; rp_sum : Z }.
(** tmap: pointer -> address of its record; heap: by address of the block. For the statements only: held: the pointers callers hold and
    have not given to a call that is still running, with their sizes; lent: those given to a running call of that thread *)
Record st := mk_st { tmap : list (Z * Z); recs : Z -> option rec; heap : Z -> option (list Z); lock : option nat; pcs : nat -> pc;
                     held : blocks; lent : list (nat * (Z * Z)); done : list report }.
Definition set_pc (s : st) (t : nat) (x : pc) : st :=
  mk_st (tmap s) (recs s) (heap s) (lock s) (fun u => if Nat.eqb u t then x else pcs s u) (held s) (lent s) (done s).
Definition set_map (s : st) (m : list (Z * Z)) : st := mk_st m (recs s) (heap s) (lock s) (pcs s) (held s) (lent s) (done s).
Definition zset {A} (f : Z -> option A) (a : Z) (v : option A) : Z -> option A := fun b => if b =? a then v else f b.
Definition set_rec (s : st) (e : Z) (r : option rec) : st := mk_st (tmap s) (zset (recs s) e r) (heap s) (lock s) (pcs s) (held s) (lent s) (done s).
Definition set_heap (s : st) (a : Z) (b : option (list Z)) : st := mk_st (tmap s) (recs s) (zset (heap s) a b) (lock s) (pcs s) (held s) (lent s) (done s).
Definition set_lock (s : st) (l : option nat) : st := mk_st (tmap s) (recs s) (heap s) l (pcs s) (held s) (lent s) (done s).
Definition set_held (s : st) (h : blocks) (l : list (nat * (Z * Z))) : st := mk_st (tmap s) (recs s) (heap s) (lock s) (pcs s) h l (done s).
Definition add_done (s : st) (r : report) : st := mk_st (tmap s) (recs s) (heap s) (lock s) (pcs s) (held s) (lent s) (done s ++ [r]).
(** a thread gives p away / gets pointers back *)
Definition lend (s : st) (t : nat) (p : Z) : st :=
  set_held s (filter (fun x => negb (fst x =? p)) (held s)) (lent s ++ map (pair t) (filter (fun x => fst x =? p) (held s))).
Definition back (s : st) (t : nat) (give : blocks) : st := set_held s (held s ++ give) (filter (fun x => negb (Nat.eqb (fst x) t)) (lent s)).

Fixpoint lookup (m : list (Z * Z)) (p : Z) : option Z := match m with [] => None | (q, e) :: m => if q =? p then Some e else lookup m p end.
Definition del (m : list (Z * Z)) (p : Z) : list (Z * Z) := filter (fun x => negb (fst x =? p)) m.

(** not enabled now (the lock is taken, or the choice does not fit) *)
Inductive res := No | Go (o : outcome st).
Definition with_rec (s : st) (e : Z) (f : rec -> outcome st) : res := Go (match recs s e with Some r => f r | None => Ub end).
Definition unlocked (s : st) (r : res) : res := match lock s with None => r | Some _ => No end.
(** allocation_tracker.c:165-168 *)
Definition set_field (i : nat) (a n : Z) (r : rec) : rec :=
  match i with
  | O => mk_rec ALLOCTOR_ID (r_size r) (r_freed r) (r_ptr r)
  | S O => mk_rec (r_id r) (r_size r) false (r_ptr r)
  | S (S O) => mk_rec (r_id r) n (r_freed r) (r_ptr r)
  | _ => mk_rec (r_id r) (r_size r) (r_freed r) (a + canary_size)
  end.
(** allocation_memory_corruption_checker, allocation_tracker.c:221-239 *)
Definition check (s : st) (r : rec) : outcome unit :=
  match heap s (r_ptr r - canary_size) with Some b => check_canary 8 b (r_size r) 0 | None => Ub end.
(** where the call begins *)
Definition enter (c : call) (l : blocks) : pc :=
  match c with
  | CMalloc n => MAlloc n None
  | CFree p => if p =? 0 then Out [] else FGet p []
  | CRealloc p size => if size =? 0 then (if p =? 0 then Out [] else FGet p []) else if p =? 0 then MAlloc (size + 2048) None else RGet p size
  | CExpect => EWait l
  end.
(** the thread is inside a call that may hand out a new block *)
Definition allocating (x : pc) : bool :=
  match x with
  | MAlloc _ _ | MGet _ _ _ | MOld _ _ _ _ | MNew _ _ _ | MPut _ _ _ _ | MSet _ _ _ _ _ | RGet _ _ | RId _ _ _ | RSize _ _ _ | RCopy _ _ _ _ => true
  | FGet _ (_ :: _) | FFreed _ _ (_ :: _) | FId _ _ (_ :: _) | FSet _ _ (_ :: _) | FCheck _ _ (_ :: _) | FRem _ (_ :: _) | FFree _ (_ :: _) | Out (_ :: _) => true
  | _ => false end.
Definition checking (x : pc) : bool :=
  match x with EWait _ | EFreed _ _ _ _ | ESize _ _ _ _ _ | ECheck _ _ _ _ _ | EReport _ _ _ _ _ => true | _ => false end.
(** the rules for callers: sizes that do not wrap; only a pointer that is held is freed or resized, by one thread at a time; no leak check
    at the same time as an allocation *)
Definition allowed (s : st) (c : call) : Prop :=
  match c with
  | CMalloc n => 0 <= n < two64 - 16 /\ forall u, checking (pcs s u) = false
  | CFree p => p = 0 \/ exists n, List.In (p, n) (held s)
  | CRealloc p size => 0 <= size < two64 - 2064 /\ (p = 0 \/ exists n, List.In (p, n) (held s)) /\ forall u, checking (pcs s u) = false
  | CExpect => forall u, allocating (pcs s u) = false
  end.
Definition given (c : call) : Z := match c with CFree p | CRealloc p _ => p | _ => 0 end.
(** what a finished malloc goes on with *)
Definition malloc_end (a n : Z) (k : option (Z * Z)) : pc :=
  match k with None => Out [(a + canary_size, n)] | Some (p, cur) => RCopy p cur a n end.

(** one step of thread t *)
Definition tick (t : nat) (ch : choice) (s : st) : res :=
  match pcs s t, ch with
  | Idle, CCall c => Go (Ret (set_pc (lend s t (given c)) t (enter c (held s ++ map snd (lent s)))))
  | Idle, CWrite p off bytes =>                          (* the user's own code *)
      Go (match heap s (p - canary_size) with
          | Some b => do b <- mwrite b (canary_size + off) bytes; Ret (set_heap s (p - canary_size) (Some b))
          | None => Ub end)
  | MAlloc n k, CNull => Go (Ret (set_pc s t (Out (match k with Some x => [x] | None => [] end))))           (* allocator.c:96-99, 158-161 *)
  | MAlloc n k, CBlock a bytes =>
      match heap s a with
      | None => if (0 <? a) && (zlen bytes =? n + 16) then Go (Ret (set_pc (set_heap s a (Some bytes)) t (MGet a n k))) else No
      | Some _ => No end
  | MGet a n k, CGo => unlocked s (Go (Ret (set_pc s t (match lookup (tmap s) (a + canary_size) with Some e => MOld a n e k | None => MNew a n k end))))
  | MOld a n e k, CGo => with_rec s e (fun r => if r_freed r then Ret (set_pc s t (MSet 0 a n e k)) else Abrt)
  | MNew a n k, CRec e => match recs s e with None => Go (Ret (set_pc (set_rec s e (Some zero_rec)) t (MPut a n e k))) | Some _ => No end
  | MPut a n e k, CGo => unlocked s (Go (Ret (set_pc (set_map s ((a + canary_size, e) :: del (tmap s) (a + canary_size))) t (MSet 0 a n e k))))
  | MSet i a n e k, CGo =>
      if (i <? 4)%nat then with_rec s e (fun r => Ret (set_pc (set_rec s e (Some (set_field i a n r))) t (MSet (S i) a n e k)))
      else
        Go (match heap s a with
            | None => Ub
            | Some b =>
                if (i =? 4)%nat then do b <- mwrite b 0 canary; Ret (set_pc (set_heap s a (Some b)) t (MSet 5 a n e k))
                else do b <- mwrite b (canary_size + n) canary; Ret (set_pc (set_heap s a (Some b)) t (malloc_end a n k))
            end)
  | FGet p q, CGo => unlocked s (Go (match lookup (tmap s) p with Some e => Ret (set_pc s t (FFreed p e q)) | None => Abrt end))
  | FFreed p e q, CGo => with_rec s e (fun r => if r_freed r then Abrt else Ret (set_pc s t (FId p e q)))
  | FId p e q, CGo => with_rec s e (fun r => if r_id r =? ALLOCTOR_ID then Ret (set_pc s t (FSet p e q)) else Abrt)
  | FSet p e q, CGo => with_rec s e (fun r => Ret (set_pc (set_rec s e (Some (mk_rec (r_id r) (r_size r) true (r_ptr r)))) t (FCheck p e q)))
  | FCheck p e q, CGo => with_rec s e (fun r => do _ <- check s r; Ret (set_pc s t (FRem p q)))
  | FRem p q, CGo =>      (* hashmap_remove frees the record: hashmap.c:340-342, allocation_tracker.c:102 *)
      unlocked s (Go (match lookup (tmap s) p with
                      | Some e => match recs s e with Some _ => Ret (set_pc (set_rec (set_map s (del (tmap s) p)) e None) t (FFree p q)) | None => Ub end
                      | None => Ret (set_pc s t (FFree p q)) end))
  | FFree p q, CGo => Go (match heap s (p - canary_size) with Some _ => Ret (set_pc (set_heap s (p - canary_size) None) t (Out q)) | None => Ub end)
  | RGet p size, CGo => unlocked s (Go (match lookup (tmap s) p with Some e => Ret (set_pc s t (RId p e size)) | None => Abrt end))
  | RId p e size, CGo => with_rec s e (fun r => if r_id r =? ALLOCTOR_ID then Ret (set_pc s t (RSize p e size)) else Abrt)
  | RSize p e size, CGo => with_rec s e (fun r =>
      let cur := r_size r in
      if negb (cur =? 0) && (size <=? cur) then Ret (set_pc s t (Out [(p, cur)])) else Ret (set_pc s t (MAlloc (size + 2048) (Some (p, cur)))))
  | RCopy p cur a n, CGo =>
      Go (match heap s (p - canary_size), heap s a with
          | Some b, Some b' => do bytes <- mread b canary_size cur; do b' <- mwrite b' canary_size bytes;
                               Ret (set_pc (set_heap s a (Some b')) t (FGet p [(a + canary_size, n)]))
          | _, _ => Ub end)
  | EWait l, COrder o => unlocked s (Go (Ret (set_pc (set_lock s (Some t)) t (EFreed o 0 [] l))))
  | EFreed [] sum reps l, CGo => Go (Ret (add_done (set_pc (set_lock s None) t (Out [])) (mk_report l (held s) reps sum)))
  | EFreed ((p, e) :: rest) sum reps l, CGo => with_rec s e (fun r => Ret (set_pc s t (if r_freed r then EFreed rest sum reps l else ESize e rest sum reps l)))
  | ESize e rest sum reps l, CGo => with_rec s e (fun r => Ret (set_pc s t (ECheck e rest (u64 (sum + r_size r)) reps l)))
  | ECheck e rest sum reps l, CGo => with_rec s e (fun r => do _ <- check s r; Ret (set_pc s t (EReport e rest sum reps l)))
  | EReport e rest sum reps l, CGo => with_rec s e (fun r => Ret (set_pc s t (EFreed rest sum (reps ++ [(r_ptr r, r_size r)]) l)))
  | Out give, CGo => Go (Ret (set_pc (back s t give) t Idle))
  | _, _ => No
  end.

(** the choices that can be made: hashmap_foreach visits every entry once (C15, C74); callers keep the rules *)
Definition fits (s : st) (ch : choice) : Prop :=
  match ch with
  | CCall c => allowed s c
  | COrder o => Permutation o (tmap s)
  | CWrite p off bytes => exists n, List.In (p, n) (held s) /\ 0 <= off /\ off + zlen bytes <= n
  | _ => True
  end.
(** as above, but callers are not bound by the rules *)
Definition fits_any (s : st) (ch : choice) : Prop := match ch with COrder o => Permutation o (tmap s) | CWrite _ _ _ => False | _ => True end.
Definition boot : st := mk_st [] (fun _ => None) (fun _ => None) None (fun _ => Idle) [] [] [].
Section Reach.
Variable rule : st -> choice -> Prop.
Inductive reach : st -> Prop :=
| r_boot : reach boot
| r_step s t ch s' : reach s -> rule s ch -> tick t ch s = Go (Ret s') -> reach s'.
End Reach.
