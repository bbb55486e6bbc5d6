(** Model of src/sys/dlfcn_windows.c:79-563: dlopen, dlsym, dlclose, dlerror. 64-bit Windows; a pointer or HMODULE is
    a number below 2^64. Simplified: SetErrorMode (lines 310, 403) is left out. *)
From Verif Require Import CBase.

(** ** The list of local objects: nodes in memory. Address 0 is NULL, address 1 is first_object (line 85) *)
Record node := mk_nd { nh : Z; prv : nat; nx : nat }.
Definition heap : Type := list (nat * node).
Fixpoint hget (p : nat) (h : heap) : outcome node := match h with [] => Ub | (q, n) :: h => if Nat.eqb p q then Ret n else hget p h end.
Fixpoint hset (p : nat) (n : node) (h : heap) : outcome heap :=
  match h with [] => Ub | (q, m) :: h => if Nat.eqb p q then Ret ((q, n) :: h) else do h <- hset p n h; Ret ((q, m) :: h) end.
Fixpoint hfree (p : nat) (h : heap) : outcome heap :=
  match h with [] => Ub | (q, m) :: h => if Nat.eqb p q then Ret h else do h <- hfree p h; Ret ((q, m) :: h) end.
(** lines 88-100 *)
Fixpoint search (fuel : nat) (p : nat) (m : Z) (h : heap) : outcome nat :=
  match fuel with
  | O => NoFuel
  | S f => if Nat.eqb p 0 then Ret O else do n <- hget p h; if nh n =? m then Ret p else search f (nx n) m h
  end.
Definition local_search (m : Z) (h : heap) : outcome nat := if m =? 0 then Ret O else search (S (length h)) 1 m h.
(** line 116 *)
Fixpoint last_node (fuel : nat) (p : nat) (h : heap) : outcome nat :=
  match fuel with O => NoFuel | S f => do n <- hget p h; if Nat.eqb (nx n) 0 then Ret p else last_node f (nx n) h end.
(** lines 102-129; fresh: what malloc returns *)
Definition local_add (m : Z) (fresh : option nat) (h : heap) : outcome (bool * heap) :=
  if m =? 0 then Ret (true, h)
  else do p <- local_search m h;
       if negb (Nat.eqb p 0) then Ret (true, h)
       else do p <- last_node (length h) 1 h;
            match fresh with
            | None => Ret (false, h)
            | Some q => let h := (q, mk_nd 0 0 0) :: h in
                        do n <- hget p h; do h <- hset p (mk_nd (nh n) (prv n) q) h;
                        do h <- hset q (mk_nd m p 0) h; Ret (true, h)
            end.
(** lines 131-149 *)
Definition local_rem (m : Z) (h : heap) : outcome heap :=
  if m =? 0 then Ret h
  else do p <- local_search m h;
       if Nat.eqb p 0 then Ret h
       else do n <- hget p h;
            do h <- (if Nat.eqb (nx n) 0 then Ret h else do a <- hget (nx n) h; hset (nx n) (mk_nd (nh a) (prv n) (nx a)) h);
            do n <- hget p h;
            do h <- (if Nat.eqb (prv n) 0 then Ret h else do a <- hget (prv n) h; hset (prv n) (mk_nd (nh a) (prv a) (nx n)) h);
            hfree p h.

(** ** Error texts *)
(** save_err_str, lines 160-198; b: error_buffer; msg: the system's text for the code, empty when there is none.
    FormatMessageA writes the text and a terminator, or nothing when there is no room *)
Definition save_err_str (str msg : list Z) (b : list Z) : outcome (list Z) :=
  let size := zlen b in
  let len := if zlen str >? size - 5 then size - 5 else zlen str in
  do b <- mstore b 0 34;
  do b <- mwrite b 1 (ztake len str);
  let pos := 1 + len in
  do b <- mstore b pos 34; do b <- mstore b (pos + 1) 58; do b <- mstore b (pos + 2) 32;
  let pos := pos + 3 in
  let ret := if (zlen msg >? 0) && (zlen msg + 1 <=? size - pos) then zlen msg else 0 in
  do b <- (if ret =? 0 then Ret b else mwrite b pos (msg ++ [0]));
  let pos := pos + ret in
  do b <- (if ret =? 0 then mstore b pos 0 else Ret b);
  if pos >? 1 then
    do c1 <- mload b (pos - 2); do c2 <- mload b (pos - 1);
    if (c1 =? 13) && (c2 =? 10) then mstore b (pos - 2) 0 else Ret b
  else Ret b.
(** save_err_ptr_str, lines 200-218: the text of a pointer *)
Definition ptr_str (ptr : Z) : list Z :=
  48 :: 120 :: map (fun i => let num := Z.land (Z.shiftr ptr (64 - 4 * (Z.of_nat i + 1))) 15 in num + (if num <? 10 then 48 else 65 - 10)) (seq 0 16).

(** ** The system's modules, in load order: handle, how often opened, how many modules depend on it *)
Definition table : Type := list (Z * Z * Z).
Definition handle_of (e : Z * Z * Z) : Z := fst (fst e).
Definition is_loaded (m : Z) (t : table) : bool := existsb (fun e => handle_of e =? m) t.
Definition upd (m : Z) (f : Z * Z -> Z * Z) (t : table) : table :=
  map (fun e => if handle_of e =? m then (handle_of e, fst (f (snd (fst e), snd e)), snd (f (snd (fst e), snd e))) else e) t.
(** loading with one more dependent *)
Definition add_dep (t : table) (d : Z) : table := if is_loaded d t then upd d (fun p => (fst p, snd p + 1)) t else t ++ [(d, 0, 1)].
(** LoadLibraryExA gave m; deps: the modules m needs *)
Definition load (m : Z) (deps : list Z) (t : table) : table :=
  if is_loaded m t then upd m (fun p => (fst p + 1, snd p)) t else fold_left add_dep deps t ++ [(m, 1, 0)].
Definition in_use (e : Z * Z * Z) : bool := 0 <? snd (fst e) + snd e.
Definition drop_dep (t : table) (d : Z) : table := filter in_use (upd d (fun p => (fst p, Z.max 0 (snd p - 1))) t).
(** FreeLibrary; deps: the modules m needed. None: not a module *)
Definition unload (m : Z) (deps : list Z) (t : table) : option table :=
  if is_loaded m t then
    let t1 := filter in_use (upd m (fun p => if 0 <? fst p then (fst p - 1, snd p) else (fst p, snd p - 1)) t) in
    Some (if is_loaded m t1 then t1 else fold_left drop_dep deps t1)
  else None.

(** ** The functions *)
Record st := mk_st { hp : heap; fr : nat; buf : list Z; err : bool; mods : table }.
Definition RTLD_LOCAL : Z := 4.
Definition RTLD_NEXT : Z := two64 - 1.
Definition MAX_PATH : Z := 260.
Definition fail (s : st) (str msg : list Z) : outcome st := do b <- save_err_str str msg (buf s); Ret (mk_st (hp s) (fr s) b true (mods s)).
(** line 348 *)
Definition backslashes (file : list Z) : list Z := map (fun c => if c =? 47 then 92 else c) file.
(** dlopen, lines 302-406. prog: GetModuleHandle(NULL), not 0. ans: LoadLibraryExA, None a failure. enumB, enumA: did
    EnumProcessModules work before and after; ok: does malloc succeed; msg: text for a failure *)
Definition dlopen (prog : Z) (file : option (list Z)) (mode : Z) (ans : option (Z * list Z)) (enumB enumA ok : bool) (msg : list Z) (s : st) : outcome (Z * st) :=
  let s := mk_st (hp s) (fr s) (buf s) false (mods s) in
  match file with
  | None => Ret (prog, s)
  | Some file =>
      if zlen file >=? MAX_PATH then do s <- fail s file msg; Ret (0, s)
      else
        let name := backslashes file in
        let before := if enumB then 8 * zlen (mods s) else 0 in
        match ans with
        | None => do s <- fail s name msg; Ret (0, s)
        | Some (m, deps) =>
            let s := mk_st (hp s) (fr s) (buf s) (err s) (load m deps (mods s)) in
            let after := if enumA then 8 * zlen (mods s) else 0 in
            let is_local := negb (Z.land mode RTLD_LOCAL =? 0) in
            if is_local && negb (before =? after) then
              do r <- local_add m (if ok then Some (fr s) else None) (hp s);
              if fst r then Ret (m, mk_st (snd r) (S (fr s)) (buf s) (err s) (mods s))
              else do s <- fail (mk_st (snd r) (fr s) (buf s) (err s) (mods s)) name msg;
                   Ret (0, mk_st (hp s) (fr s) (buf s) (err s) (match unload m deps (mods s) with Some t => t | None => mods s end))
            else if negb is_local && (before =? after) then
              do h <- local_rem m (hp s); Ret (m, mk_st h (fr s) (buf s) (err s) (mods s))
            else Ret (m, s)
        end
  end.
(** dlclose, lines 409-430 *)
Definition dlclose (m : Z) (deps : list Z) (msg : list Z) (s : st) : outcome (Z * st) :=
  let s := mk_st (hp s) (fr s) (buf s) false (mods s) in
  match unload m deps (mods s) with
  | Some t => do h <- local_rem m (hp s); Ret (0, mk_st h (fr s) (buf s) (err s) t)
  | None => do s <- fail s (ptr_str m) msg; Ret (1, s)
  end.
(** the loop of lines 509-526; skip: the caller not passed yet (RTLD_NEXT). 0: not found *)
Fixpoint lookup (gpa : Z -> Z) (skip : option Z) (ms : list Z) (h : heap) : outcome Z :=
  match ms with
  | [] => Ret 0
  | m :: ms =>
      match skip with
      | Some c => lookup gpa (if c =? m then None else Some c) ms h
      | None => do p <- local_search m h;
                if negb (Nat.eqb p 0) then lookup gpa None ms h
                else if negb (gpa m =? 0) then Ret (gpa m) else lookup gpa None ms h
      end
  end.
(** dlsym, lines 434-548. gpa: GetProcAddress for the name by module; caller: the module of the caller (0: not
    known); e1, e2: what EnumProcessModules reports at the first and the second call *)
Definition dlsym (prog handle : Z) (name : list Z) (gpa : Z -> Z) (caller : Z) (e1 e2 : option (list Z)) (ok : bool) (msg : list Z) (s : st) : outcome (Z * st) :=
  let s := mk_st (hp s) (fr s) (buf s) false (mods s) in
  let handle := if handle =? 0 then prog else handle in
  do a <-
    (if (handle =? RTLD_NEXT) && (caller =? 0) then Ret 0
     else
       let direct := if handle =? RTLD_NEXT then 0 else gpa handle in
       if negb (direct =? 0) then Ret direct
       else if (prog =? handle) || (handle =? RTLD_NEXT) then
         match e1 with
         | None => Ret 0
         | Some l1 =>
             if negb ok then Ret 0
             else match e2 with
                  | Some l2 => if zlen l1 =? zlen l2 then lookup gpa (if handle =? RTLD_NEXT then Some caller else None) l2 (hp s) else Ret 0
                  | None => Ret 0
                  end
         end
       else Ret 0);
  if a =? 0 then do s <- fail s name msg; Ret (0, s) else Ret (a, s).
(** dlerror, lines 551-563: the text up to the terminator *)
Fixpoint upto0 (b : list Z) : list Z := match b with [] => [] | c :: b => if c =? 0 then [] else c :: upto0 b end.
Definition dlerror (s : st) : option (list Z) * st :=
  if negb (err s) then (None, s) else (Some (upto0 (buf s)), mk_st (hp s) (fr s) (buf s) false (mods s)).
(** at program start; size: sizeof(error_buffer), line 157 *)
Definition start (size : Z) (t : table) : st := mk_st [(1%nat, mk_nd 0 0 0)] 2 (repeat 0 (Z.to_nat size)) false t.
