(** Model of src/sys/dlfcn_windows.c:569-776: dladdr. 64-bit Windows. Simplified: which system call finds the module of
    an address (lines 220-253) is left open; index of get_image_section (line 586) is always in range. *)
From Verif Require Import CBase.

(** ** Memory: the byte at an address, None where nothing is mapped; values are little endian *)
Definition memory : Type := Z -> option Z.
Fixpoint rd (mem : memory) (a : Z) (n : nat) : outcome Z :=
  match n with
  | O => Ret 0
  | S k => match mem a with Some b => do r <- rd mem (a + 1) k; Ret (b + 256 * r) | None => Ub end
  end.
(** the system: VirtualQuery (allocation base and protection), the module of an address, GetModuleFileNameA (empty: fails) *)
Record sysv := mk_sysv { vq : Z -> option (Z * Z); modof : Z -> option Z; fname_of : Z -> list Z }.

(** lines 573-596 *)
Definition get_image_section (mem : memory) (m index : Z) : outcome (option (Z * Z)) :=
  do magic <- rd mem m 2;
  if negb (magic =? 0x5A4D) then Ret None
  else do lfanew <- rd mem (m + 60) 4;
       let opt := m + s32 lfanew + 24 in
       do om <- rd mem opt 2;
       if negb (om =? 0x20b) then Ret None
       else do size <- rd mem (opt + 112 + 8 * index + 4) 4;
            if size =? 0 then Ret None
            else do va <- rd mem (opt + 112 + 8 * index) 4;
                 if va =? 0 then Ret None else Ret (Some (m + va, size)).
(** the loop of lines 609-616; n functions left, the next has index i *)
Fixpoint scan (mem : memory) (base offs addr : Z) (n : nat) (i cand ci : Z) : outcome (Z * Z) :=
  match n with
  | O => Ret (cand, ci)
  | S n => do f <- rd mem (offs + 4 * i) 4;
           if (base + f >? addr) || (cand >=? base + f) then scan mem base offs addr n (i + 1) cand ci
           else scan mem base offs addr n (i + 1) (base + f) (s32 i)
  end.
(** the loop of lines 623-627 *)
Fixpoint find_name (mem : memory) (base names ords ci : Z) (n : nat) (i : Z) : outcome Z :=
  match n with
  | O => Ret 0
  | S n => do o <- rd mem (ords + 2 * i) 2;
           if o =? ci then do f <- rd mem (names + 4 * i) 4; Ret (base + f) else find_name mem base names ords ci n (i + 1)
  end.
(** lines 599-630: the name, 0 when there is none, and *func_address *)
Definition get_export_symbol_name (mem : memory) (base ied addr func : Z) : outcome (Z * Z) :=
  do af <- rd mem (ied + 28) 4; do an <- rd mem (ied + 32) 4; do ao <- rd mem (ied + 36) 4;
  do nf <- rd mem (ied + 20) 4;
  do r <- scan mem base (base + af) addr (Z.to_nat nf) 0 0 (-1);
  if snd r =? -1 then Ret (0, func)
  else do nn <- rd mem (ied + 24) 4;
       do s <- find_name mem base (base + an) (base + ao) (snd r) (Z.to_nat nn) 0; Ret (s, fst r).
(** lines 632-647 *)
Definition is_valid_address (sy : sysv) (a : Z) : bool :=
  if a =? 0 then false
  else match vq sy a with None => false | Some (ab, pr) => negb ((ab =? 0) || (pr =? 0) || (pr =? 1)) end.
(** lines 656-659 *)
Definition is_import_thunk (mem : memory) (a : Z) : outcome bool := do v <- rd mem a 2; Ret (v =? 0x25ff).
(** lines 664-690 *)
Definition get_address_from_iat (mem : memory) (sy : sysv) (iat size addr : Z) : outcome Z :=
  do off <- rd mem (addr + 2) 4;
  let ptr := addr + 6 + s32 off in
  if negb (is_valid_address sy ptr) || (ptr <? iat) || (ptr >? iat + size) then Ret 0 else rd mem ptr 8.

(** Dl_info; fn: a pointer to module_filename, the only string ever stored *)
Record info := mk_info { fn : Z; fbase : Z; sname : Z; saddr : Z }.
(** module_filename, line 693, is at address buffer; the state is its contents *)
Definition fill_info (buffer : Z) (mem : memory) (sy : sysv) (addr : Z) (i : info) (b : list Z) : outcome (bool * info * list Z) :=
  match modof sy addr with
  | None => Ret (false, i, b)
  | Some m =>
      let name := fname_of sy m in
      do b <- (if zlen name =? 0 then Ret b
               else if zlen name <? 520 then mwrite b 0 (name ++ [0]) else mwrite b 0 (ztake 519 name ++ [0]));
      let size := if zlen name <? 520 then zlen name else 520 in
      if (size =? 0) || (size =? 520) then Ret (false, i, b)
      else do sec <- get_image_section mem m 0;
           do r <- (match sec with Some (ied, _) => get_export_symbol_name mem m ied addr 0 | None => Ret (0, 0) end);
           let sa := if fst r =? 0 then 0 else if negb (snd r =? 0) then snd r else addr in
           Ret (true, mk_info buffer m (fst r) sa, b)
  end.
(** lines 728-776 *)
Definition dladdr (buffer : Z) (mem : memory) (sy : sysv) (addr : Z) (i : option info) (b : list Z) : outcome (Z * option info * list Z) :=
  match i with
  | None => Ret (0, i, b)
  | Some inf =>
      if negb (is_valid_address sy addr) then Ret (0, i, b)
      else do th <- is_import_thunk mem addr;
           do addr <- (if th then
                         match modof sy addr with
                         | None => Ret None
                         | Some m =>
                             do sec <- get_image_section mem m 12;
                             do iat <- (match sec with
                                        | Some x => Ret (Some x)
                                        | None => do imp <- get_image_section mem m 1;
                                                  match imp with
                                                  | None => Ret None
                                                  | Some (iid, isz) =>
                                                      do ch <- rd mem iid 4;
                                                      if ch =? 0 then Ret None
                                                      else do ft <- rd mem (iid + 16) 4;
                                                           if ft =? 0 then Ret None else Ret (Some (m + ft, u32 (isz - u32 (m + ft - iid))))
                                                  end
                                        end);
                             match iat with
                             | None => Ret None
                             | Some (p, sz) => do a <- get_address_from_iat mem sy p sz addr; if is_valid_address sy a then Ret (Some a) else Ret None
                             end
                         end
                       else Ret (Some addr));
           match addr with
           | None => Ret (0, i, b)
           | Some addr => do r <- fill_info buffer mem sy addr inf b;
                          let '(ok, inf, b) := r in Ret ((if ok then 1 else 0), Some inf, b)
           end
  end.
