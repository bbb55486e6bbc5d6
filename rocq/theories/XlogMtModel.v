(** Model of src/log/xlog.c used by several threads: the settings, the four getters and log calls, access by access where another thread
    can interfere. mx: xlog_global_init has made the mutex (XLOG_LOCK and XLOG_UNLOCK, lines 101-102, do nothing without it); the
    mutex itself is taken as correct (C53 for the Windows layer).
    cbl: the user's callback logs a record itself; of that inner call only its XLOG_LOCK is modelled (its level is enabled).
    Simplified: reads of the settings inside a record's critical section are one step (under the lock nobody writes them), and so is the
    copy of a tag; user_data of the callback is left out as in XlogModel.v. *)
From Verif Require Import CBase CStr StringsModel TimeModel ThreadLib XlogModel.

(** ** __xlog_internal_print behind the test of line 430, lines 436-543: XlogModel.xlog_print without its first test *)
Definition xlog_body (sf : strftime_fn) (c : cfg) (e : env) (level : Z) (tag func : option (list Z)) (line : Z) : outcome (list event) :=
  let buf := repeat 0 (Z.to_nat BUF_SIZE) in
  let console := x_console c in let usercb := x_usercb c in
  let level := if negb (x_up c =? 0) && (level <? x_up c) then x_up c else level in
  let tag := match tag with None => x_tag c | Some t => t end in
  do (buf, h) <- header sf c e level tag buf;
  let len := h in
  do (buf, len) <-
    match func with
    | Some f => if (line >? 0) && (u64 (BUF_SIZE - len - 1) >? 32)
                then do (buf, n) <- print_func_line buf len f line; Ret (buf, len + n)
                else Ret (buf, len)
    | None => Ret (buf, len)
    end;
  let remaining := u64 (BUF_SIZE - len) in
  match e_msg e with
  | None => Ret []
  | Some m =>
    do (buf, r) <- snprintf_at buf len remaining m;
    if r <? s32 remaining then emit c console usercb level buf (len + r)
    else
      let need := r + 1 in
      match e_malloc e (u64 (len + need)) with
      | None => Ret []
      | Some big =>
        do (big, _) <- strlcpy big buf (len + 1);
        do (big, r) <- snprintf_at big len need m;
        emit c console usercb level big (len + r)
      end
  end.

(** ** Calls *)
(** a record; hex: through __xlog_internal_hex_print, lines 556-565, which tests the level once more *)
Record rcall := mk_r { r_env : env; r_level : Z; r_tag : option (list Z); r_func : option (list Z); r_line : Z; r_hex : bool }.
Inductive var := VTarget | VMin | VFormat | VFlush.
Inductive call := CSet (o : op) | CLog (r : rcall) | CGet (v : var).
(** xlog_get_target, xlog_get_min_level, xlog_get_format, xlog_get_flush_mode: lines 239-242, 255-258, 274-277, 290-293 *)
Definition value (v : var) (c : cfg) : Z := match v with VTarget => x_target c | VMin => x_min c | VFormat => x_format c | VFlush => x_flush c end.
(** the tests of the setters before they lock, lines 197, 208, 227, 246, 262, 281 *)
Definition accepted (o : op) : bool :=
  match o with
  | SetTag None => false
  | SetTz h => negb ((h >? 12) || (h <? -12))
  | SetTarget t => negb (t <? 0)
  | SetMin l => negb ((l <? 0) || (l >? 5))
  | SetFormat f => negb (f <? 0)
  | SetFlush m => negb (m <? 0)
  | _ => true
  end.

(** ** The writes of a setter. The first one is the setting itself, the others are the cached bits *)
Inductive upd := UMin (l : Z) | UUp (l : Z) | UTag (t : list Z) | UCb (b : bool) | UTarget (t : Z) | UFormat (f : Z) | UFlush (m : Z) | UTz (h : Z)
| UConsole | UUser | UStamp | UTagLevel | UTid.
Definition apply (u : upd) (c : cfg) : outcome cfg :=
  let '(Build_cfg mi up tg cb ta fo fl tz co us st tl ti) := c in
  match u with
  | UMin l => Ret (Build_cfg l up tg cb ta fo fl tz co us st tl ti)
  | UUp l => Ret (Build_cfg mi l tg cb ta fo fl tz co us st tl ti)
  | UTag t => do (g, _) <- strlcpy tg t TAG_MAX; Ret (Build_cfg mi up g cb ta fo fl tz co us st tl ti)
  | UCb b => Ret (Build_cfg mi up tg b ta fo fl tz co us st tl ti)
  | UTarget t => Ret (Build_cfg mi up tg cb t fo fl tz co us st tl ti)
  | UFormat f => Ret (Build_cfg mi up tg cb ta f fl tz co us st tl ti)
  | UFlush m => Ret (Build_cfg mi up tg cb ta fo m tz co us st tl ti)
  | UTz h => Ret (Build_cfg mi up tg cb ta fo fl h co us st tl ti)
  | UConsole => Ret (Build_cfg mi up tg cb ta fo fl tz (negb (Z.land ta 4 =? 0)) us st tl ti)
  | UUser => Ret (Build_cfg mi up tg cb ta fo fl tz co (negb (Z.land ta 8 =? 0)) st tl ti)
  | UStamp => Ret (Build_cfg mi up tg cb ta fo fl tz co us (negb (Z.land fo 2 =? 0)) tl ti)
  | UTagLevel => Ret (Build_cfg mi up tg cb ta fo fl tz co us st (negb (Z.land fo 4 =? 0)) ti)
  | UTid => Ret (Build_cfg mi up tg cb ta fo fl tz co us st tl (negb (Z.land fo 8 =? 0)))
  end.
(** lines 188-288; log2android is left out *)
Definition writes_of (o : op) : upd * list upd :=
  match o with
  | LevelUp l => (UUp l, [])                                                 (* 191 *)
  | SetTag t => (UTag (match t with Some t => t | None => [] end), [])       (* 202 *)
  | SetTz h => (UTz h, [])                                                   (* 213 *)
  | SetCb b => (UCb b, [])                                                   (* 220 *)
  | SetTarget t => (UTarget t, [UConsole; UUser])                            (* 232-235 *)
  | SetMin l => (UMin l, [])                                                 (* 251 *)
  | SetFormat f => (UFormat f, [UStamp; UTagLevel; UTid])                    (* 267-270 *)
  | SetFlush m => (UFlush m, [])                                             (* 286 *)
  end.

(** ** Threads *)
Inductive pc :=
| PIdle
| PLockS (o : op) | PWrite (o : op) | PCache (us : list upd)            (* a setter: before XLOG_LOCK, before its write, writing the cached bits *)
| PTarget (r : rcall) (again : bool) | PMin1 (r : rcall) (again : bool) | PMin2 (r : rcall) (again : bool)   (* the three reads of line 109 *)
| PLockR (r : rcall) | PBody (r : rcall) | PEmit (l : list event) | PInner (l : list event)                  (* a record: lines 435, 436-530, 531-543 *)
| PGet (v : var)
| PUnlock | PRet.
Record thr := mk_th { todo : list call; at_ : pc }.
(** what the threads did, newest first: a call begins, a setting changes, line 109 reads the target and the minimum level (twice), a record
    is made, an output appears, a getter reads, a call returns *)
Inductive acc := AStart (c : call) | AWrite (o : op) | ATarget (v : Z) | AMin1 (v : Z) | AMin2 (v : Z) | AMake (r : rcall) | AOut (e : event) | AGet (v : var) (x : Z) | AEnd.
Record st := mk_st { conf : cfg; holder : option nat; ths : list thr; trace : list (nat * acc) }.

Definition free (mx : bool) (s : st) : bool := if mx then match holder s with None => true | Some _ => false end else true.
Definition take (mx : bool) (t : nat) (s : st) : option nat := if mx then Some t else holder s.
Definition give (mx : bool) (s : st) : option nat := if mx then None else holder s.
(** one step of thread t; Ret None: t is blocked or has finished *)
Definition step (sf : strftime_fn) (mx cbl : bool) (t : nat) (s : st) : outcome (option st) :=
  match nth_error (ths s) t with
  | None => Ret None
  | Some (mk_th td p) =>
    let go c h p' a := Ret (Some (mk_st c h (lset t (mk_th td p') (ths s)) (a ++ trace s))) in
    match p with
    | PIdle =>
        match td with
        | [] => Ret None
        | c :: td' =>
            let p' := match c with
                      | CSet o => if accepted o then PLockS o else PRet
                      | CLog r => PTarget r (r_hex r)
                      | CGet v => PGet v
                      end in
            Ret (Some (mk_st (conf s) (holder s) (lset t (mk_th td' p') (ths s)) ((t, AStart c) :: trace s)))
        end
    | PLockS o => if free mx s then go (conf s) (take mx t s) (PWrite o) [] else Ret None
    | PWrite o => do c <- apply (fst (writes_of o)) (conf s); go c (holder s) (PCache (snd (writes_of o))) [(t, AWrite o)]
    | PCache [] => go (conf s) (holder s) PUnlock []
    | PCache (u :: us) => do c <- apply u (conf s); go c (holder s) (PCache us) []
    | PTarget r again => go (conf s) (holder s) (if x_target (conf s) =? 0 then PRet else PMin1 r again) [(t, ATarget (x_target (conf s)))]
    | PMin1 r again => go (conf s) (holder s) (if negb (x_min (conf s) =? 0) && (r_level r <? 6) then PMin2 r again else PRet) [(t, AMin1 (x_min (conf s)))]
    | PMin2 r again => go (conf s) (holder s) (if r_level r >=? x_min (conf s) then (if again then PTarget r false else PLockR r) else PRet) [(t, AMin2 (x_min (conf s)))]
    | PLockR r => if free mx s then go (conf s) (take mx t s) (PBody r) [] else Ret None
    | PBody r => do l <- xlog_body sf (conf s) (r_env r) (r_level r) (r_tag r) (r_func r) (r_line r); go (conf s) (holder s) (PEmit l) [(t, AMake r)]
    | PEmit [] => go (conf s) (holder s) PUnlock []
    | PEmit (e :: l) => go (conf s) (holder s) (match e with Callback _ _ => if cbl then PInner l else PEmit l | _ => PEmit l end) [(t, AOut e)]
    | PInner l => if free mx s then go (conf s) (holder s) (PEmit l) [] else Ret None
    | PGet v => go (conf s) (holder s) PRet [(t, AGet v (value v (conf s)))]
    | PUnlock => go (conf s) (give mx s) PRet []
    | PRet => go (conf s) (holder s) PIdle [(t, AEnd)]
    end
  end.
(** the threads' programs, with the settings of a fresh process *)
Definition start (progs : list (list call)) : st := mk_st cfg0 None (map (fun p => mk_th p PIdle) progs) [].
(** a schedule names the thread of each step; a thread that cannot move is passed over *)
Fixpoint run (sf : strftime_fn) (mx cbl : bool) (l : list nat) (s : st) : outcome st :=
  match l with [] => Ret s | t :: l => do r <- step sf mx cbl t s; run sf mx cbl l (match r with Some s' => s' | None => s end) end.
