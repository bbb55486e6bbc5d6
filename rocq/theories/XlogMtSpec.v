(** Specification for C72: what a history of several threads' calls is allowed to look like. Histories are oldest first. *)
From Verif Require Import CBase CStr TimeModel XlogModel XlogSpec XlogMtModel.
(** the settings made so far, in order *)
Definition writes (p : list (nat * acc)) : list op := flat_map (fun x => match snd x with AWrite o => [o] | _ => [] end) p.
(** everything printed, flushed and handed to the callback so far, in order *)
Definition outs (p : list (nat * acc)) : list event := flat_map (fun x => match snd x with AOut e => [e] | _ => [] end) p.
(** what thread t did *)
Definition proj (t : nat) (p : list (nat * acc)) : list acc := flat_map (fun x => if Nat.eqb (fst x) t then [snd x] else []) p.
(** what a single-threaded program would get from the record's call after the settings h, its level being enabled *)
Definition alone (sf : strftime_fn) (h : list op) (r : rcall) (l : list event) : Prop :=
  if target h =? 0 then l = []
  else exists c, sets cfg0 (h ++ [SetMin 1]) = Ret c /\ xlog_print sf c (r_env r) (r_level r) (r_tag r) (r_func r) (r_line r) = Ret l.
(** the output of the history's records, one after the other, each as if alone with the settings made before it *)
Inductive made (sf : strftime_fn) : list (nat * acc) -> list event -> Prop :=
| made_0 : made sf [] []
| made_record p t r evs l : made sf p evs -> alone sf (writes p) r l -> made sf (p ++ [(t, AMake r)]) (evs ++ l)
| made_other p t a evs : made sf p evs -> (forall r, a <> AMake r) -> made sf (p ++ [(t, a)]) evs.
(** a setting with a value outside its range is ignored *)
Definition in_range (o : op) : Prop :=
  match o with
  | SetTag None => False
  | SetTz h => -12 <= h <= 12
  | SetTarget t => 0 <= t | SetFormat f => 0 <= f | SetFlush m => 0 <= m
  | SetMin l => 0 <= l <= 5
  | _ => True
  end.
(** one evaluation of the level test *)
Definition passes (level : Z) (g : list acc) : Prop := exists a b c, g = [ATarget a; AMin1 b; AMin2 c] /\ a <> 0 /\ b <> 0 /\ level < 6 /\ c <= level.
Definition fails (level : Z) (g : list acc) : Prop :=
  g = [ATarget 0] \/ (exists a b, g = [ATarget a; AMin1 b] /\ a <> 0 /\ (b = 0 \/ 6 <= level)) \/
  (exists a b c, g = [ATarget a; AMin1 b; AMin2 c] /\ a <> 0 /\ b <> 0 /\ level < 6 /\ level < c).
(** what one call does, from beginning to end: a setting changes once, a record is made exactly if the level test passes (twice for a hex dump),
    and its outputs follow *)
Inductive does : call -> list acc -> Prop :=
| does_set o : in_range o -> does (CSet o) [AStart (CSet o); AWrite o; AEnd]
| does_ignore o : ~ in_range o -> does (CSet o) [AStart (CSet o); AEnd]
| does_get v x : does (CGet v) [AStart (CGet v); AGet v x; AEnd]
| does_drop r g : fails (r_level r) g -> does (CLog r) (AStart (CLog r) :: g ++ [AEnd])
| does_drop2 r g g' : r_hex r = true -> passes (r_level r) g -> fails (r_level r) g' -> does (CLog r) (AStart (CLog r) :: g ++ g' ++ [AEnd])
| does_log r g evs : r_hex r = false -> passes (r_level r) g -> does (CLog r) (AStart (CLog r) :: g ++ AMake r :: map AOut evs ++ [AEnd])
| does_hex r g g' evs : r_hex r = true -> passes (r_level r) g -> passes (r_level r) g' -> does (CLog r) (AStart (CLog r) :: g ++ g' ++ AMake r :: map AOut evs ++ [AEnd]).
(** the value a getter must return *)
Definition setting (v : var) (h : list op) : Z := match v with VTarget => target h | VMin => min_level h | VFormat => format h | VFlush => flush h end.
(** a read that happens after p gives the settings made in p *)
Definition current (p : list (nat * acc)) (a : acc) : Prop :=
  match a with ATarget v => v = target (writes p) | AMin1 v | AMin2 v => v = min_level (writes p) | AGet k v => v = setting k (writes p) | _ => True end.
(** programs: levels as documented *)
Definition levels_ok (progs : list (list call)) : Prop := forall p c, In p progs -> In c p -> match c with CLog r => 1 <= r_level r | _ => True end.
(** what has happened in state s *)
Definition history (s : st) : list (nat * acc) := rev (trace s).
(** settings that do not change which levels are enabled *)
Definition keeps_levels (o : op) : Prop := match o with SetMin _ | SetTarget _ => False | _ => True end.
(** calls as C43 wants them: C strings, LogLevel constants, function names of at most 440 characters *)
Definition call_ok (c : call) : Prop :=
  match c with
  | CSet o => op_ok o
  | CLog r => 1 <= r_level r /\ - 2 ^ 31 < e_tid (r_env r) < 2 ^ 31 /\ r_line r < 2 ^ 31 /\
      (forall b, r_tag r = Some b -> exists t, cblock t b) /\ (forall b, r_func r = Some b -> exists f, cblock f b /\ zlen f <= 440) /\
      (exists m, e_msg (r_env r) = Some m /\ text m /\ zlen m < 2 ^ 31 - 1) /\ (forall n b, e_malloc (r_env r) n = Some b -> zlen b = n)
  | CGet _ => True
  end.
(** thread t has nothing left to do *)
Definition finished (s : st) (t : nat) : Prop := match nth_error (ths s) t with Some th => at_ th = PIdle /\ todo th = [] | None => True end.
