(** Specification for C43: settings from a history of calls, and the text of a log record. *)
From Verif Require Import CBase CStr TimeModel TimeSpec XlogModel.

(** the value given by the last call that [f] recognises, or the default *)
Fixpoint latest {V} (f : op -> option V) (d : V) (l : list op) : V :=
  match l with [] => d | o :: l => latest f (match f o with Some v => v | None => d end) l end.

(** settings; a call with a value outside the documented range is ignored *)
Definition min_level := latest (fun o => match o with SetMin l => if (0 <=? l) && (l <=? 5) then Some l else None | _ => None end) 1.
Definition up_level := latest (fun o => match o with LevelUp l => Some l | _ => None end) 0.
Definition target := latest (fun o => match o with SetTarget t => if 0 <=? t then Some t else None | _ => None end) 4.
Definition format := latest (fun o => match o with SetFormat t => if 0 <=? t then Some t else None | _ => None end) 6.
Definition zone := latest (fun o => match o with SetTz h => if (-12 <=? h) && (h <=? 12) then Some h else None | _ => None end) 8.
Definition has_cb := latest (fun o => match o with SetCb b => Some b | _ => None end) false.
Definition flush := latest (fun o => match o with SetFlush m => if 0 <=? m then Some m else None | _ => None end) 0.

(** a C string of the caller: the text, the terminator, and whatever follows *)
Definition cblock (t b : list Z) : Prop := text t /\ exists r, b = t ++ 0 :: r.
(** the default tag: "XLog", or the last tag set, cut at 23 characters. Given as a relation because the
    caller passes a block *)
Inductive default_tag : list op -> list Z -> Prop :=
| tag0 : default_tag [] [88;76;111;103]
| tag_set l b t : default_tag l (* before *) (t) -> forall t', cblock t' b -> default_tag (l ++ [SetTag (Some b)]) (ztake 23 t')
| tag_keep l o t : default_tag l t -> (forall b, o <> SetTag (Some b)) -> default_tag (l ++ [o]) t.

(** histories of setter calls: tags are C strings, levels given to auto_level_up are LogLevel constants *)
Definition op_ok (o : op) : Prop :=
  match o with SetTag (Some b) => exists t, cblock t b | LevelUp l => 0 <= l <= 6 | _ => True end.

Definition enabled (h : list op) (level : Z) : Prop :=
  target h <> 0 /\ min_level h <> 0 /\ min_level h <= level <= 5.
Definition shown_level (h : list op) (level : Z) : Z := Z.max level (up_level h).
Definition to_console (h : list op) : bool := Z.testbit (target h) 2.
Definition to_callback (h : list op) : bool := Z.testbit (target h) 3 && has_cb h.

(** "0VDIWE?" *)
Definition level_char (l : Z) : Z :=
  match l with 0 => 48 | 1 => 86 | 2 => 68 | 3 => 73 | 4 => 87 | 5 => 69 | _ => 63 end.
(** the first 22 characters of the tag, at least 8 columns *)
Definition tag_field (tag : list Z) : list Z := let t := ztake 22 tag in t ++ repeat 32 (Z.to_nat (8 - zlen t)).
(** five columns, right aligned: the last five decimal digits of |tid| *)
Definition tid_field (tid : Z) : list Z :=
  let n := Z.abs tid in
  map (fun p => if n <? p then 32 else 48 + n / p mod 10) [10000; 1000; 100; 10; 1].
(** "(func:line) " *)
Definition func_field (func : option (list Z)) (line : Z) : list Z :=
  match func with
  | Some f => if 0 <? line then [40] ++ f ++ [58] ++ decimal line ++ [41; 32] else []
  | None => []
  end.
(** "stamp L/tag(tid): " according to the format bits *)
Definition header_text (h : list op) (stamp tag : list Z) (level tid : Z) : list Z :=
  let parts := (if Z.testbit (format h) 1 then stamp else [])
            ++ (if Z.testbit (format h) 2 then [32; level_char level; 47] ++ tag_field tag else [])
            ++ (if Z.testbit (format h) 3 then [40] ++ tid_field tid ++ [41] else []) in
  match parts with [] => [] | _ => parts ++ [58; 32] end.
(** "MM-DD HH:MM:SS.mmm" of the local time *)
Definition stamp_text (sec usec tz : Z) : list Z :=
  let v := local_time sec tz in
  two_digits (tm_mon v + 1) ++ [45] ++ two_digits (tm_mday v) ++ [32] ++ two_digits (tm_hour v)
  ++ [58] ++ two_digits (tm_min v) ++ [58] ++ two_digits (tm_sec v) ++ dot_millis usec.

(** the record and where it goes: one line on the console, flushed if asked for, then the callback, which gets
    the text with its terminator *)
Definition outputs (h : list op) (level : Z) (rec : list Z) : list event :=
  (if to_console h then Print (rec ++ [10]) :: (if flush h =? 0 then [] else [Flush]) else [])
  ++ (if to_callback h then [Callback (shown_level h level) (rec ++ [0])] else []).
