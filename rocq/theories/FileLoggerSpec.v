(** What users of the file logger see: calls, answers and files. *)
From Verif Require Import CBase CStr FileLoggerModel.

(** a record up to its first NUL byte *)
Fixpoint shown (r : list Z) : list Z :=
  match r with [] => [] | c :: r => if c =? 0 then [] else c :: shown r end.
(** the line a record makes in a log file: its bytes up to a NUL and a newline; nothing for an empty record *)
Definition line (r : list Z) : list Z := match r with [] => [] | _ => shown r ++ [10] end.
Definition lines (l : list (list Z)) : list Z := concat (map line l).
Definition nonempty (l : list (list Z)) : list (list Z) := filter (fun r => match r with [] => false | _ => true end) l.

(** records of the calls so far, oldest first, without those whose call has returned a nonzero code *)
Fixpoint lsent (l : list lev) : list (list Z) :=
  match l with
  | [] => []
  | LCall m :: l => lsent l ++ [m]
  | LRet _ c :: l => if c =? 0 then lsent l else removelast (lsent l)
  | _ :: l => lsent l
  end.
(** records whose call returned 0 *)
Fixpoint laccepted (l : list lev) : list (list Z) :=
  match l with
  | [] => []
  | LRet m c :: l => if c =? 0 then laccepted l ++ [m] else laccepted l
  | _ :: l => laccepted l
  end.
(** records whose call returned something else *)
Fixpoint lrefused (l : list lev) : list (list Z) :=
  match l with
  | [] => []
  | LRet m c :: l => if c =? 0 then lrefused l else lrefused l ++ [m]
  | _ :: l => lrefused l
  end.
(** every record handed in has less than 2^30 - 16 bytes *)
Definition sane (l : list lev) : Prop := forall m, In (LCall m) l -> zlen m <= 1073741808.
(** a configuration file_logger_init can produce (see C44_logger_init) *)
Definition good_cfg (cfg : fcfg) : Prop :=
  text (f_folder cfg) /\ zlen (f_folder cfg) <= 127 /\ text (f_prefix cfg) /\ zlen (f_prefix cfg) <= 31 /\
  0 <= f_max cfg < 2 ^ 63.

(** names of the log files, in the order they were opened *)
Fixpoint opened (l : list wev) : list (list Z) :=
  match l with [] => [] | WOpen n :: l => opened l ++ [n] | _ :: l => opened l end.
(** folder, prefix, and the bytes of "_lost.log" *)
Definition lost_name (cfg : fcfg) : list Z := f_folder cfg ++ f_prefix cfg ++ [95; 108; 111; 115; 116; 46; 108; 111; 103].

Inductive subseq {A} : list A -> list A -> Prop :=
| ss_nil : subseq [] []
| ss_take x a b : subseq a b -> subseq (x :: a) (x :: b)
| ss_skip x a b : subseq a b -> subseq a (x :: b).

(** the file holding these records has reached the size limit (0: no limit) *)
Definition full (max : Z) (g : list (list Z)) : Prop := max <> 0 /\ max <= zlen (lines g).
(** records divided among files: a file is left exactly when it has reached the limit *)
Definition rotated (max : Z) (groups : list (list (list Z))) : Prop :=
  forall before g after, groups = before ++ g :: after ->
    g <> [] /\ (after <> [] -> full max g) /\
    forall a b, g = a ++ b -> b <> [] -> ~ full max a.

(** the text of the "lost" file *)
Definition file_text (name : list Z) (fs : fsys) : list Z := match fs_get name fs with Some t => t | None => [] end.
Definition lost_lines (l : list (list Z)) : list Z := concat (map (fun r => shown r ++ [10; 10]) l).
