(** What a line of ini text means, and what reading a whole text does: no buffers. *)
From Verif Require Import CBase CStr FileModel IniReaderModel.

Definition rtrim (t : list Z) : list Z := rev (skip_space (rev t)).
(** the part of t before the first of the stop characters or before a ';' that follows white space *)
Fixpoint until (stop : list Z) (after_space : bool) (t : list Z) : list Z :=
  match t with
  | [] => []
  | c :: t => if inset c stop || (after_space && (c =? 59)) then [] else c :: until stop (isspace c) t
  end.
Definition rest_of (t k : list Z) : list Z := zdrop (zlen k) t.

Inductive meaning :=
| MNothing                      (* blank or comment *)
| MCont (v : list Z)            (* a further value for the previous name *)
| MSection (s : list Z)         (* [s] *)
| MBad                          (* [ without ] *)
| MPair (k v : list Z)          (* k = v *)
| MName (k : list Z).           (* k alone *)
Definition meaning_of (first has_prev : bool) (t : list Z) : meaning :=
  let bom := first && starts_with [239; 187; 191] t in
  let t0 := rtrim (if bom then zdrop 3 t else t) in
  let s := skip_space t0 in
  let indented := bom || negb (zlen s =? zlen t0) in
  match s with
  | [] => MNothing
  | c :: s' =>
    if inset c [59; 35] then MNothing
    else if has_prev && indented then MCont (rtrim (until [] false s))
    else if c =? 91 then
      let n := until [93] false s' in
      match rest_of s' n with
      | d :: _ => if d =? 93 then MSection n else MBad
      | [] => MBad
      end
    else
      let k := until [61; 58] false s in
      match rest_of s k with
      | d :: v => if inset d [61; 58] then MPair (rtrim k) (rtrim (skip_space (until [] false v))) else MName (rtrim k)
      | [] => MName (rtrim k)
      end
  end.

(** pieces the text is read in: up to a newline or 199 characters *)
Fixpoint piece (n : nat) (t : list Z) : list Z * list Z :=
  match n, t with
  | S n, c :: t => if c =? 10 then ([10], t) else let '(a, b) := piece n t in (c :: a, b)
  | _, _ => ([], t)
  end.

(** the state between lines: number of lines read, current section, previous name, first bad line (0: none), user *)
Record sp_rd (U : Type) := mk_sp_rd { q_section : list Z; q_prev : list Z; q_error : Z; q_user : U }.
Arguments mk_sp_rd {U}. Arguments q_section {U}. Arguments q_prev {U}. Arguments q_error {U}. Arguments q_user {U}.
Definition note_error (e lineno : Z) (ok : bool) : Z := if ok then e else if e =? 0 then lineno else e.
Definition sp_line {U} (h : ini_handler U) (q : sp_rd U) (lineno : Z) (t : list Z) : outcome (sp_rd U) :=
  match meaning_of (lineno =? 1) (negb (zlen (q_prev q) =? 0)) t with
  | MNothing => Ret q
  | MSection s => Ret (mk_sp_rd (ztake 49 s) [] (q_error q) (q_user q))
  | MBad => Ret (mk_sp_rd (q_section q) (q_prev q) (note_error (q_error q) lineno false) (q_user q))
  | MCont v => do (ok, u) <- h (q_user q) (q_section q) (q_prev q) (Some v);
               Ret (mk_sp_rd (q_section q) (q_prev q) (note_error (q_error q) lineno ok) u)
  | MPair k v => do (ok, u) <- h (q_user q) (q_section q) k (Some v);
                 Ret (mk_sp_rd (q_section q) (ztake 49 k) (note_error (q_error q) lineno ok) u)
  | MName k => if q_error q =? 0 then
                 do (ok, u) <- h (q_user q) (q_section q) k None;
                 Ret (mk_sp_rd (q_section q) (q_prev q) (note_error (q_error q) lineno ok) u)
               else Ret q
  end.
Fixpoint sp_stream {U} (fuel : nat) (h : ini_handler U) (q : sp_rd U) (lineno : Z) (t : list Z) : outcome (Z * U) :=
  match t with
  | [] => Ret (q_error q, q_user q)
  | _ =>
    match fuel with
    | O => NoFuel
    | S fuel =>
      let '(a, b) := piece 199 t in
      do q <- sp_line h q (lineno + 1) a;
      sp_stream fuel h q (lineno + 1) b
    end
  end.
Definition sp_parse {U} (h : ini_handler U) (t : list Z) (u : U) : outcome (Z * U) :=
  sp_stream (length t) h (mk_sp_rd [] [] 0 u) 0 t.
