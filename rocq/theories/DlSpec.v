(** What users of dlopen and friends expect. *)
From Verif Require Import CBase DlModel.

(** the text of an error: "<argument>": <system's text without the line end>; cut to a buffer of the size given *)
Definition strip_crlf (msg : list Z) : list Z :=
  match rev msg with a :: b :: r => if (a =? 10) && (b =? 13) then rev r else msg | _ => msg end.
Definition message (size : Z) (str msg : list Z) : list Z :=
  let arg := ztake (size - 5) str in
  34 :: arg ++ [34; 58; 32] ++ (if zlen msg + 1 <=? size - (zlen arg + 4) then strip_crlf msg else []).
(** a pointer in hexadecimal *)
Definition hex_digit (v : Z) : Z := if v <? 10 then 48 + v else 65 + (v - 10).
Definition hex_text (p : Z) : list Z := [48; 120] ++ map (fun i => hex_digit (p / 16 ^ (15 - Z.of_nat i) mod 16)) (seq 0 16).

(** the hidden modules, the error to report, the modules of the system *)
Record sp := mk_sp { hidden : list Z; report : option (list Z); sys : table }.
Definition hide (m : Z) (l : list Z) : list Z := if existsb (Z.eqb m) l then l else l ++ [m].
Definition unhide (m : Z) (l : list Z) : list Z := filter (fun x => negb (m =? x)) l.
(** the first module that has the symbol *)
Fixpoint first_hit (gpa : Z -> Z) (ms : list Z) : Z := match ms with [] => 0 | m :: ms => if gpa m =? 0 then first_hit gpa ms else gpa m end.
Fixpoint after (c : Z) (ms : list Z) : list Z := match ms with [] => [] | m :: ms => if c =? m then ms else after c ms end.

Inductive op :=
| Open (file : option (list Z)) (mode : Z) (ans : option (Z * list Z)) (enumB enumA ok : bool) (msg : list Z)
| Close (m : Z) (deps msg : list Z)
| Sym (handle : Z) (name : list Z) (gpa : Z -> Z) (caller : Z) (e1 e2 : option (list Z)) (ok : bool) (msg : list Z)
| Error.
Inductive obs := VPtr (p : Z) | VRet (r : Z) | VText (t : option (list Z)).
Definition sstep (size prog : Z) (s : sp) (o : op) : obs * sp :=
  match o with
  | Open None _ _ _ _ _ _ => (VPtr prog, mk_sp (hidden s) None (sys s))
  | Open (Some file) mode ans enumB enumA ok msg =>
      if 260 <=? zlen file then (VPtr 0, mk_sp (hidden s) (Some (message size file msg)) (sys s))
      else match ans with
           | None => (VPtr 0, mk_sp (hidden s) (Some (message size (backslashes file) msg)) (sys s))
           | Some (m, deps) =>
               let t := load m deps (sys s) in
               let new := negb (Nat.eqb (if enumB then length (sys s) else O) (if enumA then length t else O)) in
               if Z.testbit mode 2 then
                 if new then
                   if ok || existsb (Z.eqb m) (hidden s) then (VPtr m, mk_sp (hide m (hidden s)) None t)
                   else (VPtr 0, mk_sp (hidden s) (Some (message size (backslashes file) msg)) (match unload m deps t with Some t => t | None => t end))
                 else (VPtr m, mk_sp (hidden s) None t)
               else (VPtr m, mk_sp (if new then hidden s else unhide m (hidden s)) None t)
           end
  | Close m deps msg =>
      match unload m deps (sys s) with
      | Some t => (VRet 0, mk_sp (unhide m (hidden s)) None t)
      | None => (VRet 1, mk_sp (hidden s) (Some (message size (hex_text m) msg)) (sys s))
      end
  | Sym handle name gpa caller e1 e2 ok msg =>
      let visible := filter (fun m => negb (existsb (Z.eqb m) (hidden s))) in
      let all := match e1, e2 with Some l1, Some l2 => if ok && Nat.eqb (length l1) (length l2) then l2 else [] | _, _ => [] end in
      let a := if handle =? RTLD_NEXT then if caller =? 0 then 0 else first_hit gpa (visible (after caller all))
               else if (handle =? 0) || (handle =? prog) then (if gpa prog =? 0 then first_hit gpa (visible all) else gpa prog)
               else gpa handle in
      (VPtr a, mk_sp (hidden s) (if a =? 0 then Some (message size name msg) else None) (sys s))
  | Error => (VText (report s), mk_sp (hidden s) None (sys s))
  end.
Fixpoint ssteps (size prog : Z) (s : sp) (os : list op) : list obs * sp :=
  match os with [] => ([], s) | o :: os => let '(v, s) := sstep size prog s o in let '(vs, s) := ssteps size prog s os in (v :: vs, s) end.
(** the same with the code *)
Definition do1 (prog : Z) (s : st) (o : op) : outcome (obs * st) :=
  match o with
  | Open file mode ans eb ea ok msg => do r <- dlopen prog file mode ans eb ea ok msg s; Ret (VPtr (fst r), snd r)
  | Close m deps msg => do r <- dlclose m deps msg s; Ret (VRet (fst r), snd r)
  | Sym h name gpa c e1 e2 ok msg => do r <- dlsym prog h name gpa c e1 e2 ok msg s; Ret (VPtr (fst r), snd r)
  | Error => let '(t, s) := dlerror s in Ret (VText t, s)
  end.
Fixpoint do_all (prog : Z) (s : st) (os : list op) : outcome (list obs * st) :=
  match os with [] => Ret ([], s) | o :: os => do r <- do1 prog s o; do q <- do_all prog (snd r) os; Ret (fst r :: fst q, snd q) end.
(** sensible operations: strings without terminators inside; modules are not NULL and handles are 64 bits *)
Definition text (t : list Z) : Prop := Forall (fun c => c <> 0) t.
Definition handle_ok (m : Z) : Prop := 0 < m < two64 - 1.
Definition op_ok (o : op) : Prop :=
  match o with
  | Open file mode ans _ _ _ msg => text msg /\ 0 <= mode /\ (match file with Some f => text f | None => True end) /\
      (match ans with Some (m, deps) => handle_ok m /\ Forall handle_ok deps | None => True end)
  | Close m deps msg => text msg /\ 0 <= m < two64
  | Sym h name gpa c e1 e2 ok msg => text msg /\ text name /\ 0 <= h < two64 /\ (match e2 with Some l => Forall handle_ok l | None => True end)
  | Error => True
  end.
