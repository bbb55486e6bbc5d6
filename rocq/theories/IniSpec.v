(** Specification of an ini object: an ordered list of sections, each an ordered list of (key, value); names are
    compared without regard to case. *)
From Verif Require Import CBase CStr StrParamsModel IniModel.

Definition mini := list (list Z * list (list Z * list Z)).
(** equal but for the case of ASCII letters *)
Definition up (c : Z) : Z := if (97 <=? c) && (c <=? 122) then c - 32 else c.
Definition same (a b : list Z) : bool := if list_eq_dec Z.eq_dec (map up a) (map up b) then true else false.

Fixpoint assoc {V} (k : list Z) (l : list (list Z * V)) : option V :=
  match l with [] => None | (k', v) :: l => if same k k' then Some v else assoc k l end.
(** change the entry of k, or append it *)
Fixpoint alter {V} (k : list Z) (f : option V -> V) (l : list (list Z * V)) : list (list Z * V) :=
  match l with
  | [] => [(k, f None)]
  | (k', v) :: l => if same k k' then (k', f (Some v)) :: l else (k', v) :: alter k f l
  end.
Definition without {V} (k : list Z) (l : list (list Z * V)) : list (list Z * V) := filter (fun x => negb (same k (fst x))) l.

Definition m_get (m : mini) (s k : list Z) : option (list Z) := match assoc s m with Some l => assoc k l | None => None end.
Definition m_section (m : mini) (s : list Z) : mini := alter s (fun o => match o with Some l => l | None => [] end) m.
Definition m_put (m : mini) (s k v : list Z) : mini :=
  alter s (fun o => alter k (fun _ => v) (match o with Some l => l | None => [] end)) m.
Definition m_del_key (m : mini) (s k : list Z) : mini :=
  match assoc s m with Some _ => alter s (fun o => without k (match o with Some l => l | None => [] end)) m | None => m end.

(** the calls that change an object *)
Inductive iop :=
| IPut (ok : oks) (s k v : option (list Z))
| IDelKey (s k : option (list Z))
| IDelSection (s : option (list Z)).
Definition run_iop (p : ini) (o : iop) : outcome (Z * ini) :=
  match o with
  | IPut ok s k v => ini_put ok p s k v
  | IDelKey s k => ini_del_key p s k
  | IDelSection s => ini_del_section p s
  end.
Definition empty_or_null (x : option (list Z)) : bool := match x with None | Some [] => true | _ => false end.
(** return code and object afterwards *)
Definition sp_iop (m : mini) (o : iop) : Z * mini :=
  match o with
  | IPut ok (Some (c :: s)) (Some (d :: k)) v =>
    let s := c :: s in let k := d :: k in
    let exists_s := match assoc s m with Some _ => true | None => false end in
    let exists_k := match m_get m s k with Some _ => true | None => false end in
    if negb (exists_s || (ok_sec ok && ok_list ok && ok_snode ok)) then (3, m)
    else if negb (exists_k || ok_kv ok) then (3, m_section m s)
    else if negb (exists_k || ok_knode ok) then (1, m_section m s)
    else (0, m_put m s k (match v with Some v => v | None => [] end))
  | IPut _ _ _ _ => (2, m)
  | IDelKey (Some s) (Some k) => match m_get m s k with Some _ => (0, m_del_key m s k) | None => (4, m) end
  | IDelKey _ _ => (2, m)
  | IDelSection (Some s) => match assoc s m with Some _ => (0, without s m) | None => (4, m) end
  | IDelSection None => (2, m)
  end.
(** the calls the theorem is about: names of at most 63 and values of at most 255 characters, a section that is
    not NULL in a put, and not deleting the section that was created last *)
Definition short (n : Z) (x : option (list Z)) : Prop := match x with Some t => text t /\ zlen t <= n | None => True end.
Definition newest (m : mini) (s : list Z) : Prop := exists m' s' l, m = m' ++ [(s', l)] /\ same s s' = true.
Definition iop_ok (m : mini) (o : iop) : Prop :=
  match o with
  | IPut _ s k v => s <> None /\ short 63 s /\ short 63 k /\ short 255 v
  | IDelKey _ _ => True
  | IDelSection (Some s) => ~ newest m s
  | IDelSection None => True
  end.
(** [p] is an object after some history of such calls; [m] is what the history means *)
Inductive hist : ini -> mini -> Prop :=
| hist_new : hist ini_new []
| hist_step p m o c p' : hist p m -> iop_ok m o -> run_iop p o = Ret (c, p') -> hist p' (snd (sp_iop m o)).

(** ini_parser_get_string: code and the caller's block afterwards *)
Definition sp_get (m : mini) (s k blk : option (list Z)) (size : Z) : Z * option (list Z) :=
  match s with
  | None | Some [] => (2, blk)
  | Some s =>
    match assoc s m with
    | None => (4, blk)
    | Some l =>
      match k with
      | None => (match blk with None => if size =? 0 then 0 else 2 | Some _ => 2 end, blk)
      | Some [] => (2, blk)
      | Some k =>
        match assoc k l with
        | None => (4, blk)
        | Some v =>
          match blk with
          | None => (0, None)
          | Some b => if size =? 0 then (0, blk) else if size <=? zlen v then (3, blk) else (0, Some (v ++ [0] ++ zdrop (zlen v + 1) b))
          end
        end
      end
    end
  end.
(** everything in the object, in order *)
Definition triples (m : mini) : list (list Z * list Z * list Z) :=
  flat_map (fun x => map (fun kv => (fst x, fst kv, snd kv)) (snd x)) m.
(** the text of an object *)
Definition line_of (kv : list Z * list Z) : list Z := fst kv ++ [32; 61; 32] ++ snd kv ++ [13; 10].
Definition section_text (x : list Z * list (list Z * list Z)) : list Z :=
  [91] ++ fst x ++ [93; 13; 10] ++ flat_map line_of (snd x) ++ [13; 10].
Definition dump_text (m : mini) : list Z := flat_map section_text m.

(** ** objects whose text reads back as the same object *)
(** no ';' right after white space (the reader takes it for a comment) *)
Definition no_comment (t : list Z) : Prop := forall a x b, t = a ++ x :: 59 :: b -> FileModel.isspace x = false.
Definition no_space_ends (t : list Z) : Prop :=
  (forall c r, t = c :: r -> FileModel.isspace c = false) /\ (forall c r, t = r ++ [c] -> FileModel.isspace c = false).
Definition plain_section (s : list Z) : Prop := s <> [] /\ text s /\ zlen s <= 49 /\ ~ In 10 s /\ ~ In 93 s /\ no_comment s.
Definition plain_pair (kv : list Z * list Z) : Prop :=
  let '(k, v) := kv in
  k <> [] /\ text k /\ text v /\ zlen k <= 63 /\ zlen k + zlen v <= 194 /\
  ~ In 10 k /\ ~ In 61 k /\ ~ In 58 k /\ no_comment k /\ no_space_ends k /\
  (forall c r, k = c :: r -> c <> 59 /\ c <> 35 /\ c <> 91) /\
  ~ In 10 v /\ no_comment (32 :: v) /\ no_space_ends v.
Definition distinct {V} (l : list (list Z * V)) : Prop := NoDup (map (fun x => map up (fst x)) l).
Definition plain (m : mini) : Prop :=
  distinct m /\ Forall (fun x => plain_section (fst x) /\ snd x <> [] /\ distinct (snd x) /\ Forall plain_pair (snd x)) m.
