(** Specification of str_params: a map from texts to texts, as an association list in order of insertion. *)
From Coq Require Export Permutation.
From Verif Require Import CBase CStr StrParamsModel.

Definition smap := list (list Z * list Z).
Fixpoint lookup (s : smap) (k : list Z) : option (list Z) :=
  match s with [] => None | (k', v) :: s => if list_eqb k' k then Some v else lookup s k end.
Definition update (s : smap) (k v : list Z) : smap :=
  match lookup s k with
  | Some _ => map (fun p => if list_eqb (fst p) k then (fst p, v) else p) s
  | None => s ++ [(k, v)]
  end.
Definition delete (s : smap) (k : list Z) : smap := filter (fun p => negb (list_eqb (fst p) k)) s.

(** non-NUL bytes *)
Definition cstring (s : list Z) : Prop := Forall (fun c => 1 <= c < 256) s.
(** tables up to 2^60 buckets can be allocated, larger ones cannot *)
Definition tables_ok (okx : Z -> bool) : Prop := forall n, okx n = true <-> n <= 1152921504606846976.

Definition add_succeeds (s : smap) (a : sp_alloc) (k : list Z) : bool :=
  sa_key a && sa_val a && (sa_entry a || match lookup s k with Some _ => true | None => false end).
Definition m_add (s : smap) (a : sp_alloc) (k v : list Z) : smap * sp_res :=
  if add_succeeds s a k then (update s k v, RCode 0) else (s, RCode (-12)).
(** what get_long must answer for a stored text *)
Definition m_long (s : smap) (k : list Z) : Z * option Z :=
  match lookup s k with
  | None => (-2, None)
  | Some v => let r := strtol0 v in if (zlen v =? 0) || negb (snd r =? zlen v) then (-22, None) else (0, Some (fst r))
  end.
Definition m_step (s : smap) (o : sp_op) : smap * sp_res :=
  match o with
  | SAdd a k v => m_add s a k v
  | SAddLong a k n => m_add s a k (dec_long n)
  | SDel k => (delete s k, RCode 0)
  | SHas k => (s, RBool (match lookup s k with Some _ => true | None => false end))
  | SGet k out =>
    (s, match lookup s k with
        | None => RStr (-2) out
        | Some v => if zlen v <? zlen out then RStr 0 (v ++ 0 :: zdrop (zlen v + 1) out) else RStr (-12) out
        end)
  | SGetLong k => (s, let r := m_long s k in RNum (fst r) (snd r))
  | SGetInt k => (s, let r := m_long s k in RNum (fst r) (option_map s32 (snd r)))
  end.
Fixpoint m_run (s : smap) (h : list sp_op) : smap * list sp_res :=
  match h with [] => (s, []) | o :: h => let r := m_step s o in let r2 := m_run (fst r) h in (fst r2, snd r :: snd r2) end.

Definition valid_op (o : sp_op) : Prop :=
  match o with
  | SAdd a k v => cstring k /\ cstring v /\ tables_ok (sa_table a)
  | SAddLong a k n => cstring k /\ -9223372036854775808 <= n <= 9223372036854775807 /\ tables_ok (sa_table a)
  | SDel k | SHas k | SGet k _ | SGetLong k | SGetInt k => cstring k
  end.

(** the text "k=v", joined by the delimiter *)
Definition pair_text (p : list Z * list Z) : list Z := fst p ++ 61 :: snd p.
Fixpoint join (d : list Z) (l : list (list Z)) : list Z :=
  match l with [] => [] | [x] => x | x :: r => x ++ d ++ join d r end.

(** the pairs of a text: pieces between delimiters; a piece starting with '=' is skipped; a piece without
    '=' has the empty value *)
Fixpoint split_eq (s : list Z) : option (list Z * list Z) :=
  match s with
  | [] => None
  | c :: r => if c =? 61 then Some ([], r) else match split_eq r with Some (a, b) => Some (c :: a, b) | None => None end
  end.
Definition parse_piece (s : list Z) : option (list Z * list Z) :=
  match split_eq s with None => Some (s, []) | Some ([], _) => None | Some p => Some p end.
Fixpoint parse_pieces (s : smap) (l : list (list Z)) : smap :=
  match l with [] => s | x :: l => parse_pieces (match parse_piece x with Some (k, v) => update s k v | None => s end) l end.

(** how many pieces carry a key that is already there *)
Fixpoint dup_count (s : smap) (l : list (list Z)) : Z :=
  match l with
  | [] => 0
  | x :: l =>
    match parse_piece x with
    | Some (k, v) => (match lookup s k with Some _ => 1 | None => 0 end) + dup_count (update s k v) l
    | None => dup_count s l
    end
  end.

(** pairs that survive the text form with the delimiter byte d *)
Definition plain (d : Z) (p : list Z * list Z) : Prop :=
  fst p <> [] /\ ~ In 61 (fst p) /\ ~ In d (fst p) /\ ~ In d (snd p).
