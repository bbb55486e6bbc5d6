(** Specification of the list: a mathematical sequence of data pointers. *)
From Coq Require Export Permutation.
From Verif Require Import CBase ListModel.

(** the allocator returns addresses that are not NULL and not in use *)
Definition fresh (al : nalloc) : Prop := forall h a, al h = Some a -> a <> 0 /\ h a = None.
Definition always_fails (al : nalloc) : Prop := forall h, al h = None.
(** succeeds as long as some address is left *)
Definition never_fails (al : nalloc) : Prop := forall h b, (forall a, b <= a -> h a = None) -> al h <> None.
Definition finite (h : heap) : Prop := exists b, forall a, b <= a -> h a = None.

Fixpoint remove_first (d : Z) (s : list Z) : list Z :=
  match s with [] => [] | x :: s => if x =? d then s else x :: remove_first d s end.
Definition mem (d : Z) (s : list Z) : bool := existsb (Z.eqb d) s.

(** one call; [ok]: the allocation, if one is made, succeeds *)
Definition s_step (ok : bool) (s : list Z) (o : l_op) : list Z * bool :=
  match o with
  | LAppend d => if negb (d =? 0) && ok then (s ++ [d], true) else (s, false)
  | LPrepend d => if negb (d =? 0) && ok then (d :: s, true) else (s, false)
  | LInsertAfter i d => if negb (d =? 0) && (i <? length s)%nat && ok then (firstn (S i) s ++ d :: skipn (S i) s, true) else (s, false)
  | LInsertBack d => if negb (d =? 0) && negb (zlen s =? 0) && ok then (s ++ [d], true) else (s, false)
  | LRemove d => (remove_first d s, mem d s)
  | LContains d => (s, mem d s)
  | LClear => ([], true)
  end.
Definition s_obs (s : list Z) (r : bool) : l_obs :=
  mk_obs r (zlen s) (zlen s =? 0) (hd 0 s) (last s 0) s.
Fixpoint s_run (s : list Z) (h : list (bool * l_op)) : list Z * list l_obs :=
  match h with
  | [] => (s, [])
  | (ok, o) :: h => let r := s_step ok s o in let r2 := s_run (fst r) h in (fst r2, s_obs (fst r) (snd r) :: snd r2)
  end.
(** the data a call adds to the list *)
Definition s_added (ok : bool) (s : list Z) (o : l_op) : list Z :=
  match o with
  | LAppend d | LPrepend d | LInsertAfter _ d | LInsertBack d => if snd (s_step ok s o) then [d] else []
  | _ => []
  end.
Fixpoint all_added (s : list Z) (h : list (bool * l_op)) : list Z :=
  match h with [] => [] | (ok, o) :: h => s_added ok s o ++ all_added (fst (s_step ok s o)) h end.

(** iteration that stops after the first element on which the callback says false: context, and the element *)
Fixpoint s_foreach {C} (f : C -> Z -> C * bool) (c : C) (s : list Z) : C * option nat :=
  match s with
  | [] => (c, None)
  | d :: s => let r := f c d in
    if snd r then let r2 := s_foreach f (fst r) s in (fst r2, option_map S (snd r2)) else (fst r, Some O)
  end.

(** the outcome of the allocations: an allocator that always (never) fails fails (succeeds) *)
Definition ok_al (al : nalloc) (ok : bool) : Prop := (always_fails al -> ok = false) /\ (never_fails al -> ok = true).

(** a callback that removes the visited element when p holds *)
Definition cb_filter (has_cb : bool) (p : Z -> bool) (c : list Z) (l : lst) (d : Z) : outcome (list Z * lst * bool) :=
  if p d then do (l, _) <- list_remove has_cb l d; Ret (c ++ [d], l, true) else Ret (c ++ [d], l, true).
(** a callback that removes the element after the visited one: the cached next node is freed *)
Definition cb_remove (has_cb : bool) (y : Z) (c : unit) (l : lst) (d : Z) : outcome (unit * lst * bool) :=
  do (l, _) <- list_remove has_cb l y; Ret (tt, l, true).
