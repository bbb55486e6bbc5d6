(** Specification of the hash map: a finite map, as a list of (key, value) with pairwise different keys. *)
From Coq Require Export Permutation.
From Verif Require Import CBase HashmapModel.

Section Spec.
Variable eqf : Z -> Z -> bool.
Definition fmap := list (Z * Z).

Definition s_find (s : fmap) (k : Z) : option (Z * Z) := find (fun p => eqf (fst p) k) s.
Definition s_get (s : fmap) (k : Z) : Z := match s_find s k with Some p => snd p | None => 0 end.
Definition s_put (s : fmap) (k v : Z) : fmap :=
  match s_find s k with
  | Some _ => map (fun p => if eqf (fst p) k then (fst p, v) else p) s
  | None => s ++ [(k, v)]
  end.
Definition s_remove (s : fmap) (k : Z) : fmap := filter (fun p => negb (eqf (fst p) k)) s.

(** one call: new map and return value. Only the allocation of a new entry matters, not the table's. *)
Definition s_step (s : fmap) (c : call) : fmap * Z :=
  match c_op c with
  | HPut k v => match s_find s k with
                | Some p => (s_put s k v, snd p)
                | None => (if c_ok c then s_put s k v else s, 0)
                end
  | HGet k => (s, s_get s k)
  | HRemove k => (s_remove s k, s_get s k)
  | HClear => ([], 0)
  | HSize => (s, zlen s)
  end.
Fixpoint s_run (s : fmap) (h : list call) : fmap * list Z :=
  match h with
  | [] => (s, [])
  | c :: h => let r := s_step s c in let r2 := s_run (fst r) h in (fst r2, snd r :: snd r2)
  end.

(** the keys and values whose ownership a call takes over *)
Definition took_keys (s : fmap) (c : call) : list Z :=
  match c_op c with
  | HPut k v => match s_find s k with Some _ => [] | None => if c_ok c then [k] else [] end
  | _ => []
  end.
Definition took_vals (s : fmap) (c : call) : list Z :=
  match c_op c with
  | HPut k v => match s_find s k with Some _ => [v] | None => if c_ok c then [v] else [] end
  | _ => []
  end.
Fixpoint all_took (f : fmap -> call -> list Z) (s : fmap) (h : list call) : list Z :=
  match h with [] => [] | c :: h => f s c ++ all_took f (fst (s_step s c)) h end.
End Spec.

(** the caller's functions: an equivalence, and equal keys have equal hashes *)
Definition compatible (hf : Z -> Z) (eqf : Z -> Z -> bool) : Prop :=
  (forall a, eqf a a = true) /\ (forall a b, eqf a b = eqf b a) /\
  (forall a b c, eqf a b = true -> eqf b c = true -> eqf a c = true) /\
  (forall a b, eqf a b = true -> hf a = hf b).
(** tables of more than 2^60 buckets cannot be allocated *)
Definition sane_table (okx : Z -> bool) : Prop := forall n, okx n = true -> n <= 1152921504606846976.

Definition freed_keys (evs : list event) : list Z := flat_map (fun e => match e with EvFreeKey k => [k] | _ => [] end) evs.
Definition freed_vals (evs : list event) : list Z := flat_map (fun e => match e with EvFreeVal v => [v] | _ => [] end) evs.
Definition nonnull (l : list Z) : list Z := filter (fun x => negb (x =? 0)) l.

(** every free callback happens between an acquire and the next release, and locks are never nested *)
Fixpoint lock_ok (held : bool) (evs : list event) : bool :=
  match evs with
  | [] => negb held
  | EvAcquire :: r => negb held && lock_ok true r
  | EvRelease :: r => held && lock_ok false r
  | _ :: r => held && lock_ok held r
  end.
