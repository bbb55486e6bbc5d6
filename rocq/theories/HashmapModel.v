(** Model of src/data/hashmap.c. Keys and values are pointers, modelled as numbers with 0 = NULL. Simplified:
    the singly linked chain of entries hanging off a bucket is a list of entries (the Entry** walk of put and
    remove becomes a structural walk); allocation is an oracle: [ok] for malloc of an entry, [okx n] for calloc of a
    table of n buckets. Calls of the caller's functions are recorded as events. *)
From Verif Require Import CBase.

(** src/data/hashmap.c:36-43 *)
Record entry := mk_e { e_key : Z; e_hash : Z; e_val : Z }.
(** src/data/hashmap.c:44-54: the table and the size; the function pointers are the parameters below *)
Record hmap := mk_hm { hm_buckets : list (list entry); hm_size : Z }.
Inductive event := EvAcquire | EvRelease | EvFreeKey (k : Z) | EvFreeVal (v : Z).

Section Model.
(** fn_hash, fn_key_equality; whether fn_key_free / fn_value_free / the lock functions are given *)
Variables (hf : Z -> Z) (eqf : Z -> Z -> bool) (kfree vfree locked : bool).

(** hashmap_enter / hashmap_leave, lines 56-61 *)
Definition enter : list event := if locked then [EvAcquire] else [].
Definition leave : list event := if locked then [EvRelease] else [].

(** hashKey, lines 110-120. The int arithmetic is taken as wrapping (s32); ISO C leaves the overflow
    undefined *)
Definition hash_mix (h : Z) : Z :=
  let h := s32 (h + Z.lnot (s32 (h * 512))) in
  let h := s32 (Z.lxor (u32 h) (Z.shiftr (u32 h) 14)) in
  let h := s32 (h + s32 (h * 16)) in
  s32 (Z.lxor (u32 h) (Z.shiftr (u32 h) 10)).
Definition hash_key (k : Z) : Z := hash_mix (hf k).
(** calculateIndex, lines 122-125 *)
Definition index (bc hash : Z) : Z := Z.land (u64 hash) (bc - 1).

(** the while loop at lines 84-89 *)
Fixpoint grow_count (fuel : nat) (bc minimum : Z) : outcome Z :=
  if bc <=? minimum then
    match fuel with O => NoFuel | S fuel => grow_count fuel (u64 (bc * 2)) minimum end
  else Ret bc.
(** hashmap_create, lines 63-102 *)
Definition hm_create (ok : bool) (okx : Z -> bool) (cap : Z) : outcome (option hmap) :=
  if negb ok then Ret None
  else
    do bc <- grow_count 64 1 (u64 (cap * 4) / 3);
    if okx bc then Ret (Some (mk_hm (repeat [] (Z.to_nat bc)) 0)) else Ret None.

(** equalKeys, lines 233-245 *)
Definition equal_keys (e : entry) (k h : Z) : bool :=
  (e_key e =? k) || ((e_hash e =? h) && eqf (e_key e) k).

(** replacing one bucket *)
Definition set_bucket (bs : list (list entry)) (i : Z) (b : list entry) : outcome (list (list entry)) := mstore bs i b.

(** expandIfNecessary, lines 127-160: lines 146-154, one entry moved to the head of its new bucket *)
Definition rehash_one (nbc : Z) (nbs : outcome (list (list entry))) (e : entry) : outcome (list (list entry)) :=
  do nbs <- nbs;
  let i := index nbc (e_hash e) in
  do b <- mload nbs i; set_bucket nbs i (e :: b).
Definition hm_expand (okx : Z -> bool) (m : hmap) : outcome hmap :=
  let bc := zlen (hm_buckets m) in
  if hm_size m <=? bc * 3 / 4 then Ret m
  else
    let nbc := u64 (bc * 2) in
    if okx nbc then
      do nbs <- fold_left (rehash_one nbc) (concat (hm_buckets m)) (Ret (repeat [] (Z.to_nat nbc)));
      Ret (mk_hm nbs (hm_size m))
    else Ret m.

(** the loop of hashmap_put, lines 263-292, along one chain: new chain and what happened *)
Inductive put_result := PutNew | PutNoMem | PutOld (old : Z).
Fixpoint chain_put (ok : bool) (k h v : Z) (c : list entry) : list entry * put_result :=
  match c with
  | [] => if ok then ([mk_e k h v], PutNew) else ([], PutNoMem)
  | e :: r =>
    if equal_keys e k h then (mk_e (e_key e) (e_hash e) v :: r, PutOld (e_val e))
    else let p := chain_put ok k h v r in (e :: fst p, snd p)
  end.
(** hashmap_put, lines 252-295 *)
Definition free_val (v : Z) : list event := if negb (v =? 0) && vfree then [EvFreeVal v] else [].
Definition free_key (k : Z) : list event := if negb (k =? 0) && kfree then [EvFreeKey k] else [].
Definition hm_put (ok : bool) (okx : Z -> bool) (m : hmap) (k v : Z) : outcome (hmap * Z * list event) :=
  let h := hash_key k in
  let i := index (zlen (hm_buckets m)) h in
  do c <- mload (hm_buckets m) i;
  let p := chain_put ok k h v c in
  do bs <- set_bucket (hm_buckets m) i (fst p);
  match snd p with
  | PutNew => do m <- hm_expand okx (mk_hm bs (u64 (hm_size m + 1))); Ret (m, 0, enter ++ leave)
  | PutNoMem => Ret (mk_hm bs (hm_size m), 0, enter ++ leave)
  | PutOld old => Ret (mk_hm bs (hm_size m), old, enter ++ free_val old ++ leave)
  end.

(** hashmap_get, lines 297-319 *)
Fixpoint chain_get (k h : Z) (c : list entry) : Z :=
  match c with
  | [] => 0
  | e :: r => if equal_keys e k h then e_val e else chain_get k h r
  end.
Definition hm_get (m : hmap) (k : Z) : outcome (Z * list event) :=
  let h := hash_key k in
  do c <- mload (hm_buckets m) (index (zlen (hm_buckets m)) h);
  Ret (chain_get k h c, enter ++ leave).

(** hashmap_remove, lines 321-356: chain without the first match, and the match *)
Fixpoint chain_remove (k h : Z) (c : list entry) : list entry * option entry :=
  match c with
  | [] => ([], None)
  | e :: r => if equal_keys e k h then (r, Some e) else let p := chain_remove k h r in (e :: fst p, snd p)
  end.
Definition hm_remove (m : hmap) (k : Z) : outcome (hmap * Z * list event) :=
  let h := hash_key k in
  let i := index (zlen (hm_buckets m)) h in
  do c <- mload (hm_buckets m) i;
  let p := chain_remove k h c in
  do bs <- set_bucket (hm_buckets m) i (fst p);
  match snd p with
  | None => Ret (mk_hm bs (hm_size m), 0, enter ++ leave)
  | Some e => Ret (mk_hm bs (u64 (hm_size m - 1)), e_val e,
                   enter ++ free_key (e_key e) ++ free_val (e_val e) ++ leave)
  end.

(** hashmap_clear_unsafe, lines 162-185, and hashmap_clear, 358-367 *)
Definition drop_entry (e : entry) : list event := free_key (e_key e) ++ free_val (e_val e).
Definition hm_clear_unsafe (m : hmap) : hmap * list event :=
  let es := concat (hm_buckets m) in
  (mk_hm (map (fun _ => []) (hm_buckets m)) (u64 (hm_size m - zlen es)), flat_map drop_entry es).
Definition hm_clear (m : hmap) : hmap * list event :=
  let p := hm_clear_unsafe m in (fst p, enter ++ snd p ++ leave).
(** hashmap_free, lines 187-200: the events; the map is gone afterwards *)
Definition hm_free (m : hmap) : list event := enter ++ snd (hm_clear_unsafe m) ++ leave.

(** hashmap_foreach, lines 369-390: the entries on which the callback is called. The `break` at line 384
    leaves the inner while loop only. *)
Fixpoint chain_visit (cb : Z -> Z -> bool) (c : list entry) : list (Z * Z) :=
  match c with
  | [] => []
  | e :: r => (e_key e, e_val e) :: (if cb (e_key e) (e_val e) then chain_visit cb r else [])
  end.
Definition hm_foreach (cb : Z -> Z -> bool) (m : hmap) : list (Z * Z) := flat_map (chain_visit cb) (hm_buckets m).

(** histories; every call with the outcome of the allocations it may make *)
Inductive hm_op := HPut (k v : Z) | HGet (k : Z) | HRemove (k : Z) | HClear | HSize.
Record call := mk_call { c_ok : bool; c_okx : Z -> bool; c_op : hm_op }.
(** result: return value (0 for void) *)
Definition hm_step (m : hmap) (c : call) : outcome (hmap * Z * list event) :=
  match c_op c with
  | HPut k v => hm_put (c_ok c) (c_okx c) m k v
  | HGet k => do (v, ev) <- hm_get m k; Ret (m, v, ev)
  | HRemove k => hm_remove m k
  | HClear => let p := hm_clear m in Ret (fst p, 0, snd p)
  | HSize => Ret (m, hm_size m, [])
  end.
Fixpoint hm_run (m : hmap) (h : list call) : outcome (hmap * list Z * list event) :=
  match h with
  | [] => Ret (m, [], [])
  | c :: h => do (m, r, ev) <- hm_step m c; do (m, rs, evs) <- hm_run m h; Ret (m, r :: rs, ev ++ evs)
  end.
End Model.
Arguments hash_key hf k : simpl never.
