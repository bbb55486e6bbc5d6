(** The two objects with a user-given lock, step by step (see LockModel.v): one step for each access to the shared object that the code makes
    through one call or one statement. *)
From Verif Require Import CBase RingBuffer2Model AutoCoverModel HashmapModel LockModel.

Notation "'step' x <- m ; k" := (bbind m (fun x => k)) (at level 200, x pattern, m at level 100, k at level 200, right associativity).
(** a failed ASSERT_ABORT *)
Definition abort_ {S A} : body S A := Step (fun _ => Abrt).
Definition get {S A} (f : S -> A) : body S A := act (fun s => Ret (s, f s)).

(** ** auto_cover_buf *)
Section Ac.
Context {A : Type}.
Notation B := (body (acb A)).
Definition upd_ring (b : acb A) (h : rb A) : acb A := mk_acb h (ac_size b).
(** autocover_buffer.c:64-100 from the values read at lines 65-68 *)
Definition can_read (size avail rpos wpos pos : Z) : Z :=
  let mask := u32 (size - 1) in
  let c := Z.land pos mask in
  let r := Z.land rpos mask in
  let w := Z.land wpos mask in
  if u32 (w - r) =? avail then
    if (c >=? r) && (c <? w) then s32 (u32 (avail - u32 (c - r))) else AC_COVERED
  else
    if (c >? w) && (c <? r) then AC_COVERED
    else if c >=? r then s32 (u32 (avail - u32 (c - r)))
    else s32 (u32 (w - c)).
Definition discard (n : Z) : B unit := act (fun b => do r <- rb_discard (ac_ring b) n; Ret (upd_ring b (fst (fst r)), tt)).
(** auto_cover_buf_internal_read, autocover_buffer.c:57-117, inside the lock *)
Definition internal_read_code (pos : Z) (target : option (list A)) (req : Z) : B (Z * option (list A)) :=
  step size <- get (@ac_size A);
  step avail <- get (fun b => rb_avail_read (ac_ring b));
  step rpos <- get (fun b => rb_read_position (ac_ring b));
  step wpos <- get (fun b => rb_write_position (ac_ring b));
  let can := can_read size avail rpos wpos pos in
  if negb (can <=? s32 avail) then abort_
  else
    match target with
    | None => Done (can, None)
    | Some _ =>
      if can >=? s32 req then
        let should := u32 (avail - can) in
        step _ <- (if negb (should =? 0) then discard should else Done tt);
        step (t, n) <- act (fun b => do r <- rb_read (ac_ring b) target req; Ret (upd_ring b (fst (fst r)), (snd (fst r), snd r)));
        if n =? req then Done (can, t) else abort_
      else Done (can, target)
    end.
(** auto_cover_buf_available_read 119-123, auto_cover_buf_read 125-149, auto_cover_buf_write 151-168 *)
Definition ac_code (o : acop A) : B (acobs A) :=
  match o with
  | AAvail p => step r <- internal_read_code (u32 p) None 0; Done (fst r, None)
  | ARead p t req =>
      step r <- internal_read_code (u32 p) (Some t) req;
      let n := fst r in
      Done (if n <? 0 then n else if n <? s32 req then AC_NOT_ENOUGH else s32 req, snd r)
  | AWrite src len =>
      step avail <- get (fun b => rb_avail_write (ac_ring b));
      step _ <- (if len >? avail then discard (u32 (len - avail)) else Done tt);
      step n <- act (fun b => do r <- rb_write (ac_ring b) (Some src) len; Ret (upd_ring b (fst r), snd r));
      if n =? len then Done (s32 n, None) else abort_
  end.
End Ac.

(** ** hashmap *)
(** what a call gives: return value, callbacks called for freeing, entries visited *)
Record res := mk_res { r_val : Z; r_evs : list event; r_seen : list (Z * Z) }.
(** foreach with a callback that answers cb and itself uses the map for the entries given by uses *)
Inductive hcall := HOp (c : call) | HForeach (cb uses : Z -> Z -> bool).
Section Hm.
Variables (hf : Z -> Z) (eqf : Z -> Z -> bool) (kfree vfree : bool).
Notation B := (body hmap).
Definition load_chain (i : Z -> Z) : B (Z * list entry) :=
  act (fun m => let j := i (zlen (hm_buckets m)) in do c <- mload (hm_buckets m) j; Ret (m, (j, c))).
Definition store_chain (i : Z) (c : list entry) : B unit :=
  act (fun m => do bs <- set_bucket (hm_buckets m) i c; Ret (mk_hm bs (hm_size m), tt)).
Definition add_size (d : Z) : B unit := act (fun m => Ret (mk_hm (hm_buckets m) (u64 (hm_size m + d)), tt)).
(** hashmap_put, hashmap.c:258-293 *)
Definition put_code (ok : bool) (okx : Z -> bool) (k v : Z) : B res :=
  let h := hash_key hf k in
  step (i, c) <- load_chain (fun bc => index bc h);
  let p := chain_put eqf ok k h v c in
  step _ <- store_chain i (fst p);
  match snd p with
  | PutNew => step _ <- add_size 1; step _ <- act (fun m => do m' <- hm_expand okx m; Ret (m', tt)); Done (mk_res 0 [] [])
  | PutNoMem => Done (mk_res 0 [] [])
  | PutOld old => Done (mk_res old (free_val vfree old) [])
  end.
(** hashmap_get, hashmap.c:303-318 *)
Definition get_code (k : Z) : B res :=
  let h := hash_key hf k in
  step (i, c) <- load_chain (fun bc => index bc h);
  Done (mk_res (chain_get eqf k h c) [] []).
(** hashmap_remove, hashmap.c:327-355 *)
Definition remove_code (k : Z) : B res :=
  let h := hash_key hf k in
  step (i, c) <- load_chain (fun bc => index bc h);
  let p := chain_remove eqf k h c in
  step _ <- store_chain i (fst p);
  match snd p with
  | None => Done (mk_res 0 [] [])
  | Some e => step _ <- add_size (-1); Done (mk_res (e_val e) (free_key kfree (e_key e) ++ free_val vfree (e_val e)) [])
  end.
(** hashmap_clear_unsafe, hashmap.c:162-185: lines 168-182, one entry after the other *)
Fixpoint drop_chain (c : list entry) : B unit := match c with [] => Done tt | _ :: c => step _ <- add_size (-1); drop_chain c end.
(** k buckets from bucket i on *)
Fixpoint clear_from (k : nat) (i : Z) : B (list event) :=
  match k with
  | O => Done []
  | S k =>
      step (_, c) <- load_chain (fun _ => i);
      step _ <- drop_chain c;
      step _ <- store_chain i [];
      step evs <- clear_from k (i + 1);
      Done (flat_map (drop_entry kfree vfree) c ++ evs)
  end.
Definition clear_code : B res :=
  step n <- get (fun m => length (hm_buckets m));
  step evs <- clear_from n 0;
  Done (mk_res 0 evs []).
(** hashmap_foreach, hashmap.c:376-388: one chain. A callback that uses the map takes the lock a second time *)
Fixpoint visit_chain (cb uses : Z -> Z -> bool) (c : list entry) : B (list (Z * Z)) :=
  match c with
  | [] => Done []
  | e :: r =>
      let k := e_key e in
      let v := e_val e in
      let go := if cb k v then step l <- visit_chain cb uses r; Done ((k, v) :: l) else Done [(k, v)] in
      if uses k v then Enter go else go
  end.
Fixpoint foreach_from (cb uses : Z -> Z -> bool) (k : nat) (i : Z) : B (list (Z * Z)) :=
  match k with
  | O => Done []
  | S k =>
      step (_, c) <- load_chain (fun _ => i);
      step l <- visit_chain cb uses c;
      step l' <- foreach_from cb uses k (i + 1);
      Done (l ++ l')
  end.
Definition hm_code (c : hcall) : B res :=
  match c with
  | HOp c =>
      match c_op c with
      | HPut k v => put_code (c_ok c) (c_okx c) k v
      | HGet k => get_code k
      | HRemove k => remove_code k
      | HClear => clear_code
      | HSize => step n <- get hm_size; Done (mk_res n [] [])      (* hashmap.c:247-250: no lock *)
      end
  | HForeach cb uses =>
      step n <- get (fun m => length (hm_buckets m));
      step l <- foreach_from cb uses n 0;
      Done (mk_res 0 [] l)
  end.
(** which functions take the lock: all but hashmap_size; none if the map was created without one *)
Definition hm_locked (given : bool) (c : hcall) : bool := given && match c with HOp c => match c_op c with HSize => false | _ => true end | HForeach _ _ => true end.
End Hm.
