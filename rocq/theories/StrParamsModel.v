(** Model of src/mem/str_params.c on top of the hash map model. A pointer to a heap string (never modified
    while stored) is represented by a number coding its content, NULL by 0; so keys and values of the map are
    [code]s. Arguments `const char*` are given by their content (bytes 1..255). [sp_bad]: memory that the
    map still refers to has been freed; any later use of the map is Ub. Not modelled: logging. *)
From Verif Require Import CBase CStr StringsModel HashmapModel HashFnModel.

Definition code (s : list Z) : Z := fold_left (fun a c => a * 256 + c) s 1.
Fixpoint decode_fuel (fuel : nat) (n : Z) : list Z :=
  match fuel with
  | O => []
  | S fuel => if n <=? 1 then [] else decode_fuel fuel (n / 256) ++ [n mod 256]
  end.
Definition decode (n : Z) : list Z := decode_fuel (S (Z.to_nat (Z.log2 n))) n.

Fixpoint list_eqb (a b : list Z) : bool :=
  match a, b with
  | [], [] => true
  | x :: a, y :: b => (x =? y) && list_eqb a b
  | _, _ => false
  end.
(** str_eq, src/mem/str_params.c:36-39 (strcmp == 0) *)
Definition str_eq (a b : Z) : bool := list_eqb (decode a) (decode b).
(** str_hash_fn, lines 45-53: uint32_t arithmetic, signed chars, converted to int *)
Definition str_hash_fn (k : Z) : Z := s32 (fold_left (fun h c => u32 (h * 33 + schar c)) (decode k) 5381).

(** lines 30-34 *)
Record sp := mk_sp { sp_map : hmap; sp_delim : list Z; sp_bad : bool }.

(** str_params_create, lines 55-67; delimiter: None = NULL, or the block pointed to *)
Definition sp_create (ok1 ok2 : bool) (okx : Z -> bool) (delim : option (list Z)) : outcome (option sp) :=
  if negb ok1 then Ret None
  else
    do m <- hm_create ok2 okx 16;
    match m with
    | None => Ret None
    | Some m =>
      do (d, _) <- strlcpy [0; 0] (match delim with Some d => d | None => [59; 0] end) 2;
      do d <- cstr_at d 0;
      Ret (Some (mk_sp m d false))
    end.

(** outcome of the allocations of one add: the key copy, the value copy, the entry, tables *)
Record sp_alloc := mk_sa { sa_key : bool; sa_val : bool; sa_entry : bool; sa_table : Z -> bool }.

(** hashmap_put with this map's functions (free, free, no lock) *)
Definition sp_put (ok : bool) (okx : Z -> bool) (m : hmap) (k v : Z) : outcome (hmap * Z) :=
  do (m, old, _) <- hm_put str_hash_fn str_eq true false ok okx m k v; Ret (m, old).
(** malloc and calloc set errno to ENOMEM when they fail: the entry's malloc, or the calloc of
    expandIfNecessary (src/data/hashmap.c:130-141), which is attempted when the new entry exceeds the load *)
Definition table_refused (okx : Z -> bool) (m : hmap) : bool :=
  negb (u64 (hm_size m + 1) <=? zlen (hm_buckets m) * 3 / 4) && negb (okx (u64 (zlen (hm_buckets m) * 2))).

(** str_params_add_str, lines 153-206; result -errno *)
Definition sp_add_str (a : sp_alloc) (p : sp) (key value : list Z) : outcome (sp * Z) :=
  if sp_bad p then Ub
  else if negb (sa_key a) then Ret (p, -12)
  else if negb (sa_val a) then Ret (p, -12)
  else
    do (m, old) <- sp_put (sa_entry a) (sa_table a) (sp_map p) (code key) (code value);
    if old =? 0 then
      if negb (sa_entry a) then Ret (mk_sp m (sp_delim p) false, -12)            (* lines 194-202: both copies freed *)
      else if table_refused (sa_table a) (sp_map p) then
        Ret (mk_sp m (sp_delim p) true, -12)                                     (* freed although stored *)
      else Ret (mk_sp m (sp_delim p) false, 0)
    else Ret (mk_sp m (sp_delim p) false, 0).

(** printf %ld *)
Definition dec_long (v : Z) : list Z := if v <? 0 then 45 :: decimal (- v) else decimal v.
(** str_params_add_long, lines 208-219, and add_int, 221-224 *)
Definition sp_add_long (a : sp_alloc) (p : sp) (key : list Z) (v : Z) : outcome (sp * Z) :=
  do (buf, _) <- snprintf_at (repeat 0 24) 0 24 (dec_long v);
  do s <- cstr_at buf 0; sp_add_str a p key s.
(** str_params_add_double, lines 226-237; [fmt] is the text of %.10f *)
Definition sp_add_double (a : sp_alloc) (p : sp) (key fmt : list Z) : outcome (sp * Z) :=
  do (buf, _) <- snprintf_at (repeat 0 32) 0 32 fmt;
  do s <- cstr_at buf 0; sp_add_str a p key s.

(** str_params_del, lines 69-72 *)
Definition sp_del (p : sp) (key : list Z) : outcome sp :=
  if sp_bad p then Ub
  else do (m, _, _) <- hm_remove str_hash_fn str_eq true true false (sp_map p) (code key); Ret (mk_sp m (sp_delim p) false).

(** hashmap_get *)
Definition sp_get (p : sp) (key : list Z) : outcome Z :=
  if sp_bad p then Ub else do (v, _) <- hm_get str_hash_fn str_eq false (sp_map p) (code key); Ret v.
(** str_params_has_key, lines 244-247 *)
Definition sp_has_key (p : sp) (key : list Z) : outcome bool := do v <- sp_get p key; Ret (negb (v =? 0)).
(** str_params_get_str, lines 249-262; out is the block out_val (out_val_size bytes). -ENOMEM = -12, -ENOENT = -2 *)
Definition sp_get_str (p : sp) (key out : list Z) : outcome (list Z * Z) :=
  do v <- sp_get p key;
  if negb (v =? 0) then
    let value := decode v ++ [0] in
    do n <- strlen_at value 0;
    if n + 1 >? zlen out then Ret (out, -12)
    else do (out, _) <- strlcpy out value (zlen out); Ret (out, 0)
  else Ret (out, -2).

(** strtol(s, &end, 0) of ISO C on the text s (64-bit long): value and the offset of end *)
Definition is_space (c : Z) : bool := (c =? 32) || ((9 <=? c) && (c <=? 13)).
Definition digit_val (c : Z) : Z :=
  if (48 <=? c) && (c <=? 57) then c - 48
  else if (97 <=? c) && (c <=? 122) then c - 87
  else if (65 <=? c) && (c <=? 90) then c - 55 else 99.
Fixpoint strtol_digits (base acc : Z) (s : list Z) : Z * Z :=
  match s with
  | c :: r => if digit_val c <? base then let p := strtol_digits base (acc * base + digit_val c) r in (fst p, 1 + snd p) else (acc, 0)
  | [] => (acc, 0)
  end.
Fixpoint count_space (s : list Z) : Z := match s with c :: r => if is_space c then 1 + count_space r else 0 | [] => 0 end.
Definition clamp_long (v : Z) : Z := Z.max (-9223372036854775808) (Z.min 9223372036854775807 v).
Definition strtol0 (s : list Z) : Z * Z :=
  let w := count_space s in
  let s1 := zdrop w s in
  let neg := match s1 with c :: _ => c =? 45 | [] => false end in
  let sgn := match s1 with c :: _ => if (c =? 45) || (c =? 43) then 1 else 0 | [] => 0 end in
  let s2 := zdrop sgn s1 in
  let hex := match s2 with a :: b :: c :: _ => (a =? 48) && ((b =? 120) || (b =? 88)) && (digit_val c <? 16) | _ => false end in
  let base := if hex then 16 else match s2 with a :: _ => if a =? 48 then 8 else 10 | [] => 10 end in
  let pre := if hex then 2 else 0 in
  let p := strtol_digits base 0 (zdrop pre s2) in
  if snd p =? 0 then (0, 0)
  else (clamp_long (if neg then - fst p else fst p), w + sgn + pre + snd p).

(** str_params_get_long, lines 264-279: code and, when 0, the value stored in *out_val; -EINVAL = -22 *)
Definition sp_get_long (p : sp) (key : list Z) : outcome (Z * option Z) :=
  do v <- sp_get p key;
  if v =? 0 then Ret (-2, None)
  else
    let value := decode v in
    let r := strtol0 value in
    if (zlen value =? 0) || negb (snd r =? zlen value) then Ret (-22, None) else Ret (0, Some (fst r)).
(** str_params_get_int, lines 281-290: implicit conversion to int *)
Definition sp_get_int (p : sp) (key : list Z) : outcome (Z * option Z) :=
  do (c, v) <- sp_get_long p key; Ret (c, option_map s32 v).

(** hashmap_foreach with a callback that changes its context (src/data/hashmap.c:369-390); `break` leaves one chain *)
Fixpoint visit_st {C} (cb : C -> Z -> Z -> C * bool) (c : C) (chain : list entry) : C :=
  match chain with
  | [] => c
  | e :: r => let q := cb c (e_key e) (e_val e) in if snd q then visit_st cb (fst q) r else fst q
  end.
Definition foreach_st {C} (cb : C -> Z -> Z -> C * bool) (c : C) (m : hmap) : C := fold_left (visit_st cb) (hm_buckets m) c.
(** combine_strings, lines 327-352. Context: the string so far, and the outcomes of the coming allocations
    (an exhausted list: success) *)
Definition combine_strings (delim : list Z) (c : option (list Z) * list bool) (k v : Z) : (option (list Z) * list bool) * bool :=
  let ok := match snd c with o :: _ => o | [] => true end in
  if ok then
    ((Some ((match fst c with Some s => s ++ delim | None => [] end) ++ decode k ++ 61 :: decode v), tl (snd c)), true)
  else ((None, tl (snd c)), false).
(** str_params_to_str, lines 354-363; okdup: the final strdup("") *)
Definition sp_to_str (oks : list bool) (okdup : bool) (p : sp) : outcome (option (list Z)) :=
  if sp_bad p then Ub
  else match fst (foreach_st (combine_strings (sp_delim p)) (None, oks) (sp_map p)) with
       | Some s => Ret (Some s)
       | None => if okdup then Ret (Some []) else Ret None
       end.

(** str_params_destroy, lines 74-83 *)
Definition sp_destroy (p : sp) : outcome unit := if sp_bad p then Ub else Ret tt.

(** str_params_create_str, lines 85-151: one pair of the loop body, lines 106-132; result: the params and
    how many key copies are not owned by anyone any more. The strdup calls here are taken to succeed (their
    results are not checked by the code). *)
Definition sp_put_pair (okx : Z -> bool) (p : sp) (kv : list Z) : outcome (sp * Z) :=
  let n := span_out [61] kv in
  if n =? zlen kv then
    do (m, old) <- sp_put true okx (sp_map p) (code kv) (code []);
    Ret (mk_sp m (sp_delim p) false, if old =? 0 then 0 else 1)
  else if n =? 0 then Ret (p, 0)
  else
    do (m, old) <- sp_put true okx (sp_map p) (code (ztake n kv)) (code (zdrop (n + 1) kv));
    Ret (mk_sp m (sp_delim p) false, if old =? 0 then 0 else 1).
(** lines 104-140 *)
Fixpoint sp_parse_loop (fuel : nat) (okx : Z -> bool) (buf : list Z) (ctx : Z) (tok : option Z) (p : sp) (leaked : Z) : outcome (sp * Z) :=
  match tok with
  | None => Ret (p, leaked)
  | Some t =>
    do kv <- cstr_at buf t;
    if zlen kv =? 0 then Ret (p, leaked)
    else match fuel with
    | O => NoFuel
    | S fuel =>
      do (p, l) <- sp_put_pair okx p kv;
      do (buf, tok, ctx) <- strtok_r buf (sp_delim p) ctx;
      sp_parse_loop fuel okx buf ctx tok p (leaked + l)
    end
  end.
Definition sp_create_str (ok1 ok2 okstr : bool) (okx : Z -> bool) (delim : option (list Z)) (str : list Z) : outcome (option (sp * Z)) :=
  do p <- sp_create ok1 ok2 okx delim;
  match p with
  | None => Ret None
  | Some p =>
    if negb okstr then do _ <- sp_destroy p; Ret None
    else
      do s <- cstr_at str 0;
      let buf := s ++ [0] in
      do (buf, tok, ctx) <- strtok_r buf (sp_delim p) 0;
      do r <- sp_parse_loop (S (length buf)) okx buf ctx tok p 0;
      Ret (Some r)
  end.

(** histories *)
Inductive sp_op :=
| SAdd (a : sp_alloc) (k v : list Z)
| SAddLong (a : sp_alloc) (k : list Z) (n : Z)
| SDel (k : list Z)
| SHas (k : list Z)
| SGet (k out : list Z)
| SGetLong (k : list Z)
| SGetInt (k : list Z).
Inductive sp_res := RCode (c : Z) | RBool (b : bool) | RStr (c : Z) (out : list Z) | RNum (c : Z) (v : option Z).
Definition sp_step (p : sp) (o : sp_op) : outcome (sp * sp_res) :=
  match o with
  | SAdd a k v => do (p, c) <- sp_add_str a p k v; Ret (p, RCode c)
  | SAddLong a k n => do (p, c) <- sp_add_long a p k n; Ret (p, RCode c)
  | SDel k => do p <- sp_del p k; Ret (p, RCode 0)
  | SHas k => do b <- sp_has_key p k; Ret (p, RBool b)
  | SGet k out => do (b, c) <- sp_get_str p k out; Ret (p, RStr c b)
  | SGetLong k => do (c, v) <- sp_get_long p k; Ret (p, RNum c v)
  | SGetInt k => do (c, v) <- sp_get_int p k; Ret (p, RNum c v)
  end.
Fixpoint sp_run (p : sp) (h : list sp_op) : outcome (sp * list sp_res) :=
  match h with
  | [] => Ret (p, [])
  | o :: h => do (p, r) <- sp_step p o; do (p, rs) <- sp_run p h; Ret (p, r :: rs)
  end.
