(** Model of src/file/ini_parser.c. An object is a list of sections, each with an identity (the address of its
    section_info_t), a name and its key/value pairs; the lists are those of src/data/list.c, whose behaviour is
    C16-C18, and appear here as Coq lists. Character arrays are written by the strlcpy model and kept as the C
    string they hold. C string arguments are given by their content, None for NULL. Not modelled: float and
    double values, the debug printf; ini_parser_parse_file and save are in IniFileModel.v. *)
From Verif Require Import CBase CStr StringsModel StringBuilderModel StrParamsModel IniReaderModel.

(** ini_parser_code_e, inc/file/ini_parser.h:11-22 *)
Definition SUCCEED : Z := 0.
Definition FAILED : Z := 1.
Definition INVALID_PARAM : Z := 2.
Definition NO_ENOUGH_MEMORY : Z := 3.
Definition NOT_FOUND : Z := 4.
(** src/file/ini_parser.c:11-12 *)
Definition INI_VALUE_STACK_SIZE : Z := 256.
Definition SECTION_NAME_MAX_SIZE : Z := 64.

(** section_info_t, key_value_t, struct _ini_parser: src/file/ini_parser.c:24-57. [nid]: next fresh address *)
Record section := mk_sec { sid : Z; sname : list Z; kvs : list (list Z * list Z) }.
Record ini := mk_ini { secs : list section; last : option Z; pred : Z; nid : Z }.

(** tolower in the C locale; strcasecmp(a, b) == 0 *)
Definition lower (c : Z) : Z := if (65 <=? c) && (c <=? 90) then c + 32 else c.
Definition strcase_eq (a b : list Z) : bool := list_eqb (map lower a) (map lower b).

(** strlcpy(array of [size] bytes, t, size), and the string the array then holds *)
Definition strlcpy_arr (size : Z) (t : list Z) : outcome (list Z) :=
  do (b, _) <- strlcpy (repeat 0 (Z.to_nat size)) (t ++ [0]) size; cstr_at b 0.

(** which allocations succeed: the section, its list, its list node, the key/value, its list node *)
Record oks := mk_oks { ok_sec : bool; ok_list : bool; ok_snode : bool; ok_kv : bool; ok_knode : bool }.
Definition all_ok : oks := mk_oks true true true true true.

(** list_foreach with iter_for_search_target_section, lines 246-251, 263-265 *)
Fixpoint find_sec (name : list Z) (l : list section) : option section :=
  match l with [] => None | s :: l => if strcase_eq name (sname s) then Some s else find_sec name l end.
(** the section at an address *)
Fixpoint sec_at (id : Z) (l : list section) : option section :=
  match l with [] => None | s :: l => if sid s =? id then Some s else sec_at id l end.

(** search_target_section, src/file/ini_parser.c:253-289; a section that was freed may not be looked at *)
Definition search_target_section (ok : oks) (p : ini) (auto_create : bool) (name : list Z) : outcome (option Z * ini) :=
  if zlen name =? 0 then Ret (None, p)                                        (* 256 *)
  else
    do hit <- match last p with                                               (* 257-261 *)
              | None => Ret None
              | Some id => match sec_at id (secs p) with
                           | None => Ub
                           | Some s => Ret (if strcase_eq name (sname s) then Some id else None)
                           end
              end;
    match hit with
    | Some id => Ret (Some id, p)
    | None =>
      if negb auto_create && (zlen (secs p) =? 0) then Ret (None, p)          (* 262 *)
      else match find_sec name (secs p) with                                  (* 263-265 *)
      | Some s => Ret (Some (sid s), p)
      | None =>
        if negb auto_create then Ret (None, p)
        else if negb (ok_sec ok) then Ret (None, p)                           (* 268-272 *)
        else if negb (ok_list ok) then Ret (None, p)                          (* 273-278 *)
        else
          do n <- strlcpy_arr SECTION_NAME_MAX_SIZE name;                     (* 279 *)
          if negb (ok_snode ok) then Ret (None, p)                            (* 280-284 *)
          else
            let id := nid p in
            Ret (Some id, mk_ini (secs p ++ [mk_sec id n []]) (Some id) (u64 (pred p + (zlen name + 6))) (nid p + 1))   (* 285-286 *)
      end
    end.

(** iter_section_for_search_target_kv, src/file/ini_parser.c:293-305 *)
Fixpoint find_kv (key : list Z) (l : list (list Z * list Z)) : option (list Z) :=
  match l with [] => None | (k, v) :: l => if strcase_eq key k then Some v else find_kv key l end.
(** writing the value of the pair found / list_remove of the pair found *)
Fixpoint set_kv (key v : list Z) (l : list (list Z * list Z)) : list (list Z * list Z) :=
  match l with [] => [] | (k, v0) :: l => if strcase_eq key k then (k, v) :: l else (k, v0) :: set_kv key v l end.
Fixpoint del_kv (key : list Z) (l : list (list Z * list Z)) : list (list Z * list Z) :=
  match l with [] => [] | (k, v0) :: l => if strcase_eq key k then l else (k, v0) :: del_kv key l end.
(** change the section at an address *)
Definition upd_sec (id : Z) (f : list (list Z * list Z) -> list (list Z * list Z)) (p : ini) : ini :=
  mk_ini (map (fun s => if sid s =? id then mk_sec (sid s) (sname s) (f (kvs s)) else s) (secs p)) (last p) (pred p) (nid p).
Definition kvs_at (id : Z) (p : ini) : outcome (list (list Z * list Z)) :=
  match sec_at id (secs p) with Some s => Ret (kvs s) | None => Ub end.

(** ini_parser_put_string, src/file/ini_parser.c:307-347; strlen(section) of NULL is undefined *)
Definition ini_put (ok : oks) (p : ini) (section key value : option (list Z)) : outcome (Z * ini) :=
  match key with
  | None => Ret (INVALID_PARAM, p)                                            (* 310-313 *)
  | Some key =>
    if zlen key =? 0 then Ret (INVALID_PARAM, p)
    else match section with
    | None => Ub                                                              (* 314 *)
    | Some section =>
      if zlen section <? 1 then Ret (INVALID_PARAM, p)                        (* 316-319 *)
      else
        do (t, p) <- search_target_section ok p true section;                 (* 320 *)
        match t with
        | None => Ret (NO_ENOUGH_MEMORY, p)                                   (* 321-324 *)
        | Some id =>
          do l <- kvs_at id p;
          do v <- strlcpy_arr INI_VALUE_STACK_SIZE (match value with Some v => v | None => [] end);   (* 336 *)
          match find_kv key l with                                            (* 325 *)
          | Some _ => Ret (SUCCEED, upd_sec id (set_kv key v) p)              (* 337 *)
          | None =>
            if negb (ok_kv ok) then Ret (NO_ENOUGH_MEMORY, p)                 (* 329-333 *)
            else
              do k <- strlcpy_arr SECTION_NAME_MAX_SIZE key;                  (* 334 *)
              if ok_knode ok then Ret (SUCCEED, upd_sec id (fun l => l ++ [(k, v)]) p)   (* 338-341 *)
              else Ret (FAILED, p)                                            (* 342-346 *)
          end
        end
    end
  end.

(** ini_parser_get_string, src/file/ini_parser.c:349-390; [value]: the caller's block or NULL *)
Definition ini_get (p : ini) (section key : option (list Z)) (value : option (list Z)) (value_size : Z) : outcome (Z * option (list Z)) :=
  match section with
  | None => Ret (INVALID_PARAM, value)                                        (* 352-355 *)
  | Some section =>
    if zlen section =? 0 then Ret (INVALID_PARAM, value)                      (* 356-360 *)
    else
      do (t, _) <- search_target_section all_ok p false section;              (* 362 *)
      match t with
      | None => Ret (NOT_FOUND, value)                                        (* 363-366 *)
      | Some id =>
        match key, value with
        | None, None => if value_size =? 0 then Ret (SUCCEED, value) else Ret (INVALID_PARAM, value)   (* 367-374 *)
        | None, Some _ => Ret (INVALID_PARAM, value)
        | Some key, _ =>
          if zlen key =? 0 then Ret (INVALID_PARAM, value)                    (* 371-374 *)
          else
            do l <- kvs_at id p;
            match find_kv key l with                                          (* 375 *)
            | None => Ret (NOT_FOUND, value)                                  (* 376-379 *)
            | Some v =>
              match value with
              | None => Ret (SUCCEED, value)
              | Some blk =>
                if value_size =? 0 then Ret (SUCCEED, value)                  (* 380 *)
                else if value_size <=? zlen v then Ret (NO_ENOUGH_MEMORY, value)   (* 382-386 *)
                else do blk <- mwrite blk 0 (v ++ [0]); Ret (SUCCEED, Some blk)    (* 387 *)
              end
            end
        end
      end
  end.
(** ini_parser_has_section_key, ini_parser_has_section, src/file/ini_parser.c:569-577 *)
Definition ini_has_key (p : ini) (section key : option (list Z)) : outcome Z := do (c, _) <- ini_get p section key None 0; Ret c.
Definition ini_has_section (p : ini) (section : option (list Z)) : outcome Z := ini_has_key p section None.

(** ini_parser_delete_by_section_key, src/file/ini_parser.c:393-411 *)
Definition ini_del_key (p : ini) (section key : option (list Z)) : outcome (Z * ini) :=
  match section, key with
  | Some section, Some key =>
    do (t, _) <- search_target_section all_ok p false section;
    match t with
    | None => Ret (NOT_FOUND, p)
    | Some id =>
      do l <- kvs_at id p;
      match find_kv key l with
      | None => Ret (NOT_FOUND, p)
      | Some _ => Ret (SUCCEED, upd_sec id (del_kv key) p)
      end
    end
  | _, _ => Ret (INVALID_PARAM, p)
  end.
(** ini_parser_delete_section, src/file/ini_parser.c:414-427: the cached address is not cleared *)
Definition ini_del_section (p : ini) (section : option (list Z)) : outcome (Z * ini) :=
  match section with
  | None => Ret (INVALID_PARAM, p)
  | Some section =>
    do (t, _) <- search_target_section all_ok p false section;
    match t with
    | None => Ret (NOT_FOUND, p)
    | Some id => Ret (SUCCEED, mk_ini (filter (fun s => negb (sid s =? id)) (secs p)) (last p) (pred p) (nid p))
    end
  end.

(** ini_parser_create, src/file/ini_parser.c:146-149 *)
Definition ini_new : ini := mk_ini [] None 0 1.
(** ini_handler_cb, src/file/ini_parser.c:83-96 *)
Definition ini_handler_cb (ok : oks) : ini_handler ini := fun p section key value =>
  do (c, p) <- ini_put ok p (Some section) (Some key) value; Ret (c =? SUCCEED, p).
(** ini_parser_parse_str, src/file/ini_parser.c:124-144; [ok1], [ok2]: list_new and calloc succeed *)
Definition ini_parse_str (ok1 ok2 : bool) (ok : oks) (junk : list Z) (content : option (list Z)) : outcome (option ini) :=
  if negb ok1 then Ret None
  else if negb ok2 then Ret None
  else match content with
  | None => Ret (Some ini_new)
  | Some t => do (e, p) <- ini_reader_parse_string (ini_handler_cb ok) junk t ini_new;
              if negb (e =? 0) then Ret None else Ret (Some p)
  end.

(** ini_parser_foreach, src/file/ini_parser.c:198-242; the handler has its own state, non-zero ends the list_foreach
    of the current section *)
Fixpoint foreach_kvs {C} (cb : C -> list Z -> list Z -> list Z -> Z * C) (c : C) (sec : list Z) (l : list (list Z * list Z)) : C :=
  match l with
  | [] => c
  | (k, v) :: l => if zlen k =? 0 then foreach_kvs cb c sec l
                   else let '(r, c) := cb c sec k v in if r =? 0 then foreach_kvs cb c sec l else c
  end.
Definition ini_foreach {C} (cb : C -> list Z -> list Z -> list Z -> Z * C) (c : C) (p : ini) : C :=
  fold_left (fun c s => if zlen (sname s) =? 0 then c else foreach_kvs cb c (sname s) (kvs s)) (secs p) c.

(** iter_key_value_for_dump, src/file/ini_parser.c:429-447, over one section. [al n]: the allocator of the n-th append *)
Fixpoint dump_kvs (al : Z -> allocator) (sb : sbuilder) (n : Z) (l : list (list Z * list Z)) : outcome (sbuilder * Z * Z) :=
  match l with
  | [] => Ret (sb, n, 0)
  | (k, v) :: l =>
    do (sb, r) <- sb_appendf (al n) sb (Some (k ++ [32; 61; 32] ++ v ++ [13; 10]));
    if negb (r =? 0) then Ret (sb, n + 1, r) else dump_kvs al sb (n + 1) l
  end.
(** iter_section_for_dump, lines 449-465: the results of the header and of the blank line are ignored *)
Fixpoint dump_secs (al : Z -> allocator) (sb : sbuilder) (n : Z) (l : list section) : outcome (sbuilder * Z) :=
  match l with
  | [] => Ret (sb, 0)
  | s :: l =>
    do (sb, _) <- sb_appendf (al n) sb (Some ([91] ++ sname s ++ [93; 13; 10]));
    do (sb, n, ret) <- dump_kvs al sb (n + 1) (kvs s);
    do (sb, _) <- sb_appendstr (al n) sb [13; 10; 0];
    if negb (ret =? 0) then Ret (sb, ret) else dump_secs al sb (n + 1) l
  end.
(** pri_dump_ini, lines 467-487 *)
Definition pri_dump_ini (al1 al2 : allocator) (al : Z -> allocator) (p : ini) : outcome (option sbuilder) :=
  do sb <- sb_create al1 al2 (u64 (pred p + 64));
  match sb with
  | None => Ret None
  | Some sb => do (sb, ret) <- dump_secs al sb 0 (secs p); if negb (ret =? 0) then Ret None else Ret (Some sb)
  end.
(** ini_parser_dump, lines 526-540; [ok]: strdup succeeds. The result is the string *)
Definition ini_dump (al1 al2 : allocator) (al : Z -> allocator) (ok : bool) (p : ini) : outcome (option (list Z)) :=
  do sb <- pri_dump_ini al1 al2 al p;
  match sb with
  | None => Ret None
  | Some sb => do t <- cstr_at (sb_buf sb) 0; Ret (if ok then Some t else None)
  end.
(** ini_parser_dump_to_mem, lines 489-524; result: code, block, size written back *)
Definition ini_dump_to_mem (al1 al2 : allocator) (al : Z -> allocator) (p : ini) (mem : list Z) (mem_size : Z)
    : outcome (Z * list Z * Z) :=
  if mem_size <? u64 (pred p + 64) then Ret (NO_ENOUGH_MEMORY, mem, mem_size)
  else
    do sb <- pri_dump_ini al1 al2 al p;
    match sb with
    | None => Ret (FAILED, mem, mem_size)
    | Some sb =>
      do t <- cstr_at (sb_buf sb) 0;
      if zlen t =? 0 then Ret (FAILED, mem, mem_size)
      else if mem_size <? zlen t + 1 then Ret (NO_ENOUGH_MEMORY, mem, mem_size)
      else do mem <- mwrite mem 0 (t ++ [0]); Ret (SUCCEED, mem, zlen t + 1)
    end.

(** ini_parser_get_value, src/file/ini_parser.c:647-726, for the integer types: [conv] is the final conversion; the
    value is written even on failure of the number (None: not written) *)
Definition ini_get_number (conv : Z -> Z) (p : ini) (section key : option (list Z)) : outcome (Z * option Z) :=
  do (ret, blk) <- ini_get p section key (Some (repeat 0 256)) INI_VALUE_STACK_SIZE;
  if negb (ret =? SUCCEED) then Ret (ret, None)
  else match blk with
  | None => Ub
  | Some blk =>
    do t <- cstr_at blk 0;
    if zlen t =? 0 then Ret (FAILED, None)
    else let r := strtol0 t in
         Ret (if snd r =? zlen t then SUCCEED else FAILED, Some (conv (fst r)))      (* 639-645 *)
  end.
Definition ini_get_int := ini_get_number s32.
Definition ini_get_long := ini_get_number (fun x => x).
(** strncasecmp(s, w, n) == 0 for a word w of n characters: s starts with w but for case *)
Definition starts_nocase (w s : list Z) : bool := starts_with (map lower w) (map lower s).
(** ini_parser_get_bool: lines 669-701 *)
Definition ini_get_bool (p : ini) (section key : option (list Z)) : outcome (Z * option bool) :=
  do (ret, blk) <- ini_get p section key (Some (repeat 0 256)) INI_VALUE_STACK_SIZE;
  if negb (ret =? SUCCEED) then Ret (ret, None)
  else match blk with
  | None => Ub
  | Some blk =>
    do t <- cstr_at blk 0;
    if zlen t =? 0 then Ret (FAILED, None)
    else if starts_nocase [116;114;117;101] t then Ret (SUCCEED, Some true)
    else if starts_nocase [102;97;108;115;101] t then Ret (SUCCEED, Some false)
    else if starts_nocase [121;101;115] t then Ret (SUCCEED, Some true)
    else if starts_nocase [110;111] t then Ret (SUCCEED, Some false)
    else let r := strtol0 t in
         if snd r =? zlen t then Ret (SUCCEED, Some (negb (s32 (fst r) =? 0))) else Ret (FAILED, Some false)
  end.
