(** Model of the memory of an ini_parser (src/file/ini_parser.c) and of the lists it is made of (src/data/list.c), in the heap of
    LifeModel.v, with failing allocations. What the texts are is in IniModel.v; here a name is a number: equal numbers for names
    strcasecmp takes for equal, and [cut s] for the name left when s is copied into its 64 bytes.
    Structures: list_t (list.c:15-22) is head, tail, length (free_cb is allocator_my_free throughout); a node (9-13) next, data;
    section_info_t (ini_parser.c:24-28) section_name, plist_section; key_value_t (30-34) key, value; the object (49-57)
    plist_sections, p_last_used_section. Simplified: prediction_str_size is left out (IniModel.v). *)
From Verif Require Import CBase LifeModel.

(** calloc of a structure *)
Definition zeroed (c : list val) : M val := ok <-- tick ;; if ok then fresh true c else ret V0.
Definition num (v : val) : M Z := match v with VI z => ret z | _ => ubm end.
(** list_new, list.c:28-43 *)
Definition list_new : M val := zeroed [V0; V0; VI 0].
(** list_append, list.c:152-177 *)
Definition list_append (l d : val) : M bool :=
  n <-- zeroed [V0; V0] ;; z <-- isnull n ;; if z then ret false
  else store n 0 V0 ;;; store n 1 d ;;;
    t <-- load l 1 ;; z <-- isnull t ;;
    (if z then store l 0 n ;;; store l 1 n else store t 0 n ;;; store l 1 n) ;;;
    k <-- load l 2 ;; k <-- num k ;; store l 2 (VI (k + 1)) ;;; ret true.
(** list_free_node_, list.c:280-296 *)
Definition free_node (l n : val) : M val :=
  next <-- load n 0 ;; d <-- load n 1 ;; free_ d ;;; free_ n ;;;
  k <-- load l 2 ;; k <-- num k ;; store l 2 (VI (k - 1)) ;;; ret next.
(** list_clear, list.c:211-224; at most fuel nodes *)
Fixpoint clear_loop (fuel : nat) (l n : val) : M unit :=
  match fuel with
  | O => fun _ => NoFuel
  | S f => z <-- isnull n ;; if z then ret tt else next <-- free_node l n ;; clear_loop f l next
  end.
(** list_free, list.c:45-53, of a list *)
Definition list_free (fuel : nat) (l : val) : M unit :=
  n <-- load l 0 ;; clear_loop fuel l n ;;; store l 0 V0 ;;; store l 1 V0 ;;; store l 2 (VI 0) ;;; free_ l.
Definition same (a b : val) : bool :=
  match a, b with VP x o, VP y q => Nat.eqb x y && Nat.eqb o q | V0, V0 => true | _, _ => false end.
(** list_remove, list.c:179-209 *)
Fixpoint remove_loop (fuel : nat) (l prev n d : val) : M bool :=
  match fuel with
  | O => fun _ => NoFuel
  | S f =>
    z <-- isnull n ;; if z then ret false
    else x <-- load n 1 ;; if negb (same x d) then next <-- load n 0 ;; remove_loop f l n next d
         else next <-- free_node l n ;; store prev 0 next ;;;
              t <-- load l 1 ;; (if same t n then store l 1 prev else ret tt) ;;; ret true
  end.
Definition list_remove (fuel : nat) (l d : val) : M bool :=
  k <-- load l 2 ;; k <-- num k ;; if k =? 0 then ret false
  else h <-- load l 0 ;; x <-- load h 1 ;;
    if same x d then next <-- free_node l h ;; t <-- load l 1 ;; (if same t h then store l 1 next else ret tt) ;;; store l 0 next ;;; ret true
    else next <-- load h 0 ;; remove_loop fuel l h next d.
(** list_foreach with iter_for_search_target_section or iter_for_search_key_value, list.c:226-242, ini_parser.c:246-251, 293-298:
    the data of the first node whose name is the one looked for *)
Fixpoint find_loop (fuel : nat) (n : val) (name : Z) : M val :=
  match fuel with
  | O => fun _ => NoFuel
  | S f =>
    z <-- isnull n ;; if z then ret V0
    else next <-- load n 0 ;; d <-- load n 1 ;; x <-- load d 0 ;; x <-- num x ;; if x =? name then ret d else find_loop f next name
  end.

Section Ini.
Variable cut : Z -> Z.
(** search_target_section, ini_parser.c:253-289, of a name that is not empty *)
Definition search (fuel : nat) (p : val) (auto : bool) (s : Z) : M val :=
  u <-- load p 1 ;; z <-- isnull u ;;
  hit <-- (if z then ret false else x <-- load u 0 ;; x <-- num x ;; ret (x =? s)) ;;
  if hit then ret u
  else ls <-- load p 0 ;; k <-- load ls 2 ;; k <-- num k ;;
    if negb auto && (k =? 0) then ret V0
    else n <-- load ls 0 ;; t <-- find_loop fuel n s ;; z <-- isnull t ;;
      if negb (auto && z) then ret t
      else t <-- zeroed [VI 0; V0] ;; z <-- isnull t ;; if z then ret V0
        else l <-- list_new ;; store t 1 l ;;; z <-- isnull l ;; if z then free_ t ;;; ret V0
          else store t 0 (VI (cut s)) ;;;
            ok <-- list_append ls t ;; if negb ok then free_ t ;;; ret V0
            else store p 1 t ;;; ret t.
(** iter_section_for_search_target_kv, ini_parser.c:300-305 *)
Definition search_kv (fuel : nat) (l : val) (k : Z) : M val :=
  n <-- load l 2 ;; n <-- num n ;; if n =? 0 then ret V0 else h <-- load l 0 ;; find_loop fuel h k.
(** ini_parser_put_string, ini_parser.c:307-347, of names that are not empty; codes of ini_parser.h:11-22: 0 done, 1 failed, 3 no memory, 4 not found *)
Definition put (fuel : nat) (p : val) (s k v : Z) : M Z :=
  t <-- search fuel p true s ;; z <-- isnull t ;; if z then ret 3
  else l <-- load t 1 ;; kv <-- search_kv fuel l k ;; z <-- isnull kv ;;
    if negb z then store kv 1 (VI v) ;;; ret 0
    else kv <-- zeroed [VI 0; VI 0] ;; z <-- isnull kv ;; if z then ret 3
      else store kv 0 (VI (cut k)) ;;; store kv 1 (VI v) ;;;
        ok <-- list_append l kv ;; if ok then ret 0 else free_ kv ;;; ret 1.
(** ini_parser_get_string, ini_parser.c:349-390: the value found *)
Definition get (fuel : nat) (p : val) (s k : Z) : M (option Z) :=
  t <-- search fuel p false s ;; z <-- isnull t ;; if z then ret None
  else l <-- load t 1 ;; kv <-- search_kv fuel l k ;; z <-- isnull kv ;; if z then ret None else x <-- load kv 1 ;; x <-- num x ;; ret (Some x).
(** ini_parser_delete_by_section_key, ini_parser.c:393-411 *)
Definition delete_key (fuel : nat) (p : val) (s k : Z) : M Z :=
  t <-- search fuel p false s ;; z <-- isnull t ;; if z then ret 4
  else l <-- load t 1 ;; kv <-- search_kv fuel l k ;; z <-- isnull kv ;; if z then ret 4
    else l <-- load t 1 ;; ok <-- list_remove fuel l kv ;; ret (if ok then 0 else 1).
(** ini_parser_delete_section, ini_parser.c:414-427 *)
Definition delete_section (fuel : nat) (p : val) (s : Z) : M Z :=
  t <-- search fuel p false s ;; z <-- isnull t ;; if z then ret 4
  else l <-- load t 1 ;; list_free fuel l ;;; ls <-- load p 0 ;; ok <-- list_remove fuel ls t ;; ret (if ok then 0 else 1).
(** ini_parser_create, ini_parser.c:124-149 *)
Definition create : M val :=
  ls <-- list_new ;; z <-- isnull ls ;; if z then ret V0
  else p <-- zeroed [V0; V0] ;; z <-- isnull p ;; if z then list_free 1 ls ;;; ret V0 else store p 0 ls ;;; ret p.
(** ini_parser_destroy, ini_parser.c:609-637 *)
Fixpoint destroy_loop (fuel1 fuel : nat) (n : val) : M unit :=
  match fuel1 with
  | O => fun _ => NoFuel
  | S f => z <-- isnull n ;; if z then ret tt
           else next <-- load n 0 ;; d <-- load n 1 ;; l <-- load d 1 ;; list_free fuel l ;;; destroy_loop f fuel next
  end.
Definition destroy (fuel : nat) (p : val) : M unit :=
  ls <-- load p 0 ;; n <-- load ls 0 ;; destroy_loop fuel fuel n ;;; list_free fuel ls ;;; store p 0 V0 ;;; free_ p.

Inductive op := Put (s k v : Z) | Get (s k : Z) | DeleteKey (s k : Z) | DeleteSection (s : Z).
Inductive res := RCode (z : Z) | RVal (v : option Z).
Definition step (fuel : nat) (p : val) (o : op) : M res :=
  match o with
  | Put s k v => r <-- put fuel p s k v ;; ret (RCode r)
  | Get s k => r <-- get fuel p s k ;; ret (RVal r)
  | DeleteKey s k => r <-- delete_key fuel p s k ;; ret (RCode r)
  | DeleteSection s => r <-- delete_section fuel p s ;; ret (RCode r)
  end.
Fixpoint run (fuel : nat) (p : val) (l : list op) : M (list res) :=
  match l with [] => ret [] | o :: l => r <-- step fuel p o ;; rs <-- run fuel p l ;; ret (r :: rs) end.
End Ini.
