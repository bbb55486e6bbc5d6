(** Model of src/data/list.c. The heap maps node addresses to (next, data); 0 is NULL; access to an address
    that is not allocated is Ub. An allocator is a function from the heap to the address it returns, if
    any. [has_cb]: list->free_cb is not NULL; its calls are logged in [l_freed]. The list_t itself (allocated by
    list_new) is the record. *)
From Verif Require Import CBase.

Definition heap := Z -> option (Z * Z).
Definition hset (h : heap) (a : Z) (v : option (Z * Z)) : heap := fun x => if x =? a then v else h x.
Definition hload (h : heap) (a : Z) : outcome (Z * Z) := match h a with Some n => Ret n | None => Ub end.
Definition nalloc := heap -> option Z.

(** src/data/list.c:9-22 *)
Record lst := mk_l { l_head : Z; l_tail : Z; l_len : Z; l_heap : heap; l_freed : list Z }.

(** list_new / list_new_internal, lines 28-43: a zeroed list_t *)
Definition list_new (h : heap) : lst := mk_l 0 0 0 h [].

Section M.
Variable has_cb : bool.

(** list_is_empty, lines 55-58 *)
Definition list_is_empty (l : lst) : bool := l_len l =? 0.
(** list_length, lines 76-79 *)
Definition list_length (l : lst) : Z := l_len l.
(** list_front, lines 81-88 *)
Definition list_front (l : lst) : outcome Z :=
  if list_is_empty l then Ret 0 else do n <- hload (l_heap l) (l_head l); Ret (snd n).
(** list_back, lines 90-97 *)
Definition list_back (l : lst) : outcome Z :=
  if list_is_empty l then Ret 0 else do n <- hload (l_heap l) (l_tail l); Ret (snd n).
(** list_back_node, lines 99-106 *)
Definition list_back_node (l : lst) : Z := if list_is_empty l then 0 else l_tail l.
(** list_begin / list_end / list_next / list_node, lines 244-278 *)
Definition list_begin (l : lst) : Z := l_head l.
Definition list_end (l : lst) : Z := 0.
Definition list_next (l : lst) (node : Z) : outcome Z :=
  if node =? 0 then Ret 0 else do n <- hload (l_heap l) node; Ret (fst n).
Definition list_node (l : lst) (node : Z) : outcome Z :=
  if node =? 0 then Ret 0 else do n <- hload (l_heap l) node; Ret (snd n).

(** list_contains, lines 60-74 *)
Fixpoint contains_loop (fuel : nat) (l : lst) (node data : Z) : outcome bool :=
  if node =? list_end l then Ret false
  else match fuel with
       | O => NoFuel
       | S fuel =>
         do d <- list_node l node;
         if d =? data then Ret true
         else do nx <- list_next l node; contains_loop fuel l nx data
       end.
Definition list_contains (l : lst) (data : Z) : outcome bool :=
  if data =? 0 then Ret false else contains_loop (S (Z.to_nat (l_len l))) l (list_begin l) data.

(** list_insert_after, lines 108-128 *)
Definition list_insert_after (al : nalloc) (l : lst) (prev data : Z) : outcome (lst * bool) :=
  if (prev =? 0) || (data =? 0) then Ret (l, false)
  else match al (l_heap l) with
  | None => Ret (l, false)
  | Some node =>
    let h := hset (l_heap l) node (Some (0, 0)) in
    do p <- hload h prev;
    let h := hset h node (Some (fst p, data)) in
    do p <- hload h prev;
    let h := hset h prev (Some (node, snd p)) in
    let tail := if l_tail l =? prev then node else l_tail l in
    Ret (mk_l (l_head l) tail (u64 (l_len l + 1)) h (l_freed l), true)
  end.

(** list_prepend, lines 130-150 *)
Definition list_prepend (al : nalloc) (l : lst) (data : Z) : outcome (lst * bool) :=
  if data =? 0 then Ret (l, false)
  else match al (l_heap l) with
  | None => Ret (l, false)
  | Some node =>
    let h := hset (l_heap l) node (Some (l_head l, data)) in
    let tail := if l_tail l =? 0 then node else l_tail l in
    Ret (mk_l node tail (u64 (l_len l + 1)) h (l_freed l), true)
  end.

(** list_append, lines 152-177 *)
Definition list_append (al : nalloc) (l : lst) (data : Z) : outcome (lst * bool) :=
  if data =? 0 then Ret (l, false)
  else match al (l_heap l) with
  | None => Ret (l, false)
  | Some node =>
    let h := hset (l_heap l) node (Some (0, data)) in
    if l_tail l =? 0 then Ret (mk_l node node (u64 (l_len l + 1)) h (l_freed l), true)
    else
      do t <- hload h (l_tail l);
      let h := hset h (l_tail l) (Some (node, snd t)) in
      Ret (mk_l (l_head l) node (u64 (l_len l + 1)) h (l_freed l), true)
  end.

(** list_free_node_, lines 280-294: the next node *)
Definition list_free_node (l : lst) (node : Z) : outcome (lst * Z) :=
  if node =? 0 then Ret (l, 0)
  else
    do n <- hload (l_heap l) node;
    let freed := if has_cb then l_freed l ++ [snd n] else l_freed l in
    Ret (mk_l (l_head l) (l_tail l) (u64 (l_len l - 1)) (hset (l_heap l) node None) freed, fst n).

(** list_remove, lines 179-209; line 188 compares the address of the freed head, as a value *)
Fixpoint remove_loop (fuel : nat) (l : lst) (prev node data : Z) : outcome (lst * bool) :=
  if node =? 0 then Ret (l, false)
  else match fuel with
  | O => NoFuel
  | S fuel =>
    do n <- hload (l_heap l) node;
    if snd n =? data then
      do (l, nx) <- list_free_node l node;
      do p <- hload (l_heap l) prev;
      let h := hset (l_heap l) prev (Some (nx, snd p)) in
      let tail := if l_tail l =? node then prev else l_tail l in
      Ret (mk_l (l_head l) tail (l_len l) h (l_freed l), true)
    else remove_loop fuel l node (fst n) data
  end.
Definition list_remove (l : lst) (data : Z) : outcome (lst * bool) :=
  if (data =? 0) || list_is_empty l then Ret (l, false)
  else
    do hd <- hload (l_heap l) (l_head l);
    if snd hd =? data then
      do (l, nx) <- list_free_node l (l_head l);
      let tail := if l_tail l =? l_head l then nx else l_tail l in
      Ret (mk_l nx tail (l_len l) (l_heap l) (l_freed l), true)
    else remove_loop (S (Z.to_nat (l_len l))) l (l_head l) (fst hd) data.

(** list_clear, lines 211-224 *)
Fixpoint clear_loop (fuel : nat) (l : lst) (node : Z) : outcome lst :=
  if node =? 0 then Ret l
  else match fuel with
  | O => NoFuel
  | S fuel => do (l, nx) <- list_free_node l node; clear_loop fuel l nx
  end.
Definition list_clear (l : lst) : outcome lst :=
  do l <- clear_loop (S (Z.to_nat (l_len l))) l (l_head l);
  Ret (mk_l 0 0 0 (l_heap l) (l_freed l)).
(** list_free, lines 45-53: list_clear and the release of the list_t (not in this heap) *)
Definition list_free (l : lst) : outcome lst := list_clear l.

(** list_foreach, lines 226-242. The callback gets the data and may change the list and its context *)
Fixpoint foreach_loop {C} (cb : C -> lst -> Z -> outcome (C * lst * bool)) (fuel : nat) (c : C) (l : lst) (node : Z) : outcome (C * lst * Z) :=
  if node =? 0 then Ret (c, l, 0)
  else match fuel with
  | O => NoFuel
  | S fuel =>
    do n <- hload (l_heap l) node;
    do (c, l, go) <- cb c l (snd n);
    if negb go then Ret (c, l, node) else foreach_loop cb fuel c l (fst n)
  end.
Definition list_foreach {C} (cb : C -> lst -> Z -> outcome (C * lst * bool)) (fuel : nat) (c : C) (l : lst) : outcome (C * lst * Z) :=
  foreach_loop cb fuel c l (l_head l).

(** a caller walking the list with list_begin / list_next / list_node *)
Fixpoint walk (fuel : nat) (l : lst) (node : Z) : outcome (list Z) :=
  if node =? list_end l then Ret []
  else match fuel with
  | O => NoFuel
  | S fuel => do d <- list_node l node; do nx <- list_next l node; do r <- walk fuel l nx; Ret (d :: r)
  end.
(** the i-th iterator *)
Fixpoint nth_node (i : nat) (l : lst) (node : Z) : outcome Z :=
  match i with O => Ret node | S i => do nx <- list_next l node; nth_node i l nx end.

(** histories: every call with the allocator it uses *)
Inductive l_op := LAppend (d : Z) | LPrepend (d : Z) | LInsertAfter (i : nat) (d : Z) | LInsertBack (d : Z)
  | LRemove (d : Z) | LContains (d : Z) | LClear.
Definition l_step (al : nalloc) (l : lst) (o : l_op) : outcome (lst * bool) :=
  match o with
  | LAppend d => list_append al l d
  | LPrepend d => list_prepend al l d
  | LInsertAfter i d => do p <- nth_node i l (list_begin l); list_insert_after al l p d
  | LInsertBack d => list_insert_after al l (list_back_node l) d
  | LRemove d => list_remove l d
  | LContains d => do b <- list_contains l d; Ret (l, b)
  | LClear => do l <- list_clear l; Ret (l, true)
  end.
(** what the caller sees after a call: result, length, emptiness, front, back, the iteration *)
Record l_obs := mk_obs { o_ret : bool; o_len : Z; o_empty : bool; o_front : Z; o_back : Z; o_items : list Z }.
Definition l_observe (l : lst) (r : bool) : outcome l_obs :=
  do f <- list_front l; do b <- list_back l; do w <- walk (S (Z.to_nat (l_len l))) l (list_begin l);
  Ret (mk_obs r (list_length l) (list_is_empty l) f b w).
Fixpoint l_run (l : lst) (hist : list (nalloc * l_op)) : outcome (lst * list l_obs) :=
  match hist with
  | [] => Ret (l, [])
  | (al, o) :: hist =>
    do (l, r) <- l_step al l o; do ob <- l_observe l r; do (l, obs) <- l_run l hist; Ret (l, ob :: obs)
  end.
End M.
