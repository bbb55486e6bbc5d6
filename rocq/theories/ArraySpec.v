(** Specification of the array: the sequence of the elements whose append returned true. *)
From Verif Require Import CBase StringBuilderModel StringBuilderSpec ArrayModel.

(** a 32-bit value in memory: the least significant of its four base-256 digits first *)
Fixpoint digits256 (n : nat) (v : Z) : list Z := match n with O => [] | S n => v mod 256 :: digits256 n (v / 256) end.
(** the bytes an append of element size es stores *)
Definition element (es : Z) (o : ar_op) : list Z :=
  match o with ArPtr s => ztake es s | ArVal v => ztake es (digits256 4 v) end.
(** what the caller owes: the source has at least es bytes *)
Definition ar_valid (es : Z) (o : ar_op) : Prop :=
  match o with ArPtr s => es <= zlen s | ArVal _ => es <= 4 end.
Fixpoint accepted (es : Z) (h : list (allocator * ar_op)) (oks : list bool) : list (list Z) :=
  match h, oks with
  | (_, o) :: h, ok :: oks => (if ok then [element es o] else []) ++ accepted es h oks
  | _, _ => []
  end.
(** what a caller can see of an array: its length and each element *)
Definition shows (a : array) (els : list (list Z)) : Prop :=
  array_length a = zlen els /\
  forall i e, znth i els = Some e -> array_read a i = Ret e.
