(** Specification of the string builder: the text is the concatenation of the pieces whose append succeeded. *)
From Verif Require Import CBase CStr StringBuilderModel.

(** memory blocks of at most 2^63-1 bytes exist (PTRDIFF_MAX, as malloc guarantees) *)
Definition sane (al : allocator) : Prop := forall k b, al k = Some b -> zlen b = k /\ k < 9223372036854775808.

(** what the caller owes *)
Definition sb_valid (o : sb_op) : Prop :=
  match o with
  | SbStr s => zlen s < 9223372036854775808 /\ exists t r, s = t ++ 0 :: r /\ text t
  | SbNStr s n => zlen s < 9223372036854775808 /\ 1 <= n <= zlen s
  | SbFmt t => zlen t < two31
  | _ => True
  end.
(** the bytes a call appends *)
Inductive piece_of : sb_op -> list Z -> Prop :=
| pc_char : forall c, piece_of (SbChar c) [c]
| pc_str : forall t r, text t -> piece_of (SbStr (t ++ 0 :: r)) t
| pc_nstr : forall s n, piece_of (SbNStr s n) (ztake n s)
| pc_fmt : forall t, piece_of (SbFmt t) t.

(** one call that returned [code], from text [t] to text [t'] *)
Inductive sb_spec_step : list Z -> sb_op -> Z -> list Z -> Prop :=
| ss_clear : forall t, sb_spec_step t SbClear 0 []
| ss_ok : forall t o p, piece_of o p -> p <> [] -> sb_spec_step t o 0 (t ++ p)
| ss_fail : forall t o code, o <> SbClear -> code < 0 -> sb_spec_step t o code t.

Inductive sb_spec_run : list Z -> list (allocator * sb_op) -> list (Z * (Z * list Z)) -> Prop :=
| sr_nil : forall t, sb_spec_run t [] []
| sr_cons : forall t al o h code t' obs, sb_spec_step t o code t' -> sb_spec_run t' h obs ->
    sb_spec_run t ((al, o) :: h) ((code, (zlen t', t' ++ [0])) :: obs).

(** an allocator that serves every request up to [n] bytes *)
Definition serves (al : allocator) (n : Z) : Prop := forall k, 0 < k <= n -> al k <> None.
(** [sb] is a builder after some history of valid calls, and its text is now [t] *)
Definition sb_reached (sb : sbuilder) (t : list Z) : Prop :=
  exists al1 al2 init h sb0, sane al1 /\ sane al2 /\ 0 <= init /\ Forall (fun x => sane (fst x) /\ sb_valid (snd x)) h /\
    sb_create al1 al2 init = Ret (Some sb0) /\ sb_exec sb0 h = Ret sb /\ sb_observe sb = Ret (zlen t, t ++ [0]).
