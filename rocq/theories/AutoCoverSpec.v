(** Specification of the autocover buffer: the stream of everything written so far plus the position
    of the oldest byte still kept. Positions are absolute (the caller passes them mod 2^32). *)
From Verif Require Import CBase AutoCoverModel.
Section Spec.
Context {A : Type}.
Record stream := mk_stream { st_all : list A;  (* every byte ever written, oldest first *)
                             st_lo : Z }.      (* position of the oldest byte still kept *)

(** writing keeps the newest [cap] bytes; reading at a kept position p returns the bytes p..p+n-1 and
    drops everything before p+n; -4: not yet all written; -3: no longer kept *)
Definition ac_spec_step (cap : Z) (s : stream) (o : acop A) : stream * acobs A :=
  let total := zlen (st_all s) in
  match o with
  | AWrite src n => (mk_stream (st_all s ++ ztake n src) (Z.max (st_lo s) (total + n - cap)), (n, None))
  | ARead p t n =>
      if p <? st_lo s then (s, (-3, Some t))
      else if n <=? total - p
      then (mk_stream (st_all s) (p + n), (n, Some (zsub p n (st_all s) ++ zdrop n t)))
      else (s, (-4, Some t))
  | AAvail p => (s, (if p <? st_lo s then -3 else total - p, None))
  end.

(** caller obligations; positions asked for lie among the last cap-1 positions written *)
Definition ac_valid_op (cap : Z) (s : stream) (o : acop A) : Prop :=
  let total := zlen (st_all s) in
  match o with
  | AWrite src n => 0 <= n <= cap /\ n <= zlen src
  | ARead p t n => total - cap < p < total /\ 0 <= p /\ 0 <= n < 2147483648 /\ n <= zlen t
  | AAvail p => total - cap < p < total /\ 0 <= p
  end.

Fixpoint ac_spec_run (cap : Z) (s : stream) (ops : list (acop A)) : stream * list (acobs A) :=
  match ops with
  | [] => (s, [])
  | o :: rest => let r := ac_spec_step cap s o in
                 let r2 := ac_spec_run cap (fst r) rest in (fst r2, snd r :: snd r2)
  end.
Fixpoint ac_valid_run (cap : Z) (s : stream) (ops : list (acop A)) : Prop :=
  match ops with
  | [] => True
  | o :: rest => ac_valid_op cap s o /\ ac_valid_run cap (fst (ac_spec_step cap s o)) rest
  end.

(** *** What the code does for EVERY position.
    Only the position modulo the capacity matters: [ac_alias] is the one of the last [cap] positions
    (total-cap .. total-1) that is congruent to the position asked for. *)
Definition ac_alias (cap total p : Z) : Z := total - 1 - (total - 1 - p) mod cap.
(** The number of bytes from the aliased position to the newest one when that position is still kept,
    otherwise -3 (covered); except that the position congruent to the write position is answered
    with 0 instead when the kept data wraps around the end of the block. *)
Definition ac_answer (cap : Z) (s : stream) (p : Z) : Z :=
  let total := zlen (st_all s) in
  let q := ac_alias cap total p in
  if st_lo s <=? q then total - q
  else if (q =? total - cap) && (total mod cap <? st_lo s mod cap) then 0 else -3.
Definition ac_exact_step (cap : Z) (s : stream) (o : acop A) : stream * acobs A :=
  let total := zlen (st_all s) in
  match o with
  | AWrite src n => (mk_stream (st_all s ++ ztake n src) (Z.max (st_lo s) (total + n - cap)), (n, None))
  | ARead p t n =>
      let a := ac_answer cap s p in
      if a <? 0 then (s, (-3, Some t))
      else if n <=? a
      then (mk_stream (st_all s) (total - a + n), (n, Some (zsub (total - a) n (st_all s) ++ zdrop n t)))
      else (s, (-4, Some t))
  | AAvail p => (s, (ac_answer cap s p, None))
  end.
(** caller obligations: writes not larger than the buffer, blocks as long as announced *)
Definition ac_ok_op (cap : Z) (o : acop A) : Prop :=
  match o with
  | AWrite src n => 0 <= n <= cap /\ n <= zlen src
  | ARead p t n => 0 <= n < 2147483648 /\ n <= zlen t
  | AAvail p => True
  end.
Fixpoint ac_exact_run (cap : Z) (s : stream) (ops : list (acop A)) : stream * list (acobs A) :=
  match ops with
  | [] => (s, [])
  | o :: rest => let r := ac_exact_step cap s o in
                 let r2 := ac_exact_run cap (fst r) rest in (fst r2, snd r :: snd r2)
  end.
End Spec.
Arguments stream : clear implicits.
