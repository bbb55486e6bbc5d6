(** Specification of the mplite pool from the caller's side. *)
From Verif Require Import CBase MpliteModel.

(** A block the caller owns: its pointer (offset in the pool), its size in the pool, and what the caller knows of
    the bytes it asked for (None: never written). *)
Record blk := mk_b { b_ptr : Z; b_size : Z; b_data : list (option Z) }.

(** the size reserved for a request: the next power of two, at least the atom *)
Definition fit (sz n : Z) : Z := Z.max sz (2 ^ Z.log2_up n).

Definition resized (d : list (option Z)) (n : Z) : list (option Z) := ztake n d ++ repeat None (Z.to_nat (n - zlen d)).
(** what the caller owns after a call that returned r *)
Definition c_step (sz : Z) (live : list blk) (o : mp_op) (r : option Z) : list blk :=
  match o, r with
  | OMalloc n, Some p => mk_b p (fit sz n) (repeat None (Z.to_nat n)) :: live
  | OCalloc n, Some p => mk_b p (fit sz n) (repeat (Some 0) (Z.to_nat n)) :: live
  | OFree p, _ => filter (fun b => negb (b_ptr b =? p)) live
  | ORealloc p n, Some q =>
    map (fun b => if b_ptr b =? p then mk_b q (if n <=? b_size b then b_size b else fit sz n) (resized (b_data b) n) else b) live
  | OWrite p off bs, _ =>
    map (fun b => if b_ptr b =? p then mk_b p (b_size b) (zwrite off (map Some bs) (b_data b)) else b) live
  | _, None => live
  end.
(** the caller frees, resizes and writes only blocks it owns, and writes only the bytes it asked for *)
Definition ok_op (live : list blk) (o : mp_op) : Prop :=
  match o with
  | OMalloc n | OCalloc n => - two31 <= n < two31
  | OFree p => exists b, In b live /\ b_ptr b = p
  | ORealloc p n => - two31 <= n < two31 /\ exists b, In b live /\ b_ptr b = p
  | OWrite p off bs => exists b, In b live /\ b_ptr b = p /\ 0 <= off /\ off + zlen bs <= zlen (b_data b)
  end.

(** every history of such calls on one pool *)
Inductive reach (h0 : mp) : mp -> list blk -> Prop :=
| reach_0 : reach h0 h0 []
| reach_S : forall h live o h' r, reach h0 h live -> ok_op live o -> mp_step h o = Ret (h', r) ->
    reach h0 h' (c_step (mp_sz h0) live o r).

Definition apart (b c : blk) : Prop := b_ptr b + b_size b <= b_ptr c \/ b_ptr c + b_size c <= b_ptr b.
(** a size-aligned place of s bytes in the pool of [total] bytes that meets no live block *)
Definition gap (total s : Z) (live : list blk) : Prop :=
  exists a, 0 <= a /\ a mod s = 0 /\ a + s <= total /\ forall b, In b live -> b_ptr b + b_size b <= a \/ a + s <= b_ptr b.
Definition total_live (live : list blk) : Z := fold_right (fun b a => b_size b + a) 0 live.
