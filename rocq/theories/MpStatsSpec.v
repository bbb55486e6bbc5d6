(** Specification of the statistics of a pool: what the history of calls was like. *)
From Verif Require Import CBase MpliteModel MpliteSpec.
(** blocks handed out so far; their bytes; the bytes of them nobody asked for; the most bytes and blocks in use at one time;
    the largest request *)
Record tally := mk_ta { t_n : Z; t_total : Z; t_waste : Z; t_peak : Z; t_peakcount : Z; t_request : Z }.
Definition t0 : tally := mk_ta 0 0 0 0 0 0.
(** a request the pool considers: positive and at most 2^30 *)
Definition asked (n : Z) (t : tally) : tally :=
  if (0 <? n) && (n <=? 1073741824) then mk_ta (t_n t) (t_total t) (t_waste t) (t_peak t) (t_peakcount t) (Z.max (t_request t) n) else t.
(** a block handed out for it while [live] was in use *)
Definition granted (sz n : Z) (live : list blk) (t : tally) : tally :=
  mk_ta (t_n t + 1) (t_total t + fit sz n) (t_waste t + (fit sz n - n)) (Z.max (t_peak t) (fit sz n + total_live live)) (Z.max (t_peakcount t) (1 + zlen live)) (t_request t).
(** does a realloc of the block at p need a new block? *)
Definition moves (live : list blk) (p n : Z) : bool := (0 <? n) && (Z.land n (n - 1) =? 0) && existsb (fun b => (b_ptr b =? p) && (b_size b <? n)) live.
Definition t_step (sz : Z) (live : list blk) (o : mp_op) (r : option Z) (t : tally) : tally :=
  match o with
  | OMalloc n | OCalloc n => match r with Some _ => granted sz n live (asked n t) | None => asked n t end
  | ORealloc p n => if moves live p n then match r with Some _ => granted sz n live (asked n t) | None => asked n t end else t
  | _ => t
  end.
(** every history of calls on one pool, with its tally *)
Inductive treach (h0 : mp) : mp -> list blk -> tally -> Prop :=
| treach_0 : treach h0 h0 [] t0
| treach_S : forall h live t o h' r, treach h0 h live t -> ok_op live o -> mp_step h o = Ret (h', r) ->
    treach h0 h' (c_step (mp_sz h0) live o r) (t_step (mp_sz h0) live o r t).
(** what one printed line says: the text and the number, in decimal digits without a leading zero *)
From Coq Require Import String Ascii.
Fixpoint letters (s : string) : list Z := match s with EmptyString => [] | String c s => Z.of_nat (nat_of_ascii c) :: letters s end.
Definition says (text : string) (n : Z) (l : list Z) : Prop :=
  exists c d, l = letters text ++ c :: d /\ Forall (fun c => 48 <= c <= 57) (c :: d) /\ fold_left (fun a c => a * 10 + (c - 48)) (c :: d) 0 = n /\ (0 < n -> c <> 48) /\ (n = 0 -> d = []).
