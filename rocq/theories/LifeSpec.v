(** What it means that an object exists and which blocks it is made of; used by Props_Life.v *)
From Verif Require Import CBase LifeModel.

(** the block is allocated and belongs to the library *)
Definition liblive (h : nat -> option block) (b : nat) : Prop := exists c, h b = Some (mk_b true c).
(** numbers in a ring structure may be anything: it has been used *)
Definition ring_at (h : nat -> option block) (b : nat) : Prop := exists i o s, h b = Some (mk_b true [VT; VI i; VI o; VI s; VP b 5]).
Definition queue_at (fixed : bool) (h : nat -> option block) (b : nat) : Prop :=
  exists i o s w, h b = Some (mk_b true (if fixed then [VP b 2; VI w; V0; VI i; VI o; VI s; VP b 7] else [VP b 1; V0; VI i; VI o; VI s; VP b 6])).
(** a message handler with its thread, its semaphore (none, if that could not be created) and its queue *)
Definition handler_at (fixed : bool) (h : nat -> option block) (ud cb : val) (b : nat) (bs : list nat) : Prop :=
  exists fl t th q sem sb, (fl = V0 \/ fl = VT) /\
    h b = Some (mk_b true [ud; cb; fl; VP t 0; sem; VP q 0]) /\
    h t = Some (mk_b true [VP th 0]) /\ h th = Some (mk_b true [VP b 0]) /\ queue_at fixed h q /\
    ((sem = V0 /\ sb = []) \/ exists s, sem = VP s 0 /\ sb = [s] /\ h s = Some (mk_b true [VI 0])) /\
    bs = b :: t :: th :: q :: sb /\ NoDup bs.
Definition obj (h : nat -> option block) (k : kind) (v : val) (bs : list nat) : Prop :=
  exists b, v = VP b 0 /\
  match k with
  | KRing => bs = [b] /\ ring_at h b
  | KRingMem => bs = [b] /\ exists i o s, h b = Some (mk_b false [V0; VI i; VI o; VI s; VP b 5])
  | KRg => bs = [b] /\ exists i o s, h b = Some (mk_b true [VT; VP b 5; VI s; VI i; VI o])
  | KRgMem => bs = [b] /\ exists i o s, h b = Some (mk_b false [V0; VP b 5; VI s; VI i; VI o])
  | KMq => bs = [b] /\ queue_at false h b
  | KFq => bs = [b] /\ queue_at true h b
  | KAc => exists r, bs = [b; r] /\ b <> r /\ h b = Some (mk_b true [VP r 0]) /\ ring_at h r
  | KSb => exists d, bs = [b; d] /\ b <> d /\ h b = Some (mk_b true [VP d 0]) /\ liblive h d
  | KHd => handler_at false h V0 V0 b bs
  | KFhd => handler_at true h V0 V0 b bs
  | KFl => exists hd hbs c fp fb, h b = Some (mk_b true [VP hd 0; fp; VP c 0]) /\ handler_at false h (VP b 0) VT hd hbs /\ liblive h c /\
             ((fp = V0 /\ fb = []) \/ exists f, fp = VP f 0 /\ fb = [f] /\ h f = Some (mk_b true [VI 0])) /\ bs = b :: c :: fb ++ hbs /\ NoDup bs
  end.
(** a variable is NULL, or the handle of an object *)
Definition holds (h : nat -> option block) (x : kind * val) (bs : list nat) : Prop :=
  match snd x with V0 => bs = [] | v => obj h (fst x) v bs end.

(** a program: its variables and the state *)
Definition prog : Type := list (kind * val) * st.
Fixpoint put {A} (n : nat) (x : A) (l : list A) : list A := match l, n with [], _ => [] | _ :: l, O => x :: l | a :: l, S n => a :: put n x l end.
Definition setv (x : nat) (v : val) (vs : list (kind * val)) : list (kind * val) := match nth_error vs x with Some (k, _) => put x (k, v) vs | None => vs end.
Definition do_op (o : op) (p : prog) : outcome prog :=
  let '(vs, s) := p in
  match o with
  | Create x n m rep => match nth_error vs x with Some (k, _) => match create k n m rep s with Ret (v, s') => Ret (setv x v vs, s') | Ub => Ub | Abrt => Abrt | NoFuel => NoFuel end | None => Ret p end
  | Destroy x l => match nth_error vs x with Some (k, v) => match destroy k l v s with Ret (v', s') => Ret (setv x v' vs, s') | Ub => Ub | Abrt => Abrt | NoFuel => NoFuel end | None => Ret p end
  | Grow x => match nth_error vs x with Some (k, V0) => Ret p | Some (k, v) => match grow k v s with Ret (_, s') => Ret (vs, s') | Ub => Ub | Abrt => Abrt | NoFuel => NoFuel end | None => Ret p end
  end.
(** The caller's obligations: sizes in range, no create over a handle still in use, no NULL for msg_queue_destroy;
    and malloc does not fail in the strreplace of file_logger_init. *)
Definition sizes_ok (k : kind) (n m : Z) (rep : bool) : Prop :=
  match k with
  | KFq => 0 <= n < two32 /\ 0 <= m < two32 /\ n * m <= 1073741824
  | KFhd => 0 <= n <= 1000000
  | KFl => 0 <= n <= 1048576 /\ rep = true
  | _ => 0 <= n <= 1073741824
  end.
Definition legal (o : op) (vs : list (kind * val)) : Prop :=
  match o with
  | Create x n m rep => forall k v, nth_error vs x = Some (k, v) -> v = V0 /\ sizes_ok k n m rep
  | Destroy x _ => nth_error vs x <> Some (KMq, V0)
  | Grow _ => True
  end.
(** the programs reachable from variables set to NULL *)
Definition empty (orc : list bool) : st := mk_s orc (fun _ => None) O.
Inductive reach (orc : list bool) (ks : list kind) : prog -> Prop :=
| R0 : reach orc ks (map (fun k => (k, V0)) ks, empty orc)
| RS o p p' : reach orc ks p -> legal o (fst p) -> do_op o p = Ret p' -> reach orc ks p'.
