(** Specification for C75. *)
From Verif Require Import CBase CStr AllocModel AlMtModel.
Fixpoint bytes_of (l : blocks) : Z := match l with [] => 0 | (_, n) :: l => n + bytes_of l end.
(** a leak check reports each pointer once, with its size; all that were held during the whole check; nothing that was not live when it began; and
    the sum of the reported sizes *)
Definition report_ok (r : report) : Prop :=
  incl (rp_end r) (rp_list r) /\ incl (rp_list r) (rp_begin r) /\ NoDup (map fst (rp_list r)) /\ rp_sum r = bytes_of (rp_list r) mod two64.
(** the block of a pointer p of n bytes: both canaries in place around u *)
Definition block_of (s : st) (p n : Z) (u : list Z) : Prop := heap s (p - 8) = Some (canary ++ u ++ canary) /\ zlen u = n.
(** other threads and thread t go on from s, while t is inside its call *)
Inductive during (t : nat) (s : st) : st -> Prop :=
| d_refl : during t s s
| d_step s1 v ch s2 : during t s s1 -> pcs s1 t <> Idle -> fits s1 ch -> tick v ch s1 = Go (Ret s2) -> during t s s2.
(** rules broken in one way each: the leak check may run while others allocate *)
Definition overlap (s : st) (ch : choice) : Prop :=
  match ch with CCall (CMalloc n) => 0 <= n < two64 - 16 | CCall CExpect => True | _ => fits s ch end.
(** a pointer may be freed while another thread frees it *)
Definition twice (s : st) (ch : choice) : Prop :=
  match ch with CCall (CFree p) => exists n, List.In (p, n) (held s ++ map snd (lent s)) | _ => fits s ch end.
