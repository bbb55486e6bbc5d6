(** Specification for C74: what a hash map shared by threads owes to one call after the other. *)
From Verif Require Import CBase HashmapModel HashmapSpec LockModel LockObjModel.
Section M.
Variables (eqf : Z -> Z -> bool) (kfree vfree : bool).
(** one call on a map with content s: result r, new content s' *)
Definition m_step (s : fmap) (c : hcall) (r : res) (s' : fmap) : Prop :=
  match c with
  | HOp c =>
      (s', r_val r) = s_step eqf s c /\ r_seen r = [] /\
      (* the free functions get exactly what the map owned or took over and does not hold any more *)
      (kfree = true -> Permutation (nonnull (took_keys eqf s c) ++ nonnull (map fst s)) (freed_keys (r_evs r) ++ nonnull (map fst s'))) /\
      (vfree = true -> Permutation (nonnull (took_vals eqf s c) ++ nonnull (map snd s)) (freed_vals (r_evs r) ++ nonnull (map snd s')))
  | HForeach cb _ =>
      (* nothing is freed; no entry is visited twice; none is left out if the callback never answers false *)
      s' = s /\ r_evs r = [] /\
      exists skipped, Permutation (r_seen r ++ skipped) s /\ ((forall k v, List.In (k, v) s -> cb k v = true) -> skipped = [])
  end.
Inductive m_run : fmap -> list (hcall * res) -> fmap -> Prop :=
| mr_nil s : m_run s [] s
| mr_cons s c r s' l s2 : m_step s c r s' -> m_run s' l s2 -> m_run s ((c, r) :: l) s2.
(** what the threads may call here: everything but hashmap_size; a foreach callback must not use the map *)
Definition m_ok (c : hcall) : Prop :=
  match c with HOp c => c_op c <> HSize /\ sane_table (c_okx c) | HForeach _ uses => uses = fun _ _ => false end.
End M.
