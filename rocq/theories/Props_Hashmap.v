(** C13-C15, C46: src/data/hashmap.c, src/data/hash_functions.c *)
From Verif Require Import CBase CStr HashmapModel HashmapSpec HashmapProof HashFnModel HashFnProof.

(** C13: creation fails or, for every history of put/get/remove/clear/size with every pattern of allocation
    failures, the returned values are those of the finite map. *)
Theorem C13_hashmap_is_finite_map :
  forall (hf : Z -> Z) (eqf : Z -> Z -> bool) (kfree vfree locked : bool) (ok0 : bool) (okx0 : Z -> bool) (cap : Z) (h : list call),
  compatible hf eqf -> 0 <= cap -> sane_table okx0 -> Forall (fun c => sane_table (c_okx c)) h -> zlen h < two64 ->
  hm_create ok0 okx0 cap = Ret None \/
  exists m m' evs, hm_create ok0 okx0 cap = Ret (Some m) /\
    hm_run hf eqf kfree vfree locked m h = Ret (m', snd (s_run eqf [] h), evs).
Proof. intros; apply hashmap_lemma; assumption. Qed.
Print Assumptions C13_hashmap_is_finite_map.

(** C14: over a whole life the non-NULL keys and values that the map took over are exactly (as multisets) those
    passed to the free callbacks plus those still stored; after hashmap_free exactly those passed to the
    callbacks; every callback runs while the lock is held and the lock is released after each call. *)
Theorem C14_frees_exactly_once :
  forall (hf : Z -> Z) (eqf : Z -> Z -> bool) (kfree vfree locked : bool) (ok0 : bool) (okx0 : Z -> bool) (cap : Z) (h : list call)
    (m m' : hmap) (rs : list Z) (evs : list event),
  compatible hf eqf -> 0 <= cap -> sane_table okx0 -> Forall (fun c => sane_table (c_okx c)) h -> zlen h < two64 ->
  hm_create ok0 okx0 cap = Ret (Some m) -> hm_run hf eqf kfree vfree locked m h = Ret (m', rs, evs) ->
  (kfree = true ->
    Permutation (nonnull (all_took eqf (took_keys eqf) [] h)) (freed_keys evs ++ nonnull (map fst (fst (s_run eqf [] h)))) /\
    Permutation (nonnull (all_took eqf (took_keys eqf) [] h)) (freed_keys (evs ++ hm_free kfree vfree locked m'))) /\
  (vfree = true ->
    Permutation (nonnull (all_took eqf (took_vals eqf) [] h)) (freed_vals evs ++ nonnull (map snd (fst (s_run eqf [] h)))) /\
    Permutation (nonnull (all_took eqf (took_vals eqf) [] h)) (freed_vals (evs ++ hm_free kfree vfree locked m'))) /\
  (locked = true -> lock_ok false (evs ++ hm_free kfree vfree locked m') = true).
Proof. intros; eapply hashmap_owner_lemma; eassumption. Qed.
Print Assumptions C14_frees_exactly_once.

(** C15: with a callback that never asks to stop, every stored entry is visited exactly once. *)
Theorem C15_foreach_visits_each_once :
  forall (hf : Z -> Z) (eqf : Z -> Z -> bool) (kfree vfree locked : bool) (ok0 : bool) (okx0 : Z -> bool) (cap : Z) (h : list call)
    (m m' : hmap) (rs : list Z) (evs : list event),
  compatible hf eqf -> 0 <= cap -> sane_table okx0 -> Forall (fun c => sane_table (c_okx c)) h -> zlen h < two64 ->
  hm_create ok0 okx0 cap = Ret (Some m) -> hm_run hf eqf kfree vfree locked m h = Ret (m', rs, evs) ->
  Permutation (hm_foreach (fun _ _ => true) m') (fst (s_run eqf [] h)).
Proof. intros; eapply foreach_lemma; eassumption. Qed.
Print Assumptions C15_foreach_visits_each_once.

(** C15: with any callback no entry is visited twice and nothing else is visited, and when the callback
    returns true for every stored entry none is skipped. *)
Theorem C15_foreach_any_callback :
  forall (hf : Z -> Z) (eqf : Z -> Z -> bool) (kfree vfree locked : bool) (cb : Z -> Z -> bool) (ok0 : bool) (okx0 : Z -> bool) (cap : Z)
    (h : list call) (m m' : hmap) (rs : list Z) (evs : list event),
  compatible hf eqf -> 0 <= cap -> sane_table okx0 -> Forall (fun c => sane_table (c_okx c)) h -> zlen h < two64 ->
  hm_create ok0 okx0 cap = Ret (Some m) -> hm_run hf eqf kfree vfree locked m h = Ret (m', rs, evs) ->
  exists skipped, Permutation (hm_foreach cb m' ++ skipped) (fst (s_run eqf [] h)) /\ ((forall k v, In (k, v) (fst (s_run eqf [] h)) -> cb k v = true) -> skipped = []).
Proof. intros; eapply foreach_any_lemma; eassumption. Qed.
Print Assumptions C15_foreach_any_callback.

(** Refutes the documented stop: a callback that always returns false is called once for each non-empty
    bucket... *)
Theorem C15_stop_leaves_only_the_bucket_refuted : forall m : hmap,
  hm_foreach (fun _ _ => false) m =
  flat_map (fun c => match c with [] => [] | e :: _ => [(e_key e, e_val e)] end) (hm_buckets m).
Proof. exact foreach_stop. Qed.
Print Assumptions C15_stop_leaves_only_the_bucket_refuted.

Definition idcall o := mk_call true (fun n => n <=? 4096) o.
(** ... so on this reachable map of two entries the callback that asks to stop is called twice. *)
Example C15_stop_case :
  match hm_create true (fun n => n <=? 4096) 8 with
  | Ret (Some m) =>
    match hm_run (fun k => k) Z.eqb true true true m [idcall (HPut 1 10); idcall (HPut 2 20)] with
    | Ret (m', _, _) => hm_foreach (fun _ _ => false) m' = [(1, 10); (2, 20)] \/ hm_foreach (fun _ _ => false) m' = [(2, 20); (1, 10)]
    | _ => False end
  | _ => False end.
Proof. vm_compute. tauto. Qed.

(** C13/C14 non-vacuity: a bad hash function (all keys collide), growth from capacity 0, replacement, failed
    allocation, removal, lock *)
Example C13_case :
  match hm_create true (fun n => n <=? 4096) 0 with
  | Ret (Some m) =>
    match hm_run (fun _ => 7) Z.eqb true true true m
      [idcall (HPut 1 10); idcall (HPut 2 20); idcall (HPut 3 30); idcall (HPut 2 21);
       mk_call false (fun _ => false) (HPut 9 90); idcall (HGet 9); idcall (HGet 2); idcall (HRemove 1); idcall HSize] with
    | Ret (m', rs, evs) => rs = [0; 0; 0; 20; 0; 0; 21; 10; 2] /\ freed_vals evs = [20; 10] /\ freed_keys evs = [1]
       /\ length (hm_buckets m') = 4%nat
    | _ => False end
  | _ => False end.
Proof. vm_compute. repeat split; reflexivity. Qed.
Example C13_hyps : compatible (fun _ => 7) Z.eqb /\ sane_table (fun n => n <=? 4096).
Proof.
  split.
  - unfold compatible. split; [apply Z.eqb_refl|]. split; [apply Z.eqb_sym|]. split; [|reflexivity]. intros; lia.
  - intros n H. lia.
Qed.

(** C46: equal strings have equal hashes wherever they are stored (wrapping arithmetic), the function always
    returns an int and reads nothing beyond the terminator. *)
Theorem C46_hash_string_of_content : forall t r r' : list Z, text t ->
  hash_function_string (t ++ 0 :: r) = hash_function_string (t ++ 0 :: r') /\
  exists h, hash_function_string (t ++ 0 :: r) = Ret h /\ - two31 <= h < two31.
Proof. intros t r r' T. split; [apply hash_string_ext; exact T|apply hash_string_total; exact T]. Qed.
Print Assumptions C46_hash_string_of_content.
(** C46: hash_function_integer and hash_function_pointer give different ints different hashes. *)
Theorem C46_hash_integer_injective : forall a b : Z,
  -2147483648 <= a < 2147483648 -> -2147483648 <= b < 2147483648 ->
  hash_function_integer a = hash_function_integer b \/ hash_function_pointer a = hash_function_pointer b -> a = b.
Proof. intros a b A B [H|H]; apply hash_integer_inj; assumption. Qed.
Print Assumptions C46_hash_integer_injective.
(** C46: hashmap_hash depends only on the keySize bytes. *)
Theorem C46_hash_bytes_of_content : forall t r : list Z,
  exists h, hashmap_hash (t ++ r) (zlen t) = Ret h /\ hashmap_hash t (zlen t) = Ret h.
Proof. exact hash_bytes_total. Qed.
Print Assumptions C46_hash_bytes_of_content.
(** Refutes C46's "defined": in ISO C every string of four or more characters overflows. *)
Theorem C46_hash_string_overflow_refuted : forall (a b c d : Z) (t r : list Z),
  text (a :: b :: c :: d :: t) -> Forall is_byte [a; b; c; d] ->
  hash_function_string_strict ((a :: b :: c :: d :: t) ++ 0 :: r) = Ub.
Proof. exact hash_strict_ub. Qed.
Print Assumptions C46_hash_string_overflow_refuted.
Example C46_case : hash_function_string [107; 101; 121; 0; 5] = Ret 193496974 /\ hash_function_integer 1 <> hash_function_integer 2.
Proof. split; vm_compute; [reflexivity|discriminate]. Qed.
