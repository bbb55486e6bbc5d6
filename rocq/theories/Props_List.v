(** C16, C17: src/data/list.c *)
From Verif Require Import CBase ListModel ListSpec ListProof ListProof2.

(** C16: for every heap, every history of calls with every allocator, all the observations after each call (result,
    length, emptiness, front, back, iteration) are those of the sequence. *)
Theorem C16_list_is_sequence :
  forall (has_cb : bool) (hb : heap) (hist : list (nalloc * l_op)),
  finite hb -> Forall (fun x => fresh (fst x)) hist -> zlen hist < two64 ->
  exists oks l', Forall2 (fun x ok => ok_al (fst x) ok) hist oks /\
    l_run has_cb (list_new hb) hist = Ret (l', snd (s_run [] (combine oks (map snd hist)))).
Proof.
  intros has_cb hb hist FIN F B. destruct (list_lemma has_cb hb hist FIN F B) as (oks & l' & O & E & _). exists oks, l'. split; assumption.
Qed.
Print Assumptions C16_list_is_sequence.

(** C17: with a callback the elements added are, as a multiset, those passed to the callback plus those in the
    list; after list_free exactly those passed to the callback; and every node is released (the heap is
    again what it was before list_new), with or without a callback. *)
Theorem C17_frees_exactly_once :
  forall (has_cb : bool) (hb : heap) (hist : list (nalloc * l_op)),
  finite hb -> Forall (fun x => fresh (fst x)) hist -> zlen hist < two64 ->
  exists oks l', Forall2 (fun x ok => ok_al (fst x) ok) hist oks /\
    let sh := combine oks (map snd hist) in
    l_run has_cb (list_new hb) hist = Ret (l', snd (s_run [] sh)) /\
    (has_cb = true -> Permutation (all_added [] sh) (l_freed l' ++ fst (s_run [] sh))) /\
    exists l'', list_free has_cb l' = Ret l'' /\ (forall a, l_heap l'' a = hb a) /\
      if has_cb then Permutation (all_added [] sh) (l_freed l'') else l_freed l'' = [].
Proof. exact list_lemma. Qed.
Print Assumptions C17_frees_exactly_once.

(** C16: list_foreach visits in order, stops after the first false and returns that element's node (NULL
    otherwise). *)
Theorem C16_foreach :
  forall (has_cb : bool) (hb : heap) (hist : list (nalloc * l_op)) (l : lst) (obs : list l_obs),
  finite hb -> Forall (fun x => fresh (fst x)) hist -> zlen hist + 2 < two64 ->
  l_run has_cb (list_new hb) hist = Ret (l, obs) ->
  exists s, walk (S (Z.to_nat (list_length l))) l (list_begin l) = Ret s /\
    forall C (f : C -> Z -> C * bool) (c : C), exists node,
       list_foreach (fun c l d => Ret (fst (f c d), l, snd (f c d))) (S (Z.to_nat (list_length l))) c l = Ret (fst (s_foreach f c s), l, node) /\
       match snd (s_foreach f c s) with None => node = 0 | Some i => nth_node i l (list_begin l) = Ret node /\ node <> 0 end.
Proof. intros. destruct (foreach_lemma has_cb hb hist l obs) as (s & W & P & _); eauto. Qed.
Print Assumptions C16_foreach.

(** C16: removing the visited element inside the callback is safe: all elements are visited and exactly the
    chosen ones are removed (and passed to the free callback, in order). *)
Theorem C16_foreach_remove_current :
  forall (has_cb : bool) (hb : heap) (hist : list (nalloc * l_op)) (l : lst) (obs : list l_obs),
  finite hb -> Forall (fun x => fresh (fst x)) hist -> zlen hist + 2 < two64 ->
  l_run has_cb (list_new hb) hist = Ret (l, obs) ->
  exists s, walk (S (Z.to_nat (list_length l))) l (list_begin l) = Ret s /\
    forall p, exists l', list_foreach (cb_filter has_cb p) (S (Z.to_nat (list_length l))) [] l = Ret (s, l', 0) /\
       l_observe l' true = Ret (s_obs (filter (fun d => negb (p d)) s) true) /\ (has_cb = true -> l_freed l' = l_freed l ++ filter p s).
Proof. intros. destruct (foreach_lemma has_cb hb hist l obs) as (s & W & _ & P & _); eauto. Qed.
Print Assumptions C16_foreach_remove_current.

(** Refutes list.h's "It is safe to mutate the list inside the callback": removing the element that
    follows the visited one makes list_foreach read a freed node, on every list of two different elements or more. *)
Theorem C16_foreach_remove_next_refuted :
  forall (has_cb : bool) (hb : heap) (hist : list (nalloc * l_op)) (l : lst) (obs : list l_obs) (x y : Z) (r : list Z),
  finite hb -> Forall (fun x => fresh (fst x)) hist -> zlen hist + 2 < two64 ->
  l_run has_cb (list_new hb) hist = Ret (l, obs) ->
  walk (S (Z.to_nat (list_length l))) l (list_begin l) = Ret (x :: y :: r) -> x <> y ->
  list_foreach (cb_remove has_cb y) (S (Z.to_nat (list_length l))) tt l = Ub.
Proof.
  intros has_cb hb hist l obs x y r FIN F B E W XY. destruct (foreach_lemma has_cb hb hist l obs) as (s & W' & _ & _ & P); try assumption.
  rewrite W in W'. injection W' as <-. eapply P; [reflexivity|exact XY].
Qed.
Print Assumptions C16_foreach_remove_next_refuted.

(** an allocator over a small arena that reuses freed addresses *)
Definition arena : nalloc := fun h => find (fun a => match h a with None => true | Some _ => false end) [100; 200; 300; 400].
Example C16_hyps : fresh arena /\ always_fails (fun _ => None) /\ finite (fun _ => None).
Proof.
  split; [|split; [intro h; reflexivity|exists 0; reflexivity]]. intros h a H. unfold arena in H. apply find_some in H as [I H].
  split; [cbn in I; lia|]. destruct (h a); [discriminate|reflexivity].
Qed.
Example C16_case :
  match l_run true (list_new (fun _ => None)) [(arena, LAppend 7); (arena, LPrepend 8); (arena, LAppend 7); (arena, LRemove 8); ((fun _ => None), LAppend 5);
      (arena, LInsertAfter 0 9); (arena, LRemove 7); (arena, LRemove 0); (arena, LInsertBack 4); (arena, LContains 9)] with
  | Ret (l, obs) => map o_items obs = [[7]; [8;7]; [8;7;7]; [7;7]; [7;7]; [7;9;7]; [9;7]; [9;7]; [9;7;4]; [9;7;4]] /\
      map o_ret obs = [true;true;true;true;false;true;true;false;true;true] /\ l_freed l = [8;7]
  | _ => False end.
Proof. vm_compute. repeat split; reflexivity. Qed.
