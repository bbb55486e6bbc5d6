(** C23: src/mem/stringbuilder.c *)
From Verif Require Import CBase CStr StringBuilderModel StringBuilderSpec StringBuilderProof.

(** C23: whatever the initial size, the calls and the allocation failures: every call returns (no access
    outside the block), length and string always show the concatenation of the successful appends, a failed
    append changes nothing, clear empties. *)
Theorem C23_stringbuilder_concatenates :
  forall (al1 al2 : allocator) (init : Z) (h : list (allocator * sb_op)),
  sane al1 -> sane al2 -> 0 <= init -> Forall (fun x => sane (fst x) /\ sb_valid (snd x)) h ->
  sb_create al1 al2 init = Ret None \/
  exists sb obs, sb_create al1 al2 init = Ret (Some sb) /\ sb_run sb h = Ret obs /\ sb_spec_run [] h obs.
Proof. exact stringbuilder_lemma. Qed.
Print Assumptions C23_stringbuilder_concatenates.

(** C23: a non-empty append succeeds whenever the allocator serves twice the needed size. *)
Theorem C23_append_succeeds :
  forall (al : allocator) (sb : sbuilder) (t : list Z) (o : sb_op) (p : list Z),
  sane al -> sb_reached sb t -> sb_valid o -> piece_of o p -> p <> [] ->
  zlen t + zlen p + 1 < 9223372036854775808 -> serves al (2 * (zlen t + zlen p + 1)) ->
  exists sb', sb_step al sb o = Ret (sb', 0) /\ sb_reached sb' (t ++ p).
Proof. exact reached_append. Qed.
Print Assumptions C23_append_succeeds.

(** Refutes C23 for appendf when formatting fails (vsnprintf returns -1): 0 is returned and the last
    character disappears; on an empty builder the call writes out of bounds. *)
Theorem C23_appendf_error_refuted :
  forall (al : allocator) (sb : sbuilder) (t : list Z), sane al -> sb_reached sb t ->
  match t with
  | [] => sb_appendf al sb None = Ub
  | _ => exists sb', sb_appendf al sb None = Ret (sb', 0) /\ sb_observe sb' = Ret (zlen t - 1, removelast t ++ [0])
  end.
Proof. exact reached_appendf_error. Qed.
Print Assumptions C23_appendf_error_refuted.

(** Refutes the documented clamp of appendnstr ("if len bigger than string len, we append string real len"):
    a length beyond the terminator reads past the string's block. *)
Theorem C23_appendnstr_clamp_refuted :
  forall (al : allocator) (sb : sbuilder) (t u : list Z) (n : Z),
  sane al -> sb_reached sb t -> text u -> zlen u + 1 < n -> zlen t + n + 1 < 9223372036854775808 ->
  serves al (2 * (zlen t + n + 1)) -> sb_appendnstr al sb (u ++ [0]) n = Ub.
Proof. exact reached_overread. Qed.
Print Assumptions C23_appendnstr_clamp_refuted.

(** an allocator with 1000 bytes per block, and one that always fails *)
Definition al1000 : allocator := fun k => if (0 <=? k) && (k <=? 1000) then Some (repeat 9 (Z.to_nat k)) else None.
Definition al_none : allocator := fun _ => None.
Example C23_case :
  sane al1000 /\ sane al_none /\
  Forall (fun x => sane (fst x) /\ sb_valid (snd x))
    [(al1000, SbStr [97;98;0]); (al_none, SbFmt [99;100]); (al1000, SbChar 101)] /\
  exists sb, sb_create al1000 al1000 3 = Ret (Some sb) /\
   sb_run sb [(al1000, SbStr [97;98;0]); (al_none, SbFmt [99;100]); (al1000, SbChar 101)] =
     Ret [(0, (2, [97;98;0])); (-3, (2, [97;98;0])); (0, (3, [97;98;101;0]))].
Proof.
  assert (sane al1000) as S1.
  { intros k b. unfold al1000. destruct ((0 <=? k) && (k <=? 1000)) eqn:E; [|discriminate].
    intro H; injection H as <-. unfold zlen. rewrite repeat_length. lia. }
  assert (sane al_none) as S2 by (intros k b H; discriminate).
  split; [exact S1|]. split; [exact S2|]. split.
  - constructor; [|constructor; [|constructor; [|constructor]]]; cbn [fst snd]; (split; [assumption|]); unfold sb_valid.
    + split; [vm_compute; reflexivity|]. exists [97;98], []. split; [reflexivity|]. repeat constructor; lia.
    + vm_compute; reflexivity.
    + exact I.
  - exists (mk_sb [0;9;9] 3 0). split; vm_compute; reflexivity.
Qed.
