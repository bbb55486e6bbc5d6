(** C35, C36: src/mem/str_params.c *)
From Verif Require Import CBase CStr StringsModel StringsSpec HashmapModel StrParamsModel StrParamsSpec StrParamsProof StrParamsProof2.

(** C35: creation fails only when an allocation fails; otherwise every history of add_str, add_long, del,
    has_key, get_str, get_long, get_int (with any failing copies or entries) answers as the map text -> text. *)
Theorem C35_str_params_is_a_map :
  forall (ok1 ok2 : bool) (okx : Z -> bool) (t r : list Z) (delim : option (list Z)) (h : list sp_op),
  tables_ok okx -> text t -> delim = None /\ t = [59] \/ delim = Some (t ++ 0 :: r) -> Forall valid_op h -> zlen h < 288230376151711744 ->
  (sp_create ok1 ok2 okx delim = Ret None /\ (ok1 = false \/ ok2 = false)) \/
  exists p p', sp_create ok1 ok2 okx delim = Ret (Some p) /\ sp_run p h = Ret (p', snd (m_run [] h)) /\ sp_destroy p' = Ret tt.
Proof.
  intros ok1 ok2 okx t r delim h T TT D V B. destruct (sp_create_ok ok1 ok2 okx t r delim T TT D) as [(p & E & R & _)|X]; [right|left; exact X].
  destruct (sp_run_ok h p [] R V B) as (p' & E' & R' & _). exists p, p'. split; [exact E|]. split; [exact E'|].
  unfold sp_destroy. destruct R' as [-> _]. reflexivity.
Qed.
Print Assumptions C35_str_params_is_a_map.

(** C35: after any history, a long that was added is read back, for every key and every long. *)
Theorem C35_long_round_trip :
  forall (okx : Z -> bool) (t r : list Z) (p : sp) (h : list sp_op) (a : sp_alloc) (k : list Z) (n : Z),
  tables_ok okx -> text t -> sp_create true true okx (Some (t ++ 0 :: r)) = Ret (Some p) -> Forall valid_op h -> zlen h + 2 < 288230376151711744 ->
  cstring k -> -9223372036854775808 <= n <= 9223372036854775807 -> tables_ok (sa_table a) -> sa_key a = true -> sa_val a = true -> sa_entry a = true ->
  exists p', sp_run p (h ++ [SAddLong a k n; SGetLong k]) = Ret (p', snd (m_run [] h) ++ [RCode 0; RNum 0 (Some n)]).
Proof.
  intros okx t r p h a k n T TT E V B K N TA A1 A2 A3.
  destruct (sp_create_ok true true okx t r (Some (t ++ 0 :: r)) T TT (or_intror eq_refl)) as [(p0 & E0 & R & _)|(X & _)]; [|congruence].
  rewrite E in E0. injection E0 as <-.
  destruct (sp_run_ok (h ++ [SAddLong a k n; SGetLong k]) p [] R) as (p' & E' & _).
  - apply Forall_app. split; [exact V|]. constructor; [cbn; tauto|]. constructor; [exact K|constructor].
  - rewrite zlen_app. change (zlen [SAddLong a k n; SGetLong k]) with 2. change (zlen (@nil (list Z * list Z))) with 0. unfold big. lia.
  - exists p'. rewrite E'. f_equal. f_equal. clear - N A1 A2 A3. generalize (@nil (list Z * list Z)) as s. induction h as [|o h IH]; intro s.
    + cbn [app m_run m_step fst snd]. unfold m_add, add_succeeds. rewrite A1, A2, A3. cbn [andb orb fst snd]. unfold m_long.
      rewrite lookup_update, list_eqb_refl, strtol_long by exact N. cbv zeta. cbn [fst snd]. rewrite Z.eqb_refl.
      destruct (zlen (dec_long n) =? 0) eqn:Z0; [|reflexivity]. exfalso. apply (dec_long_ne n). apply zlen_0_nil. lia.
    + cbn [app m_run snd]. rewrite IH. reflexivity.
Qed.
Print Assumptions C35_long_round_trip.

(** Refutes the documentation of str_params_get_str ("return the length of the value"): success is 0 for
    every stored value. *)
Theorem C35_get_str_returns_length_refuted :
  forall (s : smap) (k out v : list Z), lookup s k = Some v -> zlen v < zlen out ->
  snd (m_step s (SGet k out)) = RStr 0 (v ++ 0 :: zdrop (zlen v + 1) out).
Proof. intros s k out v L H. cbn [m_step snd]. rewrite L. destruct (zlen v <? zlen out) eqn:E; [reflexivity|lia]. Qed.
Print Assumptions C35_get_str_returns_length_refuted.

(** get_int answers success and a truncated number for any stored long outside int. *)
Theorem C35_get_int_truncates_refuted :
  forall (s : smap) (k : list Z) (n : Z), lookup s k = Some (dec_long n) -> -9223372036854775808 <= n <= 9223372036854775807 ->
  snd (m_step s (SGetInt k)) = RNum 0 (Some (s32 n)).
Proof.
  intros s k n L N. cbn [m_step snd]. unfold m_long. rewrite L, strtol_long by exact N. cbv zeta. cbn [fst snd]. rewrite Z.eqb_refl.
  destruct (zlen (dec_long n) =? 0) eqn:Z0; [|reflexivity]. exfalso. apply (dec_long_ne n). apply zlen_0_nil. lia.
Qed.
Print Assumptions C35_get_int_truncates_refuted.

Definition all_ok : sp_alloc := mk_sa true true true (fun n => n <=? 1152921504606846976).
Definition letters (n : nat) : list sp_op := map (fun i => SAdd all_ok [65 + Z.of_nat i] [118]) (seq 0 n).
(** When the table cannot grow, add_str reports ENOMEM and frees the key and the value that the map has
    already stored: the next operation uses freed memory. *)
Theorem C35_failed_growth_frees_stored_refuted :
  exists p p' p2, sp_create true true (fun n => n <=? 1152921504606846976) None = Ret (Some p) /\
    sp_run p (letters 24) = Ret (p', repeat (RCode 0) 24) /\
    sp_add_str (mk_sa true true true (fun _ => false)) p' [122] [118] = Ret (p2, -12) /\
    sp_destroy p2 = Ub.
Proof. do 3 eexists. split; [vm_compute; reflexivity|]. split; [vm_compute; reflexivity|]. split; [vm_compute; reflexivity|reflexivity]. Qed.
Print Assumptions C35_failed_growth_frees_stored_refuted.

(** C36: the text is the pairs "key=value" of the map, each once, in some order, joined by the delimiter. *)
Theorem C36_to_str_text :
  forall (okx : Z -> bool) (t r : list Z) (p p' : sp) (h : list sp_op) (res : list sp_res),
  tables_ok okx -> text t -> sp_create true true okx (Some (t ++ 0 :: r)) = Ret (Some p) -> Forall valid_op h -> zlen h < 288230376151711744 ->
  sp_run p h = Ret (p', res) ->
  exists s', Permutation (fst (m_run [] h)) s' /\ sp_to_str [] true p' = Ret (Some (join (ztake 1 t) (map pair_text s'))).
Proof.
  intros okx t r p p' h res T TT E V B ER.
  destruct (sp_create_ok true true okx t r (Some (t ++ 0 :: r)) T TT (or_intror eq_refl)) as [(p0 & E0 & R & DL & _)|(X & _)]; [|congruence].
  rewrite E in E0. injection E0 as <-. destruct (sp_run_ok h p [] R V B) as (q & E' & R' & D). rewrite ER in E'. injection E' as <- _.
  destruct (to_str_ok p' _ true R') as (s' & P & ET). exists s'. split; [exact P|]. rewrite ET, D, DL. destruct s'; reflexivity.
Qed.
Print Assumptions C36_to_str_text.

(** C36: parsing any text gives the map of its pieces: a piece "k=v" sets k to v, later pieces winning, a piece
    without '=' has the empty value and a piece starting with '=' is ignored. The third component counts
    the key copies that are leaked: one for each repeated key. *)
Theorem C36_create_str_parses :
  forall (okx : Z -> bool) (t r s rs : list Z) (h : list sp_op),
  tables_ok okx -> text t -> cstring s -> zlen s + zlen h + 4 < 288230376151711744 -> Forall valid_op h ->
  exists p p', sp_create_str true true true okx (Some (t ++ 0 :: r)) (s ++ 0 :: rs) = Ret (Some (p, dup_count [] (pieces (ztake 1 t) s))) /\
    sp_run p h = Ret (p', snd (m_run (parse_pieces [] (pieces (ztake 1 t) s)) h)).
Proof.
  intros okx t r s rs h T TT C B V. pose proof (zlen_nonneg s). pose proof (zlen_nonneg h).
  destruct (sp_create_str_ok okx t r (Some (t ++ 0 :: r)) s rs T TT (or_intror eq_refl) C ltac:(unfold big; lia)) as (p & E & R & _).
  assert (forall l m, zlen (parse_pieces m l) <= zlen m + zlen l) as L.
  { induction l as [|x l IH]; intro m; [cbn [parse_pieces]; change (zlen (@nil (list Z))) with 0; lia|]. cbn [parse_pieces]. rewrite zlen_cons.
    destruct (parse_piece x) as [[k v]|]; [|specialize (IH m); lia]. specialize (IH (update m k v)). pose proof (update_len m k v). lia. }
  specialize (L (pieces (ztake 1 t) s) []). change (zlen (@nil (list Z * list Z))) with 0 in L.
  pose proof (pieces_len (ztake 1 t) s) as PL.
  destruct (sp_run_ok h p _ R V) as (p' & E' & _). { unfold big. unfold zlen in *. lia. }
  exists p, p'. split; [exact E|exact E'].
Qed.
Print Assumptions C36_create_str_parses.

(** C36: the text of a map whose keys are non-empty and free of '=' and the delimiter, and whose values are free
    of the delimiter, parses to a map that answers every further history alike. *)
Theorem C36_text_round_trip :
  forall (okx : Z -> bool) (d : Z) (r : list Z) (p p' : sp) (h h2 : list sp_op) (res : list sp_res),
  tables_ok okx -> 1 <= d < 256 -> d <> 61 -> sp_create true true okx (Some (d :: 0 :: r)) = Ret (Some p) -> Forall valid_op h -> Forall valid_op h2 ->
  zlen h + zlen h2 < 288230376151711744 -> sp_run p h = Ret (p', res) ->
  Forall (plain d) (fst (m_run [] h)) -> zlen (join [d] (map pair_text (fst (m_run [] h)))) + 3 < 288230376151711744 ->
  exists t p2 p3 p4 res2, sp_to_str [] true p' = Ret (Some t) /\ (forall rs, sp_create_str true true true okx (Some (d :: 0 :: r)) (t ++ 0 :: rs) = Ret (Some (p2, 0))) /\
    sp_run p' h2 = Ret (p3, res2) /\ sp_run p2 h2 = Ret (p4, res2).
Proof.
  intros okx d r p p' h h2 res T D1 D2 E V V2 B ER F BJ. pose proof (zlen_nonneg h2).
  assert (text [d]) as TT by (repeat constructor; lia).
  destruct (sp_create_ok true true okx [d] r (Some ([d] ++ 0 :: r)) T TT (or_intror eq_refl)) as [(p0 & E0 & R & DL & _)|(X & _)]; [|cbn [app] in X; congruence].
  cbn [app] in E0. rewrite E in E0. injection E0 as <-.
  destruct (sp_run_ok h p [] R V ltac:(unfold big; change (zlen (@nil (list Z * list Z))) with 0; lia)) as (q & E' & R' & D). rewrite ER in E'. injection E' as <- _.
  assert (L : forall x m, zlen (fst (m_run m x)) <= zlen m + zlen x).
  { induction x as [|o x IH]; intro m; [cbn [m_run fst]; change (zlen (@nil sp_op)) with 0; lia|]. cbn [m_run]. cbv zeta. cbn [fst]. rewrite zlen_cons.
    specialize (IH (fst (m_step m o))). pose proof (m_step_len m o). lia. }
  specialize (L h []). change (zlen (@nil (list Z * list Z))) with 0 in L.
  destruct (round_trip d r okx p' _ D1 D2 T R' ltac:(rewrite D, DL; reflexivity) F BJ) as (t & ET & RT).
  destruct (RT []) as (p2 & E2 & H2). destruct (sp_run_ok h2 p' _ R' V2 ltac:(unfold big; lia)) as (p3 & E3 & _).
  destruct (H2 h2 V2 ltac:(unfold big; lia) _ _ E3) as (p4 & E4).
  exists t, p2, p3, p4. eexists. split; [exact ET|]. split; [|split; [exact E3|exact E4]].
  intro rs. revert E2. unfold sp_create_str. destruct (sp_create true true okx (Some (d :: 0 :: r))) as [[x|]| | |]; cbn [bind]; try discriminate. cbn [negb].
  assert (text t) as Tt.
  { assert (exists s', sp_to_str [] true p' = Ret (Some (join [d] (map pair_text s'))) /\ csmap s') as (s' & ET' & CS').
    { destruct (to_str_ok p' _ true R') as (s' & P & ET'). exists s'. split; [rewrite ET', D, DL; destruct s'; reflexivity|].
      unfold csmap. eapply Permutation_Forall; [exact P|apply R']. }
    rewrite ET in ET'. injection ET' as ->. apply cstring_text, join_c; assumption. }
  pose proof (cstr_at_text [] t rs 0 eq_refl Tt) as CA. pose proof (cstr_at_text [] t [] 0 eq_refl Tt) as CA'. cbn [app] in CA, CA'. rewrite CA, CA'. cbn [bind]. exact (fun x => x).
Qed.
Print Assumptions C36_text_round_trip.

(** A failing asprintf in the middle does not make to_str fail: it returns the text of the remaining part
    of the map, because `break` leaves only the inner loop of hashmap_foreach. *)
Theorem C36_failed_alloc_gives_partial_text_refuted :
  exists p p' t, sp_create true true (fun n => n <=? 1152921504606846976) None = Ret (Some p) /\
    sp_run p (letters 2) = Ret (p', [RCode 0; RCode 0]) /\
    sp_to_str [] true p' = Ret (Some [65; 61; 118; 59; 66; 61; 118]) /\
    sp_to_str [false] true p' = Ret (Some t) /\ t <> [] /\ t = [66; 61; 118].
Proof.
  do 3 eexists. split; [vm_compute; reflexivity|]. split; [vm_compute; reflexivity|]. split; [vm_compute; reflexivity|].
  split; [vm_compute; reflexivity|]. split; [discriminate|reflexivity].
Qed.
Print Assumptions C36_failed_alloc_gives_partial_text_refuted.

(** the hypotheses are met by non-trivial cases *)
Lemma tables_ok_case : tables_ok (fun n => n <=? 1152921504606846976).
Proof. intro n. rewrite Z.leb_le. reflexivity. Qed.
Example C35_case : valid_op (SAdd all_ok [107] [118; 49]) /\ valid_op (SAddLong all_ok [110] (-42)) /\
  snd (m_run [] [SAdd all_ok [107] [118; 49]; SAddLong all_ok [110] (-42); SGet [107] (repeat 7 5); SGetLong [110]; SDel [107]; SHas [107]]) =
  [RCode 0; RCode 0; RStr 0 [118; 49; 0; 7; 7]; RNum 0 (Some (-42)); RCode 0; RBool false].
Proof.
  split; [|split; [|vm_compute; reflexivity]].
  - split; [|split; [|apply tables_ok_case]]; repeat constructor; lia.
  - split; [repeat constructor; lia|split; [lia|apply tables_ok_case]].
Qed.
Example C36_case : plain 59 ([107], [118; 61]) /\
  parse_pieces [] (pieces [59] [97; 61; 98; 59; 59; 99; 59; 61; 120; 59; 97; 61; 61]) = [([97], [61]); ([99], [])] /\
  dup_count [] (pieces [59] [97; 61; 98; 59; 59; 99; 59; 61; 120; 59; 97; 61; 61]) = 1.
Proof.
  split; [|split; vm_compute; reflexivity]. unfold plain. cbn. split; [discriminate|]. repeat split; intros [H|H]; try discriminate; try destruct H; discriminate || contradiction.
Qed.
