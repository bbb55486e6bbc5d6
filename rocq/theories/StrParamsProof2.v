From Verif Require Import CBase SeqLib CStr StringsModel StringsSpec StringsProof StringsProof2 HashmapModel HashmapSpec HashmapProof HashFnModel
  StrParamsModel StrParamsSpec StrParamsProof.

(** ** to_str *)
Lemma join_cons d x l : join d (x :: l) = x ++ flat_map (fun y => d ++ y) l.
Proof.
  revert x; induction l as [|y l IH]; intro x; [cbn; rewrite app_nil_r; reflexivity|].
  change (join d (x :: y :: l)) with (x ++ d ++ join d (y :: l)). rewrite IH. cbn [flat_map]. rewrite <- !app_assoc. reflexivity.
Qed.
Definition step_all (d : list Z) (c : option (list Z) * list bool) (p : Z * Z) := fst (combine_strings d c (fst p) (snd p)).
Lemma foreach_all_ok d m : foreach_st (combine_strings d) (None, []) m = fold_left (step_all d) (kv (concat (hm_buckets m))) (None, []).
Proof.
  unfold foreach_st. generalize (@None (list Z)) as o. induction (hm_buckets m) as [|c bs IH]; intro o; [reflexivity|].
  cbn [fold_left concat]. unfold kv in *. rewrite map_app, fold_left_app.
  assert (forall o, exists o', visit_st (combine_strings d) (o, []) c = (o', []) /\ fold_left (step_all d) (map (fun e => (e_key e, e_val e)) c) (o, []) = (o', [])) as X.
  { clear. induction c as [|e c IH]; intro o; [exists o; split; reflexivity|]. cbn [visit_st map fold_left]. unfold step_all at 2.
    unfold combine_strings at 1 3. cbn [fst snd tl]. apply IH. }
  destruct (X o) as (o' & E1 & E2). rewrite E1, E2. apply IH.
Qed.
Lemma fold_some d s : csmap s -> forall t, fold_left (step_all d) (encs s) (Some t, []) = (Some (t ++ flat_map (fun y => d ++ y) (map pair_text s)), []).
Proof.
  induction 1 as [|[k v] s [K V] CS IH]; intro t; [cbn; rewrite app_nil_r; reflexivity|]. cbn in K, V.
  cbn [encs map fold_left]. unfold step_all at 2. unfold combine_strings, enc1. cbn [fst snd tl]. rewrite !decode_code by assumption.
  fold (encs s). rewrite IH. unfold pair_text at 2. cbn [flat_map fst snd]. rewrite <- !app_assoc. reflexivity.
Qed.
Lemma fold_text d s : csmap s -> fold_left (step_all d) (encs s) (None, []) =
  (match s with [] => None | _ => Some (join d (map pair_text s)) end, []).
Proof.
  intro C. destruct C as [|[k v] s [K V] CS]; [reflexivity|]. cbn in K, V.
  cbn [encs map fold_left]. unfold step_all at 2. unfold combine_strings, enc1. cbn [fst snd tl]. rewrite !decode_code by assumption.
  fold (encs s). cbn [app]. rewrite fold_some by exact CS. cbn [map]. rewrite join_cons. reflexivity.
Qed.
Lemma to_str_ok p s okdup : srep p s -> exists s', Permutation s s' /\
  sp_to_str [] okdup p = Ret (match s' with [] => if okdup then Some [] else None | _ => Some (join (sp_delim p) (map pair_text s')) end).
Proof.
  intros (NB & CS & R). destruct R as (_ & _ & P & _). unfold encs in P. apply Permutation_map_inv in P as (s' & E & P).
  exists s'. split; [apply Permutation_sym, P || apply P|]. unfold sp_to_str. rewrite NB, foreach_all_ok, E.
  assert (csmap s') as CS'. { unfold csmap in *. eapply Permutation_Forall; [|exact CS]. apply P || apply Permutation_sym, P. }
  fold (encs s'). rewrite fold_text by exact CS'. cbn [fst]. destruct s'; [destruct okdup|]; reflexivity.
Qed.

(** ** create_str *)
Lemma pieces_c d s : cstring s -> Forall cstring (pieces d s).
Proof.
  intro C. unfold pieces. assert (Forall cstring (fields d s)) as X.
  { induction C as [|c s R C IH]; [repeat constructor|]. cbn [fields]. destruct (inset c d); [constructor; [constructor|exact IH]|].
    destruct IH as [|f fs F FS]; (constructor; [constructor; [exact R|]|]); assumption || constructor. }
  apply Forall_forall. intros x I. apply filter_In in I as [I _]. rewrite Forall_forall in X. auto.
Qed.
Lemma pieces_ne d s : Forall (fun f => f <> []) (pieces d s).
Proof. unfold pieces. apply Forall_forall. intros x I. apply filter_In in I as [_ I]. destruct x; [discriminate|discriminate]. Qed.
Lemma pieces_len d s : (length (pieces d s) <= S (length s))%nat.
Proof.
  unfold pieces. assert (length (fields d s) <= S (length s))%nat as X.
  { induction s as [|c s IH]; [cbn; lia|]. cbn [fields length]. destruct (inset c d); [cbn; lia|]. destruct (fields d s); cbn in *; lia. }
  assert (forall (l : list (list Z)) f, (length (filter f l) <= length l)%nat) as Y.
  { intros l f. induction l; cbn; [lia|]. destruct (f a); cbn; lia. }
  specialize (Y (fields d s) (fun f => match f with [] => false | _ => true end)). lia.
Qed.
Lemma inset1 c x : inset c [x] = (c =? x).
Proof. unfold inset. cbn. rewrite orb_false_r. reflexivity || (apply Z.eqb_sym). Qed.
Lemma split_eq_span kv : (span_out [61] kv = zlen kv /\ split_eq kv = None) \/
  exists a b, kv = a ++ 61 :: b /\ span_out [61] kv = zlen a /\ split_eq kv = Some (a, b).
Proof.
  induction kv as [|c kv IH]; [left; split; reflexivity|]. cbn [span_out split_eq]. rewrite inset1. destruct (c =? 61) eqn:E.
  - right. exists [], kv. assert (c = 61) as -> by lia. repeat split; reflexivity.
  - destruct IH as [[-> ->]|(a & b & -> & -> & ->)]; [left; rewrite zlen_cons; split; reflexivity|].
    right. exists (c :: a), b. rewrite zlen_cons. repeat split; reflexivity.
Qed.
Lemma put_pair_ok okx p s f : srep p s -> sane_table okx -> cstring f -> zlen s < big ->
  exists p', sp_put_pair okx p f = Ret (p', match parse_piece f with Some (k, v) => match lookup s k with Some _ => 1 | None => 0 end | None => 0 end) /\
    srep p' (match parse_piece f with Some (k, v) => update s k v | None => s end) /\ sp_delim p' = sp_delim p.
Proof.
  intros RR SX CF B. pose proof RR as (NB & CS & R). unfold sp_put_pair, parse_piece. cbv zeta.
  assert (forall k v, cstring k -> cstring v -> exists m', sp_put true okx (sp_map p) (code k) (code v) = Ret (m', match lookup s k with Some o => code o | None => 0 end) /\
    (match lookup s k with Some o => code o | None => 0 end =? 0) = (match lookup s k with Some _ => false | None => true end) /\
    srep (mk_sp m' (sp_delim p) false) (update s k v)) as X.
  { intros k v CK CV. destruct (sp_put_ok true okx (sp_map p) s k v SX R CS CK B) as (m' & E & R'). exists m'. split; [exact E|]. split.
    - destruct (lookup s k) as [o|] eqn:L; [apply code_nz; eapply lookup_c; eassumption|reflexivity].
    - split; [reflexivity|]. split; [apply update_c; assumption|]. destruct (lookup s k); exact R'. }
  destruct (split_eq_span f) as [[-> ->]|(a & b & -> & -> & ->)].
  - rewrite Z.eqb_refl. destruct (X f [] CF ltac:(constructor)) as (m' & E & O & R'). rewrite E. cbn [bind]. rewrite O. eexists.
    split; [|split; [exact R'|reflexivity]]. destruct (lookup s f); reflexivity.
  - rewrite zlen_app, zlen_cons. pose proof (zlen_nonneg b). destruct (zlen a =? zlen a + (1 + zlen b)) eqn:E0; [lia|].
    apply Forall_app in CF as [CA CB]. inversion_clear CB as [|? ? _ CB'].
    destruct a as [|x a]; [change (zlen (@nil Z)) with 0; cbn; exists p; split; [reflexivity|split; [exact RR|reflexivity]]|].
    destruct (zlen (x :: a) =? 0) eqn:E1; [rewrite zlen_cons in E1; pose proof (zlen_nonneg a); lia|].
    rewrite ztake_app_len. replace (zdrop (zlen (x :: a) + 1) ((x :: a) ++ 61 :: b)) with b.
    2:{ pose proof (zdrop_app_len ((x :: a) ++ [61]) b) as D. rewrite zlen_snoc, <- app_assoc in D. symmetry. exact D. }
    destruct (X (x :: a) b CA CB') as (m' & E & O & R'). rewrite E. cbn [bind]. rewrite O. eexists. split; [|split; [exact R'|reflexivity]].
    destruct (lookup s (x :: a)); reflexivity.
Qed.

Lemma parse_loop_ok okx r : sane_table okx -> forall fuel pre s f t p m leaked, srep p m -> (length s < fuel)%nat -> text s -> f <> [] -> cstring f ->
  Forall cstring (pieces (sp_delim p) s) -> zlen m + Z.of_nat fuel < big ->
  cstr_at (pre ++ s ++ 0 :: r) t = Ret f -> exists p',
  sp_parse_loop fuel okx (pre ++ s ++ 0 :: r) (zlen pre) (Some t) p leaked = Ret (p', leaked + dup_count m (f :: pieces (sp_delim p) s)) /\
  srep p' (parse_pieces m (f :: pieces (sp_delim p) s)) /\ sp_delim p' = sp_delim p.
Proof.
  intros SX. induction fuel as [|fuel IH]; intros pre s f t p m leaked R F T NF CF CP B CA; [lia|].
  cbn [sp_parse_loop]. rewrite CA. cbn [bind].
  assert (0 < zlen f) by (destruct f; [congruence|rewrite zlen_cons; pose proof (zlen_nonneg f); lia]).
  destruct (zlen f =? 0) eqn:E0; [lia|]. destruct (put_pair_ok okx p m f R SX CF ltac:(lia)) as (p1 & E1 & R1 & D1). rewrite E1. cbn [bind]. rewrite D1.
  destruct (strtok_ok (sp_delim p) s pre r T) as [Z1 Z2].
  set (m1 := match parse_piece f with Some (k, v) => update m k v | None => m end) in *.
  assert (zlen m1 <= zlen m + 1) as LM. { unfold m1. destruct (parse_piece f) as [[k v]|]; [apply update_len|lia]. }
  destruct (pieces (sp_delim p) s) as [|f2 fs] eqn:P.
  - destruct (Z1 eq_refl) as (ctx & E). rewrite E. cbn [bind]. unfold sp_parse_loop. exists p1. split.
    + destruct fuel; cbn [dup_count]; destruct (parse_piece f) as [[k v]|]; f_equal; f_equal; lia.
    + split; [exact R1|exact D1].
  - destruct (Z2 f2 fs eq_refl) as (pre' & s' & t' & E & T' & P' & _ & _ & _ & L & CA' & _). rewrite E. cbn [bind].
    inversion_clear CP as [|? ? CF2 CFS].
    destruct (IH pre' s' f2 t' p1 m1 (leaked + match parse_piece f with Some (k, v) => match lookup m k with Some _ => 1 | None => 0 end | None => 0 end) R1) as (p2 & E2 & R2 & D2); try assumption; try lia.
    { pose proof (pieces_ne (sp_delim p) s) as NE. rewrite P in NE. inversion_clear NE. assumption. }
    { rewrite D1, P'. exact CFS. }
    rewrite D1, P' in *. exists p2. rewrite E2. split; [|split; [exact R2|congruence]].
    f_equal. f_equal. cbn [dup_count]. unfold m1. destruct (parse_piece f) as [[k v]|]; cbn [dup_count]; lia.
Qed.

Lemma sp_create_str_ok okx t r delim s rs : tables_ok okx -> text t -> delim = None /\ t = [59] \/ delim = Some (t ++ 0 :: r) ->
  cstring s -> zlen s + 3 < big ->
  exists p, sp_create_str true true true okx delim (s ++ 0 :: rs) = Ret (Some (p, dup_count [] (pieces (ztake 1 t) s))) /\
    srep p (parse_pieces [] (pieces (ztake 1 t) s)) /\ sp_delim p = ztake 1 t.
Proof.
  intros T TT D CS B. unfold sp_create_str. destruct (sp_create_ok true true okx t r delim T TT D) as [(p & E & R & DL & _)|(_ & [?|?])]; try discriminate.
  rewrite E. cbn [bind negb]. rewrite <- DL.
  pose proof (cstring_text s CS) as TS. pose proof (cstr_at_text [] s rs 0 eq_refl TS) as CA. cbn [app] in CA. rewrite CA. cbn [bind]. cbv zeta.
  pose proof (strtok_ok (sp_delim p) s [] [] TS) as [Z1 Z2]. change (zlen (@nil Z)) with 0 in *. cbn [app] in *.
  pose proof (pieces_c (sp_delim p) s CS) as PC. pose proof (pieces_ne (sp_delim p) s) as NE.
  destruct (pieces (sp_delim p) s) as [|f fs] eqn:P.
  - destruct (Z1 eq_refl) as (ctx & E1). rewrite E1. cbn [bind]. cbn [sp_parse_loop bind]. exists p. split; [reflexivity|]. split; [exact R|reflexivity].
  - destruct (Z2 f fs eq_refl) as (pre' & s' & t' & E1 & T' & P' & _ & _ & LL & L & CA' & _). rewrite E1. cbn [bind].
    inversion_clear PC as [|? ? CF CFS]. inversion_clear NE as [|? ? NF NFS].
    assert (length (pre' ++ s' ++ [0]) = S (length s)) as LEN.
    { unfold zlen in LL. rewrite app_length in LL. rewrite !app_length. cbn [length]. lia. }
    destruct (parse_loop_ok okx [] (tables_sane _ T) (S (length (pre' ++ s' ++ [0]))) pre' s' f t' p [] 0 R) as (p' & E2 & R' & D'); try assumption.
    { rewrite LEN. lia. }
    { rewrite P'. exact CFS. }
    { rewrite LEN. change (zlen (@nil (list Z * list Z))) with 0. unfold zlen in B. lia. }
    rewrite E2. cbn [bind]. rewrite P' in *. exists p'. split; [reflexivity|]. split; assumption.
Qed.

(** ** equality of maps *)
Definition same (s s' : smap) : Prop := forall k, lookup s k = lookup s' k.
Lemma lookup_app a b k : lookup (a ++ b) k = match lookup a k with Some v => Some v | None => lookup b k end.
Proof. induction a as [|[x y] a IH]; [reflexivity|]. cbn [app lookup]. destruct (list_eqb x k); [reflexivity|exact IH]. Qed.
Lemma lookup_update s k v k' : lookup (update s k v) k' = if list_eqb k k' then Some v else lookup s k'.
Proof.
  unfold update. destruct (lookup s k) as [o|] eqn:L.
  - destruct (list_eqb k k') eqn:E.
    + apply list_eqb_iff in E. subst k'. induction s as [|[x y] s IH]; [discriminate|]. cbn [map lookup fst] in *.
      destruct (list_eqb x k) eqn:X; cbn [lookup fst]; rewrite X; [reflexivity|auto].
    + clear L. induction s as [|[x y] s IH]; [reflexivity|]. cbn [map lookup fst]. destruct (list_eqb x k) eqn:X; cbn [lookup fst].
      * apply list_eqb_iff in X. subst x. rewrite E. exact IH.
      * destruct (list_eqb x k'); [reflexivity|exact IH].
  - rewrite lookup_app. cbn [lookup]. destruct (list_eqb k k') eqn:E.
    + apply list_eqb_iff in E. subst. rewrite L. reflexivity.
    + destruct (lookup s k'); reflexivity.
Qed.
Lemma lookup_delete s k k' : lookup (delete s k) k' = if list_eqb k k' then None else lookup s k'.
Proof.
  unfold delete. induction s as [|[x y] s IH]; [destruct (list_eqb k k'); reflexivity|]. cbn [filter lookup fst].
  destruct (list_eqb x k) eqn:X; cbn [negb lookup fst].
  - rewrite IH. apply list_eqb_iff in X. subst x. destruct (list_eqb k k'); reflexivity.
  - destruct (list_eqb x k') eqn:Y; [|exact IH]. apply list_eqb_iff in Y. subst x. rewrite list_eqb_sym, X. reflexivity.
Qed.
Lemma same_step s s' o : same s s' -> same (fst (m_step s o)) (fst (m_step s' o)) /\ snd (m_step s o) = snd (m_step s' o).
Proof.
  intro S. assert (forall a k v, same (fst (m_add s a k v)) (fst (m_add s' a k v)) /\ snd (m_add s a k v) = snd (m_add s' a k v)) as A.
  { intros a k v. unfold m_add, add_succeeds. rewrite S. destruct (sa_key a && sa_val a && _); cbn [fst snd]; split; try reflexivity; [|exact S].
    intro x. rewrite !lookup_update, S. reflexivity. }
  destruct o; cbn [m_step fst snd]; try apply A; (split; [try exact S|try reflexivity]).
  - intro x. rewrite !lookup_delete, S. reflexivity.
  - rewrite S. reflexivity.
  - rewrite S. reflexivity.
  - unfold m_long. rewrite S. reflexivity.
  - unfold m_long. rewrite S. reflexivity.
Qed.
Lemma same_run h : forall s s', same s s' -> snd (m_run s h) = snd (m_run s' h).
Proof.
  induction h as [|o h IH]; intros s s' S; [reflexivity|]. cbn [m_run snd]. destruct (same_step s s' o S) as [S1 E]. rewrite E, (IH _ _ S1). reflexivity.
Qed.
Definition ukeys (s : smap) : Prop := NoDup (map fst s).
Lemma lookup_iff s k v : ukeys s -> lookup s k = Some v <-> In (k, v) s.
Proof.
  unfold ukeys. induction s as [|[x y] s IH]; cbn [map fst lookup]; intro N; [split; [discriminate|intros []]|].
  inversion_clear N as [|? ? NI N']. destruct (list_eqb x k) eqn:E.
  - apply list_eqb_iff in E. subst x. split.
    + intro H; injection H as ->. left; reflexivity.
    + intros [H|H]; [congruence|]. exfalso. apply NI. apply (in_map fst) in H. exact H.
  - rewrite IH by exact N'. split; [right; assumption|]. intros [H|H]; [|exact H]. injection H as -> ->. rewrite list_eqb_refl in E. discriminate.
Qed.
Lemma perm_same s s' : ukeys s -> Permutation s s' -> same s s'.
Proof.
  intros U P k. assert (ukeys s') as U' by (eapply Permutation_NoDup; [apply Permutation_map; exact P|exact U]).
  destruct (lookup s k) as [v|] eqn:L.
  - symmetry. apply lookup_iff; [exact U'|]. apply lookup_iff in L; [|exact U]. eapply Permutation_in; eassumption.
  - destruct (lookup s' k) as [v|] eqn:L'; [|reflexivity]. apply lookup_iff in L'; [|exact U'].
    assert (lookup s k = Some v) as X; [|congruence]. apply lookup_iff; [exact U|]. eapply Permutation_in; [apply Permutation_sym; exact P|exact L'].
Qed.
Lemma srep_ukeys p s : srep p s -> ukeys s.
Proof.
  intros (_ & _ & (_ & _ & _ & U)). destruct U as [U _]. unfold encs in U. rewrite map_map in U. cbn in U.
  unfold ukeys. rewrite <- (map_map fst code) in U. eapply NoDup_map_inv. exact U.
Qed.
Lemma parse_plain d p : plain d p -> parse_piece (pair_text p) = Some p.
Proof.
  destruct p as [k v]. intros (NE & NQ & _). cbn [fst snd] in *. unfold parse_piece, pair_text. cbn [fst snd].
  assert (split_eq (k ++ 61 :: v) = Some (k, v)) as ->.
  { clear NE. induction k as [|c k IH]; [reflexivity|]. cbn [app split_eq]. destruct (c =? 61) eqn:E; [exfalso; apply NQ; left; lia|].
    rewrite IH; [reflexivity|]. intro I. apply NQ. right; exact I. }
  destruct k; [congruence|reflexivity].
Qed.
Lemma parse_pairs d s : Forall (plain d) s -> forall m, ukeys (m ++ s) -> parse_pieces m (map pair_text s) = m ++ s.
Proof.
  induction 1 as [|p s P F IH]; intros m U; [cbn; rewrite app_nil_r; reflexivity|]. cbn [map parse_pieces]. rewrite (parse_plain d p P).
  destruct p as [k v]. assert (lookup m k = None) as L.
  { destruct (lookup m k) as [x|] eqn:L; [|reflexivity]. exfalso. unfold ukeys in U. rewrite map_app in U. cbn [map fst] in U.
    apply NoDup_remove_2 in U. apply U. apply in_app_iff. left. change k with (fst (k, x)). apply in_map.
    clear -L. induction m as [|[a b] m IH]; [discriminate|]. cbn [lookup] in L. destruct (list_eqb a k) eqn:E; [|right; auto].
    apply list_eqb_iff in E. left. congruence. }
  unfold update. rewrite L. rewrite IH; rewrite <- app_assoc; [reflexivity|exact U].
Qed.
Lemma allout1 d x : ~ In d x -> allout [d] x.
Proof. intro N. apply Forall_forall. intros c I. rewrite inset1. destruct (c =? d) eqn:E; [|reflexivity]. exfalso. apply N. assert (c = d) as <- by lia. exact I. Qed.
Lemma pieces_join d l : Forall (fun f => f <> [] /\ ~ In d f) l -> pieces [d] (join [d] l) = l.
Proof.
  induction 1 as [|f l [NE NI] F IH]; [reflexivity|]. destruct l as [|g l].
  - cbn [join]. apply pieces_field_end; [apply allout1, NI|exact NE].
  - change (join [d] (f :: g :: l)) with (f ++ d :: join [d] (g :: l)).
    rewrite pieces_field; [rewrite IH; reflexivity|apply allout1, NI|exact NE|rewrite inset1; lia].
Qed.
Lemma plain_piece d s : d <> 61 -> Forall (plain d) s -> Forall (fun f => f <> [] /\ ~ In d f) (map pair_text s).
Proof.
  intros D F. apply Forall_map. eapply Forall_impl; [|exact F]. intros [k v] (NE & _ & N1 & N2). unfold pair_text. cbn [fst snd] in *. split.
  - destruct k; discriminate.
  - intro I. apply in_app_iff in I as [I|[I|I]]; [auto|lia|auto].
Qed.
Lemma join_c d s : 1 <= d < 256 -> csmap s -> cstring (join [d] (map pair_text s)).
Proof.
  intros D C. destruct C as [|[k v] s [K V] CS]; [constructor|]. cbn [map]. rewrite join_cons. cbn in K, V. apply Forall_app. split.
  - unfold pair_text. cbn [fst snd]. apply Forall_app. split; [exact K|]. constructor; [lia|exact V].
  - induction CS as [|[k' v'] s [K' V'] CS IH]; [constructor|]. cbn [map flat_map]. apply Forall_app. split; [|exact IH].
    cbn in K', V'. constructor; [lia|]. unfold pair_text. cbn [fst snd]. apply Forall_app. split; [exact K'|]. constructor; [lia|exact V'].
Qed.

Lemma round_trip d r okx p s : 1 <= d < 256 -> d <> 61 -> tables_ok okx -> srep p s -> sp_delim p = [d] -> Forall (plain d) s ->
  zlen (join [d] (map pair_text s)) + 3 < big ->
  exists t, sp_to_str [] true p = Ret (Some t) /\ forall rs, exists p2, sp_create_str true true true okx (Some (d :: 0 :: r)) (t ++ 0 :: rs) = Ret (Some (p2, 0)) /\
    forall h, Forall valid_op h -> zlen s + zlen h < big -> forall p3 res, sp_run p h = Ret (p3, res) -> exists p4, sp_run p2 h = Ret (p4, res).
Proof.
  intros D1 D2 T R DL F B. destruct (to_str_ok p s true R) as (s' & P & E).
  assert (E' : sp_to_str [] true p = Ret (Some (join [d] (map pair_text s')))) by (rewrite E, DL; destruct s'; reflexivity).
  exists (join [d] (map pair_text s')). split; [exact E'|]. intro rs.
  assert (CS' : csmap s') by (unfold csmap; eapply Permutation_Forall; [exact P|apply R]).
  assert (F' : Forall (plain d) s') by (eapply Permutation_Forall; [exact P|exact F]).
  pose proof (srep_ukeys p s R) as U. assert (U' : ukeys s') by (eapply Permutation_NoDup; [apply Permutation_map; exact P|exact U]).
  assert (LJ : zlen (join [d] (map pair_text s')) = zlen (join [d] (map pair_text s))).
  { assert (forall x, zlen (join [d] (map pair_text x)) = match x with [] => 0 | _ => fold_right (fun p a => 1 + zlen (pair_text p) + a) (-1) x end) as J.
    { intros [|a x]; [reflexivity|]. cbn [map]. rewrite join_cons, zlen_app. cbn [fold_right].
      assert (zlen (flat_map (fun y => [d] ++ y) (map pair_text x)) = fold_right (fun p a => 1 + zlen (pair_text p) + a) (-1) x + 1) as ->; [|lia].
      induction x as [|b x IH]; [reflexivity|]. cbn [map flat_map fold_right]. rewrite !zlen_app, IH. change (zlen [d]) with 1. lia. }
    rewrite !J. assert (FP : fold_right (fun p a => 1 + zlen (pair_text p) + a) (-1) s' = fold_right (fun p a => 1 + zlen (pair_text p) + a) (-1) s).
    { clear -P. induction P; cbn [fold_right]; lia. }
    destruct s as [|? ?]; [apply Permutation_nil in P; subst; reflexivity|]. destruct s' as [|? ?]; [apply Permutation_sym, Permutation_nil in P; discriminate|]. exact FP. }
  destruct (sp_create_str_ok okx [d] r (Some (d :: 0 :: r)) (join [d] (map pair_text s')) rs T) as (p2 & E2 & R2 & D2').
  { repeat constructor; lia. }
  { right; reflexivity. }
  { apply join_c; assumption. }
  { lia. }
  change (ztake 1 [d]) with [d] in *. rewrite pieces_join in * by (apply plain_piece; assumption).
  rewrite (parse_pairs d s' F' []) in R2 by exact U'. cbn [app] in R2.
  assert (dup_count [] (map pair_text s') = 0) as DC.
  { assert (forall m, ukeys (m ++ s') -> dup_count m (map pair_text s') = 0) as X; [|apply (X []); exact U'].
    clear -F'. induction F' as [|q s P F IH]; intros m U; [reflexivity|]. cbn [map dup_count]. rewrite (parse_plain d q P). destruct q as [k v].
    assert (lookup m k = None) as L.
    { destruct (lookup m k) as [x|] eqn:L; [|reflexivity]. exfalso. unfold ukeys in U. rewrite map_app in U. cbn [map fst] in U.
      apply NoDup_remove_2 in U. apply U. apply in_app_iff. left. change k with (fst (k, x)). apply in_map.
      clear -L. induction m as [|[a b] m IH]; [discriminate|]. cbn [lookup] in L. destruct (list_eqb a k) eqn:E; [|right; auto].
      apply list_eqb_iff in E. left. congruence. }
    rewrite L. unfold update. rewrite L, IH; [reflexivity|]. rewrite <- app_assoc. exact U. }
  rewrite DC in E2. exists p2. split; [exact E2|]. intros h V BH p3 res ER.
  destruct (sp_run_ok h p s R V BH) as (q & EQ & _). rewrite EQ in ER. injection ER as <- <-.
  destruct (sp_run_ok h p2 s' R2 V) as (q2 & EQ2 & _). { rewrite <- (Perm_zlen _ _ P). exact BH. }
  exists q2. rewrite EQ2. f_equal. f_equal. symmetry. apply same_run. apply perm_same; assumption.
Qed.
