From Verif Require Import CBase CStr SeqLib FileModel IniReaderModel IniReaderSpec IniReaderProof IniReaderProof2 StringsModel StrParamsModel IniModel IniSpec IniProof IniProof2 IniProof3 IniProof4.

Lemma piece_line a b : ~ In 10 a -> forall n, (length a < n)%nat -> piece n (a ++ 10 :: b) = (a ++ [10], b).
Proof.
  induction a as [|c a IH]; intros N n L; (destruct n as [|n]; [cbn in L; lia|]); cbn [app piece].
  - reflexivity.
  - destruct (Z.eqb_spec c 10) as [->|_]; [exfalso; apply N; left; reflexivity|]. rewrite IH; [reflexivity|intro; apply N; right; assumption|cbn [length] in L; lia].
Qed.
Lemma rtrim_space t c : isspace c = true -> rtrim (t ++ [c]) = rtrim t.
Proof. intro H. rewrite rtrim_snoc, H. reflexivity. Qed.
Lemma rtrim_ends t : (forall c r, t = r ++ [c] -> isspace c = false) -> rtrim t = t.
Proof.
  intro H. destruct t as [|x t0] eqn:E; [reflexivity|]. destruct (@exists_last _ (x :: t0) ltac:(discriminate)) as (r & c & E'). rewrite E' in *.
  rewrite rtrim_snoc, (H c r eq_refl). reflexivity.
Qed.
Lemma skip_ends t : (forall c r, t = c :: r -> isspace c = false) -> skip_space t = t.
Proof. destruct t as [|c r]; [reflexivity|]. intro H. cbn [skip_space]. rewrite (H c r eq_refl). reflexivity. Qed.
(** cutting stops exactly at the first stop character when there is no comment before it *)
Lemma until_stop stop t : forall w d r, (forall c, In c t -> inset c stop = false) -> no_comment t -> (w = true -> forall r, t <> 59 :: r) -> inset d stop = true ->
  until stop w (t ++ d :: r) = t.
Proof.
  induction t as [|c t IH]; intros w d r N C W D; cbn [app until].
  - rewrite D. reflexivity.
  - rewrite (N c (or_introl eq_refl)). cbn [orb].
    assert ((w && (c =? 59)) = false) as ->.
    { destruct w; [|reflexivity]. destruct (Z.eqb_spec c 59) as [->|]; [|reflexivity]. exfalso. apply (W eq_refl t). reflexivity. }
    f_equal. apply IH; [intros x Ix; apply N; right; exact Ix| | |exact D].
    + intros a x b E. apply (C (c :: a) x b). rewrite E. reflexivity.
    + intros Hw r' ->. specialize (C [] c r' eq_refl). congruence.
Qed.
Lemma until_end t : forall w, no_comment t -> (w = true -> forall r, t <> 59 :: r) -> until [] w t = t.
Proof.
  induction t as [|c t IH]; intros w C W; cbn [until]; [reflexivity|].
  change (inset c []) with false. cbn [orb]. assert ((w && (c =? 59)) = false) as ->.
  { destruct w; [|reflexivity]. destruct (Z.eqb_spec c 59) as [->|]; [|reflexivity]. exfalso. apply (W eq_refl t). reflexivity. }
  f_equal. apply IH.
  - intros a x b E. apply (C (c :: a) x b). rewrite E. reflexivity.
  - intros Hw r' ->. specialize (C [] c r' eq_refl). congruence.
Qed.

Lemma header_meaning first prev s : plain_section s -> meaning_of first prev ([91] ++ s ++ [93; 13; 10]) = MSection s.
Proof.
  intros (N & T & L & N10 & N93 & C). unfold meaning_of.
  assert (first && starts_with [239; 187; 191] ([91] ++ s ++ [93; 13; 10]) = false) as -> by (destruct first; reflexivity).
  assert (rtrim ([91] ++ s ++ [93; 13; 10]) = [91] ++ s ++ [93]) as ->.
  { replace ([91] ++ s ++ [93; 13; 10]) with ((([91] ++ s ++ [93]) ++ [13]) ++ [10]) by (rewrite <- !app_assoc; reflexivity).
    rewrite !rtrim_space by reflexivity. rewrite app_assoc, rtrim_snoc. reflexivity. }
  cbn [app skip_space]. change (isspace 91) with false. cbn iota. change (inset 91 [59; 35]) with false.
  rewrite Z.eqb_refl. cbn [negb orb]. rewrite andb_false_r. change (91 =? 91) with true. cbn iota.
  rewrite (until_stop [93] s false 93 []); [|intros c Ic|exact C|discriminate|reflexivity].
  - rewrite rest_of_app. reflexivity.
  - destruct (inset c [93]) eqn:E; [|reflexivity]. exfalso. apply N93. cbn in E. destruct (Z.eqb_spec c 93) as [->|]; [exact Ic|discriminate].
Qed.
Lemma no_comment_snoc k : no_comment k -> no_comment (k ++ [32]).
Proof.
  intros C a x b E. destruct b as [|y b].
  - change (x :: [59]) with ([x] ++ [59]) in E. rewrite app_assoc in E. apply app_inj_tail in E as [_ E]. discriminate.
  - destruct (@exists_last _ (y :: b) ltac:(discriminate)) as (b' & z & E'). rewrite E' in E.
    replace (a ++ x :: 59 :: b' ++ [z]) with ((a ++ x :: 59 :: b') ++ [z]) in E by (rewrite <- app_assoc; reflexivity).
    apply app_inj_tail in E as [E _]. exact (C _ _ _ E).
Qed.
Lemma pair_meaning prev k v : plain_pair (k, v) -> meaning_of false prev (line_of (k, v)) = MPair k v.
Proof.
  intros (N & Tk & Tv & L1 & L2 & N10 & N61 & N58 & Ck & [S1 S2] & H & V10 & Cv & [V1 V2]). unfold meaning_of. cbn [andb].
  assert (E : rtrim (line_of (k, v)) = (k ++ [32]) ++ 61 :: (match v with [] => [] | _ => 32 :: v end)).
  { unfold line_of. cbn [fst snd].
    replace (k ++ [32; 61; 32] ++ v ++ [13; 10]) with (((k ++ [32; 61; 32] ++ v) ++ [13]) ++ [10]) by (rewrite <- !app_assoc; reflexivity).
    rewrite !rtrim_space by reflexivity. destruct v as [|x v0] eqn:Ev.
    - replace (k ++ [32; 61; 32] ++ []) with (((k ++ [32]) ++ [61]) ++ [32]) by (rewrite <- !app_assoc; reflexivity).
      rewrite rtrim_space by reflexivity. rewrite rtrim_snoc. reflexivity.
    - rewrite rtrim_ends; [rewrite <- app_assoc; reflexivity|]. intros c r Er. apply (V2 c (zdrop (zlen (k ++ [32; 61; 32])) r)).
      destruct (@exists_last _ (x :: v0) ltac:(discriminate)) as (b & z & Eb). rewrite Eb in *.
      replace (k ++ [32; 61; 32] ++ b ++ [z]) with ((k ++ [32; 61; 32] ++ b) ++ [z]) in Er by (rewrite <- !app_assoc; reflexivity).
      apply app_inj_tail in Er as [<- <-]. rewrite app_assoc, zdrop_app_len. reflexivity. }
  rewrite E. clear E. set (tl := match v with [] => [] | _ => 32 :: v end).
  rewrite (skip_ends ((k ++ [32]) ++ 61 :: tl)).
  2:{ intros c r Er. destruct k as [|c0 k]; [congruence|]. injection Er as <- _. apply (S1 c0 k eq_refl). }
  destruct k as [|c k0]; [congruence|]. destruct (H c k0 eq_refl) as (H1 & H2 & H3). cbn [app]. set (k := c :: k0) in *.
  assert (inset c [59; 35] = false) as -> by (cbn; destruct (Z.eqb_spec c 59), (Z.eqb_spec c 35); try congruence; try reflexivity; contradiction).
  rewrite Z.eqb_refl. cbn [negb orb]. rewrite andb_false_r. destruct (Z.eqb_spec c 91) as [|_]; [congruence|].
  change (c :: (k0 ++ [32]) ++ 61 :: tl) with ((k ++ [32]) ++ 61 :: tl).
  rewrite (until_stop [61; 58] (k ++ [32]) false 61 tl); [|intros x Ix|apply no_comment_snoc; exact Ck|discriminate|reflexivity].
  - rewrite rest_of_app. change (inset 61 [61; 58]) with true. cbn iota. rewrite rtrim_space by reflexivity. rewrite (rtrim_ends k S2). f_equal.
    unfold tl. destruct v as [|y v0] eqn:Ev; [reflexivity|]. rewrite <- Ev in *. rewrite (until_end (32 :: v) false Cv) by discriminate.
    cbn [skip_space]. change (isspace 32) with true. cbn iota. rewrite (skip_ends v V1). apply rtrim_ends. exact V2.
  - apply in_app_or in Ix. destruct (inset x [61; 58]) eqn:E; [|reflexivity]. exfalso. cbn in E.
    destruct Ix as [Ix|[<-|[]]]; [|discriminate]. destruct (Z.eqb_spec x 61) as [->|]; [exact (N61 Ix)|]. destruct (Z.eqb_spec x 58) as [->|]; [exact (N58 Ix)|discriminate].
Qed.
Lemma blank_meaning prev : meaning_of false prev [13; 10] = MNothing. Proof. reflexivity. Qed.

Notation H := (ini_handler_cb all_ok).
Lemma stream_line fuel q lineno a b q' : ~ In 10 a -> zlen a < 199 -> sp_line H q (lineno + 1) (a ++ [10]) = Ret q' ->
  sp_stream (S fuel) H q lineno (a ++ 10 :: b) = sp_stream fuel H q' (lineno + 1) b.
Proof.
  intros N L E. cbn [sp_stream]. rewrite (piece_line a b N 199) by (unfold zlen in L; lia).
  destruct (a ++ 10 :: b) as [|x y] eqn:Z; [destruct a; discriminate|]. rewrite E. reflexivity.
Qed.
Lemma put_hist p m s k v : hist p m -> s <> [] -> k <> [] -> text s -> text k -> text v -> zlen s <= 63 -> zlen k <= 63 -> zlen v <= 255 ->
  exists p', H p s k (Some v) = Ret (true, p') /\ hist p' (m_put m s k v).
Proof.
  intros Hh Ns Nk Ts Tk Tv Ls Lk Lv.
  assert (O : iop_ok m (IPut all_ok (Some s) (Some k) (Some v))) by (repeat split; try assumption; discriminate).
  destruct (iop_lemma p m _ (hist_inv _ _ Hh) O) as (p' & E & _).
  pose proof (hist_step p m _ _ p' Hh O E) as Hs. cbn [run_iop] in E.
  assert (Es : sp_iop m (IPut all_ok (Some s) (Some k) (Some v)) = (0, m_put m s k v)).
  { cbn [sp_iop]. destruct s as [|c s]; [congruence|]. destruct k as [|d k]; [congruence|]. cbn [all_ok ok_sec ok_list ok_snode ok_kv ok_knode andb].
    rewrite !orb_true_r. reflexivity. }
  rewrite Es in *. cbn [fst snd] in *. exists p'. split; [|exact Hs]. unfold ini_handler_cb. rewrite E. reflexivity.
Qed.
Lemma put_known m s l k v : assoc s m = None -> assoc k l = None -> m_put (m ++ [(s, l)]) s k v = m ++ [(s, l ++ [(k, v)])].
Proof. intros A B. unfold m_put. rewrite alter_app by exact A. cbn [alter]. rewrite same_refl. rewrite alter_new by exact B. reflexivity. Qed.
Lemma put_fresh m s k v : assoc s m = None -> m_put m s k v = m ++ [(s, [(k, v)])].
Proof. intro A. unfold m_put. rewrite alter_new by exact A. reflexivity. Qed.
Lemma keys_mid {V} (a : list (list Z * V)) x b : keys_ok (a ++ x :: b) -> assoc (fst x) a = None.
Proof.
  unfold keys_ok. intro D. apply assoc_None. intros y Iy. apply not_true_is_false. intro E. apply same_iff in E.
  rewrite map_app in D. cbn [map] in D. apply NoDup_remove_2 in D. apply D. apply in_or_app. left. rewrite E.
  apply (in_map (fun x => map up (fst x))). exact Iy.
Qed.
Definition so_far (m : mini) (s : list Z) (l : list (list Z * list Z)) : mini := match l with [] => m | _ => m ++ [(s, l)] end.
Lemma kvs_round m s rest : assoc s m = None -> plain_section s ->
  forall l done q lineno fuel, keys_ok (done ++ l) -> Forall plain_pair l -> hist (q_user q) (so_far m s done) -> q_section q = s -> q_error q = 0 -> 1 <= lineno ->
    (length (flat_map line_of l ++ rest) <= fuel)%nat ->
  exists fuel' lineno' q', sp_stream fuel H q lineno (flat_map line_of l ++ rest) = sp_stream fuel' H q' lineno' rest /\
    hist (q_user q') (so_far m s (done ++ l)) /\ q_section q' = s /\ q_error q' = 0 /\ lineno <= lineno' /\ (length rest <= fuel')%nat.
Proof.
  intros A (Ns & Ts & Ls & _). induction l as [|[k v] l IH]; intros done q lineno fuel K F Hh Es Ee Hl Hf.
  - exists fuel, lineno, q. cbn [flat_map app] in *. rewrite app_nil_r. split; [reflexivity|]. split; [exact Hh|]. split; [exact Es|]. split; [exact Ee|]. split; [lia|exact Hf].
  - inversion F as [|x y P F']; subst x y. pose proof P as P0. destruct P as (Nk & Tk & Tv & L1 & L2 & N10 & _ & _ & _ & _ & _ & V10 & _).
    destruct (put_hist _ _ s k v Hh Ns Nk Ts Tk Tv) as (p' & E & Hp); [lia|lia|pose proof (zlen_nonneg k); lia|].
    set (q1 := mk_sp_rd s (ztake 49 k) 0 p').
    assert (SL : sp_line H q (lineno + 1) (line_of (k, v)) = Ret q1).
    { unfold sp_line. destruct (Z.eqb_spec (lineno + 1) 1) as [|_]; [lia|]. rewrite pair_meaning by exact P0. rewrite Es, E. cbn [bind]. rewrite Ee. reflexivity. }
    assert (Kd : assoc k done = None) by (apply (keys_mid done (k, v) l); exact K).
    assert (Ed : so_far m s (done ++ [(k, v)]) = m_put (so_far m s done) s k v).
    { destruct done as [|d done0] eqn:Z; [cbn [app so_far]; symmetry; apply put_fresh; exact A|]. rewrite <- Z in *.
      assert (so_far m s done = m ++ [(s, done)]) as -> by (rewrite Z; reflexivity).
      assert (so_far m s (done ++ [(k, v)]) = m ++ [(s, done ++ [(k, v)])]) as -> by (rewrite Z; reflexivity).
      symmetry. apply put_known; assumption. }
    cbn [flat_map] in *. destruct fuel as [|fuel].
    { exfalso. unfold line_of in Hf. rewrite !app_length in Hf. cbn [length fst snd] in Hf. lia. }
    assert (EL : line_of (k, v) = (k ++ [32; 61; 32] ++ v ++ [13]) ++ [10]) by (unfold line_of; cbn [fst snd]; rewrite <- !app_assoc; reflexivity).
    assert (EE : (line_of (k, v) ++ flat_map line_of l) ++ rest = (k ++ [32; 61; 32] ++ v ++ [13]) ++ 10 :: (flat_map line_of l ++ rest)).
    { rewrite EL. rewrite <- !app_assoc. reflexivity. }
    rewrite EE in *. rewrite (stream_line fuel q lineno _ _ q1).
    + destruct (IH (done ++ [(k, v)]) q1 (lineno + 1) fuel) as (f' & n' & q' & E' & R1 & R2 & R3 & R4 & R5).
      * rewrite <- app_assoc. exact K.
      * exact F'.
      * rewrite Ed. exact Hp.
      * reflexivity.
      * reflexivity.
      * lia.
      * rewrite app_length in Hf. cbn [length] in Hf. lia.
      * exists f', n', q'. split; [exact E'|]. rewrite <- app_assoc in R1. split; [exact R1|]. split; [exact R2|]. split; [exact R3|]. split; [lia|exact R5].
    + rewrite !in_app_iff. cbn [In]. intros [I|[[I|[I|[I|I]]]|[I|[I|I]]]]; try lia; try exact I; [exact (N10 I)|exact (V10 I)].
    + rewrite !zlen_app. change (zlen [32; 61; 32]) with 3. change (zlen [13]) with 1. lia.
    + rewrite <- EL. exact SL.
Qed.
Lemma secs_round : forall m done q lineno fuel, keys_ok (done ++ m) -> Forall (fun x => plain_section (fst x) /\ snd x <> [] /\ distinct (snd x) /\ Forall plain_pair (snd x)) m ->
  hist (q_user q) done -> q_error q = 0 -> 0 <= lineno -> (length (dump_text m) <= fuel)%nat ->
  exists p', sp_stream fuel H q lineno (dump_text m) = Ret (0, p') /\ hist p' (done ++ m).
Proof.
  induction m as [|[s l] m IH]; intros done q lineno fuel K F Hh Ee Hl Hf.
  - exists (q_user q). rewrite app_nil_r. cbn [dump_text flat_map]. split; [|exact Hh]. destruct fuel; cbn [sp_stream]; rewrite Ee; reflexivity.
  - inversion F as [|x y P F']; subst x y. cbn [fst snd] in P. destruct P as (Ps & Nl & Dl & Pl).
    pose proof Ps as Ps0. destruct Ps0 as (Ns & Ts & Ls & N10 & N93 & _).
    assert (A : assoc s done = None) by (apply (keys_mid done (s, l) m); exact K).
    assert (EE : dump_text ((s, l) :: m) = ([91] ++ s ++ [93; 13]) ++ 10 :: (flat_map line_of l ++ ([13] ++ 10 :: dump_text m))).
    { unfold dump_text. cbn [flat_map]. unfold section_text. cbn [fst snd]. rewrite <- !app_assoc. reflexivity. }
    rewrite EE in *. destruct fuel as [|fuel]; [exfalso; rewrite app_length in Hf; cbn [length] in Hf; lia|].
    set (q1 := mk_sp_rd s [] 0 (q_user q)).
    assert (S49 : ztake 49 s = s) by (apply ztake_all; lia).
    rewrite (stream_line fuel q lineno _ _ q1).
    + destruct (kvs_round done s ([13] ++ 10 :: dump_text m) A Ps l [] q1 (lineno + 1) fuel) as (f' & n' & q' & E' & R1 & R2 & R3 & R4 & R5); try assumption; try reflexivity; try lia.
      { rewrite app_length in Hf. cbn [length] in Hf. lia. }
      rewrite E'. destruct f' as [|f']; [exfalso; rewrite app_length in R5; cbn [length] in R5; lia|].
      rewrite (stream_line f' q' n' [13] (dump_text m) q').
      * destruct (IH (done ++ [(s, l)]) q' (n' + 1) f') as (p' & E2 & H2).
        -- rewrite <- app_assoc. exact K.
        -- exact F'.
        -- cbn [app] in R1. destruct l; [congruence|]. exact R1.
        -- exact R3.
        -- lia.
        -- cbn [app length] in R5. lia.
        -- exists p'. split; [exact E2|]. rewrite <- app_assoc in H2. exact H2.
      * intros [|[]]; discriminate.
      * reflexivity.
      * unfold sp_line. destruct (Z.eqb_spec (n' + 1) 1); [lia|]. cbn [app]. rewrite blank_meaning. reflexivity.
    + rewrite !in_app_iff. cbn [In]. intros [[I|I]|[I|[I|[I|I]]]]; try lia; try exact I. exact (N10 I).
    + rewrite !zlen_app. change (zlen [91]) with 1. change (zlen [93; 13]) with 2. lia.
    + unfold sp_line. assert ((([91] ++ s ++ [93; 13]) ++ [10]) = [91] ++ s ++ [93; 13; 10]) as -> by (rewrite <- !app_assoc; reflexivity).
      rewrite header_meaning by exact Ps. rewrite S49, Ee. reflexivity.
Qed.
Lemma dump_text_text m : plain m -> text (dump_text m).
Proof.
  intros [_ F]. induction F as [|[s l] m (Ps & _ & _ & Pl) F IH]; [constructor|]. unfold dump_text in *. cbn [flat_map fst snd] in *.
  apply text_app. split; [|exact IH]. unfold section_text. cbn [fst snd]. apply text_cons'; [lia|]. apply text_app. split; [apply Ps|].
  repeat (apply text_cons'; [lia|]). apply text_app. split; [|repeat constructor; lia].
  clear - Pl. induction Pl as [|[k v] l P F IH]; [constructor|]. cbn [flat_map]. apply text_app. split; [|exact IH].
  destruct P as (_ & Tk & Tv & _). apply line_text; assumption.
Qed.
Lemma round_trip junk m : plain m -> zlen junk = 200 -> zlen (dump_text m) < two31 ->
  exists p', ini_parse_str true true all_ok junk (Some (dump_text m)) = Ret (Some p') /\ hist p' m.
Proof.
  intros Hp Lj Lt. unfold ini_parse_str. cbn [negb]. rewrite parse_string_ok by (try assumption; apply dump_text_text; exact Hp). unfold sp_parse.
  destruct (secs_round m [] (mk_sp_rd [] [] 0 ini_new) 0 (length (dump_text m))) as (p' & E & Hh); try (exact (proj2 Hp)); try (exact (proj1 Hp)); try reflexivity; try lia; try constructor.
  rewrite E. cbn [bind]. exists p'. split; [reflexivity|exact Hh].
Qed.
