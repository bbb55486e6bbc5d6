From Verif Require Import CBase CStr SeqLib FileModel IniReaderModel IniReaderSpec FileProof2 IniReaderProof.

Section Sim.
Context {U : Type}.
Variable h : ini_handler U.
Definition R (x : rd U) (q : sp_rd U) : Prop :=
  zlen (r_line x) = 200 /\ arr (r_section x) (q_section q) /\ arr (r_prev x) (q_prev q) /\ r_error x = q_error q /\ r_user x = q_user q.
Definition sim (a : outcome (rd U)) (b : outcome (sp_rd U)) : Prop :=
  match a, b with
  | Ret x, Ret q => R x q
  | Ub, Ub | Abrt, Abrt | NoFuel, NoFuel => True
  | _, _ => False
  end.
Lemma call_sim x q line prev p' lineno n v : R x q -> zlen line = 200 -> arr prev p' ->
  sim (call_handler h x line prev lineno (Ret n) (Ret v))
      (do (ok, u) <- h (q_user q) (q_section q) n v; Ret (mk_sp_rd (q_section q) p' (note_error (q_error q) lineno ok) u)).
Proof.
  intros (L & As & Ap & Ee & Eu) Ll Ap'. unfold call_handler. rewrite (arr_str _ _ As). cbn [bind]. rewrite Eu.
  destruct (h (q_user q) (q_section q) n v) as [[ok u]| | |]; cbn [bind sim]; try exact I.
  unfold R. cbn. split; [exact Ll|]. split; [exact As|]. split; [exact Ap'|]. split; [|reflexivity].
  unfold note_error. rewrite Ee. destruct ok; cbn [negb andb]; [reflexivity|]. destruct (q_error q =? 0); reflexivity.
Qed.
Lemma bom_ok t r first : zlen (t ++ 0 :: r) = 200 -> exists b0, mload (t ++ 0 :: r) 0 = Ret b0 /\
  (if first && (b0 =? 239) then
     do b1 <- mload (t ++ 0 :: r) 1; if b1 =? 187 then do b2 <- mload (t ++ 0 :: r) 2; Ret (b2 =? 191) else Ret false
   else Ret false) = Ret (first && starts_with [239; 187; 191] t).
Proof.
  intro L. assert (G : forall k, 0 <= k < 200 -> mload (t ++ 0 :: r) k = Ret (nth (Z.to_nat k) (t ++ 0 :: r) 0)).
  { intros k Hk. apply mload_znth. unfold znth. destruct (Z.ltb_spec k 0); [lia|]. apply nth_error_nth'. unfold zlen in L. lia. }
  rewrite !G by lia. eexists. split; [reflexivity|]. cbn [bind].
  change (Z.to_nat 0) with 0%nat. change (Z.to_nat 1) with 1%nat. change (Z.to_nat 2) with 2%nat.
  destruct t as [|a [|b [|c t]]]; cbn [app nth starts_with]; rewrite ?andb_true_r.
  - destruct first; reflexivity.
  - destruct first; [|reflexivity]. cbn [andb]. rewrite (Z.eqb_sym 239 a), andb_false_r. destruct (a =? 239); reflexivity.
  - destruct first; [|reflexivity]. cbn [andb]. rewrite (Z.eqb_sym 239 a), (Z.eqb_sym 187 b), andb_false_r.
    destruct (a =? 239); [|reflexivity]. destruct (b =? 187); reflexivity.
  - destruct first; [|reflexivity]. cbn [andb]. rewrite (Z.eqb_sym 239 a), (Z.eqb_sym 187 b), (Z.eqb_sym 191 c).
    destruct (a =? 239); [|reflexivity]. destruct (b =? 187); [|reflexivity]. reflexivity.
Qed.

Lemma sim_ret x q : R x q -> sim (Ret x) (Ret q). Proof. exact (fun H => H). Qed.
Lemma R_line x q line : R x q -> zlen line = 200 -> R (mk_rd line (r_section x) (r_prev x) (r_error x) (r_user x)) q.
Proof. intros (L & As & Ap & Ee & Eu) Ll. unfold R. cbn. auto. Qed.

(** after the first trimming: the text s of the line starts at P *)
Definition sp_rest (q : sp_rd U) (lineno : Z) (indented : bool) (s : list Z) : outcome (sp_rd U) :=
  match (match s with
  | [] => MNothing
  | c :: s' =>
    if inset c [59; 35] then MNothing
    else if negb (zlen (q_prev q) =? 0) && indented then MCont (rtrim (until [] false s))
    else if c =? 91 then
      let n := until [93] false s' in
      match rest_of s' n with
      | d :: _ => if d =? 93 then MSection n else MBad
      | [] => MBad
      end
    else
      let k := until [61; 58] false s in
      match rest_of s k with
      | d :: v => if inset d [61; 58] then MPair (rtrim k) (rtrim (skip_space (until [] false v))) else MName (rtrim k)
      | [] => MName (rtrim k)
      end
  end) with
  | MNothing => Ret q
  | MSection s => Ret (mk_sp_rd (ztake 49 s) [] (q_error q) (q_user q))
  | MBad => Ret (mk_sp_rd (q_section q) (q_prev q) (note_error (q_error q) lineno false) (q_user q))
  | MCont v => do (ok, u) <- h (q_user q) (q_section q) (q_prev q) (Some v);
               Ret (mk_sp_rd (q_section q) (q_prev q) (note_error (q_error q) lineno ok) u)
  | MPair k v => do (ok, u) <- h (q_user q) (q_section q) k (Some v);
                 Ret (mk_sp_rd (q_section q) (ztake 49 k) (note_error (q_error q) lineno ok) u)
  | MName k => if q_error q =? 0 then
                 do (ok, u) <- h (q_user q) (q_section q) k None;
                 Ret (mk_sp_rd (q_section q) (q_prev q) (note_error (q_error q) lineno ok) u)
               else Ret q
  end.

(** cutting the line at e: the text a ++ b becomes a, wherever the cut falls *)
Lemma cut_ok P a b y : text (a ++ b) -> exists y', 
  (do ec <- mload (P ++ (a ++ b) ++ 0 :: y) (zlen P + zlen a);
   if negb (ec =? 0) then mstore (P ++ (a ++ b) ++ 0 :: y) (zlen P + zlen a) 0 else Ret (P ++ (a ++ b) ++ 0 :: y)) = Ret (P ++ a ++ 0 :: y') /\
  zlen (P ++ a ++ 0 :: y') = zlen (P ++ (a ++ b) ++ 0 :: y).
Proof.
  intro T. apply text_sub in T as [Ta Tb]. rewrite <- zlen_app.
  destruct b as [|d b].
  - exists y. rewrite app_nil_r. replace (P ++ a ++ 0 :: y) with ((P ++ a) ++ 0 :: y) by (rewrite <- app_assoc; reflexivity).
    rewrite mload_app0 by reflexivity. split; reflexivity.
  - apply text_cons in Tb as [Hd Tb]. exists (b ++ 0 :: y).
    replace (P ++ (a ++ d :: b) ++ 0 :: y) with ((P ++ a) ++ d :: b ++ 0 :: y) by (rewrite <- !app_assoc; reflexivity).
    rewrite mload_app0 by reflexivity. cbn [bind]. destruct (Z.eqb_spec d 0); [contradiction|]. cbn [negb].
    rewrite mstore_mid by reflexivity. split; [rewrite <- app_assoc; reflexivity|].
    rewrite <- !app_assoc. rewrite !zlen_app, !zlen_cons. reflexivity.
Qed.
Lemma bind_assoc {A B C} (a : outcome A) (f : A -> outcome B) (g : B -> outcome C) : bind (bind a f) g = bind a (fun x => bind (f x) g).
Proof. destruct a; reflexivity. Qed.
Lemma cut_bind {B} P a b y (K : list Z -> outcome B) : text (a ++ b) -> exists y',
  (do ec <- mload (P ++ (a ++ b) ++ 0 :: y) (zlen P + zlen a);
   do line <- (if negb (ec =? 0) then mstore (P ++ (a ++ b) ++ 0 :: y) (zlen P + zlen a) 0 else Ret (P ++ (a ++ b) ++ 0 :: y)); K line) = K (P ++ a ++ 0 :: y') /\
  zlen (P ++ a ++ 0 :: y') = zlen (P ++ (a ++ b) ++ 0 :: y).
Proof.
  intro T. destruct (cut_ok P a b y T) as (y' & E & L). exists y'. split; [|exact L].
  rewrite <- (bind_assoc (mload _ _) (fun ec => if negb (ec =? 0) then mstore _ _ 0 else Ret _) K). rewrite E. reflexivity.
Qed.
(** rstrip as a text operation *)
Lemma rstrip_ok2 P t y s : s = zlen P -> text t -> exists y', ini_rstrip (P ++ t ++ 0 :: y) s = Ret (P ++ rtrim t ++ 0 :: y') /\
  zlen (P ++ rtrim t ++ 0 :: y') = zlen (P ++ t ++ 0 :: y).
Proof.
  intros E T. rewrite (rstrip_ok P t y s E T). destruct (repeat0_cons (Z.to_nat (zlen t - zlen (rtrim t))) y) as [z Ez].
  fold (pad t) in Ez. exists z. rewrite <- Ez. split; [reflexivity|]. rewrite !zlen_app, pad_len. lia.
Qed.

Definition tail_line (x : rd U) (lineno : Z) (line : list Z) (start : Z) : outcome (rd U) :=
  do c <- mload line start;
  do p0 <- mload (r_prev x) 0;
  if (c =? 0) || inset c [59; 35] then
    Ret (mk_rd line (r_section x) (r_prev x) (r_error x) (r_user x))
  else if negb (p0 =? 0) && (0 <? start) then
    do e <- ini_find_chars_or_comment line start None;
    do ec <- mload line e;
    do line <- (if negb (ec =? 0) then mstore line e 0 else Ret line);
    do line <- ini_rstrip line start;
    call_handler h x line (r_prev x) lineno (cstr_at (r_prev x) 0) (do v <- cstr_at line start; Ret (Some v))
  else if c =? 91 then
    do e <- ini_find_chars_or_comment line (start + 1) (Some [93]);
    do ec <- mload line e;
    if ec =? 93 then
      do line <- mstore line e 0;
      do sec <- ini_strncpy0 (r_section x) line (start + 1) MAX_SECTION;
      do prev <- mstore (r_prev x) 0 0;
      Ret (mk_rd line sec prev (r_error x) (r_user x))
    else Ret (mk_rd line (r_section x) (r_prev x) (if r_error x =? 0 then lineno else r_error x) (r_user x))
  else
    do e <- ini_find_chars_or_comment line start (Some [61; 58]);
    do ec <- mload line e;
    if (ec =? 61) || (ec =? 58) then
      do line <- mstore line e 0;
      do line <- ini_rstrip line start;
      let value := e + 1 in
      do e <- ini_find_chars_or_comment line value None;
      do ec <- mload line e;
      do line <- (if negb (ec =? 0) then mstore line e 0 else Ret line);
      do value <- ini_lskip line value;
      do line <- ini_rstrip line value;
      do prev <- ini_strncpy0 (r_prev x) line start MAX_NAME;
      call_handler h x line prev lineno (cstr_at line start) (do v <- cstr_at line value; Ret (Some v))
    else if r_error x =? 0 then
      do line <- mstore line e 0;
      do line <- ini_rstrip line start;
      call_handler h x line (r_prev x) lineno (cstr_at line start) (Ret None)
    else Ret (mk_rd line (r_section x) (r_prev x) (r_error x) (r_user x)).
Lemma until_head stop c s : inset c stop = false -> until stop false (c :: s) = c :: until stop (isspace c) s.
Proof. intro E. cbn [until]. rewrite E. reflexivity. Qed.
Lemma rest_of_app a b : rest_of (a ++ b) a = b.
Proof. unfold rest_of. apply zdrop_app_len. Qed.
Lemma tail_ok x q lineno P s y : R x q -> text s -> zlen (P ++ s ++ 0 :: y) = 200 ->
  (forall c s', s = c :: s' -> isspace c = false) ->
  sim (tail_line x lineno (P ++ s ++ 0 :: y) (zlen P)) (sp_rest q lineno (0 <? zlen P) s).
Proof.
  intros HR T L Hns. pose proof HR as (L0 & As & Ap & Ee & Eu). unfold tail_line, sp_rest.
  destruct (arr_head _ _ Ap) as (p0 & Ep & Np).
  destruct s as [|c s].
  { cbn [app]. rewrite mload_app0 by reflexivity. cbn [bind]. rewrite Ep. cbn [bind]. change (0 =? 0) with true. cbn [orb].
    apply sim_ret, R_line; assumption. }
  pose proof T as T'. apply text_cons in T' as [Hc Ts].
  cbn [app]. rewrite mload_app0 by reflexivity. cbn [bind]. rewrite Ep. cbn [bind].
  change (P ++ c :: s ++ 0 :: y) with (P ++ (c :: s) ++ 0 :: y).
  destruct (Z.eqb_spec c 0); [contradiction|]. cbn [orb]. destruct (inset c [59; 35]) eqn:Ec.
  { apply sim_ret, R_line; assumption. }
  rewrite Np. destruct (negb (zlen (q_prev q) =? 0) && (0 <? zlen P)) eqn:Ei.
  { (* continuation *)
    rewrite (find_ok' None P (c :: s) y (zlen P) eq_refl T). cbn [bind stops].
    destruct (until_split [] (c :: s) false) as [b Eb].
    set (a := until [] false (c :: s)) in *. rewrite Eb in *. clear Eb.
    destruct (cut_bind P a b y (fun line => do line0 <- ini_rstrip line (zlen P);
       call_handler h x line0 (r_prev x) lineno (cstr_at (r_prev x) 0) (do v <- cstr_at line0 (zlen P); Ret (Some v))) T) as (y1 & E1 & L1).
    rewrite E1. clear E1. pose proof T as T1. apply text_sub in T1 as [Ta _].
    destruct (rstrip_ok2 P a y1 (zlen P) eq_refl Ta) as (y2 & E2 & L2). rewrite E2. cbn [bind].
    rewrite (cstr_at_text P (rtrim a) y2 (zlen P) eq_refl (text_rtrim _ Ta)). cbn [bind]. rewrite (arr_str _ _ Ap).
    apply call_sim; [exact HR|lia|exact Ap]. }
  destruct (Z.eqb_spec c 91) as [->|N91].
  { (* section *)
    assert (LP : zlen P + 1 = zlen (P ++ [91])) by (rewrite zlen_snoc; reflexivity).
    change (P ++ (91 :: s) ++ 0 :: y) with (P ++ 91 :: s ++ 0 :: y) in *.
    replace (P ++ 91 :: s ++ 0 :: y) with ((P ++ [91]) ++ s ++ 0 :: y) in * by (rewrite <- app_assoc; reflexivity).
    rewrite LP. rewrite (find_ok' (Some [93]) (P ++ [91]) s y _ eq_refl Ts). cbn [bind stops].
    destruct (until_split [93] s false) as [b Eb]. set (a := until [93] false s) in *. rewrite Eb in *. clear Eb. rewrite rest_of_app.
    apply text_sub in Ts as [Ta Tb]. set (Q := P ++ [91]) in *.
    replace (Q ++ (a ++ b) ++ 0 :: y) with ((Q ++ a) ++ b ++ 0 :: y) in * by (rewrite <- !app_assoc; reflexivity).
    rewrite <- zlen_app. destruct b as [|d b].
    - cbn [app]. rewrite mload_app0 by reflexivity. cbn [bind]. change (0 =? 93) with false. cbv iota.
      cbn [sim R]. unfold R, note_error. cbn. split; [exact L|]. split; [exact As|]. split; [exact Ap|]. split; [rewrite Ee; reflexivity|exact Eu].
    - cbn [app] in *. rewrite mload_app0 by reflexivity. cbn [bind]. destruct (Z.eqb_spec d 93) as [->|Nd].
      + rewrite mstore_mid by reflexivity. cbn [bind].
        replace ((Q ++ a) ++ 0 :: b ++ 0 :: y) with (Q ++ a ++ 0 :: b ++ 0 :: y) by (rewrite <- app_assoc; reflexivity).
        destruct As as (rs & Es & Tsec & Lsec).
        destruct (strncpy0_ok (r_section x) Q a (b ++ 0 :: y) (zlen Q) eq_refl Ta Lsec) as (sec & E1 & A1).
        unfold MAX_SECTION. rewrite E1. cbn [bind]. clear E1.
        destruct Ap as (rp & Epv & Tpv & Lpv). destruct (zlen_pos_cons (r_prev x)) as (p & pr & Epr); [lia|].
        rewrite Epr. change (p :: pr) with ([] ++ p :: pr) at 1. rewrite (mstore_mid [] pr 0 p 0) by reflexivity. cbn [bind app sim R].
        unfold R. cbn. split; [|split; [exact A1|split; [|split; assumption]]].
        * rewrite <- L, <- !app_assoc. cbn [app]. rewrite !zlen_app, !zlen_cons, !zlen_app, !zlen_cons. reflexivity.
        * exists pr. split; [reflexivity|]. split; [constructor|]. rewrite <- Lpv, Epr, !zlen_cons. reflexivity.
      + cbn [sim R]. unfold R, note_error. cbn. split; [exact L|]. split; [exact As|]. split; [exact Ap|]. split; [rewrite Ee; reflexivity|exact Eu]. }
  (* name, with or without a value *)
  rewrite (find_ok' (Some [61; 58]) P (c :: s) y _ eq_refl T). cbn [bind stops].
  destruct (until_split [61; 58] (c :: s) false) as [b Eb]. set (a := until [61; 58] false (c :: s)) in *. rewrite Eb in *. clear Eb. rewrite rest_of_app.
  pose proof T as T1. apply text_sub in T1 as [Ta Tb].
  assert (Ebr : P ++ (a ++ b) ++ 0 :: y = (P ++ a) ++ b ++ 0 :: y) by (rewrite <- !app_assoc; reflexivity).
  destruct b as [|d b].
  { (* end of line *)
    rewrite Ebr in *. cbn [app] in *. rewrite <- zlen_app. rewrite mload_app0 by reflexivity. cbn [bind].
    change ((0 =? 61) || (0 =? 58)) with false. cbv iota. rewrite Ee. destruct (q_error q =? 0).
    - rewrite mstore_mid by reflexivity. cbn [bind].
      replace ((P ++ a) ++ 0 :: y) with (P ++ a ++ 0 :: y) in * by (rewrite <- app_assoc; reflexivity).
      destruct (rstrip_ok2 P a y (zlen P) eq_refl Ta) as (y2 & E2 & L2). rewrite E2. cbn [bind].
      rewrite (cstr_at_text P (rtrim a) y2 (zlen P) eq_refl (text_rtrim _ Ta)).
      apply call_sim; [exact HR|lia|exact Ap].
    - rewrite <- Ee. apply sim_ret, R_line; assumption. }
  apply text_cons in Tb as [Hd Tb]. rewrite Ebr in *. cbn [app] in *. rewrite <- zlen_app. rewrite mload_app0 by reflexivity. cbn [bind].
  assert (Ed : inset d [61; 58] = (d =? 61) || (d =? 58)) by (unfold inset; cbn [existsb]; rewrite orb_false_r; reflexivity).
  rewrite Ed. destruct ((d =? 61) || (d =? 58)).
  - rewrite mstore_mid by reflexivity. cbn [bind].
    replace ((P ++ a) ++ 0 :: b ++ 0 :: y) with (P ++ a ++ 0 :: b ++ 0 :: y) by (rewrite <- app_assoc; reflexivity).
    rewrite (rstrip_ok P a (b ++ 0 :: y) (zlen P) eq_refl Ta). cbn [bind].
    set (Q := P ++ rtrim a ++ pad a ++ [0]).
    assert (EQ : P ++ rtrim a ++ pad a ++ 0 :: b ++ 0 :: y = Q ++ b ++ 0 :: y) by (unfold Q; rewrite <- !app_assoc; reflexivity).
    assert (LQ : zlen (P ++ a) + 1 = zlen Q).
    { unfold Q. rewrite !zlen_app, pad_len. change (zlen [0]) with 1. lia. }
    rewrite EQ, LQ. rewrite (find_ok' None Q b y _ eq_refl Tb). cbn [bind stops].
    destruct (until_split [] b false) as [b2 Eb2]. set (v := until [] false b) in *. rewrite Eb2 in Tb.
    assert (LL : zlen (Q ++ b ++ 0 :: y) = 200).
    { rewrite <- L. rewrite (zlen_app Q), <- LQ. repeat first [rewrite zlen_app|rewrite zlen_cons]. lia. }
    rewrite Eb2 in *. clear Eb2.
    set (K := fun line : list Z => do value <- ini_lskip line (zlen Q);
      do line0 <- ini_rstrip line value; do prev <- ini_strncpy0 (r_prev x) line0 (zlen P) MAX_NAME;
      call_handler h x line0 prev lineno (cstr_at line0 (zlen P)) (do w <- cstr_at line0 value; Ret (Some w))).
    destruct (cut_bind Q v b2 y K Tb) as (y1 & E1 & L1).
    match goal with |- sim ?A _ => change A with
      (do ec <- mload (Q ++ (v ++ b2) ++ 0 :: y) (zlen Q + zlen v);
       do line <- (if negb (ec =? 0) then mstore (Q ++ (v ++ b2) ++ 0 :: y) (zlen Q + zlen v) 0 else Ret (Q ++ (v ++ b2) ++ 0 :: y)); K line) end.
    rewrite E1. clear E1. unfold K. clear K. apply text_sub in Tb as [Tv _].
    rewrite (lskip_ok' Q v y1 (zlen Q) eq_refl Tv). cbn [bind].
    destruct (skip_split v) as (w & Ew & _). set (v' := skip_space v) in *.
    assert (Tv' : text v') by (apply text_skip; exact Tv).
    assert (EV : Q ++ v ++ 0 :: y1 = (Q ++ w) ++ v' ++ 0 :: y1) by (rewrite Ew, <- !app_assoc; reflexivity).
    assert (LV : zlen Q + (zlen v - zlen v') = zlen (Q ++ w)) by (rewrite Ew, !zlen_app; lia).
    rewrite EV, LV in *. destruct (rstrip_ok2 (Q ++ w) v' y1 _ eq_refl Tv') as (y2 & E2 & L2). rewrite E2. cbn [bind].
    rewrite (cstr_at_text (Q ++ w) (rtrim v') y2 _ eq_refl (text_rtrim _ Tv')). cbn [bind].
    destruct (repeat0_cons (Z.to_nat (zlen a - zlen (rtrim a))) (w ++ rtrim v' ++ 0 :: y2)) as [z Ez]. fold (pad a) in Ez.
    assert (EF : (Q ++ w) ++ rtrim v' ++ 0 :: y2 = P ++ rtrim a ++ 0 :: z) by (unfold Q; rewrite <- Ez, <- !app_assoc; reflexivity).
    assert (LF : zlen (P ++ rtrim a ++ 0 :: z) = 200) by (rewrite <- EF; lia).
    rewrite EF. pose proof (text_rtrim _ Ta) as Tra.
    destruct Ap as (rp & Epv & Tpv & Lpv).
    destruct (strncpy0_ok (r_prev x) P (rtrim a) z (zlen P) eq_refl Tra Lpv) as (prev & E3 & A3). unfold MAX_NAME. rewrite E3. cbn [bind].
    rewrite (cstr_at_text P (rtrim a) z _ eq_refl Tra).
    apply call_sim; [exact HR|exact LF|exact A3].
  - rewrite Ee. destruct (q_error q =? 0).
    + rewrite mstore_mid by reflexivity. cbn [bind].
      replace ((P ++ a) ++ 0 :: b ++ 0 :: y) with (P ++ a ++ 0 :: b ++ 0 :: y) by (rewrite <- app_assoc; reflexivity).
      destruct (rstrip_ok2 P a (b ++ 0 :: y) (zlen P) eq_refl Ta) as (y2 & E2 & L2). rewrite E2. cbn [bind].
      rewrite (cstr_at_text P (rtrim a) y2 (zlen P) eq_refl (text_rtrim _ Ta)).
      apply call_sim; [exact HR| |exact Ap]. rewrite L2, <- L, <- !app_assoc. cbn [app]. rewrite !zlen_app, !zlen_cons, !zlen_app, !zlen_cons. reflexivity.
    + rewrite <- Ee. apply sim_ret, R_line; assumption.
Qed.

Lemma line_ok x q lineno t r : R x q -> r_line x = t ++ 0 :: r -> text t ->
  sim (parse_line h x lineno) (sp_line h q lineno t).
Proof.
  intros HR El T. pose proof HR as (L0 & As & Ap & Ee & Eu). rewrite El in L0.
  unfold parse_line. rewrite El. destruct (bom_ok t r (lineno =? 1) L0) as (b0 & E0 & Eb). rewrite E0. cbn [bind].
  rewrite Eb. cbn [bind]. clear E0 Eb b0. unfold sp_line, meaning_of.
  set (bom := (lineno =? 1) && starts_with [239; 187; 191] t).
  assert (S : exists pre, t = pre ++ (if bom then zdrop 3 t else t) /\ zlen pre = if bom then 3 else 0).
  { destruct bom eqn:B; [|exists []; split; reflexivity]. apply andb_prop in B as [_ B]. apply starts_with_iff in B as [u ->].
    exists [239; 187; 191]. split; reflexivity. }
  destruct S as (pre & Et & Lp). set (t1 := if bom then zdrop 3 t else t) in *.
  assert (T1 : text t1) by (rewrite Et in T; apply text_sub in T; apply T).
  assert (Er : t ++ 0 :: r = pre ++ t1 ++ 0 :: r) by (rewrite (app_assoc pre), <- Et; reflexivity). rewrite Er in *. clear Er.
  rewrite <- Lp. destruct (rstrip_ok2 pre t1 r (zlen pre) eq_refl T1) as (y & E1 & L1). rewrite E1. cbn [bind]. clear E1.
  set (t0 := rtrim t1) in *. assert (T0 : text t0) by (apply text_rtrim; exact T1).
  rewrite (lskip_ok' pre t0 y _ eq_refl T0). cbn [bind].
  destruct (skip_split t0) as (w & Ew & _).
  assert (Hns : forall c s', skip_space t0 = c :: s' -> isspace c = false) by (intros c s'; apply skip_head).
  assert (Ts : text (skip_space t0)) by (apply text_skip; exact T0).
  set (s := skip_space t0) in *.
  assert (EV : pre ++ t0 ++ 0 :: y = (pre ++ w) ++ s ++ 0 :: y) by (rewrite Ew, <- !app_assoc; reflexivity).
  assert (LV : zlen pre + (zlen t0 - zlen s) = zlen (pre ++ w)) by (rewrite Ew, !zlen_app; lia).
  assert (EI : bom || negb (zlen s =? zlen t0) = (0 <? zlen (pre ++ w))).
  { rewrite Ew, !zlen_app, Lp. pose proof (zlen_nonneg w). destruct bom; cbn [orb].
    - symmetry. apply Z.ltb_lt. lia.
    - destruct (Z.eqb_spec (zlen s) (zlen w + zlen s)); destruct (Z.ltb_spec 0 (0 + zlen w)); try reflexivity; lia. }
  rewrite EI, EV, LV in *. apply (tail_ok x q lineno (pre ++ w) s y HR Ts ltac:(lia) Hns).
Qed.

(** ** reading pieces *)
Lemma piece_split n t : t = fst (piece n t) ++ snd (piece n t).
Proof.
  revert t; induction n as [|n IH]; intros [|c t]; try reflexivity. cbn [piece]. destruct (Z.eqb_spec c 10) as [->|]; [reflexivity|].
  specialize (IH t). destruct (piece n t) as [a b]. cbn [fst snd app] in *. f_equal. exact IH.
Qed.
Lemma piece_len n t : (length (fst (piece n t)) <= n)%nat.
Proof.
  revert t; induction n as [|n IH]; intros [|c t]; cbn [piece fst length]; try lia. destruct (c =? 10); [cbn; lia|].
  specialize (IH t). destruct (piece n t) as [a b]. cbn [fst length] in *. lia.
Qed.
Lemma piece_nonempty n t : t <> [] -> fst (piece (S n) t) <> [].
Proof. destruct t as [|c t]; [congruence|]. cbn [piece]. destruct (c =? 10); [discriminate|]. destruct (piece n t). discriminate. Qed.
Lemma reader_ok : forall n t done old i, i = zlen done -> zlen old > Z.min (Z.of_nat n) (zlen t) ->
  exists r, reader_loop n (done ++ old) i t = Ret (done ++ fst (piece n t) ++ 0 :: r, snd (piece n t)) /\
    zlen (done ++ fst (piece n t) ++ 0 :: r) = zlen (done ++ old).
Proof.
  assert (Fin : forall done old i, i = zlen done -> 0 < zlen old -> exists r, mstore (done ++ old) i 0 = Ret (done ++ 0 :: r) /\ zlen (done ++ 0 :: r) = zlen (done ++ old)).
  { intros done old i Ei Lo. destruct (zlen_pos_cons old Lo) as (o & old' & ->). exists old'. split; [apply mstore_mid; exact Ei|]. rewrite !zlen_app, !zlen_cons. reflexivity. }
  induction n as [|n IH]; intros t done old i Ei L; pose proof (zlen_nonneg t).
  - cbn [reader_loop piece fst snd app]. destruct (Fin done old i Ei ltac:(lia)) as (r & E & Lr). exists r. rewrite E. cbn [bind]. auto.
  - destruct t as [|c t].
    + cbn [reader_loop piece fst snd app]. change (zlen (@nil Z)) with 0 in L. destruct (Fin done old i Ei ltac:(lia)) as (r & E & Lr). exists r. rewrite E. cbn [bind]. auto.
    + rewrite zlen_cons in *. pose proof (zlen_nonneg t). cbn [reader_loop piece]. destruct (zlen_pos_cons old) as (o & old' & ->); [lia|]. rewrite zlen_cons in L.
      rewrite (mstore_mid done old' c o i Ei). cbn [bind].
      replace (done ++ c :: old') with ((done ++ [c]) ++ old') by (rewrite <- app_assoc; reflexivity).
      destruct (Z.eqb_spec c 10) as [->|N].
      * destruct (Fin (done ++ [10]) old' (i + 1)) as (r & E & Lr); [rewrite zlen_snoc; lia|lia|]. exists r. rewrite E. cbn [bind fst snd].
        rewrite <- !app_assoc in *. cbn [app] in *. split; [reflexivity|]. rewrite Lr, !zlen_app, !zlen_cons. reflexivity.
      * destruct (IH t (done ++ [c]) old' (i + 1)) as (r & E & Lr); [rewrite zlen_snoc; lia|lia|].
        exists r. rewrite E. destruct (piece n t) as [a b]. cbn [fst snd] in *. rewrite <- !app_assoc in *. cbn [app] in *.
        split; [reflexivity|]. rewrite Lr, !zlen_app, !zlen_cons. reflexivity.
Qed.

Lemma stream_ok : forall f x q lineno t, R x q -> text t -> (length t <= f)%nat -> 0 <= lineno -> lineno + zlen t < two31 ->
  stream_loop f h x lineno t = sp_stream f h q lineno t.
Proof.
  induction f as [|f IH]; intros x q lineno t HR T Lf Hl Hm.
  - destruct t; [|cbn in Lf; lia]. destruct HR as (_ & _ & _ & E1 & E2). cbn. rewrite E1, E2. reflexivity.
  - destruct t as [|c t]. { destruct HR as (_ & _ & _ & E1 & E2). cbn. rewrite E1, E2. reflexivity. }
    set (tt0 := c :: t) in *. assert (Hne : tt0 <> []) by discriminate.
    assert (E1 : stream_loop (S f) h x lineno tt0 =
      do (line, rest) <- reader_loop (Z.to_nat (INI_MAX_LINE - 1)) (r_line x) 0 tt0;
      do lineno <- sint (lineno + 1);
      do x <- parse_line h (mk_rd line (r_section x) (r_prev x) (r_error x) (r_user x)) lineno;
      stream_loop f h x lineno rest) by reflexivity.
    assert (E2 : sp_stream (S f) h q lineno tt0 =
      (let '(a, b) := piece 199 tt0 in do q <- sp_line h q (lineno + 1) a; sp_stream f h q (lineno + 1) b)) by reflexivity.
    rewrite E1, E2. clear E1 E2. clearbody tt0. clear c t. pose proof HR as (L0 & As & Ap & Ee & Eu).
    change (Z.to_nat (INI_MAX_LINE - 1)) with 199%nat.
    destruct (reader_ok 199 tt0 [] (r_line x) 0 eq_refl) as (r & E & Lr); [lia|]. cbn [app] in *. rewrite E. cbn [bind].
    pose proof (piece_split 199 tt0) as Sp. pose proof (piece_nonempty 198 tt0 Hne) as Np. change (S 198) with 199%nat in Np.
    destruct (piece 199 tt0) as [a b]. cbn [fst snd] in *.
    assert (La : 0 < zlen a) by (destruct a; [congruence|rewrite zlen_cons; pose proof (zlen_nonneg a); lia]).
    pose proof (zlen_nonneg b). rewrite Sp, zlen_app in Hm. rewrite sint_ok by (unfold two31 in *; lia). cbn [bind].
    rewrite Sp in T. apply text_sub in T as [Ta Tb].
    pose proof (line_ok (mk_rd (a ++ 0 :: r) (r_section x) (r_prev x) (r_error x) (r_user x)) q (lineno + 1) a r) as LK.
    specialize (LK (R_line x q (a ++ 0 :: r) HR ltac:(rewrite Lr; exact L0)) eq_refl Ta).
    destruct (parse_line h _ (lineno + 1)) as [x'| | |]; destruct (sp_line h q (lineno + 1) a) as [q'| | |]; cbn [sim] in LK; try contradiction; cbn [bind]; try reflexivity.
    apply IH; [exact LK|exact Tb| |lia|lia]. rewrite Sp, app_length in Lf. unfold zlen in La. lia.
Qed.
Lemma parse_string_ok junk t u : zlen junk = 200 -> text t -> zlen t < two31 ->
  ini_reader_parse_string h junk t u = sp_parse h t u.
Proof.
  intros Lj T Lt. unfold ini_reader_parse_string, sp_parse. apply stream_ok; [|exact T|lia|lia|lia].
  unfold R. cbn. split; [exact Lj|]. split; [|split; [|split; reflexivity]].
  - exists (repeat 0 49). split; [reflexivity|]. split; [constructor|reflexivity].
  - exists (repeat 0 49). split; [reflexivity|]. split; [constructor|reflexivity].
Qed.
End Sim.
