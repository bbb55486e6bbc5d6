(** C66: slog's levels and lines; C67: redirecting stdout (slog, xlog) *)
From Verif Require Import CBase CStr StringsModel StringsSpec StringsProof2 SlogModel Props_Strings.

(** ** C66 *)
(** a line: "[L/tag] message\n" *)
Definition line_text (l : Z) (tag msg : list Z) : list Z := [91; nth (Z.to_nat l) [0; 86; 68; 73; 87; 69] 0; 47] ++ tag ++ [93; 32] ++ msg ++ [10].
Definition is_level (l : Z) : Prop := 1 <= l <= 5.
Lemma level_char_ok : forall l, is_level l -> level_char l = nth (Z.to_nat l) [0; 86; 68; 73; 87; 69] 0.
Proof. intros l H. assert (l = 1 \/ l = 2 \/ l = 3 \/ l = 4 \/ l = 5) as [-> | [-> | [-> | [-> | ->]]]] by (unfold is_level in H; lia); reflexivity. Qed.
Theorem C66_line : forall strict l tag msg s p, is_level l -> dst (so s) = Some p ->
  exists s', slog strict l tag msg s = Ret s' /\ lvl s' = lvl s /\
    (lvl s <> 0 /\ lvl s <= l -> got (so s') p = got (so s) p ++ line_text l tag msg /\ (forall q, q <> p -> got (so s') q = got (so s) q) /\ dst (so s') = Some p) /\
    (lvl s = 0 \/ l < lvl s -> s' = s).
Proof.
  intros strict l tag msg s p L D. unfold slog, enabled. destruct (Z.eqb_spec (lvl s) 0) as [E|E]; cbn [negb andb].
  { exists s. split; [auto|]. split; [auto|]. split; [intros [X _]; congruence|auto]. }
  destruct (Z.leb_spec (lvl s) l) as [B|B].
  - unfold print, o_print. rewrite D. cbn [bind]. eexists. split; [reflexivity|]. split; [auto|]. split; [|intros [X|X]; lia]. intros _. cbn [so got dst].
    unfold upd. split; [|split; [|auto]].
    + destruct (place_eq p p); [|congruence]. unfold line_text. rewrite level_char_ok by auto. auto.
    + intros q Q. destruct (place_eq p q); congruence.
  - exists s. split; [auto|]. split; [auto|]. split; [intros [_ X]; lia|auto].
Qed.
Theorem C66_trace_line : forall strict l tag func line msg s p, is_level l -> dst (so s) = Some p ->
  exists s', slog_trace strict l tag func line msg s = Ret s' /\
    (lvl s <> 0 /\ lvl s <= l -> got (so s') p = got (so s) p ++ [91; nth (Z.to_nat l) [0; 86; 68; 73; 87; 69] 0; 47] ++ tag ++ [93; 40] ++ func ++ [58] ++ decimal line ++ [41; 32] ++ msg ++ [10] /\ (forall q, q <> p -> got (so s') q = got (so s) q)) /\
    (lvl s = 0 \/ l < lvl s -> s' = s).
Proof.
  intros strict l tag func line msg s p L D. unfold slog_trace, enabled. destruct (Z.eqb_spec (lvl s) 0) as [E|E]; cbn [negb andb].
  { exists s. split; [auto|]. split; [intros [X _]; congruence|auto]. }
  destruct (Z.leb_spec (lvl s) l) as [B|B].
  - unfold print, o_print. rewrite D. cbn [bind]. eexists. split; [reflexivity|]. split; [|intros [X|X]; lia]. intros _. cbn [so got].
    unfold upd. split.
    + destruct (place_eq p p); [|congruence]. rewrite level_char_ok by auto. auto.
    + intros q Q. destruct (place_eq p q); congruence.
  - exists s. split; [auto|]. split; [intros [_ X]; lia|auto].
Qed.
(** a history of level changes and messages: what comes out. cur: the level in force *)
Fixpoint shown (cur : Z) (h : list op) : list Z :=
  match h with
  | [] => []
  | SetMin l :: h => shown (if (0 <=? l) && (l <=? 5) then l else cur) h
  | Log l tag msg :: h => (if (1 <=? cur) && (cur <=? l) then line_text l tag msg else []) ++ shown cur h
  | Print t :: h => t ++ shown cur h
  | _ :: h => shown cur h
  end.
Definition only_log (o : op) : Prop := match o with SetMin _ | Print _ => True | Log l _ _ => is_level l | _ => False end.
Lemma logging_from : forall h strict s p, Forall only_log h -> 0 <= lvl s <= 5 -> dst (so s) = Some p ->
  exists s', run strict h s = Ret s' /\ dst (so s') = Some p /\ got (so s') p = got (so s) p ++ shown (lvl s) h /\ forall q, q <> p -> got (so s') q = got (so s) q.
Proof.
  intros h. induction h as [|o h IH]; intros strict s p F L D; cbn [run shown].
  - exists s. rewrite app_nil_r. auto.
  - inversion F as [|x y Fo Fh]; subst. destruct o as [x ok path|x ok|t|l|l tag msg]; try contradiction; cbn [step bind].
    + unfold print, o_print. rewrite D. cbn [bind]. destruct (IH strict (mk_s (lvl s) (sfp s) (xfp s) (mk_o (Some p) (upd (got (so s)) p (got (so s) p ++ t)))) p) as (s' & E & D' & G & Q); auto.
      exists s'. split; [auto|]. split; [auto|]. cbn [so got lvl] in *. unfold upd in *. split.
      * rewrite G. destruct (place_eq p p); [|congruence]. rewrite app_assoc. auto.
      * intros q NQ. rewrite Q by auto. destruct (place_eq p q); congruence.
    + unfold set_min_level. destruct (Z.ltb_spec l 0), (Z.gtb_spec l 5), (Z.leb_spec 0 l), (Z.leb_spec l 5); try lia; cbn [orb andb]; try (apply IH; auto; fail).
      destruct (IH strict (mk_s l (sfp s) (xfp s) (so s)) p) as (s' & E & D' & G & Q); auto. exists s'. auto.
    + destruct (C66_line strict l tag msg s p Fo D) as (s1 & E1 & L1 & G1 & G2). rewrite E1. cbn [bind].
      destruct (Z.leb_spec 1 (lvl s)), (Z.leb_spec (lvl s) l); cbn [andb app]; try (rewrite (G2 ltac:(lia)); apply IH; auto; fail).
      destruct (G1 ltac:(lia)) as (A & B & C). destruct (IH strict s1 p) as (s' & E & D' & G & Q); [auto|lia|auto|]. exists s'. split; [auto|]. split; [auto|].
      rewrite G, A, L1, app_assoc. split; [auto|]. intros q NQ. rewrite Q, B; auto.
Qed.
Theorem C66_history : forall h strict before, Forall only_log h ->
  exists s, run strict h (start before) = Ret s /\ got (so s) Original = before Original ++ shown 1 h /\ forall q, q <> Original -> got (so s) q = before q.
Proof. intros h strict before F. destruct (logging_from h strict (start before) Original F) as (s & E & _ & G & Q); [cbn; lia|auto|]. exists s. auto. Qed.
(** the level that slog_get_min_level returns: the last valid one that was set *)
Theorem C66_min_level : forall h strict s s', run strict h s = Ret s' ->
  lvl s' = fold_left (fun cur o => match o with SetMin l => if (0 <=? l) && (l <=? 5) then l else cur | _ => cur end) h (lvl s).
Proof.
  intros h. induction h as [|o h IH]; intros strict s s' H; cbn [run fold_left] in *; [congruence|].
  destruct (step strict o s) as [s1| | |] eqn:E; try discriminate. cbn [bind] in H. rewrite (IH _ _ _ H). f_equal.
  assert (NB : forall (m : outcome out) (k : out -> outcome st), (do o <- m; k o) = Ret s1 -> exists o1, k o1 = Ret s1) by (intros [y| | |] k Q; try discriminate; eauto).
  destruct o as [x ok path|x ok|t|l|l tag msg]; cbn [step] in E.
  - destruct x; cbn in E; (destruct path as [[|a path]|]; [injection E as <-; auto| |injection E as <-; auto]).
    + apply NB in E. destruct E as (o1 & E). apply NB in E. destruct E as (o2 & E). destruct (o_reopen strict ok (File (a :: path)) o2) as [[]| | |]; try discriminate. cbn in E. injection E as <-. auto.
    + apply NB in E. destruct E as (o1 & E). destruct (o_reopen strict ok (File (a :: path)) o1) as [[]| | |]; try discriminate. cbn in E. injection E as <-. auto.
  - destruct x; cbn in E.
    + unfold xlog_back2stdout in E. destruct (xfp s); cbn [negb] in E; [|injection E as <-; auto]. apply NB in E. destruct E as (o1 & E). apply NB in E. destruct E as (o2 & E). destruct (o_reopen strict ok Terminal o2) as [[]| | |]; try discriminate. cbn in E. injection E as <-. auto.
    + unfold slog_back2stdout in E. destruct (sfp s); cbn [negb] in E; [|injection E as <-; auto]. apply NB in E. destruct E as (o1 & E). apply NB in E. destruct E as (o2 & E). destruct (o_reopen strict ok Terminal o2) as [[]| | |]; try discriminate. cbn in E. injection E as <-. auto.
  - unfold print in E. apply NB in E. destruct E as (o1 & E). injection E as <-. auto.
  - injection E as <-. unfold set_min_level. destruct (Z.ltb_spec l 0), (Z.gtb_spec l 5), (Z.leb_spec 0 l), (Z.leb_spec l 5); try lia; auto.
  - unfold slog, print in E. destruct (enabled l s); [|injection E as <-; auto]. apply NB in E. destruct E as (o1 & E). injection E as <-. auto.
Qed.
(** hexadecimal messages of up to 84 bytes are complete *)
Lemma cstr_app : forall t r, text t -> cstr (t ++ 0 :: r) = Ret t.
Proof. intros t r T. induction T as [|c t N T IH]; cbn; [auto|]. destruct (Z.eqb_spec c 0); [lia|]. rewrite IH. auto. Qed.
Lemma hexl_nz : forall d, 0 <= d <= 15 -> hexl d <> 0.
Proof. intros d H. unfold hexl. destruct (d <? 10) eqn:E; try apply Z.ltb_lt in E; try apply Z.ltb_ge in E; lia. Qed.
Lemma hex_text_text : forall l, Forall is_byte l -> text (hex_text l).
Proof.
  intros l F. unfold hex_text. induction F as [|c l B F IH]; cbn [flat_map app]; [constructor|]. unfold is_byte in B.
  assert (0 <= c / 16 <= 15) by (split; [apply Z.div_pos; lia|apply Z.lt_succ_r, Z.div_lt_upper_bound; lia]). pose proof (Z.mod_pos_bound c 16 ltac:(lia)).
  constructor; [lia|]. constructor; [apply hexl_nz; lia|]. constructor; [apply hexl_nz; lia|]. apply IH.
Qed.
Theorem C66_hex : forall strict l tag chars suf junk s, is_level l -> Forall is_byte chars -> zlen chars <= 84 -> zlen junk = 256 ->
  slog_hex strict l tag (chars ++ suf) (zlen chars) junk s = slog strict l tag (hex_text chars) s.
Proof.
  intros strict l tag chars suf junk s L F N J. unfold slog_hex, hex_print.
  destruct (enabled l s) eqn:E; [|unfold slog; rewrite E; auto].
  destruct (C22_char2hex chars suf junk []) as (rest & _ & R); [lia|rewrite J; unfold two64; lia|]. rewrite !app_nil_r, J in R. rewrite R. cbn [bind fst].
  rewrite cstr_app by (apply hex_text_text; auto). cbn [bind].
  assert (l = 1 \/ l = 2 \/ l = 3 \/ l = 4 \/ l = 5) as [-> | [-> | [-> | [-> | ->]]]] by (unfold is_level in L; lia); reflexivity.
Qed.
(** not beyond: of 85 bytes the last digit is missing, from 86 on the array is overrun *)
Theorem C66_hex_85_refuted : forall strict l tag chars c junk s, is_level l -> Forall is_byte (chars ++ [c]) -> zlen chars = 84 -> zlen junk = 256 -> lvl s <> 0 -> lvl s <= l ->
  slog_hex strict l tag (chars ++ [c]) 85 junk s = slog strict l tag (hex_text chars ++ [32; hexl (c / 16)]) s.
Proof.
  intros strict l tag chars c junk s L F N J Z0 LE. unfold slog_hex, hex_print, enabled. destruct (Z.eqb_spec (lvl s) 0); [congruence|]. destruct (Z.leb_spec (lvl s) l); [|lia]. cbn [negb andb].
  assert (N2 : zlen (chars ++ [c]) = 85) by (rewrite zlen_app, zlen_cons, zlen_nil; lia).
  destruct (C22_documented_size_refuted chars c [] [] junk) as (x & R); [rewrite N2, J; auto|rewrite J; unfold two64; lia|]. rewrite !app_nil_r, J, N2 in R. rewrite R. cbn [bind fst].
  apply Forall_app in F. destruct F as [F FC]. inversion FC as [|? ? B _]; subst. unfold is_byte in B.
  assert (0 <= c / 16 <= 15) by (split; [apply Z.div_pos; lia|apply Z.lt_succ_r, Z.div_lt_upper_bound; lia]).
  replace (hex_text chars ++ [32; hexl (c / 16); 0; x]) with ((hex_text chars ++ [32; hexl (c / 16)]) ++ 0 :: [x]) by (rewrite <- app_assoc; reflexivity).
  rewrite cstr_app by (apply Forall_app; split; [apply hex_text_text; auto|]; constructor; [lia|]; constructor; [apply hexl_nz; lia|constructor]). cbn [bind].
  assert (l = 1 \/ l = 2 \/ l = 3 \/ l = 4 \/ l = 5) as [-> | [-> | [-> | [-> | ->]]]] by (unfold is_level in L; lia); reflexivity.
Qed.
Theorem C66_hex_overflow_refuted : forall strict l tag chars junk s, lvl s <> 0 -> lvl s <= l -> 86 <= zlen chars < 1000000000000000000 -> zlen junk = 256 ->
  slog_hex strict l tag chars (zlen chars) junk s = Ub.
Proof.
  intros strict l tag chars junk s Z0 LE N J. unfold slog_hex, hex_print, enabled. destruct (Z.eqb_spec (lvl s) 0); [congruence|]. destruct (Z.leb_spec (lvl s) l); [|lia]. cbn [negb andb].
  pose proof (C22_truncation_overflows_refuted chars junk) as R. rewrite J in R. rewrite R by lia. reflexivity.
Qed.

(** ** C67 *)
(** Where stdout goes, on systems where a closed stdout can be opened again (strict = false). *)
(** with one of the two loggers no history of redirections, returns, failures and messages is undefined *)
Definition of_logger (x : bool) (o : op) : Prop := match o with ToFile y _ _ | Back y _ => y = x | _ => True end.
Definition opened (o : op) : Prop := match o with ToFile _ ok _ | Back _ ok => ok = true | _ => True end.
Lemma step_opened : forall o s, opened o -> dst (so s) <> None -> exists s', step false o s = Ret s' /\ dst (so s') <> None.
Proof.
  intros o [l a b [d g]] O D. cbn [so dst] in D. destruct d as [p|]; [|congruence]. destruct o as [[|] ok path|[|] ok|t|m|m tag msg]; cbn [opened] in O; cbn [step]; try subst ok.
  - unfold xlog_stdout2file. destruct path as [[|c path]|]; cbn [xfp so]; try (eexists; split; [reflexivity|cbn; discriminate]; fail).
    destruct b; cbn; eexists; (split; [reflexivity|cbn; discriminate]).
  - unfold slog_stdout2file. destruct path as [[|c path]|]; cbn; eexists; (split; [reflexivity|cbn; discriminate]).
  - unfold xlog_back2stdout. cbn [xfp so]. destruct b; cbn; eexists; (split; [reflexivity|cbn; discriminate]).
  - unfold slog_back2stdout. cbn [sfp so]. destruct a; cbn; eexists; (split; [reflexivity|cbn; discriminate]).
  - cbn. eexists. split; [reflexivity|cbn; discriminate].
  - unfold set_min_level. destruct ((m <? 0) || (m >? 5)); eexists; (split; [reflexivity|cbn; discriminate]).
  - unfold slog. destruct (enabled _ _); cbn; eexists; (split; [reflexivity|cbn; discriminate]).
Qed.
Theorem C67_both_loggers_defined : forall h s, Forall opened h -> dst (so s) <> None -> exists s', run false h s = Ret s' /\ dst (so s') <> None.
Proof.
  intros h. induction h as [|o h IH]; intros s F D; cbn [run]; [eauto|]. inversion F; subst. destruct (step_opened o s) as (s1 & E & D1); auto. rewrite E. cbn [bind]. auto.
Qed.
Definition inv (x : bool) (s : st) : Prop := (if x then xfp s = true /\ sfp s = false \/ xfp s = false /\ sfp s = false else sfp s = true /\ xfp s = false \/ sfp s = false /\ xfp s = false) /\ (dst (so s) = None -> xfp s = false /\ sfp s = false).
Lemma step_one : forall x o s, of_logger x o -> inv x s -> exists s', step false o s = Ret s' /\ inv x s'.
Proof.
  intros x o [l a b [d g]] O I. unfold inv in I. cbn [so dst xfp sfp] in I. destruct I as [I1 I2].
  destruct o as [y ok path|y ok|t|m|m tag msg]; cbn [of_logger] in O; cbn [step]; try subst y.
  - destruct x.
    + unfold xlog_stdout2file. destruct path as [[|c path]|]; cbn [xfp so]; try (eexists; split; [reflexivity|unfold inv; cbn; auto]; fail).
      destruct b; destruct d as [p|]; destruct ok; cbn; try (destruct (I2 eq_refl); discriminate); eexists; (split; [reflexivity|unfold inv; cbn; intuition congruence]).
    + unfold slog_stdout2file. destruct path as [[|c path]|]; cbn [so]; try (eexists; split; [reflexivity|unfold inv; cbn; auto]; fail).
      destruct d as [p|]; destruct ok; cbn; eexists; (split; [reflexivity|unfold inv; cbn; intuition congruence]).
  - destruct x.
    + unfold xlog_back2stdout. cbn [xfp so]. destruct b; destruct d as [p|]; destruct ok; cbn; try (destruct (I2 eq_refl); discriminate); eexists; (split; [reflexivity|unfold inv; cbn; intuition congruence]).
    + unfold slog_back2stdout. cbn [sfp so]. destruct a; destruct d as [p|]; destruct ok; cbn; try (destruct (I2 eq_refl); discriminate); eexists; (split; [reflexivity|unfold inv; cbn; intuition congruence]).
  - unfold print, o_print. destruct d; cbn; eexists; (split; [reflexivity|unfold inv; cbn; intuition congruence]).
  - unfold set_min_level. destruct ((m <? 0) || (m >? 5)); eexists; (split; [reflexivity|unfold inv; cbn; auto]).
  - unfold slog. destruct (enabled _ _); [|eexists; split; [reflexivity|unfold inv; cbn; auto]]. unfold print, o_print. destruct d; cbn; eexists; (split; [reflexivity|unfold inv; cbn; intuition congruence]).
Qed.
Lemma run_one : forall x h s, Forall (of_logger x) h -> inv x s -> exists s', run false h s = Ret s' /\ inv x s'.
Proof.
  intros x h. induction h as [|o h IH]; intros s F I; cbn [run]; [eauto|]. inversion F; subst. destruct (step_one x o s) as (s1 & E & I1); auto. rewrite E. cbn [bind]. auto.
Qed.
Theorem C67_one_logger_defined : forall x h before, Forall (of_logger x) h -> exists s, run false h (start before) = Ret s.
Proof. intros x h before F. destruct (run_one x h (start before) F) as (s & E & _); [destruct x; unfold inv; cbn; intuition congruence|]. eauto. Qed.
(** after a redirection that works the file holds exactly what was printed since, and nothing else changes *)
Lemma prints : forall ls strict s p, dst (so s) = Some p -> exists s', run strict (map Print ls) s = Ret s' /\ got (so s') p = got (so s) p ++ concat ls /\ (forall q, q <> p -> got (so s') q = got (so s) q) /\
  dst (so s') = Some p /\ sfp s' = sfp s /\ xfp s' = xfp s.
Proof.
  intros ls. induction ls as [|t ls IH]; intros strict s p D; cbn [map run concat]; [exists s; rewrite app_nil_r; auto 10|]. cbn [step]. unfold print, o_print. rewrite D. cbn [bind].
  destruct (IH strict (mk_s (lvl s) (sfp s) (xfp s) (mk_o (Some p) (upd (got (so s)) p (got (so s) p ++ t)))) p eq_refl) as (s' & E & G & Q & A & B & C). exists s'. split; [auto|]. cbn [so got sfp xfp] in *. unfold upd in *.
  split; [rewrite G; destruct (place_eq p p); [rewrite app_assoc; auto|congruence]|]. split; [intros q NQ; rewrite Q by auto; destruct (place_eq p q); congruence|auto].
Qed.
Theorem C67_redirect : forall x h before path ls s, path <> [] -> Forall (of_logger x) h -> run false h (start before) = Ret s ->
  exists s', run false (ToFile x true (Some path) :: map Print ls) s = Ret s' /\ got (so s') (File path) = concat ls /\ forall q, q <> File path -> got (so s') q = got (so s) q.
Proof.
  intros x h before path ls s NP F R. destruct (run_one x h (start before) F) as (s0 & E & I); [destruct x; unfold inv; cbn; intuition congruence|]. rewrite E in R. injection R as <-.
  assert (S1 : exists s1, step false (ToFile x true (Some path)) s0 = Ret s1 /\ dst (so s1) = Some (File path) /\ got (so s1) (File path) = [] /\ forall q, q <> File path -> got (so s1) q = got (so s0) q).
  { destruct s0 as [l a b [d g]]. unfold inv in I. cbn [so dst xfp sfp] in I. destruct I as [I1 I2]. cbn [step]. destruct path as [|c path]; [congruence|].
    assert (U : forall q, upd g (File (c :: path)) [] q = if place_eq (File (c :: path)) q then [] else g q) by auto.
    assert (A : upd g (File (c :: path)) [] (File (c :: path)) = []) by (rewrite U; destruct (place_eq (File (c :: path)) (File (c :: path))); congruence).
    assert (B : forall q, q <> File (c :: path) -> upd g (File (c :: path)) [] q = g q) by (intros q Q; rewrite U; destruct (place_eq (File (c :: path)) q); congruence).
    destruct x; unfold xlog_stdout2file, slog_stdout2file; cbn [xfp so].
    - destruct b; destruct d as [p|]; cbn [o_flush o_close o_reopen bind dst got]; try (destruct (I2 eq_refl); discriminate); eexists; (split; [reflexivity|]); cbn [so dst got snd]; auto.
    - destruct d as [p|]; cbn [o_flush o_close o_reopen bind dst got]; eexists; (split; [reflexivity|]); cbn [so dst got snd]; auto. }
  destruct S1 as (s1 & E1 & D & G & Q). cbn [run]. rewrite E1. cbn [bind]. destruct (prints ls false s1 _ D) as (s' & E2 & G2 & Q2 & _). exists s'. split; [auto|]. rewrite G2, G. split; [auto|].
  intros q NQ. rewrite Q2, Q; auto.
Qed.
(** going back: later output is appended to the terminal, the file keeps what it has *)
Theorem C67_back : forall x h before path ls1 ls2 s, path <> [] -> Forall (of_logger x) h -> run false h (start before) = Ret s ->
  exists s', run false (ToFile x true (Some path) :: map Print ls1 ++ Back x true :: map Print ls2) s = Ret s' /\
    got (so s') (File path) = concat ls1 /\ got (so s') Terminal = got (so s) Terminal ++ concat ls2 /\ forall q, q <> File path -> q <> Terminal -> got (so s') q = got (so s) q.
Proof.
  intros x h before path ls1 ls2 s NP F R. destruct (run_one x h (start before) F) as (s0 & E & I); [destruct x; unfold inv; cbn; intuition congruence|]. rewrite E in R. injection R as <-.
  assert (S1 : exists s1, step false (ToFile x true (Some path)) s0 = Ret s1 /\ dst (so s1) = Some (File path) /\ (if x then xfp s1 else sfp s1) = true /\ got (so s1) (File path) = [] /\ forall q, q <> File path -> got (so s1) q = got (so s0) q).
  { destruct s0 as [l a b [d g]]. unfold inv in I. cbn [so dst xfp sfp] in I. destruct I as [I1 I2]. cbn [step]. destruct path as [|c path]; [congruence|].
    assert (U : forall q, upd g (File (c :: path)) [] q = if place_eq (File (c :: path)) q then [] else g q) by auto.
    assert (A : upd g (File (c :: path)) [] (File (c :: path)) = []) by (rewrite U; destruct (place_eq (File (c :: path)) (File (c :: path))); congruence).
    assert (B : forall q, q <> File (c :: path) -> upd g (File (c :: path)) [] q = g q) by (intros q Q; rewrite U; destruct (place_eq (File (c :: path)) q); congruence).
    destruct x; unfold xlog_stdout2file, slog_stdout2file; cbn [xfp so].
    - destruct b; destruct d as [p|]; cbn [o_flush o_close o_reopen bind dst got]; try (destruct (I2 eq_refl); discriminate); eexists; (split; [reflexivity|]); cbn [so dst got snd]; auto.
    - destruct d as [p|]; cbn [o_flush o_close o_reopen bind dst got]; eexists; (split; [reflexivity|]); cbn [so dst got snd]; auto. }
  destruct S1 as (s1 & E1 & D & X & G & Q). cbn [run]. rewrite E1. cbn [bind]. destruct (prints ls1 false s1 _ D) as (s2 & E2 & G2 & Q2 & D2 & X1 & X2).
  assert (RA : forall a b s, run false (a ++ b) s = do s <- run false a s; run false b s).
  { intros a. induction a as [|o a IHa]; intros b t; cbn [app run bind]; [auto|]. destruct (step false o t); cbn [bind]; auto. }
  rewrite RA, E2. cbn [bind run].
  assert (S3 : exists s3, step false (Back x true) s2 = Ret s3 /\ dst (so s3) = Some Terminal /\ got (so s3) = got (so s2)).
  { destruct s2 as [l a b [d g]]. cbn [so dst got xfp sfp] in *. subst d. cbn [step]. destruct x; unfold xlog_back2stdout, slog_back2stdout; cbn [xfp sfp so].
    - rewrite X2, X. cbn. eexists. split; [reflexivity|]. auto.
    - rewrite X1, X. cbn. eexists. split; [reflexivity|]. auto. }
  destruct S3 as (s3 & E3 & D3 & G3). rewrite E3. cbn [bind]. destruct (prints ls2 false s3 _ D3) as (s4 & E4 & G4 & Q4 & _). exists s4. split; [auto|].
  rewrite (Q4 (File path)), G4, !G3, G2, G by discriminate. split; [auto|]. split; [rewrite Q2, Q by discriminate; auto|].
  intros q N1 N2. rewrite Q4, G3, Q2, Q by auto. auto.
Qed.
(** slog alone, in ISO C: redirecting (again and again) is defined as long as it works and one never goes back *)
Definition no_back (o : op) : Prop := match o with ToFile false ok _ => ok = true | ToFile true _ _ | Back _ _ => False | _ => True end.
Theorem C67_slog_redirect_iso : forall h s, Forall no_back h -> dst (so s) <> None -> exists s', run true h s = Ret s' /\ dst (so s') <> None.
Proof.
  intros h. induction h as [|o h IH]; intros s F D; cbn [run]; [eauto|]. inversion F as [|a b O F']; subst.
  assert (S1 : exists s1, step true o s = Ret s1 /\ dst (so s1) <> None).
  { destruct s as [l a b [d g]]. cbn [so dst] in D. destruct d as [p|]; [|congruence]. destruct o as [[|] ok path|x ok|t|m|m tag msg]; cbn [no_back] in O; try contradiction; cbn [step].
    - subst ok. unfold slog_stdout2file. destruct path as [[|c path]|]; cbn; eexists; (split; [reflexivity|cbn; discriminate]).
    - cbn. eexists. split; [reflexivity|cbn; discriminate].
    - unfold set_min_level. destruct ((m <? 0) || (m >? 5)); eexists; (split; [reflexivity|cbn; discriminate]).
    - unfold slog. destruct (enabled _ _); cbn; eexists; (split; [reflexivity|cbn; discriminate]). }
  destruct S1 as (s1 & E & D1). rewrite E. cbn [bind]. auto.
Qed.
(** ** What does not hold *)
(** ISO C: going back always uses the stream it has just closed; so does redirecting xlog a second time *)
Theorem C67_back_iso_refuted : forall ok s, (sfp s = true -> slog_back2stdout true ok s = Ub) /\ (xfp s = true -> xlog_back2stdout true ok s = Ub) /\
  (forall path, path <> [] -> xfp s = true -> xlog_stdout2file true ok (Some path) s = Ub).
Proof.
  intros ok [l a b [d g]]. cbn [sfp xfp]. split; [|split].
  - intros ->. unfold slog_back2stdout. cbn. destruct d; auto.
  - intros ->. unfold xlog_back2stdout. cbn. destruct d; auto.
  - intros [|c path] N ->; [congruence|]. unfold xlog_stdout2file. cbn. destruct d; auto.
Qed.
(** going back does not restore a stdout that was not the terminal *)
Theorem C67_original_lost_refuted : forall x before path t, path <> [] ->
  exists s, run false [ToFile x true (Some path); Back x true; Print t] (start before) = Ret s /\ got (so s) Original = before Original /\ got (so s) Terminal = before Terminal ++ t.
Proof.
  intros x before path t NP. destruct (C67_back x [] before path [] [t] (start before) NP ltac:(constructor) eq_refl) as (s & E & _ & G & Q).
  exists s. split; [exact E|]. split; [rewrite Q by discriminate; auto|]. rewrite G. cbn. rewrite app_nil_r. auto.
Qed.
(** when the file cannot be opened, or there is no terminal, all later output is lost; going back does nothing then *)
Theorem C67_failed_redirect_refuted : forall x before path ts ok, path <> [] ->
  exists s, run false (ToFile x false (Some path) :: Back x ok :: map Print ts) (start before) = Ret s /\ dst (so s) = None /\ got (so s) = before.
Proof.
  intros x before path ts ok NP.
  assert (P : forall ts s, dst (so s) = None -> run false (map Print ts) s = Ret s).
  { clear. intros ts. induction ts as [|t ts IH]; intros s D; cbn [map run]; [auto|]. cbn [step]. unfold print, o_print. rewrite D. cbn [bind]. replace (mk_s (lvl s) (sfp s) (xfp s) (so s)) with s by (destruct s; auto). auto. }
  destruct path as [|c path]; [congruence|]. exists (mk_s 1 false false (mk_o None before)). split; [|auto]. destruct x; cbn [run step]; unfold xlog_stdout2file, slog_stdout2file, start; cbn; apply P; auto.
Qed.
(** the two loggers share one stdout: after xlog's redirection has failed, slog closes the closed stream *)
Theorem C67_two_loggers_refuted : forall before, run false [ToFile false true (Some [97]); ToFile true false (Some [98]); Back false true] (start before) = Ub.
Proof. intros. reflexivity. Qed.
(** ** Threads in xlog: with one thread going back at most, and redirections that work, nothing crashes *)
Definition is_back (x : top * tpc) : bool := match fst x with TBack => true | _ => false end.
Lemma nth_lset : forall (l : list (top * tpc)) t v x, nth_error l t = Some x -> forall i y, nth_error (firstn t l ++ v :: skipn (S t) l) i = Some y -> (i = t /\ y = v) \/ (i <> t /\ nth_error l i = Some y).
Proof.
  intros l. induction l as [|a l IH]; intros t v x E i y H; [destruct t; discriminate|]. destruct t as [|t]; cbn [firstn skipn app] in H.
  - destruct i as [|i]; cbn in H; [left; split; congruence|right; split; [lia|auto]].
  - destruct i as [|i]; cbn in H; [right; split; [lia|auto]|]. cbn in E. destruct (IH t v x E i y H) as [[-> ->]|[N Q]]; [auto|right; split; [lia|auto]].
Qed.
Definition tinv (s : tst) : Prop := (forall i j p q, nth_error (pcs s) i = Some (TBack, p) -> nth_error (pcs s) j = Some (TBack, q) -> i = j) /\
  (forall i ok p, nth_error (pcs s) i = Some (TFile ok, p) -> ok = true) /\ (forall i, nth_error (pcs s) i = Some (TBack, TTested) -> fp s = true).
Theorem C67_xlog_threads : forall l s, tinv s -> trun l s <> Crash.
Proof.
  intros l. induction l as [|t l IH]; intros s I; cbn [trun]; [discriminate|]. destruct (texec t s) as [s'| |] eqn:E; [|exfalso|discriminate]; destruct I as (I1 & I2 & I3); unfold texec in E;
    destruct (nth_error (pcs s) t) as [[[ok|] p]|] eqn:N; try discriminate; destruct p; try discriminate.
  - apply IH. injection E as <-. split; [|split]; cbn [pcs fp].
    + intros i j p q A B. apply (nth_lset _ _ _ _ N) in A, B. destruct A as [[_ A]|[_ A]]; [discriminate|]. destruct B as [[_ B]|[_ B]]; [discriminate|]. eapply I1; eauto.
    + intros i ok' p A. apply (nth_lset _ _ _ _ N) in A. destruct A as [[_ A]|[_ A]]; [injection A as -> _; eapply I2; eauto|eapply I2; eauto].
    + intros i A. eapply I2; eauto.
  - apply IH. injection E as <-. split; [|split]; cbn [pcs fp].
    + intros i j p q A B. apply (nth_lset _ _ _ _ N) in A, B. destruct A as [[-> A]|[_ A]], B as [[-> B]|[_ B]]; eauto.
    + intros i ok' p A. apply (nth_lset _ _ _ _ N) in A. destruct A as [[_ A]|[_ A]]; [discriminate|eapply I2; eauto].
    + intros i A. apply (nth_lset _ _ _ _ N) in A. destruct A as [[-> A]|[NE A]]; [destruct (fp s); [auto|discriminate]|eapply I3; eauto].
  - destruct (fp s) eqn:Fp; [|discriminate]. apply IH. injection E as <-. split; [|split]; cbn [pcs fp].
    + intros i j p q A B. apply (nth_lset _ _ _ _ N) in A, B. destruct A as [[-> A]|[_ A]], B as [[-> B]|[_ B]]; eauto.
    + intros i ok' p A. apply (nth_lset _ _ _ _ N) in A. destruct A as [[_ A]|[_ A]]; [discriminate|eapply I2; eauto].
    + intros i A. apply (nth_lset _ _ _ _ N) in A. destruct A as [[-> A]|[NE A]]; [discriminate|]. exfalso. apply NE. eapply I1; eauto.
  - rewrite (I3 _ N) in E. discriminate.
Qed.
Theorem C67_two_threads_back_refuted : trun [0; 1; 0; 1]%nat (mk_t true [(TBack, TIdle); (TBack, TIdle)]) = Crash /\
  trun [0; 1; 0]%nat (mk_t true [(TBack, TIdle); (TFile false, TIdle)]) = Crash.
Proof. split; reflexivity. Qed.

(** ** Cases *)
Example demo_hist : shown 1 [Log 1 [97] [98]; SetMin 3; Log 2 [97] [99]; SetMin 9; Log 5 [97] [100]; SetMin 0; Log 5 [] []] = [91;86;47;97;93;32;98;10] ++ [91;69;47;97;93;32;100;10].
Proof. reflexivity. Qed.
Example demo_redirect : match run false [Print [1]; ToFile true true (Some [102]); Log 3 [97] [98]; ToFile true true (Some [103]); Print [2]; Back true true; Print [3]] (start (fun _ => [])) with
  | Ret s => got (so s) Original = [1] /\ got (so s) (File [102]) = [91;73;47;97;93;32;98;10] /\ got (so s) (File [103]) = [2] /\ got (so s) Terminal = [3] | _ => False end.
Proof. vm_compute. auto. Qed.
Example demo_tinv : tinv (mk_t false [(TFile true, TIdle); (TBack, TIdle); (TFile true, TIdle)]).
Proof.
  split; [|split]; cbn [pcs].
  - intros i j p q A B. destruct i as [|[|[|i]]]; cbn in A; try discriminate; [|destruct i; discriminate]. destruct j as [|[|[|j]]]; cbn in B; try discriminate; [auto|destruct j; discriminate].
  - intros i ok p A. destruct i as [|[|[|i]]]; cbn in A; try congruence. destruct i; discriminate.
  - intros i A. destruct i as [|[|[|i]]]; cbn in A; try discriminate. destruct i; discriminate.
Qed.
Print Assumptions C66_line.
Print Assumptions C66_trace_line.
Print Assumptions C66_history.
Print Assumptions C66_min_level.
Print Assumptions C66_hex.
Print Assumptions C66_hex_85_refuted.
Print Assumptions C66_hex_overflow_refuted.
Print Assumptions C67_both_loggers_defined.
Print Assumptions C67_one_logger_defined.
Print Assumptions C67_redirect.
Print Assumptions C67_back.
Print Assumptions C67_slog_redirect_iso.
Print Assumptions C67_back_iso_refuted.
Print Assumptions C67_original_lost_refuted.
Print Assumptions C67_failed_redirect_refuted.
Print Assumptions C67_two_loggers_refuted.
Print Assumptions C67_xlog_threads.
Print Assumptions C67_two_threads_back_refuted.
