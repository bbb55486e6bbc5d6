(** C76: floating-point numbers in ini files (src/file/ini_parser.c). *)
From Coq Require Import QArith Qabs Lqa.
From Verif Require Import CBase CStr IniModel IniSpec IniProof IniProof2 IniProof3 IniProof4 IniProof6 FloatModel FloatSpec FloatProof FloatProof4 FloatText IniFloatModel IniFloatSpec IniFloatProof.
Open Scope Z_scope.

Lemma value_text p m s k v : hist p m -> m_get m s k = Some v -> text v /\ zlen v <= 255.
Proof.
  intros H G. pose proof (hist_inv _ _ H) as I. unfold m_get in G. destruct (assoc s m) as [l|] eqn:E; [|discriminate]. apply assoc_Some in E as (a & s' & b & -> & _).
  apply assoc_Some in G as (a' & k' & b' & -> & _).
  assert (Im : In (s', a' ++ (k', v) :: b') (a ++ (s', a' ++ (k', v) :: b') :: b)) by (apply in_or_app; right; left; reflexivity).
  assert (Ik : In (k', v) (a' ++ (k', v) :: b')) by (apply in_or_app; right; left; reflexivity).
  split; [apply (proj2 (i_kv _ _ I _ Im) _ Ik)|]. apply (proj2 (hist_short _ _ H _ Im) _ Ik).
Qed.
Lemma get_real_ok conv p m s k v : hist p m -> s <> [] -> k <> [] -> m_get m s k = Some v ->
  ini_get_real conv p (Some s) (Some k) = Ret (if (0 <? zlen v) && (snd (conv v) =? zlen v) then (0, Some (fst (conv v))) else (1, None)).
Proof.
  intros H Ns Nk G. destruct (value_text p m s k v H G) as [T L]. destruct (get_value p m s k v (hist_inv _ _ H) Ns Nk G T L) as (blk & E & C).
  unfold ini_get_real. rewrite E. cbn [bind]. change (negb (0 =? SUCCEED)) with false. cbn iota. rewrite C. cbn [bind]. pose proof (zlen_nonneg v).
  destruct (Z.eqb_spec (zlen v) 0) as [Q|Q]; [replace (0 <? zlen v) with false by lia; reflexivity|]. replace (0 <? zlen v) with true by lia. cbn [andb]. destruct (snd (conv v) =? zlen v); reflexivity.
Qed.
Lemma dv_bound l : Forall (fun c => 48 <= c <= 57) l -> forall a, 0 <= a -> 0 <= fold_left (fun n c => 10 * n + (c - 48)) l a < (a + 1) * 10 ^ zlen l.
Proof.
  induction 1 as [|c l Hc _ IH]; intros a A; cbn [fold_left]. { change (zlen (@nil Z)) with 0. lia. }
  specialize (IH (10 * a + (c - 48)) ltac:(lia)). rewrite zlen_cons, Z.pow_add_r by (pose proof (zlen_nonneg l); lia). assert (0 < 10 ^ zlen l) by (apply Z.pow_pos_nonneg; [lia|apply zlen_nonneg]). nia.
Qed.
Lemma number_bound v ng n d : number v ng n d -> zlen v <= 255 -> 0 <= n < 10 ^ 255 /\ 0 <= d.
Proof.
  intros (sp & sign & ip & fp & pt & -> & _ & _ & D & _ & _ & -> & ->) L. split; [|apply zlen_nonneg]. unfold digits_value. pose proof (dv_bound _ D 0 ltac:(lia)) as B.
  rewrite !zlen_app in L. pose proof (zlen_nonneg sp). pose proof (zlen_nonneg sign). pose proof (zlen_nonneg pt).
  assert (10 ^ zlen (ip ++ fp) <= 10 ^ 255) by (apply Z.pow_le_mono_r; [lia|]; rewrite zlen_app; lia). lia.
Qed.
Lemma big_pow : 10 ^ 255 <= 2 ^ 1023. Proof. vm_compute. discriminate. Qed.
Lemma quotient_nonneg n d : 0 <= n -> (0 <= n # d)%Q. Proof. intro H. unfold Qle. cbn. lia. Qed.
Lemma quotient_le n d : 0 <= n -> (n # d <= inject_Z n)%Q. Proof. intro H. unfold Qle. cbn. nia. Qed.
Lemma quotient_bound v ng n d : number v ng n d -> zlen v <= 255 -> (0 <= n # Z.to_pos (10 ^ d) <= pow2 1023)%Q.
Proof.
  intros N L. destruct (number_bound v ng n d N L) as [B _]. split; [apply quotient_nonneg; lia|]. eapply Qle_trans; [apply quotient_le; lia|]. rewrite pow2_Z by lia. rewrite <- Zle_Qle. pose proof big_pow. lia.
Qed.

(** A stored text that is a number in decimal notation is read as the nearest double (every such text: one of 255 characters
    cannot exceed the range of double) and, if it is at most 2^127, the nearest float, with its sign; *)
Theorem C76_numbers : forall (p : ini) (m : mini) (s k v : list Z) (ng : bool) (n d : Z),
  hist p m -> s <> [] -> k <> [] -> m_get m s k = Some v -> number v ng n d ->
  let q := n # Z.to_pos (10 ^ d) in
  (exists x, ini_get_double p (Some s) (Some k) = Ret (0, Some x) /\ neg x = ng /\ nearest_of is_double q x) /\
  ((q <= inject_Z (2 ^ 127))%Q -> exists x, ini_get_float p (Some s) (Some k) = Ret (0, Some x) /\ neg x = ng /\ nearest_of is_float q x).
Proof.
  intros p m s k v ng n d H Ns Nk G N q. destruct (value_text p m s k v H G) as [T L]. destruct (quotient_bound v ng n d N L) as [B1 B2]. fold q in B1, B2. unfold ini_get_double, ini_get_float. split.
  - rewrite (get_real_ok strtod p m s k v H Ns Nk G). unfold strtod. destruct (strto_number round_double v ng n d N) as (S & P). rewrite S. cbn [fst snd]. rewrite Z.eqb_refl. replace (0 <? zlen v) with true by lia. cbn [andb].
    destruct (double_nearest ng q B1 B2) as [X Y]. eexists. split; [reflexivity|]. split; assumption.
  - intro B3. rewrite (get_real_ok strtof p m s k v H Ns Nk G). unfold strtof. destruct (strto_number round_float v ng n d N) as (S & P). rewrite S. cbn [fst snd]. rewrite Z.eqb_refl. replace (0 <? zlen v) with true by lia. cbn [andb].
    destruct (float_nearest ng q B1) as [X Y]. { rewrite pow2_Z by lia. exact B3. } eexists. split; [reflexivity|]. split; assumption.
Qed.
Print Assumptions C76_numbers.
(** a text without letters that is no such number gives FAILED, and nothing is stored in the caller's variable; *)
Theorem C76_other_texts : forall (p : ini) (m : mini) (s k v : list Z),
  hist p m -> s <> [] -> k <> [] -> m_get m s k = Some v -> letterless v -> ~ (exists ng n d, number v ng n d) ->
  ini_get_double p (Some s) (Some k) = Ret (1, None) /\ ini_get_float p (Some s) (Some k) = Ret (1, None).
Proof.
  intros p m s k v H Ns Nk G _ N. unfold ini_get_double, ini_get_float.
  assert (X : forall rnd, (0 <? zlen v) && (snd (strto rnd v) =? zlen v) = false).
  { intro rnd. rewrite strto_end. destruct ((0 <? zlen v) && (snd (strtod v) =? zlen v)) eqn:Q; [|reflexivity]. exfalso. apply N, number_iff. apply andb_prop in Q. lia. }
  split; rewrite (get_real_ok _ p m s k v H Ns Nk G); unfold strtod, strtof; rewrite X; reflexivity.
Qed.
Print Assumptions C76_other_texts.
(** and a missing section or key gives SECTION_KEY_NOT_FOUND, again storing nothing. *)
Theorem C76_absent : forall (p : ini) (m : mini) (s k : list Z), hist p m -> s <> [] -> k <> [] -> m_get m s k = None ->
  ini_get_double p (Some s) (Some k) = Ret (4, None) /\ ini_get_float p (Some s) (Some k) = Ret (4, None).
Proof.
  intros p m s k H Ns Nk G. unfold ini_get_double, ini_get_float, ini_get_real.
  rewrite (get_ok p m) by (try exact (hist_inv _ _ H); reflexivity || (unfold INI_VALUE_STACK_SIZE; try lia; reflexivity)).
  unfold sp_get, m_get in *. destruct s as [|c s]; [congruence|]. destruct k as [|e k]; [congruence|]. destruct (assoc (c :: s) m) as [l|]; [rewrite G|]; split; reflexivity.
Qed.
Print Assumptions C76_absent.

(** str_params_get_float, unlike ini_parser_get_float, reads a double and then makes it a float: the text of 1 + 2^-24 + 2^-60
    is read as 1, which is not the nearest float. *)
From Verif Require Import StrParamsModel StrParamsSpec StrParamsProof Props_Float.
Definition twice : list Z := 49 :: 46 :: pad 60 ((2 ^ 36 + 1) * 5 ^ 60).
Definition twice_value : Q := (2 ^ 60 + 2 ^ 36 + 1) # (2 ^ 60).
Theorem C76_str_params_rounds_twice_refuted :
  forall (okx : Z -> bool) (t r : list Z) (p p1 : sp) (h : list sp_op) (res : list sp_res) (k : list Z),
  tables_ok okx -> text t -> sp_create true true okx (Some (t ++ 0 :: r)) = Ret (Some p) -> Forall valid_op h -> zlen h < 288230376151711744 ->
  sp_run p h = Ret (p1, res) -> cstring k -> lookup (fst (m_run [] h)) k = Some twice ->
  exists n x, number twice false n 60 /\ (n # Z.to_pos (10 ^ 60) == twice_value)%Q /\
  get_float p1 k = Ret (0, Some x) /\ (val x == 1)%Q /\ ~ nearest_of is_float twice_value x.
Proof.
  intros okx t r p p1 h res k TO TT E V B ER K L. destruct (C68_number_texts okx t r p p1 h res k twice TO TT E V B ER K L) as [H _].
  set (n := (2 ^ 60 + 2 ^ 36 + 1) * 5 ^ 60). assert (N : number twice false n 60).
  { exists [], [], [49], (pad 60 ((2 ^ 36 + 1) * 5 ^ 60)), [46]. split; [reflexivity|]. split; [constructor|]. split; [right; auto|]. split.
    - assert (Q : forallb (fun c => (48 <=? c) && (c <=? 57)) ([49] ++ pad 60 ((2 ^ 36 + 1) * 5 ^ 60)) = true) by (vm_compute; reflexivity). rewrite forallb_forall in Q. apply Forall_forall. intros c Ic. specialize (Q c Ic). lia.
    - split; [discriminate|]. split; [auto|]. split; vm_compute; reflexivity. }
  destruct (H false n 60 N) as [_ G]. cbv zeta in G. set (x := round_float _ _) in G. exists n, x. split; [exact N|]. split; [vm_compute; reflexivity|]. split; [exact G|].
  assert (X : (mag x == 1)%Q /\ neg x = false) by (split; vm_compute; reflexivity). clearbody x. destruct X as [X X']. split; [unfold val; rewrite X'; exact X|].
  intros [_ W]. specialize (W (mk_f false 8388609 (-23)) ltac:(split; cbn; lia)). rewrite X in W. revert W. vm_compute. intro W. apply W. reflexivity.
Qed.
Print Assumptions C76_str_params_rounds_twice_refuted.

(** Examples: "-0.1" is read as the doubles and floats everyone expects; "1.5x"-like texts without letters are refused; the
    text [twice] is read by the ini parser as 1 + 2^-23 and by str_params as 1 *)
Definition put1 (v : list Z) : outcome (Z * ini) := ini_put all_ok ini_new (Some [97]) (Some [98]) (Some v).
Example ex_hist v : text v -> zlen v <= 255 -> exists p, put1 v = Ret (0, p) /\ hist p [([97], [([98], v)])].
Proof.
  intros T L. destruct (iop_lemma ini_new [] (IPut all_ok (Some [97]) (Some [98]) (Some v)) inv_new) as (q & E & _).
  { split; [discriminate|]. repeat split; try (repeat constructor; lia); try exact L; try exact T; vm_compute; discriminate. }
  exists q. split; [exact E|]. apply (hist_step ini_new [] (IPut all_ok (Some [97]) (Some [98]) (Some v)) 0 q hist_new); [|exact E].
  split; [discriminate|]. repeat split; try (repeat constructor; lia); try exact L; try exact T; vm_compute; discriminate.
Qed.
Example ex_read :
  match put1 [45; 48; 46; 49] with
  | Ret (_, p) => match ini_get_double p (Some [97]) (Some [66]), ini_get_float p (Some [65]) (Some [98]) with
    | Ret (0, Some x), Ret (0, Some y) => neg x = true /\ mant x = 7205759403792794 /\ expo x = -56 /\ mant y = 13421773 /\ expo y = -27
    | _, _ => False end
  | _ => False end /\
  match put1 [49; 46; 53; 46] with Ret (_, p) => ini_get_double p (Some [97]) (Some [98]) = Ret (1, None) | _ => False end /\
  match put1 twice with Ret (_, p) => match ini_get_float p (Some [97]) (Some [98]) with Ret (0, Some y) => mant y = 8388609 /\ expo y = -23 | _ => False end | _ => False end.
Proof. vm_compute. repeat split; reflexivity. Qed.
Example ex_twice : exists p1 res,
  match sp_create true true (fun n => n <=? 1152921504606846976) (Some [59; 0]) with
  | Ret (Some p) => sp_run p [SAdd sa0 [107] twice] = Ret (p1, res) | _ => False end /\
  lookup (fst (m_run [] [SAdd sa0 [107] twice])) [107] = Some twice /\ Forall valid_op [SAdd sa0 [107] twice].
Proof.
  assert (TK : tables_ok (fun n => n <=? 1152921504606846976)) by (intro n; apply Z.leb_le).
  destruct (sp_create_ok true true _ [59] [] (Some [59; 0]) TK ltac:(repeat constructor; lia) (or_intror eq_refl)) as [(p & E & R & _)|(_ & [X|X])]; try discriminate.
  assert (V : Forall valid_op [SAdd sa0 [107] twice]).
  { constructor; [|constructor]. split; [repeat constructor; lia|]. split; [|exact TK].
    assert (Q : forallb (fun c => (1 <=? c) && (c <=? 255)) twice = true) by (vm_compute; reflexivity). rewrite forallb_forall in Q. apply Forall_forall. intros c Ic. specialize (Q c Ic). lia. }
  destruct (sp_run_ok [SAdd sa0 [107] twice] p [] R V ltac:(unfold big; vm_compute; reflexivity)) as (q & E' & _). exists q. eexists. split; [rewrite E; exact E'|]. split; [vm_compute; reflexivity|exact V].
Qed.
