(** C43: xlog.c *)
From Verif Require Import CBase SeqLib CStr StringsModel StringsProof TimeModel TimeSpec StringsSpec Props_Strings Props_Time
  StrParamsProof XlogModel XlogSpec XlogProof XlogProof2 XlogProof3 XlogProof4.

(** C43: after any history of setter calls, a log call with any level, tag, function name, line, message, thread
    id and time prints and hands to the callback exactly the specified record if its level is enabled, and
    nothing otherwise; the 512-byte buffer is never overrun as long as header and "(func:line) " take at most
    511 bytes. A record of 512 bytes or more needs memory and is dropped without it. Missing from the full
    claim: long function names (refuted below), thread id INT_MIN, trigger levels above 6. *)
Theorem C43_records :
  forall h dtag, Forall op_ok h -> default_tag h dtag ->
  exists c, sets cfg0 h = Ret c /\
  forall sf e level tagp tag funcp func line m,
  strftime_ok sf -> - 2 ^ 31 < e_tid e < 2 ^ 31 -> 0 <= level ->
  (match tagp with None => tag = dtag | Some b => cblock tag b end) ->
  str_arg funcp func -> line < 2 ^ 31 -> e_msg e = Some m -> text m -> zlen m < 2 ^ 31 - 1 -> malloc_ok (e_malloc e) ->
  exists st, zlen st <= 23 /\
    (strftime_std sf -> 0 <= e_sec e < 2 ^ 31 -> 0 <= e_sec e / 3600 + zone h -> 0 <= e_usec e < 1000000 ->
     st = stamp_text (e_sec e) (e_usec e) (zone h)) /\
  let header := header_text h st tag (shown_level h level) (e_tid e) in
  let rec := header ++ func_field func line ++ m in
  (~ enabled h level -> xlog_print sf c e level tagp funcp line = Ret []) /\
  (enabled h level -> zlen (header ++ func_field func line) <= 511 ->
   xlog_print sf c e level tagp funcp line =
     Ret (if zlen rec <=? 511 then outputs h level rec
          else match e_malloc e (zlen rec + 1) with Some _ => outputs h level rec | None => [] end)).
Proof.
  intros h dtag Ho D. destruct (history h dtag D Ho) as (c & S & A). exists c. split; [exact S|].
  intros sf e level tagp tag funcp func line m H1 H2 H3 H4 H5 H6 H7 H8 H9 H10.
  destruct (print_ok sf h dtag c e level tagp tag funcp func line m A H1 H2 H3 H4 H5 H6 H7 H8 H9 H10) as (st & P1 & P2 & P3 & P4 & _).
  exists st. split; [exact P1|]. split; [exact P2|]. cbv zeta. split; [exact P3|exact P4].
Qed.
Print Assumptions C43_records.

(** every admissible history determines a default tag, so the theorem above applies to all of them *)
Theorem C43_default_tag_total : forall h, Forall op_ok h -> exists t, default_tag h t.
Proof. exact default_tag_exists. Qed.
Print Assumptions C43_default_tag_total.

(** the header never exceeds 57 bytes, and function names of up to 440 characters always fit *)
Theorem C43_header_bounded :
  forall h st tag level tid func line, zlen st <= 23 -> line < 2 ^ 31 ->
  zlen (header_text h st tag level tid) <= 57 /\
  (match func with Some f => zlen f <= 440 | None => True end ->
   zlen (header_text h st tag level tid ++ func_field func line) <= 511).
Proof.
  intros h st tag level tid func line Hs Hl. pose proof (header_len h st tag level tid Hs) as L. split; [exact L|].
  intro Hf. rewrite zlen_app. unfold func_field. destruct func as [f|]; [|change (zlen (@nil Z)) with 0; lia].
  destruct (Z.ltb_spec 0 line); [|change (zlen (@nil Z)) with 0; lia]. rewrite !zlen_app.
  change (zlen [40]) with 1. change (zlen [58]) with 1. change (zlen [41;32]) with 2.
  assert (zlen (decimal line) <= 10); [|lia].
  unfold decimal. rewrite zlen_rev. unfold zlen.
  pose proof (dec_len (S (Z.to_nat (Z.log2 line))) line 9). change (2 ^ 31) with 2147483648 in Hl.
  change (10 ^ Z.of_nat 10) with 10000000000 in *. lia.
Qed.
Print Assumptions C43_header_bounded.

(** C43 fails for long function names: whenever the record goes anywhere and header and "(func:line) " need
    more than 511 bytes, the call writes outside its buffer *)
Theorem C43_long_function_name_refuted :
  forall h dtag, Forall op_ok h -> default_tag h dtag ->
  exists c, sets cfg0 h = Ret c /\
  forall sf e level tagp tag funcp func line m,
  strftime_ok sf -> - 2 ^ 31 < e_tid e < 2 ^ 31 -> 0 <= level ->
  (match tagp with None => tag = dtag | Some b => cblock tag b end) ->
  str_arg funcp func -> line < 2 ^ 31 -> e_msg e = Some m -> text m -> zlen m < 2 ^ 31 - 1 -> malloc_ok (e_malloc e) ->
  enabled h level -> to_console h || to_callback h = true -> 511 < zlen (func_field func line) ->
  xlog_print sf c e level tagp funcp line = Ub.
Proof.
  intros h dtag Ho D. destruct (history h dtag D Ho) as (c & S & A). exists c. split; [exact S|].
  intros sf e level tagp tag funcp func line m H1 H2 H3 H4 H5 H6 H7 H8 H9 H10 H11 H12 H13.
  destruct (print_ok sf h dtag c e level tagp tag funcp func line m A H1 H2 H3 H4 H5 H6 H7 H8 H9 H10) as (st & P1 & P2 & P3 & P4 & P5).
  apply P5; [exact H11|exact H12|]. rewrite zlen_app. pose proof (zlen_nonneg (header_text h st tag (shown_level h level) (e_tid e))). lia.
Qed.
Print Assumptions C43_long_function_name_refuted.

(** C43 fails for trigger levels that are not LogLevel constants: the level table is read outside its bounds *)
Theorem C43_trigger_level_refuted :
  forall sf e n level, 6 < n -> 1 <= level <= 5 ->
  strftime_ok sf -> exists c, sets cfg0 [SetFormat 4; LevelUp n] = Ret c /\ xlog_print sf c e level None None 0 = Ub.
Proof.
  intros sf e n level Hn Hl Hs.
  assert (exists c, sets cfg0 [SetFormat 4; LevelUp n] = Ret c /\ (x_target c = 4 /\ x_min c = 1 /\ x_up c = n) /\
    x_format c = 4 /\ x_console c = true /\ x_stamp c = false /\ x_taglevel c = true) as (c & S & (C1 & C2 & C3) & C4 & C5 & C6 & C7).
  { eexists. split; [reflexivity|]. split; [split; [reflexivity|split; reflexivity]|]. split; [reflexivity|]. split; [reflexivity|]. split; reflexivity. }
  exists c. split; [exact S|]. clear S. unfold xlog_print, logable. rewrite C1, C2, C3.
  destruct (negb (negb (4 =? 0) && negb (1 =? 0) && (level <? 6) && (level >=? 1))) eqn:E; [lia|].
  cbv zeta. destruct (negb (n =? 0) && (level <? n)) eqn:E2; [|lia]. clear E E2.
  unfold header. rewrite C4, C5, C6, C7. change (negb (4 =? 0) && (true || x_usercb c)) with true. cbv iota. cbn [bind].
  unfold print_level_tag. set (b := repeat 0 (Z.to_nat BUF_SIZE)).
  destruct (mstore b 0 32) as [b'| | |] eqn:E; try reflexivity; cbn [bind].
  - assert (mload level_chars n = Ub) as ->; [|reflexivity].
    unfold mload. assert (znth n level_chars = None) as ->; [apply znth_None_iff; right; change (zlen level_chars) with 7; lia|reflexivity].
  - unfold mstore, mwrite in E. destruct (_ && _) in E; discriminate.
  - unfold mstore, mwrite in E. destruct (_ && _) in E; discriminate.
Qed.
Print Assumptions C43_trigger_level_refuted.

(** the thread id column: ids that differ by a multiple of 100000 look the same; INT_MIN overflows *)
Theorem C43_tid_ambiguous_refuted : forall n k, 10000 <= n < 100000 -> 0 <= k -> tid_field (n + 100000 * k) = tid_field n.
Proof.
  intros n k Hn Hk. unfold tid_field. rewrite !Z.abs_eq by lia. cbn [map].
  assert (forall p, 0 < p -> p <= 10000 -> (n + 100000 * k <? p) = (n <? p)) as X by (intros; lia).
  rewrite !X by lia.
  assert ((n + 100000 * k) / 10000 mod 10 = n / 10000 mod 10) as -> by lia.
  assert ((n + 100000 * k) / 1000 mod 10 = n / 1000 mod 10) as -> by lia.
  assert ((n + 100000 * k) / 100 mod 10 = n / 100 mod 10) as -> by lia.
  assert ((n + 100000 * k) / 10 mod 10 = n / 10 mod 10) as -> by lia.
  rewrite !Z.div_1_r. assert ((n + 100000 * k) mod 10 = n mod 10) as -> by lia. reflexivity.
Qed.
Print Assumptions C43_tid_ambiguous_refuted.
Theorem C43_tid_min_refuted : forall buf off, print_tid buf off (- 2 ^ 31) = Ub.
Proof. intros. reflexivity. Qed.
Print Assumptions C43_tid_min_refuted.

(** hex dumps: up to 170 bytes they are the record whose message is the hex text ... *)
Theorem C43_hex :
  forall sf c e junk level tagp chars suf, zlen junk = 512 -> zlen chars <= 170 -> Forall is_byte chars ->
  xlog_hex_print sf c e junk level tagp (chars ++ suf) (zlen chars) =
  xlog_print sf c {| e_sec := e_sec e; e_usec := e_usec e; e_tid := e_tid e; e_msg := Some (hex_text chars); e_malloc := e_malloc e |}
    level tagp None (-1).
Proof.
  intros sf c e junk level tagp chars suf Hj Hc Hb. unfold xlog_hex_print.
  destruct (negb (logable c level)) eqn:E; [unfold xlog_print; rewrite E; reflexivity|].
  destruct (C22_char2hex chars suf junk []) as (rest & R1 & R2); [lia|unfold two64; lia|].
  rewrite !app_nil_r in R2. rewrite Hj in R2. unfold BUF_SIZE. rewrite R2. cbn [bind].
  pose proof (cstr_at_text [] (hex_text chars) rest 0 eq_refl) as X. cbn [app] in X. rewrite X; [reflexivity|]. clear X.
  unfold hex_text. clear - Hb. induction chars as [|x l IH]; [constructor|].
  apply Forall_cons_iff in Hb as [Hx Hb]. cbn [flat_map]. apply text_app. split; [|apply IH; exact Hb].
  unfold is_byte in Hx. repeat constructor; try lia; unfold hexl; match goal with |- (if ?b then _ else _) <> 0 => destruct b; lia end.
Qed.
Print Assumptions C43_hex.
(** ... and from 171 bytes on the call writes outside its stack buffer *)
Theorem C43_hex_overflow_refuted :
  forall sf c e junk level tagp chars, zlen junk = 512 -> 171 <= zlen chars -> zlen chars < 10 ^ 18 ->
  logable c level = true -> xlog_hex_print sf c e junk level tagp chars (zlen chars) = Ub.
Proof.
  intros sf c e junk level tagp chars Hj Hc Hm Hl. unfold xlog_hex_print. rewrite Hl. cbn [negb].
  pose proof (C22_truncation_overflows_refuted chars junk) as X. rewrite Hj in X. unfold BUF_SIZE. rewrite X; [reflexivity|lia|lia|exact Hm].
Qed.
Print Assumptions C43_hex_overflow_refuted.

(** "WARN from main:42" to the console and the callback, with tag, thread id and time *)
Definition ops_demo : list op := [SetTarget 12; SetFormat 14; SetMin 3; SetTag (Some [97;112;112;0]); SetCb true; LevelUp 4; SetMin 9].
Definition env_demo : env := {| e_sec := 1709164800; e_usec := 5000; e_tid := 1234; e_msg := Some [104;105]; e_malloc := fun _ => None |}.
Example C43_case :
  Forall op_ok ops_demo /\ default_tag ops_demo [97;112;112] /\ enabled ops_demo 3 /\ ~ enabled ops_demo 2 /\
  exists c, sets cfg0 ops_demo = Ret c /\
  xlog_print sf_demo c env_demo 3 None (Some [109;97;105;110;0]) 42 =
   let r := [48;50;45;50;57;32;48;56;58;48;48;58;48;48;46;48;48;53; 32;87;47;97;112;112;32;32;32;32;32; 40;32;49;50;51;52;41; 58;32;
             40;109;97;105;110;58;52;50;41;32; 104;105] in
   Ret [Print (r ++ [10]); Callback 4 (r ++ [0])].
Proof.
  split; [|split; [|split; [|split]]].
  - repeat constructor; cbn; try lia. exists [97;112;112]. split; [repeat constructor; lia|exists []; reflexivity].
  - change ops_demo with (((((([] ++ [SetTarget 12]) ++ [SetFormat 14]) ++ [SetMin 3]) ++ [SetTag (Some [97;112;112;0])]) ++ [SetCb true]) ++ [LevelUp 4] ++ [SetMin 9]).
    rewrite app_assoc. do 3 (apply tag_keep; [|congruence]).
    change [97;112;112] with (ztake 23 [97;112;112]). eapply tag_set with (t := [88;76;111;103]).
    + do 3 (apply tag_keep; [|congruence]). constructor.
    + split; [repeat constructor; lia|exists []; reflexivity].
  - vm_compute. repeat split; congruence.
  - intros (_ & _ & X). vm_compute in X. destruct X as [X _]. congruence.
  - eexists. split; [reflexivity|]. vm_compute. reflexivity.
Qed.
