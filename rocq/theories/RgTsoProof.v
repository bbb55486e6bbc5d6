(** Proofs for C79, part 1: the invariant with store buffers *)
From Verif Require Import MpliteProof2 MpliteProof6.
From Verif Require Import CBase SeqLib RingBufModel RgMtModel RgMtSpec RgMtProof RgMtProof2 RgTsoModel RgTsoSpec.
From Verif Require SpscProof SpscProof3.

Fixpoint tevs_ok (cap : Z) (l : list tev) : Prop := match l with [] => True | e :: l => tev_ok cap e l /\ tevs_ok cap l end.
Section P.
Variable c0 : Z.
Hypothesis C0 : 0 <= c0.
(** the stores in the writer's buffer, from memory m with p bytes published; T: what holds once all of them have reached memory *)
Section Good.
Variables (size q : Z) (S : list Z) (T : list Z -> Z -> Prop).
Fixpoint good (m : list Z) (p : Z) (b : list wr) : Prop :=
  match b with
  | [] => T m p
  | SByte a v :: b => exists x m', a = (c0 + x) mod size /\ p <= x < q + size /\ mstore m a v = Ret m' /\ good m' p b
  | SOff v :: b => exists p', p <= p' <= zlen S /\ v = (c0 + p') mod size /\ (forall j, p <= j < p' -> znth ((c0 + j) mod size) m = znth j S) /\ good m p' b
  end.
End Good.
Fixpoint goodr (size k q : Z) (b : list Z) : Prop :=
  match b with [] => q = k | x :: b => exists q', q <= q' <= k /\ x = (c0 + q') mod size /\ goodr size k q' b end.
(** S: all bytes whose offset store has been issued; p: how many are published in memory; k: taken, with stores still in the reader's buffer; q: taken as memory says *)
Section Inv.
Variables (s : tst) (S : list Z) (k p q : Z).
Let K0 := taken (plain (rsync_at (wcall_at (t_log s)))).
Let W0 := zlen (wrote (plain (wsync_at (rcall_at (t_log s))))).
Let L := plain (t_log s).
Let cap := t_size s - 1.
Definition twinv : Prop :=
  match t_wp s with
  | WIdle => True
  | WSpaceAt => K0 <= q
  | WCheck c => wok c /\ c <> WSpace /\ K0 <= q
  | WCopy c start i =>
      wok c /\ c <> WSpace /\ start = (c0 + zlen S) mod t_size s /\ 0 <= i <= wlen c /\ 0 < wlen c /\
      (exists k0, K0 <= k0 <= q /\ zlen S - cap <= k0 /\ wlen c <= cap - (zlen S - k0))
  | WRet c n =>
      wok c /\ exists k0, K0 <= k0 <= q /\
      let free := cap - (zlen (wrote L) - k0) in
      0 <= free <= cap /\ n = match c with WWrite _ len => granted len free | WSpace => free end
  end.
Definition tnext (m : Z) : list Z := ztake m (zdrop (taken L) S).
Definition trinv : Prop :=
  match t_rp s with
  | RIdle => True
  | RAvailAt => W0 <= p
  | RCheck c => rok c /\ c <> RAvail /\ W0 <= p
  | RCopy c start i t =>
      rok c /\ c <> RAvail /\ start = (c0 + k) mod t_size s /\ 0 <= i <= rlen c /\ 0 < rlen c /\
      (exists k1, W0 <= k1 <= p /\ k1 <= k + cap /\ rlen c <= k1 - k) /\
      match rtgt c with None => i = rlen c | Some t0 => t = ztake i (zdrop k S) ++ zdrop i t0 end
  | RRet c n t' =>
      rok c /\ exists k1, W0 <= k1 <= p /\
      let stored := k1 - taken L in
      0 <= stored <= cap /\ n = match c with RRead _ len | RPeek _ len | RDiscard len => granted len stored | RAvail => stored end /\
      t' = match rtgt c with Some t => Some (tnext n ++ zdrop n t) | None => None end
  end.
(** the bytes of the write in progress that have been issued *)
Definition tail (m : list Z) (p : Z) : Prop :=
  p = zlen S /\ t_size s <= zlen m /\
  match t_wp s with WCopy c _ i => forall j, 0 <= j < i -> znth ((c0 + zlen S + j) mod t_size s) m = znth j (wsrc c) | _ => True end.
Record tinv : Prop := {
  v_sz : 3 <= t_size s < 2 ^ 63; v_len : t_size s <= zlen (t_mem s);
  v_w_off : t_w s = (c0 + p) mod t_size s; v_r_off : t_r s = (c0 + q) mod t_size s;
  v_rng : 0 <= q <= k /\ k <= p <= zlen S /\ zlen S <= q + cap;
  v_dat : forall j, k <= j < p -> znth ((c0 + j) mod t_size s) (t_mem s) = znth j S;
  v_wb : good (t_size s) q S tail (t_mem s) p (t_wbuf s); v_rb : goodr (t_size s) k q (t_rbuf s);
  v_w : twinv; v_r : trinv;
  v_wrote : S = wrote L ++ wpend (t_wp s); v_taken : k = taken L + rpend (t_rp s);
  v_wo : wopen L = wcur (t_wp s); v_ro : ropen L = rcur (t_rp s);
  v_tk : 0 <= taken L;
  v_ws : zlen (wrote (plain (wsync_at (t_log s)))) <= p; v_rs : taken (plain (rsync_at (t_log s))) <= q;
  v_evs : tevs_ok cap (t_log s) }.
End Inv.

(** ** buffers *)
Lemma good_app size q S S' (T T' : list Z -> Z -> Prop) e b : (exists X, S' = S ++ X) -> (forall m p, T m p -> good size q S' T' m p e) ->
  forall m p, good size q S T m p b -> (forall m' p', T m' p' -> 0 <= p') -> 0 <= p -> good size q S' T' m p (b ++ e).
Proof.
  intros (X & ->) H. induction b as [|w b IH]; cbn [app good]; intros m p G N P; [auto|]. destruct w as [a v|v].
  - destruct G as (x & m' & A & B & C & D). exists x, m'. repeat split; auto; lia.
  - destruct G as (p' & A & B & C & D). exists p'. rewrite zlen_app. pose proof (zlen_nonneg X). split; [lia|]. split; [exact B|]. split; [|apply IH; auto; lia]. intros j Hj. rewrite znth_app_l by lia. apply C. lia.
Qed.
Lemma good_impl size q q' S (T T' : list Z -> Z -> Prop) b : q <= q' -> (forall m p, T m p -> T' m p) -> forall m p, good size q S T m p b -> good size q' S T' m p b.
Proof.
  intros Q H. induction b as [|w b IH]; cbn [good]; intros m p G; [auto|]. destruct w as [a v|v].
  - destruct G as (x & m' & A & B & C & D). exists x, m'. repeat split; auto; lia.
  - destruct G as (p' & A & B & C & D). exists p'. repeat split; auto; lia.
Qed.
Lemma good_fwd size q S (T : list Z -> Z -> Prop) b : (forall m p, T m p -> p = zlen S) -> forall m p, good size q S T m p b -> fwd_w b ((c0 + p) mod size) = (c0 + zlen S) mod size.
Proof.
  intros H. induction b as [|w b IH]; cbn [good fwd_w]; intros m p G; [rewrite (H _ _ G); reflexivity|]. destruct w as [a v|v].
  - destruct G as (x & m' & A & B & C & D). eapply IH; eassumption.
  - destruct G as (p' & A & -> & C & D). eapply IH; eassumption.
Qed.
Lemma goodr_app size k q b k' : k <= k' -> goodr size k q b -> goodr size k' q (b ++ [(c0 + k') mod size]) /\ fwd_r b ((c0 + q) mod size) = (c0 + k) mod size.
Proof.
  intros K. revert q. induction b as [|x b IH]; cbn [app goodr fwd_r]; intros q G.
  - subst q. split; [|reflexivity]. exists k'. split; [lia|]. auto.
  - destruct G as (q' & A & -> & D). destruct (IH _ D) as (E1 & E2). split; [|exact E2]. exists q'. split; [lia|]. auto.
Qed.
Lemma tail_ext s s' S : t_wp s' = t_wp s -> t_size s' = t_size s -> forall m p, tail s S m p -> tail s' S m p.
Proof. intros A B m p (T1 & T2 & T3). unfold tail. rewrite A, B. auto. Qed.
Lemma tail_len s S m p : tail s S m p -> p = zlen S. Proof. intros (A & _). exact A. Qed.
Lemma own_w_eq s S k p q : tinv s S k p q -> own_w s = (c0 + zlen S) mod t_size s.
Proof. intros []. unfold own_w. rewrite v_w_off0. eapply good_fwd; [|exact v_wb0]. intros m p'. apply tail_len. Qed.
Lemma own_r_eq s S k p q : tinv s S k p q -> own_r s = (c0 + k) mod t_size s.
Proof. intros []. unfold own_r. rewrite v_r_off0. destruct (goodr_app _ k q (t_rbuf s) k (Z.le_refl k) v_rb0) as (_ & E). exact E. Qed.
Lemma room_eq s S k p q : tinv s S k p q -> room s = t_size s - 1 - (zlen S - q).
Proof. intro I. unfold room. rewrite (own_w_eq _ _ _ _ _ I). destruct I. rewrite v_r_off0. rewrite avail_w_mod by lia. lia. Qed.
Lemma stored_eq s S k p q : tinv s S k p q -> stored s = p - k.
Proof. intro I. unfold stored. rewrite (own_r_eq _ _ _ _ _ I). destruct I. rewrite v_w_off0. rewrite avail_r_mod by lia. lia. Qed.

(** ** mono *)
Lemma twinv_mono s s' S q q' : t_wp s' = t_wp s -> t_size s' = t_size s -> wcall_at (t_log s') = wcall_at (t_log s) -> wrote (plain (t_log s')) = wrote (plain (t_log s)) -> q <= q' -> twinv s S q -> twinv s' S q'.
Proof.
  intros E1 E2 E3 E4 Q H. unfold twinv in *. rewrite E1, E2, E3, E4. destruct (t_wp s) as [| |c|c start i|c n]; auto.
  - lia.
  - destruct H as (A & B & C). split; [exact A|]. split; [exact B|lia].
  - destruct H as (A & B & C & D & D0 & (k0 & K1 & K2)). split; [exact A|]. split; [exact B|]. split; [exact C|]. split; [exact D|]. split; [exact D0|]. exists k0. split; [lia|exact K2].
  - destruct H as (A & k0 & K1 & K2). split; [exact A|]. exists k0. split; [lia|exact K2].
Qed.
Lemma trinv_mono s s' S X k p p' : t_rp s' = t_rp s -> t_size s' = t_size s -> rcall_at (t_log s') = rcall_at (t_log s) -> taken (plain (t_log s')) = taken (plain (t_log s)) -> 0 <= taken (plain (t_log s)) -> 0 <= k -> k <= p <= zlen S -> p <= p' ->
  trinv s S k p -> trinv s' (S ++ X) k p'.
Proof.
  intros E1 E2 E3 E4 TK K KP P H. unfold trinv in *. rewrite E1, E2, E3, E4. destruct (t_rp s) as [| |c|c start i t|c n t']; auto.
  - lia.
  - destruct H as (A & B & C). split; [exact A|]. split; [exact B|lia].
  - destruct H as (A & B & C & D & D0 & (k1 & K1 & K2 & K3) & F). split; [exact A|]. split; [exact B|]. split; [exact C|]. split; [exact D|]. split; [exact D0|]. split; [exists k1; split; [lia|]; auto|].
    destruct (rtgt c); [|exact F]. rewrite F. f_equal. rewrite zdrop_app_l by lia. rewrite ztake_app_l; [reflexivity|]. rewrite zlen_zdrop by lia. lia.
  - destruct H as (A & k1 & K1 & K2 & K3 & K4). split; [exact A|]. exists k1. split; [lia|]. split; [exact K2|]. split; [exact K3|]. rewrite K4. destruct (rtgt c); [|reflexivity]. do 2 f_equal. unfold tnext. rewrite E4.
    assert (n <= k1 - taken (plain (t_log s))).
    { rewrite K3. destruct c; cbv zeta in *; try apply granted_rng; lia. }
    rewrite zdrop_app_l by lia. rewrite ztake_app_l; [reflexivity|]. rewrite zlen_zdrop by lia. lia.
Qed.
(** ** what the log says about the published bytes *)
Lemma tprefix_offered s S k p q : tinv s S k p q -> exists X, offered (plain (t_log s)) = S ++ X.
Proof.
  intros []. unfold offered. rewrite v_wo0. unfold twinv in v_w0. destruct (t_wp s) as [| |c|c start i|c n]; cbn [wcur wpend].
  1-4: assert (EE : S = wrote (plain (t_log s))) by (rewrite v_wrote0; apply app_nil_r); rewrite EE; eexists; reflexivity.
  destruct v_w0 as (A & k0 & K1 & K2 & K3). cbv zeta in K2, K3. destruct c as [s0 len|]; cbn [wbytes wlen wsrc wok] in *.
  - exists (zdrop n (ztake len s0)). rewrite v_wrote0. cbn [wpend wbytes]. rewrite <- app_assoc. f_equal. rewrite <- (ztake_zdrop n (ztake len s0)) at 1. f_equal. rewrite ztake_ztake. f_equal. pose proof (granted_le len (t_size s - 1 - (zlen (wrote (plain (t_log s))) - k0)) ltac:(lia)). lia.
  - exists []. rewrite v_wrote0. cbn [wpend wbytes]. rewrite !app_nil_r. reflexivity.
Qed.
Lemma trret_le s S k p q c n t : tinv s S k p q -> t_rp s = RRet c n t -> 0 <= rbytes c n <= rlen c.
Proof.
  intros [] EE. unfold trinv in v_r0. rewrite EE in v_r0. destruct v_r0 as ((A & _) & k1 & _ & K2 & K3 & _). cbv zeta in K2, K3.
  destruct c as [t0 len|t0 len|len|]; cbn [rbytes rlen] in *; try lia; rewrite K3; apply granted_le; lia.
Qed.
Lemma ttaken_le s S k p q : tinv s S k p q -> taken (plain (t_log s)) <= k <= taking (plain (t_log s)).
Proof.
  intro I. pose proof I as I0. destruct I. unfold taking. rewrite v_ro0. destruct (t_rp s) as [| |c|c start i t|c n t] eqn:EE; cbn [rcur rpend] in *.
  5: pose proof (trret_le s S k p q c n t I0 EE); lia.
  all: unfold trinv in v_r0; rewrite EE in v_r0; cbn [rlen] in *; try lia.
  destruct v_r0 as ((A & _) & _). lia.
Qed.
Lemma toffered_next s S k p q m : tinv s S k p q -> 0 <= m -> taken (plain (t_log s)) + m <= zlen S -> ztake m (zdrop (taken (plain (t_log s))) (offered (plain (t_log s)))) = tnext s S m.
Proof.
  intros I M H. destruct (tprefix_offered s S k p q I) as (X & ->). destruct I. unfold tnext. rewrite zdrop_app_l by lia. apply ztake_app_l. rewrite zlen_zdrop by lia. lia.
Qed.

(** ** the writer *)
Lemma tw_move s S k p q x : tinv s S k p q -> wcur x = wcur (t_wp s) -> wpend x = [] -> wpend (t_wp s) = [] ->
  (forall m p, tail s S m p -> tail (tset_wp s x) S m p) -> twinv (tset_wp s x) S q -> tinv (tset_wp s x) S k p q.
Proof.
  intros [] E1 E2 E3 TL W. split; cbn [t_size t_mem t_w t_r t_log t_wp t_rp t_wbuf t_rbuf tset_wp]; auto; try congruence.
  eapply good_impl; [apply Z.le_refl|exact TL|exact v_wb0].
Qed.
Lemma tw_decide s S k p q c n : tinv s S k p q -> wcur (t_wp s) = Some c -> wpend (t_wp s) = [] -> wok c -> wbytes c n = [] -> taken (plain (rsync_at (wcall_at (t_log s)))) <= q ->
  (let free := t_size s - 1 - (zlen S - q) in n = match c with WWrite _ len => granted len free | WSpace => free end) -> tinv (tset_wp s (WRet c n)) S k p q.
Proof.
  intros I E1 E2 OK E3 K0 A. pose proof I as I0. destruct I. apply tw_move; auto.
  - intros m p0 (T1 & T2 & T3). split; [exact T1|]. split; [exact T2|exact Logic.I].
  - unfold twinv. cbn [t_size t_mem t_w t_r t_log t_wp t_rp tset_wp]. split; [exact OK|]. exists q. split; [lia|].
    assert (EE : S = wrote (plain (t_log s))) by (rewrite v_wrote0, E2; apply app_nil_r). rewrite <- EE. split; [lia|exact A].
Qed.
Lemma twstep_inv s S k p q : tinv s S k p q -> exists s' X, twstep s = Ret s' /\ tinv s' (S ++ X) k p q.
Proof.
  intro I. pose proof (room_eq _ _ _ _ _ I) as AW. pose proof (own_w_eq _ _ _ _ _ I) as OW. pose proof I as I0. destruct I. unfold twstep. unfold twinv in v_w0. destruct (t_wp s) as [| |c|c start i|c n] eqn:EW.
  - exists s, []. rewrite app_nil_r. auto.
  - eexists _, []. rewrite app_nil_r. split; [reflexivity|]. apply tw_decide; rewrite ?EW; auto. exact Logic.I.
  - destruct v_w0 as (OK & NS & K0). rewrite AW. destruct ((wlen c =? 0) || (wlen c >? t_size s - 1 - (zlen S - q))) eqn:Q.
    + eexists _, []. rewrite app_nil_r. split; [reflexivity|]. destruct c as [s0 len|]; [|congruence]. cbn [wlen] in Q. apply tw_decide; rewrite ?EW; auto. cbv zeta. unfold granted. destruct ((1 <=? len) && (len <=? t_size s - 1 - (zlen S - q))) eqn:Q2; [lia|reflexivity].
    + eexists _, []. rewrite app_nil_r. split; [reflexivity|]. apply tw_move; rewrite ?EW; auto.
      * intros m p0 (T1 & T2 & T3). split; [exact T1|]. split; [exact T2|]. cbn [t_wp tset_wp]. intros j Hj. lia.
      * unfold twinv. cbn [t_wp tset_wp t_size t_log t_mem]. split; [exact OK|]. split; [exact NS|]. split; [exact OW|].
        assert (0 <= wlen c) by (destruct c; cbn [wok wlen] in *; lia). split; [lia|]. split; [lia|]. exists q; lia.
  - destruct v_w0 as (OK & NS & Hst & Hi & Hn & (k0 & K1 & K2 & K3)).
    assert (SL : wlen c <= zlen (wsrc c)) by (destruct c; cbn [wok wlen wsrc] in *; [lia|congruence]).
    destruct (i <? wlen c) eqn:EI.
    + destruct (znth_in_range i (wsrc c)) as (b & Hb); [lia|]. rewrite (mload_znth _ _ _ Hb). cbn [bind].
      rewrite Hst, place_mod by (auto; lia). eexists _, []. rewrite app_nil_r. split; [reflexivity|].
      split; cbn [t_size t_mem t_w t_r t_log t_wp t_rp t_wbuf t_rbuf tset_wp w_store tset_wbuf]; auto.
      * eapply good_app; [exists []; symmetry; apply app_nil_r| |exact v_wb0|intros m' p' TT; rewrite (tail_len _ _ _ _ TT); apply zlen_nonneg|lia].
        intros m p0 (T1 & T2 & T3). rewrite EW in T3. cbn [good]. subst p0.
        assert (0 <= (c0 + zlen S + i) mod t_size s < t_size s) as Hp by (apply Z.mod_pos_bound; lia).
        destruct (mstore_ok m ((c0 + zlen S + i) mod t_size s) b ltac:(lia)) as (mm & HS & HL & HX & HO). exists (zlen S + i), mm. split; [f_equal; lia|]. split; [lia|]. split; [exact HS|].
        split; [reflexivity|]. cbn [t_size t_wp tset_wp w_store tset_wbuf]. split; [lia|].
        intros j Hj. destruct (Z.eq_dec j i) as [->|NE]; [rewrite HX; congruence|]. rewrite HO; [apply T3; lia|]. apply SpscProof.mod_ne; lia.
      * unfold twinv. cbn [t_size t_mem t_w t_r t_log t_wp t_rp tset_wp w_store tset_wbuf]. split; [exact OK|]. split; [exact NS|]. split; [auto|]. split; [lia|]. split; [exact Hn|]. exists k0; auto.
    + assert (i = wlen c) by lia. subst i. set (n := wlen c) in *.
      assert (WB : wbytes c n = ztake n (wsrc c)) by (destruct c; [reflexivity|congruence]).
      assert (LW : zlen (ztake n (wsrc c)) = n) by (apply zlen_ztake; lia).
      assert (ES : S = wrote (plain (t_log s))) by (rewrite v_wrote0; apply app_nil_r).
      eexists _, (ztake n (wsrc c)). split; [reflexivity|]. pose proof (v_rng0) as (R1 & R2 & R3).
      assert (ADV : advance (t_size s) n start (own_w s) = (c0 + (zlen S + n)) mod t_size s) by (rewrite Hst, OW, advance_mod by lia; f_equal; lia).
      split; cbn [t_size t_mem t_w t_r t_log t_wp t_rp t_wbuf t_rbuf tset_wp w_store tset_wbuf]; auto.
      * rewrite zlen_app, LW. lia.
      * intros j Hj. rewrite znth_app_l by lia. apply v_dat0. lia.
      * eapply good_app; [eexists; reflexivity| |exact v_wb0|intros m' p' TT; rewrite (tail_len _ _ _ _ TT); apply zlen_nonneg|lia].
        intros m p0 (T1 & T2 & T3). rewrite EW in T3. cbn [good]. subst p0. exists (zlen S + n). rewrite zlen_app, LW. split; [lia|]. split; [exact ADV|]. split.
        -- intros j Hj. rewrite znth_app_r by lia. rewrite znth_ztake by lia. rewrite <- T3 by lia. f_equal. f_equal. lia.
        -- split; [rewrite zlen_app, LW; reflexivity|]. cbn [t_size t_wp tset_wp w_store tset_wbuf]. split; [exact T2|exact Logic.I].
      * unfold twinv. cbn [t_size t_mem t_w t_r t_log t_wp t_rp tset_wp w_store tset_wbuf]. split; [exact OK|]. exists k0. split; [lia|]. rewrite <- ES. split; [lia|]. destruct c as [s0 len|]; [|congruence]. unfold n in *. cbn [wlen] in *.
        unfold granted. destruct ((1 <=? len) && (len <=? t_size s - 1 - (zlen S - k0))) eqn:Q2; [reflexivity|lia].
      * apply (trinv_mono s _ S _ k p p); auto; lia.
      * cbn [wpend]. rewrite WB. rewrite <- ES. reflexivity.
  - destruct v_w0 as (OK & k0 & K1 & K2 & K3). eexists _, []. rewrite app_nil_r. split; [reflexivity|].
    split; cbn [t_size t_mem t_w t_r t_log t_wp t_rp t_wbuf t_rbuf tset_wp temit]; auto.
    + eapply good_impl; [apply Z.le_refl| |exact v_wb0]. intros m p0 (T1 & T2 & T3). split; [exact T1|]. split; [exact T2|exact Logic.I].
    + unfold twinv. cbn. exact Logic.I.
    + cbn [plain flat_map app wpend wrote]. rewrite app_nil_r. exact v_wrote0.
    + split; [|exact v_evs0]. cbn [tev_ok]. split; [exact v_wo0|]. exists k0. pose proof (ttaken_le s S k p q I0). split; [lia|]. split; [exact K2|exact K3].
Qed.
End P.
