(** Proofs for C80, part 1: the invariant with store buffers; the writer *)
From Verif Require Import MpliteProof2 MpliteProof6.
From Verif Require Import CBase SeqLib RingBuffer2Model RingBuffer2Proof FixedQueueModel RbMtModel RbMtSpec RbMtProof RbTsoModel RbTsoSpec.
From Verif Require SpscProof SpscProof3.

Section P.
Variables (one c0 : Z).
Hypothesis ONE : 1 <= one < two32.
Hypothesis C0 : 0 <= c0.
Fixpoint tevs_ok (cap : Z) (l : list tev) : Prop := match l with [] => True | e :: l => tev_ok one cap e l /\ tevs_ok cap l end.
(** the stores in the writer's buffer, from memory m with p bytes published; T: what holds once all of them have reached memory *)
Section Good.
Variables (size q : Z) (S : list Z) (T : list Z -> Z -> Prop).
Fixpoint good (m : list Z) (p : Z) (b : list wr) : Prop :=
  match b with
  | [] => T m p
  | SByte a v :: b => exists x m', a = (c0 + x) mod size /\ p <= x < q + size /\ mstore m a v = Ret m' /\ good m' p b
  | SIn v :: b => exists p', p <= p' <= zlen S /\ v = u32 (c0 + p') /\ (forall j, p <= j < p' -> znth ((c0 + j) mod size) m = znth j S) /\ good m p' b
  end.
End Good.
Fixpoint goodr (k q : Z) (b : list Z) : Prop :=
  match b with [] => q = k | x :: b => exists q', q <= q' <= k /\ x = u32 (c0 + q') /\ goodr k q' b end.
(** S: all bytes whose counter store has been issued; p: how many are published in memory; k: taken, with stores still in the reader's buffer; q: taken as memory says *)
Section Inv.
Variables (s : tst) (S : list Z) (k p q : Z).
Let K0 := taken one (plain (rsync_at (wcall_at (t_log s)))).
Let W0 := zlen (wrote one (plain (wsync_at (rcall_at (t_log s))))).
Let L := plain (t_log s).
Let cap := t_size s.
Definition twinv : Prop :=
  match t_wp s with
  | WIdle => True
  | WSpaceAt => K0 <= q
  | WFull m => wok one (WPush m) /\ K0 <= q
  | WAvail c => wok one c /\ c <> WSpace /\ K0 <= q /\ (forall m, c = WPush m -> one <= cap - (zlen S - q))
  | WCopy c n start i =>
      wok one c /\ c <> WSpace /\ start = (c0 + zlen S) mod cap /\ 0 <= i <= n /\ 0 < n /\
      (exists k0, K0 <= k0 <= q /\ zlen S - cap <= k0 /\ n = Z.min (wsize one c) (cap - (zlen S - k0))) /\
      (forall m, c = WPush m -> n = one)
  | WRet c n =>
      wok one c /\ exists k0, K0 <= k0 <= q /\
      let free := cap - (zlen (wrote one L) - k0) in
      0 <= free <= cap /\
      match c with WWrite _ size => n = Z.min size free | WSpace => n = free | WPush _ => n = if one <=? free then 1 else 0 end
  end.
Definition tnext (m : Z) : list Z := ztake m (zdrop (taken one L) S).
Definition answer (c : rcall) (n : Z) (t' : option (list Z)) (stored : Z) : Prop :=
  match c with
  | RRead t size => n = Z.min size stored /\ t' = Some (tnext n ++ zdrop n t)
  | RPeek (Some t) size => n = Z.min size stored /\ t' = Some (tnext n ++ zdrop n t)
  | RPeek None size => n = Z.min size stored /\ t' = None
  | RDiscard size => n = Z.min size stored /\ t' = None
  | RAvail => n = stored /\ t' = None
  | RPop t => if one <=? stored then n = 1 /\ t' = Some (tnext one ++ zdrop one t) else n = 0 /\ t' = Some t
  end.
Definition trinv : Prop :=
  match t_rp s with
  | RIdle => True
  | RAvailAt => W0 <= p
  | REmpty t => rok one (RPop t) /\ W0 <= p
  | RFetch c => rok one c /\ c <> RAvail /\ W0 <= p /\ (forall t, c = RPop t -> one <= p - k)
  | RCopy c n start i t =>
      rok one c /\ c <> RAvail /\ start = (c0 + k) mod cap /\ 0 <= i <= n /\ 0 < n /\
      (exists k1, W0 <= k1 <= p /\ k1 <= k + cap /\ n = Z.min (rsize one c) (k1 - k)) /\
      (forall t, c = RPop t -> n = one) /\
      match rtgt c with None => i = n | Some t0 => t = ztake i (zdrop k S) ++ zdrop i t0 end
  | RRet c n t' =>
      rok one c /\ exists k1, W0 <= k1 <= p /\ 0 <= k1 - taken one L <= cap /\ answer c n t' (k1 - taken one L)
  end.
(** the bytes of the write in progress that have been issued *)
Definition tail (m : list Z) (p : Z) : Prop :=
  p = zlen S /\ cap <= zlen m /\
  match t_wp s with WCopy c _ _ i => forall j, 0 <= j < i -> znth ((c0 + zlen S + j) mod cap) m = znth j (wsrc c) | _ => True end.
Record tinv : Prop := {
  v_pow : is_pow2 (t_size s); v_len : t_size s <= zlen (t_mem s);
  v_in : t_in s = u32 (c0 + p); v_out : t_out s = u32 (c0 + q);
  v_rng : 0 <= q <= k /\ k <= p <= zlen S /\ zlen S <= q + cap;
  v_dat : forall j, k <= j < p -> znth ((c0 + j) mod t_size s) (t_mem s) = znth j S;
  v_wb : good (t_size s) q S tail (t_mem s) p (t_wbuf s); v_rb : goodr k q (t_rbuf s);
  v_w : twinv; v_r : trinv;
  v_wrote : S = wrote one L ++ wpend one (t_wp s); v_taken : k = taken one L + rpend one (t_rp s);
  v_wo : wopen L = wcur (t_wp s); v_ro : ropen L = rcur (t_rp s);
  v_tk : 0 <= taken one L;
  v_ws : zlen (wrote one (plain (wsync_at (t_log s)))) <= p; v_rs : taken one (plain (rsync_at (t_log s))) <= q;
  v_evs : tevs_ok cap (t_log s) }.
End Inv.

(** ** buffers *)
Lemma good_app size q S S' (T T' : list Z -> Z -> Prop) e b : (exists X, S' = S ++ X) -> (forall m p, T m p -> good size q S' T' m p e) ->
  forall m p, good size q S T m p b -> 0 <= p -> good size q S' T' m p (b ++ e).
Proof.
  intros (X & ->) H. induction b as [|w b IH]; cbn [app good]; intros m p G P; [auto|]. destruct w as [a v|v].
  - destruct G as (x & m' & A & B & C & D). exists x, m'. repeat split; auto; lia.
  - destruct G as (p' & A & B & C & D). exists p'. rewrite zlen_app. pose proof (zlen_nonneg X). split; [lia|]. split; [exact B|]. split; [|apply IH; auto; lia]. intros j Hj. rewrite znth_app_l by lia. apply C. lia.
Qed.
Lemma good_impl size q q' S (T T' : list Z -> Z -> Prop) b : q <= q' -> (forall m p, T m p -> T' m p) -> forall m p, good size q S T m p b -> good size q' S T' m p b.
Proof.
  intros Q H. induction b as [|w b IH]; cbn [good]; intros m p G; [auto|]. destruct w as [a v|v].
  - destruct G as (x & m' & A & B & C & D). exists x, m'. repeat split; auto; lia.
  - destruct G as (p' & A & B & C & D). exists p'. repeat split; auto; lia.
Qed.
Lemma good_fwd size q S (T : list Z -> Z -> Prop) b : (forall m p, T m p -> p = zlen S) -> forall m p, good size q S T m p b -> fwd_w b (u32 (c0 + p)) = u32 (c0 + zlen S).
Proof.
  intros H. induction b as [|w b IH]; cbn [good fwd_w]; intros m p G; [rewrite (H _ _ G); reflexivity|]. destruct w as [a v|v].
  - destruct G as (x & m' & A & B & C & D). eapply IH; eassumption.
  - destruct G as (p' & A & -> & C & D). eapply IH; eassumption.
Qed.
Lemma goodr_app k q b k' : k <= k' -> goodr k q b -> goodr k' q (b ++ [u32 (c0 + k')]) /\ fwd_r b (u32 (c0 + q)) = u32 (c0 + k).
Proof.
  intros K. revert q. induction b as [|x b IH]; cbn [app goodr fwd_r]; intros q G.
  - subst q. split; [|reflexivity]. exists k'. split; [lia|]. auto.
  - destruct G as (q' & A & -> & D). destruct (IH _ D) as (E1 & E2). split; [|exact E2]. exists q'. split; [lia|]. auto.
Qed.
Lemma tail_ext s s' S : t_wp s' = t_wp s -> t_size s' = t_size s -> forall m p, tail s S m p -> tail s' S m p.
Proof. intros A B m p (T1 & T2 & T3). unfold tail. rewrite A, B. auto. Qed.
Lemma tail_len s S m p : tail s S m p -> p = zlen S. Proof. intros (A & _). exact A. Qed.
Lemma own_in_eq s S k p q : tinv s S k p q -> own_in s = u32 (c0 + zlen S).
Proof. intros []. unfold own_in. rewrite v_in0. eapply good_fwd; [|exact v_wb0]. intros m p'. apply tail_len. Qed.
Lemma own_out_eq s S k p q : tinv s S k p q -> own_out s = u32 (c0 + k).
Proof. intros []. unfold own_out. rewrite v_out0. destruct (goodr_app k q (t_rbuf s) k (Z.le_refl k) v_rb0) as (_ & EE). exact EE. Qed.
Lemma room_eq s S k p q : tinv s S k p q -> room s = t_size s - (zlen S - q).
Proof.
  intro I. unfold room. rewrite (own_in_eq _ _ _ _ _ I). destruct I. rewrite v_out0. pose proof (pow2_bound _ v_pow0) as B. rewrite SpscProof.u32_sub. replace (c0 + zlen S - (c0 + q)) with (zlen S - q) by lia.
  rewrite (u32_small (zlen S - q)) by (unfold two32; lia). apply u32_small. unfold two32. lia.
Qed.
Lemma stored_eq s S k p q : tinv s S k p q -> stored s = p - k.
Proof.
  intro I. unfold stored. rewrite (own_out_eq _ _ _ _ _ I). destruct I. rewrite v_in0. pose proof (pow2_bound _ v_pow0) as B. rewrite SpscProof.u32_sub. replace (c0 + p - (c0 + k)) with (p - k) by lia. apply u32_small. unfold two32. lia.
Qed.

(** ** mono *)
Lemma twinv_mono s s' S q q' : t_wp s' = t_wp s -> t_size s' = t_size s -> wcall_at (t_log s') = wcall_at (t_log s) -> wrote one (plain (t_log s')) = wrote one (plain (t_log s)) -> q <= q' -> twinv s S q -> twinv s' S q'.
Proof.
  intros E1 E2 E3 E4 Q H. unfold twinv in *. rewrite E1, E2, E3, E4. destruct (t_wp s) as [| |m|c|c n start i|c n]; auto.
  - lia.
  - destruct H as (A & B). split; [exact A|lia].
  - destruct H as (A & B & C & D). split; [exact A|]. split; [exact B|]. split; [lia|]. intros m EM. specialize (D m EM). lia.
  - destruct H as (A & B & C & D & D0 & (k0 & K1 & K2) & F). split; [exact A|]. split; [exact B|]. split; [exact C|]. split; [exact D|]. split; [exact D0|]. split; [|exact F]. exists k0. split; [lia|exact K2].
  - destruct H as (A & k0 & K1 & K2). split; [exact A|]. exists k0. split; [lia|exact K2].
Qed.
Lemma trinv_mono s s' S X k p p' : t_rp s' = t_rp s -> t_size s' = t_size s -> rcall_at (t_log s') = rcall_at (t_log s) -> taken one (plain (t_log s')) = taken one (plain (t_log s)) -> 0 <= taken one (plain (t_log s)) -> 0 <= k -> k <= p <= zlen S -> p <= p' ->
  trinv s S k p -> trinv s' (S ++ X) k p'.
Proof.
  intros E1 E2 E3 E4 TK K KP P H. unfold trinv, answer, tnext in *. rewrite E1, E2, E3, E4.
  assert (NX : forall m k1, k1 <= zlen S -> m <= k1 - taken one (plain (t_log s)) -> 0 <= k1 - taken one (plain (t_log s)) -> ztake m (zdrop (taken one (plain (t_log s))) (S ++ X)) = ztake m (zdrop (taken one (plain (t_log s))) S)).
  { intros m k1 A B C. rewrite zdrop_app_l by lia. apply ztake_app_l. rewrite zlen_zdrop by lia. lia. }
  destruct (t_rp s) as [| |t|c|c n start i t|c n t']; auto.
  - lia.
  - destruct H as (A & B). split; [exact A|lia].
  - destruct H as (A & B & C & D). split; [exact A|]. split; [exact B|]. split; [lia|]. intros t EM. specialize (D t EM). lia.
  - destruct H as (A & B & C & D & D0 & (k1 & K1 & K2 & K3) & F & G). split; [exact A|]. split; [exact B|]. split; [exact C|]. split; [exact D|]. split; [exact D0|]. split; [exists k1; split; [lia|]; auto|]. split; [exact F|].
    destruct (rtgt c); [|exact G]. rewrite G. f_equal. rewrite zdrop_app_l by lia. rewrite ztake_app_l; [reflexivity|]. rewrite zlen_zdrop by lia. lia.
  - destruct H as (A & k1 & K1 & K2 & K3). split; [exact A|]. exists k1. split; [lia|]. split; [exact K2|]. destruct A as (A & _).
    destruct c as [t size|[t|] size|size| |t]; cbn [rsize] in A; auto.
    + destruct K3 as (N & T). split; [exact N|]. rewrite (NX n k1) by lia. exact T.
    + destruct K3 as (N & T). split; [exact N|]. rewrite (NX n k1) by lia. exact T.
    + destruct (one <=? k1 - taken one (plain (t_log s))) eqn:Q; [|exact K3]. rewrite (NX one k1) by lia. exact K3.
Qed.
(** ** what the log says about the published bytes *)
Lemma tprefix_offered s S k p q : tinv s S k p q -> exists X, offered one (plain (t_log s)) = S ++ X.
Proof.
  intros []. unfold offered. rewrite v_wo0. unfold twinv in v_w0. destruct (t_wp s) as [| |m|c|c n start i|c n]; cbn [wcur wpend].
  1-5: assert (EE : S = wrote one (plain (t_log s))) by (rewrite v_wrote0; apply app_nil_r); rewrite EE; eexists; reflexivity.
  destruct v_w0 as ((A & B) & k0 & K1 & K2 & K3). cbv zeta in K2, K3. destruct c as [s0 size| |s0]; cbn [wbytes wsize wsrc] in *.
  - exists (zdrop n (ztake size s0)). rewrite v_wrote0. cbn [wpend wbytes]. rewrite <- app_assoc. f_equal. rewrite <- (ztake_zdrop n (ztake size s0)) at 1. f_equal. rewrite ztake_ztake. f_equal. lia.
  - exists []. rewrite v_wrote0. cbn [wpend wbytes]. rewrite !app_nil_r. reflexivity.
  - rewrite v_wrote0. cbn [wpend wbytes]. destruct (n =? 1); [exists []; rewrite !app_nil_r; reflexivity|exists (ztake one s0); rewrite app_nil_r; reflexivity].
Qed.
Lemma trret_le s S k p q c n t : tinv s S k p q -> t_rp s = RRet c n t -> 0 <= rbytes one c n <= rsize one c.
Proof.
  intros [] EE. unfold trinv, answer in v_r0. rewrite EE in v_r0. destruct v_r0 as ((A & _) & k1 & _ & K2 & K3).
  destruct c as [t0 size|[t0|] size|size| |t0]; cbn [rbytes rsize] in *; try lia.
  destruct (one <=? k1 - taken one (plain (t_log s))); destruct K3 as (-> & _); cbn; lia.
Qed.
Lemma ttaken_le s S k p q : tinv s S k p q -> taken one (plain (t_log s)) <= k <= taking one (plain (t_log s)).
Proof.
  intro I. pose proof I as I0. destruct I. unfold taking. rewrite v_ro0. destruct (t_rp s) as [| |t|c|c n start i t|c n t] eqn:EE; cbn [rcur rpend] in *.
  6: pose proof (trret_le s S k p q c n t I0 EE); lia.
  all: unfold trinv in v_r0; rewrite EE in v_r0; cbn [rsize] in *; try lia.
  all: destruct v_r0 as ((A & _) & _); cbn [rsize] in *; lia.
Qed.
Lemma toffered_next s S k p q m : tinv s S k p q -> 0 <= m -> taken one (plain (t_log s)) + m <= zlen S -> ztake m (zdrop (taken one (plain (t_log s))) (offered one (plain (t_log s)))) = tnext s S m.
Proof.
  intros I M H. destruct (tprefix_offered s S k p q I) as (X & ->). destruct I. unfold tnext. rewrite zdrop_app_l by lia. apply ztake_app_l. rewrite zlen_zdrop by lia. lia.
Qed.

(** ** the writer *)
Lemma tw_move s S k p q x : tinv s S k p q -> wcur x = wcur (t_wp s) -> wpend one x = [] -> wpend one (t_wp s) = [] ->
  (forall m p, tail s S m p -> tail (tset_wp s x) S m p) -> twinv (tset_wp s x) S q -> tinv (tset_wp s x) S k p q.
Proof.
  intros [] E1 E2 E3 TL W. split; cbn [t_size t_mem t_in t_out t_log t_wp t_rp t_wbuf t_rbuf tset_wp]; auto; try congruence.
  eapply good_impl; [apply Z.le_refl|exact TL|exact v_wb0].
Qed.
Lemma tw_decide s S k p q c n : tinv s S k p q -> wcur (t_wp s) = Some c -> wpend one (t_wp s) = [] -> wok one c -> wbytes one c n = [] -> taken one (plain (rsync_at (wcall_at (t_log s)))) <= q ->
  (let free := t_size s - (zlen S - q) in match c with WWrite _ size => n = Z.min size free | WSpace => n = free | WPush _ => n = if one <=? free then 1 else 0 end) -> tinv (tset_wp s (WRet c n)) S k p q.
Proof.
  intros I E1 E2 OK E3 K0 A. pose proof I as I0. destruct I. apply tw_move; auto.
  - intros m p0 (T1 & T2 & T3). split; [exact T1|]. split; [exact T2|exact Logic.I].
  - unfold twinv. cbn [t_size t_mem t_in t_out t_log t_wp t_rp tset_wp]. split; [exact OK|]. exists q. split; [lia|].
    assert (EE : S = wrote one (plain (t_log s))) by (rewrite v_wrote0, E2; apply app_nil_r). rewrite <- EE. split; [lia|exact A].
Qed.
Lemma twstep_inv s S k p q : tinv s S k p q -> exists s' X, twstep one s = Ret s' /\ tinv s' (S ++ X) k p q.
Proof.
  intro I. pose proof (room_eq _ _ _ _ _ I) as AW. pose proof (own_in_eq _ _ _ _ _ I) as OW. pose proof I as I0. destruct I. pose proof (pow2_bound _ v_pow0) as B. unfold twstep. unfold twinv in v_w0. destruct (t_wp s) as [| |m|c|c n start i|c n] eqn:EW.
  - exists s, []. rewrite app_nil_r. auto.
  - eexists _, []. rewrite app_nil_r. split; [reflexivity|]. apply tw_decide; rewrite ?EW; auto. split; [cbn; lia|exact Logic.I].
  - destruct v_w0 as (OK & K0). eexists _, []. rewrite app_nil_r. split; [reflexivity|]. rewrite AW. destruct (0 =? (t_size s - (zlen S - q)) / one) eqn:Q.
    + assert (L : t_size s - (zlen S - q) < one). { apply Z.eqb_eq in Q. symmetry in Q. apply Z.div_small_iff in Q; lia. }
      apply tw_decide; rewrite ?EW; auto. cbv zeta. destruct (Z.leb_spec one (t_size s - (zlen S - q))); [lia|reflexivity].
    + assert (L : one <= t_size s - (zlen S - q)). { apply Z.eqb_neq in Q. destruct (Z_lt_dec (t_size s - (zlen S - q)) one) as [L|L]; [|lia]. rewrite Z.div_small in Q by lia. lia. }
      apply tw_move; rewrite ?EW; auto.
      * intros m0 p0 (T1 & T2 & T3). split; [exact T1|]. split; [exact T2|exact Logic.I].
      * unfold twinv. cbn [t_wp tset_wp t_size t_log]. split; [exact OK|]. split; [discriminate|]. split; [exact K0|]. intros. exact L.
  - destruct v_w0 as (OK & NS & K0 & FU). rewrite AW. destruct (wsize one c =? 0) eqn:Q1; [|destruct (t_size s - (zlen S - q) =? 0) eqn:Q2]; cbn [orb].
    + eexists _, []. rewrite app_nil_r. split; [reflexivity|]. destruct c as [s0 size| |s0]; [|congruence|cbn in Q1; lia]. cbn in Q1. apply tw_decide; rewrite ?EW; auto. cbn [wret]. lia.
    + eexists _, []. rewrite app_nil_r. split; [reflexivity|]. destruct c as [s0 size| |s0]; [|congruence|specialize (FU s0 eq_refl); lia]. apply tw_decide; rewrite ?EW; auto. cbn [wret]. destruct OK as (OK & _). cbn in OK. lia.
    + eexists _, []. rewrite app_nil_r. split; [reflexivity|]. rewrite take_min_eq. rewrite OW, pow2_mask by (auto; apply u32_range). rewrite pow2_mod_u32 by exact v_pow0.
      apply tw_move; rewrite ?EW; auto.
      * intros m p0 (T1 & T2 & T3). split; [exact T1|]. split; [exact T2|]. cbn [t_wp tset_wp]. intros j Hj. lia.
      * unfold twinv. cbn [t_wp tset_wp t_size t_log t_mem]. destruct OK as (OK1 & OK2). split; [split; assumption|]. split; [exact NS|]. split; [reflexivity|]. split; [lia|]. split; [lia|].
        split; [exists q; split; [lia|]; split; [lia|reflexivity]|]. intros m ->. specialize (FU m eq_refl). cbn [wsize]. lia.
  - destruct v_w0 as (OK & NS & Hst & Hi & Hn & (k0 & K1 & K2 & K3) & FU). pose proof OK as (OK1 & OK2).
    assert (ns : n <= t_size s - (zlen S - q)) by lia.
    assert (SL : wsize one c <= zlen (wsrc c)) by (destruct c; [exact OK2|congruence|exact OK2]).
    destruct (i <? n) eqn:EI.
    + destruct (znth_in_range i (wsrc c)) as (b & Hb); [lia|]. rewrite (mload_znth _ _ _ Hb). cbn [bind].
      rewrite Hst, place_mod by (auto; lia). eexists _, []. rewrite app_nil_r. split; [reflexivity|].
      split; cbn [t_size t_mem t_in t_out t_log t_wp t_rp t_wbuf t_rbuf tset_wp w_store tset_wbuf]; auto.
      * eapply good_app; [exists []; symmetry; apply app_nil_r| |exact v_wb0|lia].
        intros m p0 (T1 & T2 & T3). rewrite EW in T3. cbn [good]. subst p0.
        assert (0 <= (c0 + zlen S + i) mod t_size s < t_size s) as Hp by (apply Z.mod_pos_bound; lia).
        destruct (mstore_ok m ((c0 + zlen S + i) mod t_size s) b ltac:(lia)) as (mm & HS & HL & HX & HO). exists (zlen S + i), mm. split; [f_equal; lia|]. split; [lia|]. split; [exact HS|].
        split; [reflexivity|]. cbn [t_size t_wp tset_wp w_store tset_wbuf]. split; [lia|].
        intros j Hj. destruct (Z.eq_dec j i) as [->|NE]; [rewrite HX; congruence|]. rewrite HO; [apply T3; lia|]. apply SpscProof.mod_ne; lia.
      * unfold twinv. cbn [t_size t_mem t_in t_out t_log t_wp t_rp tset_wp w_store tset_wbuf]. split; [exact OK|]. split; [exact NS|]. split; [auto|]. split; [lia|]. split; [exact Hn|]. split; [exists k0; auto|exact FU].
    + assert (i = n) by lia. subst i.
      assert (WB : wbytes one c (wret one c n) = ztake n (wsrc c)).
      { destruct c as [s0 size| |s0]; [reflexivity|congruence|]. cbn [wbytes wret wsrc]. rewrite (FU s0 eq_refl), Z.eqb_refl. reflexivity. }
      assert (LW : zlen (ztake n (wsrc c)) = n) by (apply zlen_ztake; lia).
      assert (ES : S = wrote one (plain (t_log s))) by (rewrite v_wrote0; apply app_nil_r).
      eexists _, (ztake n (wsrc c)). split; [reflexivity|]. pose proof (v_rng0) as (R1 & R2 & R3).
      assert (ADV : u32 (own_in s + n) = u32 (c0 + (zlen S + n))) by (rewrite OW, SpscProof.u32_add; f_equal; lia).
      split; cbn [t_size t_mem t_in t_out t_log t_wp t_rp t_wbuf t_rbuf tset_wp w_store tset_wbuf]; auto.
      * rewrite zlen_app, LW. lia.
      * intros j Hj. rewrite znth_app_l by lia. apply v_dat0. lia.
      * eapply good_app; [eexists; reflexivity| |exact v_wb0|lia].
        intros m p0 (T1 & T2 & T3). rewrite EW in T3. cbn [good]. subst p0. exists (zlen S + n). rewrite zlen_app, LW. split; [lia|]. split; [exact ADV|]. split.
        -- intros j Hj. rewrite znth_app_r by lia. rewrite znth_ztake by lia. rewrite <- T3 by lia. f_equal. f_equal. lia.
        -- split; [rewrite zlen_app, LW; reflexivity|]. cbn [t_size t_wp tset_wp w_store tset_wbuf]. split; [exact T2|exact Logic.I].
      * unfold twinv. cbn [t_size t_mem t_in t_out t_log t_wp t_rp tset_wp w_store tset_wbuf]. split; [exact OK|]. exists k0. split; [lia|]. rewrite <- ES. split; [lia|]. destruct c as [s0 size| |s0]; [exact K3|congruence|].
        cbn [wret]. rewrite (FU s0 eq_refl), Z.eqb_refl. cbn [wsize] in K3. rewrite (FU s0 eq_refl) in K3. destruct (Z.leb_spec one (t_size s - (zlen S - k0))); [reflexivity|lia].
      * apply (trinv_mono s _ S _ k p p); auto; lia.
      * cbn [wpend]. rewrite WB. rewrite <- ES. reflexivity.
  - destruct v_w0 as (OK & k0 & K1 & K2 & K3). eexists _, []. rewrite app_nil_r. split; [reflexivity|].
    split; cbn [t_size t_mem t_in t_out t_log t_wp t_rp t_wbuf t_rbuf tset_wp temit]; auto.
    + eapply good_impl; [apply Z.le_refl| |exact v_wb0]. intros m p0 (T1 & T2 & T3). split; [exact T1|]. split; [exact T2|exact Logic.I].
    + unfold twinv. cbn. exact Logic.I.
    + cbn [plain flat_map app wpend wrote]. rewrite app_nil_r. exact v_wrote0.
    + split; [|exact v_evs0]. cbn [tev_ok]. split; [exact v_wo0|]. exists k0. pose proof (ttaken_le s S k p q I0). split; [lia|]. split; [exact K2|exact K3].
Qed.
End P.
