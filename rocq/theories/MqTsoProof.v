(** Proofs for C81, part 1: the invariant with store buffers; the producer *)
From Verif Require Import MpliteProof2 MpliteProof6.
From Verif Require Import CBase SeqLib RingBuffer2Model RingBuffer2Proof MsgQueueModel MsgQueueSpec MsgQueueProof SpscModel SpscSpec SpscProof SpscProof2 MqTsoModel MqTsoSpec.

Fixpoint tevs_ok (cap : Z) (l : list tev) : Prop := match l with [] => True | e :: l => tev_ok cap e l /\ tevs_ok cap l end.
(** the counter values the producer stores: after a whole message, or after the header of the next *)
Definition bnd (M : list (list Z)) (p : Z) : Prop := exists A B, M = A ++ B /\ (p = used A \/ p = used A + 4).
(** the stores in the producer's buffer, from memory m with p bytes published; T: what holds once all of them have reached memory *)
Section Good.
Variables (size q : Z) (S : list Z) (M : list (list Z)) (T : list Z -> Z -> Prop).
Fixpoint good (m : list Z) (p : Z) (b : list wr) : Prop :=
  match b with
  | [] => T m p
  | SByte a v :: b => exists x m', a = x mod size /\ p <= x < q + size /\ mstore m a v = Ret m' /\ good m' p b
  | SIn v :: b => exists p', p <= p' <= zlen S /\ v = u32 p' /\ bnd M p' /\ (forall j, p <= j < p' -> znth (j mod size) m = znth j S) /\ good m p' b
  end.
End Good.
Fixpoint goodr (k q : Z) (b : list Z) : Prop :=
  match b with [] => q = k | x :: b => exists q', q <= q' <= k /\ x = u32 q' /\ goodr k q' b end.
(** D: messages whose removal has been stored, R: the others whose last counter store has been issued; p: bytes published in memory; q: bytes taken as memory says *)
Definition xin s M := used M + poff (t_pp s).
Definition xout s D := used D + coff (t_cp s).
Definition xstm s M := frames M ++ phead (t_pp s).
Section Inv.
Variables (s : tst) (D R : list (list Z)) (p q : Z).
Let M := D ++ R.
Let L := plain (t_log s).
Let size := t_size s.
Definition tpinv (M : list (list Z)) : Prop :=
  match t_pp s with
  | PIdle => True
  | P44 m => msz m /\ accepted (plain (pcall_at (t_log s))) = M /\ used (firstn (length (pops (plain (rsync_at (pcall_at (t_log s)))))) M) <= q
  | P196 hd m => msz m /\ xin s M + (if hd then 4 else 0) + zlen m <= q + size
  | PCopy hd m n start i => msz m /\ xin s M + (if hd then 4 else 0) + zlen m <= q + size /\ n = zlen (psrc hd m) /\ start = xin s M mod size /\ 0 <= i <= n
  | PRet m c => msz m /\ (c = 0 \/ c = 5 /\ size < occupied (maybe_waiting (t_log s)) + 4 + zlen m)
  end.
Definition pub (m1 : list Z) : Prop := used D + 4 + zlen m1 <= p.
Definition tjinv (j : job) : Prop :=
  exists m1 rest, R = m1 :: rest /\ pub m1 /\
  match j with
  | JNext => True
  | JPeek t cap a => 0 <= cap < two32 /\ cap <= zlen t /\ 4 + zlen m1 <= a
  | JDisc t cap n | JRead t cap n => 0 <= cap < two32 /\ cap <= zlen t /\ n = zlen m1 /\ n <= cap
  end.
Definition tcinv : Prop :=
  match t_cp s with
  | CIdle => True
  | C60 => used (accepted (plain (wsync_at (ccall_at (t_log s))))) <= p
  | C78 t cap => 0 <= cap < two32 /\ cap <= zlen t /\ used (accepted (plain (wsync_at (ccall_at (t_log s))))) <= p
  | C235 j => tjinv j
  | CCopy j n start i tgt =>
      tjinv j /\ n = jreq j /\ start = xout s D mod size /\ 0 <= i <= n /\
      forall m1 rest, R = m1 :: rest -> match jtgt j with None => i = n | Some t0 => tgt = ztake i (expect j m1) ++ zdrop i t0 end
  | CRet t cap c t' sz' =>
      (c = 0 /\ sz' = cap) \/
      (c = 4 /\ sz' = cap /\ t' = t /\ none_missed (t_log s)) \/
      (c = 6 /\ t' = t /\ exists m1 rest, R = m1 :: rest /\ cap < zlen m1 /\ sz' = zlen m1)
  | CNRet n => (n = 0 /\ none_missed (t_log s)) \/ exists m1 rest, R = m1 :: rest /\ n = zlen m1
  end.
(** the bytes of the write in progress that have been issued *)
Definition tail (M : list (list Z)) (m : list Z) (p : Z) : Prop :=
  p = xin s M /\ size <= zlen m /\
  match t_pp s with PCopy hd msg _ _ i => forall j, 0 <= j < i -> znth ((xin s M + j) mod size) m = znth j (psrc hd msg) | _ => True end.
Record tinv : Prop := {
  v_pow : is_pow2 size; v_len : size <= zlen (t_mem s); v_msz : Forall msz M;
  v_in : t_in s = u32 p; v_out : t_out s = u32 q;
  v_rng : 0 <= q <= xout s D /\ xout s D <= p <= xin s M /\ xin s M <= q + size;
  v_bnd : bnd M p;
  v_dat : forall j, xout s D <= j < p -> znth (j mod size) (t_mem s) = znth j (xstm s M);
  v_wb : good size q (xstm s M) M (tail M) (t_mem s) p (t_wbuf s); v_rb : goodr (xout s D) q (t_rbuf s);
  v_p : tpinv M; v_c : tcinv;
  v_sent : sent L = M ++ pflight (t_pp s); v_acc : M = accepted L ++ ppend (t_pp s);
  v_pops : Forall2 stored (pops L ++ cpend (t_cp s)) D;
  v_ws : used (accepted (plain (wsync_at (t_log s)))) <= p; v_rs : used (firstn (length (pops (plain (rsync_at (t_log s))))) M) <= q;
  v_ev : tevs_ok size (t_log s) }.
End Inv.

(** ** buffers *)
Lemma bnd_app M X p : bnd M p -> bnd (M ++ X) p.
Proof. intros (A & B & -> & H). exists A, (B ++ X). rewrite app_assoc. auto. Qed.
Lemma good_app size q S S' M M' (T T' : list Z -> Z -> Prop) e b : (exists X, S' = S ++ X) -> (exists Y, M' = M ++ Y) -> (forall m p, T m p -> good size q S' M' T' m p e) ->
  forall m p, good size q S M T m p b -> 0 <= p -> good size q S' M' T' m p (b ++ e).
Proof.
  intros (X & ->) (Y & ->) H. induction b as [|w b IH]; cbn [app good]; intros m p G P; [auto|]. destruct w as [a v|v].
  - destruct G as (x & m' & A & B & C & DD). exists x, m'. repeat split; auto; lia.
  - destruct G as (p' & A & B & BB & C & DD). exists p'. rewrite zlen_app. pose proof (zlen_nonneg X). split; [lia|]. split; [exact B|]. split; [apply bnd_app; exact BB|]. split; [|apply IH; auto; lia]. intros j Hj. rewrite znth_app_l by lia. apply C. lia.
Qed.
Lemma good_impl size q q' S M (T T' : list Z -> Z -> Prop) b : q <= q' -> (forall m p, T m p -> T' m p) -> forall m p, good size q S M T m p b -> good size q' S M T' m p b.
Proof.
  intros Q H. induction b as [|w b IH]; cbn [good]; intros m p G; [auto|]. destruct w as [a v|v].
  - destruct G as (x & m' & A & B & C & DD). exists x, m'. repeat split; auto; lia.
  - destruct G as (p' & A & B & BB & C & DD). exists p'. split; [exact A|]. split; [exact B|]. split; [exact BB|]. split; [exact C|]. apply IH. exact DD.
Qed.
Lemma good_fwd size q S M (T : list Z -> Z -> Prop) n b : (forall m p, T m p -> p = n) -> forall m p, good size q S M T m p b -> fwd_w b (u32 p) = u32 n.
Proof.
  intros H. induction b as [|w b IH]; cbn [good fwd_w]; intros m p G; [rewrite (H _ _ G); reflexivity|]. destruct w as [a v|v].
  - destruct G as (x & m' & A & B & C & DD). eapply IH; eassumption.
  - destruct G as (p' & A & -> & BB & C & DD). eapply IH; eassumption.
Qed.
Lemma goodr_app k q b k' : k <= k' -> goodr k q b -> goodr k' q (b ++ [u32 k']) /\ fwd_r b (u32 q) = u32 k.
Proof.
  intros K. revert q. induction b as [|x b IH]; cbn [app goodr fwd_r]; intros q G.
  - subst q. split; [|reflexivity]. exists k'. split; [lia|]. auto.
  - destruct G as (q' & A & -> & DD). destruct (IH _ DD) as (E1 & E2). split; [|exact E2]. exists q'. split; [lia|]. auto.
Qed.
Lemma tail_ext s s' M : t_pp s' = t_pp s -> t_size s' = t_size s -> forall m p, tail s M m p -> tail s' M m p.
Proof. intros A B m p (T1 & T2 & T3). unfold tail, xin in *. rewrite A, B. auto. Qed.
Lemma xstm_len s M : zlen (xstm s M) = xin s M.
Proof. unfold xstm, xin. rewrite zlen_app, zlen_frames. f_equal. destruct (t_pp s) as [|?|[] ?|[] ? ? ? ?|? ?]; reflexivity. Qed.
Lemma own_in_eq s D R p q : tinv s D R p q -> own_in s = u32 (xin s (D ++ R)).
Proof. intros []. unfold own_in. rewrite v_in0. eapply good_fwd; [|exact v_wb0]. intros m p' (A & _). exact A. Qed.
Lemma own_out_eq s D R p q : tinv s D R p q -> own_out s = u32 (xout s D).
Proof. intros []. unfold own_out. rewrite v_out0. destruct (goodr_app (xout s D) q (t_rbuf s) (xout s D) (Z.le_refl _) v_rb0) as (_ & EE). exact EE. Qed.
Lemma room_eq s D R p q : tinv s D R p q -> room s = t_size s - (xin s (D ++ R) - q).
Proof.
  intro I. unfold room. rewrite (own_in_eq _ _ _ _ _ I). destruct I. rewrite v_out0. pose proof (pow2_bound _ v_pow0) as B. rewrite u32_sub.
  rewrite (u32_small (xin s (D ++ R) - q)) by (unfold two32; lia). apply u32_small. unfold two32. lia.
Qed.
Lemma filled_eq s D R p q : tinv s D R p q -> filled s = p - xout s D.
Proof.
  intro I. unfold filled. rewrite (own_out_eq _ _ _ _ _ I). destruct I. rewrite v_in0. pose proof (pow2_bound _ v_pow0) as B. rewrite u32_sub. apply u32_small. unfold two32. lia.
Qed.

(** ** mono *)
Lemma tpinv_mono s s' M q q' : t_pp s' = t_pp s -> t_size s' = t_size s -> pcall_at (t_log s') = pcall_at (t_log s) -> q <= q' -> tpinv s q M -> tpinv s' q' M.
Proof.
  intros E1 E2 E3 Q H. unfold tpinv, xin, maybe_waiting in *. rewrite E1, E2, E3. destruct (t_pp s) as [|m|hd m|hd m n start i|m c]; auto.
  - destruct H as (A & B & C). split; [exact A|]. split; [exact B|lia].
  - destruct H as (A & B). split; [exact A|lia].
  - destruct H as (A & B & C). split; [exact A|]. split; [lia|exact C].
Qed.
Lemma tjinv_mono D R X p p' j : p <= p' -> tjinv D R p j -> tjinv D (R ++ X) p' j.
Proof. intros P (m1 & rest & -> & PB & H). exists m1, (rest ++ X). split; [reflexivity|]. split; [unfold pub in *; lia|exact H]. Qed.
Lemma tcinv_mono s s' D R X p p' : t_cp s' = t_cp s -> t_size s' = t_size s -> ccall_at (t_log s') = ccall_at (t_log s) -> pops (plain (t_log s')) = pops (plain (t_log s)) -> p <= p' -> tcinv s D R p -> tcinv s' D (R ++ X) p'.
Proof.
  intros E1 E2 E3 E4 P H. unfold tcinv, xout, none_missed in *. rewrite E1, E2, E3, E4. destruct (t_cp s) as [| |t cap|j|j n start i tgt|t cap c t' sz'|n]; auto.
  - lia.
  - destruct H as (A & B & C). split; [exact A|]. split; [exact B|lia].
  - eapply tjinv_mono; eassumption.
  - destruct H as (J & Hn & Hs & Hi & HT). split; [eapply tjinv_mono; eassumption|]. split; [exact Hn|]. split; [exact Hs|]. split; [exact Hi|].
    intros m1 rest EE. destruct J as (m0 & r0 & -> & _). cbn in EE. injection EE as <- <-. apply (HT m0 r0 eq_refl).
  - destruct H as [H|[(A & B & C & EE)|(A & B & m1 & rest & -> & C)]]; auto.
    + right; left; auto.
    + right; right. split; [exact A|]. split; [exact B|]. exists m1, (rest ++ X). split; [reflexivity|exact C].
  - destruct H as [[A B]|(m1 & rest & -> & C)]; auto. right. exists m1, (rest ++ X). split; [reflexivity|exact C].
Qed.
Lemma used_split k q : used (skipn k q) + used (firstn k q) = used q.
Proof. rewrite <- (firstn_skipn k q) at 3. rewrite used_app. lia. Qed.
Lemma used_firstn_app k (M X : list (list Z)) : (k <= length M)%nat -> firstn k (M ++ X) = firstn k M.
Proof. intro H. rewrite firstn_app. replace (k - length M)%nat with 0%nat by lia. cbn. apply app_nil_r. Qed.
(** logs only grow *)
Lemma rsync_suffix l : exists a, l = a ++ rsync_at l.
Proof. induction l as [|e l (a & IH)]; [exists []; reflexivity|]. destruct e as [e| |]; cbn [rsync_at]; [exists (E e :: a)|exists (WSync :: a)|exists [RSync]]; cbn; congruence. Qed.
Lemma wsync_suffix l : exists a, l = a ++ wsync_at l.
Proof. induction l as [|e l (a & IH)]; [exists []; reflexivity|]. destruct e as [e| |]; cbn [wsync_at]; [exists (E e :: a)|exists [WSync]|exists (RSync :: a)]; cbn; congruence. Qed.
Lemma ccall_suffix l : exists a, l = a ++ ccall_at l.
Proof.
  induction l as [|e l (a & IH)]; [exists []; reflexivity|]. destruct e as [e| |]; [|exists (WSync :: a); cbn; congruence|exists (RSync :: a); cbn; congruence].
  destruct e; cbn [ccall_at]; try (eexists (_ :: a); cbn; f_equal; exact IH); eexists [_]; reflexivity.
Qed.
Lemma plain_app a b : plain (a ++ b) = plain a ++ plain b.
Proof. unfold plain. apply flat_map_app. Qed.
Lemma accepted_app a b : exists x, accepted (a ++ b) = accepted b ++ x.
Proof.
  induction a as [|e a (x & IH)]; [exists []; rewrite app_nil_r; reflexivity|]. cbn [app]. destruct e as [m|m c|t cap|t cap c t' sz| |n]; cbn [accepted]; rewrite ?IH; try (exists x; reflexivity).
  destruct (c =? 0); [exists (x ++ [m]); rewrite app_assoc; reflexivity|exists x; reflexivity].
Qed.
Lemma pops_app a b : exists x, pops (a ++ b) = pops b ++ x.
Proof.
  induction a as [|e a (x & IH)]; [exists []; rewrite app_nil_r; reflexivity|]. cbn [app]. destruct e as [m|m c|t cap|t cap c t' sz| |n]; cbn [pops]; rewrite ?IH; try (exists x; reflexivity).
  destruct (c =? 0); [exists (x ++ [(t, t', cap)]); rewrite app_assoc; reflexivity|exists x; reflexivity].
Qed.
Lemma rsync_pops l : (length (pops (plain (rsync_at l))) <= length (pops (plain l)))%nat.
Proof. destruct (rsync_suffix l) as (a & EE). rewrite EE at 2. rewrite plain_app. destruct (pops_app (plain a) (plain (rsync_at l))) as (x & ->). rewrite app_length. lia. Qed.
Lemma acc_ccall l : exists x, accepted (plain l) = accepted (plain (wsync_at (ccall_at l))) ++ x.
Proof.
  destruct (ccall_suffix l) as (a & EE). destruct (wsync_suffix (ccall_at l)) as (b & EB). assert (PP : plain l = plain (a ++ b) ++ plain (wsync_at (ccall_at l))) by (rewrite <- plain_app, <- app_assoc, <- EB; f_equal; exact EE). rewrite PP. apply accepted_app.
Qed.
Lemma pops_le s D R p q : tinv s D R p q -> (length (pops (plain (t_log s))) <= length D)%nat.
Proof. intros []. pose proof (F2_length _ _ _ v_pops0) as F. rewrite app_length in F. lia. Qed.

(** ** the producer *)
Lemma tp_move s D R p q x : tinv s D R p q -> poff x = poff (t_pp s) -> phead x = phead (t_pp s) -> pflight x = pflight (t_pp s) -> ppend x = ppend (t_pp s) ->
  (forall m p, tail s (D ++ R) m p -> tail (tset_pp s x) (D ++ R) m p) -> tpinv (tset_pp s x) q (D ++ R) -> tinv (tset_pp s x) D R p q.
Proof.
  intros [] E1 E2 E3 E4 TL W.
  assert (TI : xin (tset_pp s x) (D ++ R) = xin s (D ++ R)) by (unfold xin; cbn [t_pp tset_pp]; rewrite E1; reflexivity).
  assert (ST : xstm (tset_pp s x) (D ++ R) = xstm s (D ++ R)) by (unfold xstm; cbn [t_pp tset_pp]; rewrite E2; reflexivity).
  assert (TO : xout (tset_pp s x) D = xout s D) by reflexivity.
  split; rewrite ?TI, ?ST, ?TO; cbn [t_size t_mem t_in t_out t_log t_pp t_cp t_wbuf t_rbuf tset_pp]; auto; try congruence.
  eapply good_impl; [apply Z.le_refl|exact TL|exact v_wb0].
Qed.
Lemma tpstep_inv s D R p q : tinv s D R p q -> exists s' X, tpstep s = Ret s' /\ tinv s' D (R ++ X) p q.
Proof.
  intro I. pose proof (room_eq _ _ _ _ _ I) as AW. pose proof (own_in_eq _ _ _ _ _ I) as OW. pose proof (pops_le _ _ _ _ _ I) as PL. pose proof I as I0. destruct I. pose proof (pow2_bound _ v_pow0) as B.
  unfold tpstep. unfold tpinv in v_p0. destruct (t_pp s) as [|m|hd m|hd m n start i|m c] eqn:EP.
  - exists s, []. rewrite app_nil_r. auto.
  - destruct v_p0 as (Hm & HA & HQ). pose proof Hm as Hm'. unfold msz in Hm'. rewrite AW. unfold hdr_size. rewrite u64_small' by (unfold two64, two32 in *; lia).
    eexists _, []. rewrite app_nil_r. split; [reflexivity|]. unfold MQ_FULL. destruct (t_size s - (xin s (D ++ R) - q) <? 4 + zlen m) eqn:Q.
    + apply tp_move; rewrite ?EP; auto.
      * intros m0 p0 (T1 & T2 & T3). unfold tail, xin in *. rewrite EP in *. split; [exact T1|]. split; [exact T2|exact Logic.I].
      * unfold tpinv. cbn [t_pp tset_pp t_size t_log]. split; [exact Hm|]. right. split; [reflexivity|]. unfold maybe_waiting. cbn [t_log tset_pp]. rewrite HA, occupied_used.
        pose proof (used_split (length (pops (plain (rsync_at (pcall_at (t_log s)))))) (D ++ R)) as US. unfold xin in Q. rewrite EP in Q. cbn [poff] in Q. lia.
    + apply tp_move; rewrite ?EP; auto.
      * intros m0 p0 (T1 & T2 & T3). unfold tail, xin in *. rewrite EP in *. split; [exact T1|]. split; [exact T2|exact Logic.I].
      * unfold tpinv, xin in *. rewrite EP in *. cbn [t_pp tset_pp t_size t_log poff] in *. split; [exact Hm|lia].
  - destruct v_p0 as (Hm & HF). pose proof Hm as Hm'. unfold msz in Hm'. rewrite psrc_len, AW.
    destruct ((if hd then 4 else zlen m) =? 0) eqn:E1; [destruct hd; lia|].
    destruct (t_size s - (xin s (D ++ R) - q) =? 0) eqn:E2; [destruct hd; lia|]. cbn [orb].
    rewrite take_min_eq. replace (Z.min _ _) with (if hd then 4 else zlen m) by (destruct hd; lia).
    rewrite OW, pow2_mask by (auto; apply u32_range). rewrite pow2_mod_u32 by exact v_pow0.
    eexists _, []. rewrite app_nil_r. split; [reflexivity|]. apply tp_move; rewrite ?EP; auto; try (destruct hd; reflexivity).
    + intros m0 p0 (T1 & T2 & T3). unfold tail, xin in *. rewrite EP in *. cbn [t_pp tset_pp t_size]. split; [destruct hd; exact T1|]. split; [exact T2|]. intros j Hj. lia.
    + unfold tpinv, xin in *. rewrite EP in *. cbn [t_pp tset_pp t_size t_log] in *. split; [exact Hm|]. split; [destruct hd; exact HF|]. split; [rewrite psrc_len; reflexivity|]. split; [destruct hd; reflexivity|]. destruct hd; lia.
  - destruct v_p0 as (Hm & HF & Hn & Hst & Hi). pose proof Hm as Hm'. unfold msz in Hm'.
    assert (n = if hd then 4 else zlen m) as Hn' by (rewrite Hn; apply psrc_len).
    assert (HF' : xin s (D ++ R) + n <= q + t_size s) by (destruct hd; lia).
    assert (0 <= used D /\ 0 <= coff (t_cp s) <= 4) as (UD & CO) by (split; [apply used_nonneg|apply coff_range]).
    destruct (i <? n) eqn:EI.
    + destruct (znth_in_range i (psrc hd m)) as (b & Hb); [lia|]. rewrite (mload_znth _ _ _ Hb). cbn [bind].
      rewrite Hst, place_mod by (auto; lia). rewrite <- Hst. eexists _, []. rewrite app_nil_r. split; [reflexivity|].
      assert (PO' : poff (PCopy hd m n start (i + 1)) = poff (t_pp s)) by (rewrite EP; destruct hd; reflexivity).
      assert (PH' : phead (PCopy hd m n start (i + 1)) = phead (t_pp s)) by (rewrite EP; destruct hd; reflexivity).
      set (s' := tset_pp (w_store s (SByte ((xin s (D ++ R) + i) mod t_size s) b)) (PCopy hd m n start (i + 1))).
      assert (TI : xin s' (D ++ R) = xin s (D ++ R)) by (unfold xin; cbn [t_pp tset_pp s']; rewrite PO'; reflexivity).
      assert (ST : xstm s' (D ++ R) = xstm s (D ++ R)) by (unfold xstm; cbn [t_pp tset_pp s']; rewrite PH'; reflexivity).
      assert (TO : xout s' D = xout s D) by reflexivity.
      split; rewrite ?TI, ?ST, ?TO; auto.
      * cbn [s' t_wbuf t_size t_mem tset_pp w_store tset_wbuf]. eapply good_app; [exists []; symmetry; apply app_nil_r|exists []; symmetry; apply app_nil_r| |exact v_wb0|lia].
        intros m0 p0 (T1 & T2 & T3). rewrite EP in T3. cbn [good]. subst p0.
        assert (0 <= (xin s (D ++ R) + i) mod t_size s < t_size s) as Hp by (apply Z.mod_pos_bound; lia).
        destruct (mstore_ok m0 ((xin s (D ++ R) + i) mod t_size s) b ltac:(lia)) as (mm & HS & HL & HX & HO). exists (xin s (D ++ R) + i), mm. split; [reflexivity|]. split; [lia|]. split; [exact HS|].
        split; [symmetry; exact TI|]. cbn [t_size t_pp tset_pp w_store tset_wbuf s']. fold s'. rewrite TI. split; [lia|].
        intros j Hj. destruct (Z.eq_dec j i) as [->|NE]; [rewrite HX; congruence|]. rewrite HO; [apply T3; lia|]. apply mod_ne; lia.
      * unfold tpinv. rewrite TI. cbn [t_size t_pp tset_pp w_store tset_wbuf s']. split; [exact Hm|]. split; [exact HF|]. split; [exact Hn|]. split; [exact Hst|]. lia.
    + assert (i = n) by lia. subst i. unfold pfinish. destruct hd.
      * rewrite Hn'. unfold hdr_size. change (4 =? 4) with true. cbn [assert_abort bind]. eexists _, []. rewrite app_nil_r. split; [reflexivity|].
        set (s' := tset_pp (w_store s (SIn (u32 (own_in s + 4)))) (P196 false m)).
        assert (TI : xin s' (D ++ R) = xin s (D ++ R) + 4) by (unfold xin; cbn [t_pp tset_pp s']; rewrite EP; cbn [poff]; lia).
        assert (ST : xstm s' (D ++ R) = xstm s (D ++ R) ++ le32 (zlen m)) by (unfold xstm; cbn [t_pp tset_pp s']; rewrite EP; cbn [phead]; rewrite app_nil_r; reflexivity).
        assert (TO : xout s' D = xout s D) by reflexivity.
        split; rewrite ?TI, ?ST, ?TO; auto.
        -- cbn [s' t_size tset_pp w_store tset_wbuf]. lia.
        -- intros j Hj. rewrite znth_app_l by (rewrite xstm_len; lia). apply v_dat0. exact Hj.
        -- cbn [s' t_wbuf t_size t_mem tset_pp w_store tset_wbuf]. eapply good_app; [eexists; reflexivity|exists []; symmetry; apply app_nil_r| |exact v_wb0|lia].
           intros m0 p0 (T1 & T2 & T3). rewrite EP in T3. cbn [good]. subst p0. exists (xin s (D ++ R) + 4). rewrite zlen_app, xstm_len, le32_len. split; [lia|].
           split; [rewrite OW, u32_add; reflexivity|]. split; [exists (D ++ R), []; rewrite app_nil_r; split; [reflexivity|]; right; unfold xin; rewrite EP; cbn [poff]; lia|]. split.
           ++ intros j Hj. rewrite znth_app_r by (rewrite xstm_len; lia). rewrite xstm_len. specialize (T3 (j - xin s (D ++ R)) ltac:(lia)). cbn [psrc] in T3. rewrite <- T3. f_equal. f_equal. lia.
           ++ split; [symmetry; exact TI|]. split; [exact T2|exact Logic.I].
        -- unfold tpinv. rewrite TI. cbn [t_size t_pp tset_pp w_store tset_wbuf s']. split; [exact Hm|lia].
      * rewrite Hn'. rewrite Z.eqb_refl. cbn [assert_abort bind]. eexists _, [m]. split; [reflexivity|]. unfold MQ_SUCCESS.
        set (s' := tset_pp (w_store s (SIn (u32 (own_in s + zlen m)))) (PRet m 0)).
        assert (TI : xin s' (D ++ R ++ [m]) = xin s (D ++ R) + zlen m) by (unfold xin; cbn [t_pp tset_pp s']; rewrite EP; cbn [poff]; rewrite app_assoc, used_app; cbn [used]; lia).
        assert (ST : xstm s' (D ++ R ++ [m]) = xstm s (D ++ R) ++ m).
        { unfold xstm; cbn [t_pp tset_pp s']; rewrite EP; cbn [phead]. rewrite app_nil_r, app_assoc, frames_app. unfold frame. rewrite app_assoc. reflexivity. }
        assert (TO : xout s' D = xout s D) by reflexivity.
        split; rewrite ?TI, ?ST, ?TO; auto.
        -- rewrite app_assoc. apply Forall_app. split; [exact v_msz0|]. constructor; [exact Hm|constructor].
        -- cbn [s' t_size tset_pp w_store tset_wbuf]. lia.
        -- rewrite app_assoc. apply bnd_app. exact v_bnd0.
        -- intros j Hj. rewrite znth_app_l by (rewrite xstm_len; lia). apply v_dat0. exact Hj.
        -- cbn [s' t_wbuf t_size t_mem tset_pp w_store tset_wbuf]. eapply good_app; [eexists; reflexivity|exists [m]; rewrite app_assoc; reflexivity| |exact v_wb0|lia].
           intros m0 p0 (T1 & T2 & T3). rewrite EP in T3. cbn [good]. subst p0. exists (xin s (D ++ R) + zlen m). rewrite zlen_app, xstm_len. split; [lia|].
           split; [rewrite OW, u32_add; reflexivity|]. split; [exists (D ++ R ++ [m]), []; rewrite app_nil_r; split; [reflexivity|]; left; rewrite <- TI; unfold xin; cbn [t_pp tset_pp s' poff]; lia|]. split.
           ++ intros j Hj. rewrite znth_app_r by (rewrite xstm_len; lia). rewrite xstm_len. specialize (T3 (j - xin s (D ++ R)) ltac:(lia)). cbn [psrc] in T3. rewrite <- T3. f_equal. f_equal. lia.
           ++ split; [symmetry; exact TI|]. split; [exact T2|exact Logic.I].
        -- unfold tpinv. cbn [t_size t_pp tset_pp w_store tset_wbuf s']. split; [exact Hm|]. left; reflexivity.
        -- apply (tcinv_mono s _ D R [m] p p); auto. lia.
        -- cbn [t_log s' tset_pp w_store tset_wbuf]. rewrite v_sent0. cbn. rewrite app_nil_r, app_assoc. reflexivity.
        -- cbn [t_log s' tset_pp w_store tset_wbuf]. cbn in v_acc0. rewrite app_nil_r in v_acc0. rewrite app_assoc, v_acc0. reflexivity.
        -- cbn [t_log s' tset_pp w_store tset_wbuf]. rewrite app_assoc, used_firstn_app; [exact v_rs0|]. rewrite app_length. pose proof (rsync_pops (t_log s)). lia.
  - destruct v_p0 as (Hm & HC). eexists _, []. rewrite app_nil_r. split; [reflexivity|].
    set (s' := tset_pp (temit s (E (EPushRet m c))) PIdle).
    assert (TI : xin s' (D ++ R) = xin s (D ++ R)) by (unfold xin; cbn [t_pp tset_pp s']; rewrite EP; reflexivity).
    assert (ST : xstm s' (D ++ R) = xstm s (D ++ R)) by (unfold xstm; cbn [t_pp tset_pp s']; rewrite EP; reflexivity).
    assert (TO : xout s' D = xout s D) by reflexivity.
    split; rewrite ?TI, ?ST, ?TO; auto.
    + cbn [s' t_wbuf t_size t_mem tset_pp temit]. eapply good_impl; [apply Z.le_refl| |exact v_wb0]. intros m0 p0 (T1 & T2 & T3). split; [rewrite TI; exact T1|]. split; [exact T2|exact Logic.I].
    + exact Logic.I.
    + change (plain (t_log s')) with (EPushRet m c :: plain (t_log s)). cbn [sent pflight s' t_pp tset_pp] in *. rewrite v_sent0. destruct (c =? 0); [reflexivity|]. rewrite removelast_snoc, app_nil_r. reflexivity.
    + change (plain (t_log s')) with (EPushRet m c :: plain (t_log s)). cbn [accepted ppend s' t_pp tset_pp] in *. rewrite v_acc0 at 1. destruct (c =? 0); rewrite ?app_nil_r; reflexivity.
    + split; [|exact v_ev0]. exact HC.
Qed.
