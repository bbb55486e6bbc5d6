(** Proofs for C73, part 1: the invariant *)
From Verif Require Import MpliteProof2 MpliteProof6.
From Verif Require Import CBase SeqLib RingBuffer2Model RingBuffer2Proof FixedQueueModel RbMtModel RbMtSpec.
From Verif Require SpscProof SpscProof3.

Section P.
Variables (one c0 : Z).
Hypothesis ONE : 1 <= one < two32.
Hypothesis C0 : 0 <= c0.

(** the call a thread is in; what it has already written or taken, but not returned *)
Definition wcur (p : wpc) : option wcall := match p with WIdle => None | WSpaceAt => Some WSpace | WFull m => Some (WPush m) | WAvail c | WCopy c _ _ _ | WRet c _ => Some c end.
Definition rcur (p : rpc) : option rcall := match p with RIdle => None | RAvailAt => Some RAvail | REmpty t => Some (RPop t) | RFetch c | RCopy c _ _ _ _ | RRet c _ _ => Some c end.
Definition wpend (p : wpc) : list Z := match p with WRet c n => wbytes one c n | _ => [] end.
Definition rpend (p : rpc) : Z := match p with RRet c n _ => rbytes one c n | _ => 0 end.

Fixpoint evs_ok (cap : Z) (l : list ev) : Prop := match l with [] => True | e :: l => event_ok one cap e l /\ evs_ok cap l end.

(** S: all bytes published so far; k: how many of them have been taken *)
Section Inv.
Variables (s : st) (S : list Z) (k : Z).
Let K0 := taken one (at_wcall (log s)).
Let W0 := zlen (wrote one (at_rcall (log s))).
Definition winv : Prop :=
  match wp s with
  | WIdle => True
  | WSpaceAt => K0 <= k
  | WFull m => wok one (WPush m) /\ K0 <= k
  | WAvail c => wok one c /\ c <> WSpace /\ K0 <= k /\ (forall m, c = WPush m -> one <= csize s - (zlen S - k))
  | WCopy c n start i =>
      wok one c /\ c <> WSpace /\ start = (c0 + zlen S) mod csize s /\ 0 <= i <= n /\ 0 < n /\
      (exists k0, K0 <= k0 <= k /\ zlen S - csize s <= k0 /\ n = Z.min (wsize one c) (csize s - (zlen S - k0))) /\
      (forall m, c = WPush m -> n = one) /\
      (forall j, 0 <= j < i -> znth ((c0 + zlen S + j) mod csize s) (mem s) = znth j (wsrc c))
  | WRet c n =>
      wok one c /\ exists k0, K0 <= k0 <= k /\
      let free := csize s - (zlen (wrote one (log s)) - k0) in
      0 <= free <= csize s /\
      match c with WWrite _ size => n = Z.min size free | WSpace => n = free | WPush _ => n = if one <=? free then 1 else 0 end
  end.
Definition next (m : Z) : list Z := ztake m (zdrop (taken one (log s)) S).
Definition rinv : Prop :=
  match rp s with
  | RIdle => True
  | RAvailAt => W0 <= zlen S
  | REmpty t => rok one (RPop t) /\ W0 <= zlen S
  | RFetch c => rok one c /\ c <> RAvail /\ W0 <= zlen S /\ (forall t, c = RPop t -> one <= zlen S - k)
  | RCopy c n start i t =>
      rok one c /\ c <> RAvail /\ start = (c0 + k) mod csize s /\ 0 <= i <= n /\ 0 < n /\
      (exists k1, W0 <= k1 <= zlen S /\ k1 <= k + csize s /\ n = Z.min (rsize one c) (k1 - k)) /\
      (forall t, c = RPop t -> n = one) /\
      match rtgt c with None => i = n | Some t0 => t = ztake i (zdrop k S) ++ zdrop i t0 end
  | RRet c n t' =>
      rok one c /\ exists k1, W0 <= k1 <= zlen S /\
      let stored := k1 - taken one (log s) in
      0 <= stored <= csize s /\
      match c with
      | RRead t size => n = Z.min size stored /\ t' = Some (next n ++ zdrop n t)
      | RPeek (Some t) size => n = Z.min size stored /\ t' = Some (next n ++ zdrop n t)
      | RPeek None size => n = Z.min size stored /\ t' = None
      | RDiscard size => n = Z.min size stored /\ t' = None
      | RAvail => n = stored /\ t' = None
      | RPop t => if one <=? stored then n = 1 /\ t' = Some (next one ++ zdrop one t) else n = 0 /\ t' = Some t
      end
  end.
Record inv : Prop := {
  i_pow : is_pow2 (csize s); i_len : csize s <= zlen (mem s);
  i_in : cin s = u32 (c0 + zlen S); i_out : cout s = u32 (c0 + k);
  i_rng : 0 <= k <= zlen S /\ zlen S <= k + csize s;
  i_dat : forall j, k <= j < zlen S -> znth ((c0 + j) mod csize s) (mem s) = znth j S;
  i_w : winv; i_r : rinv;
  i_wrote : S = wrote one (log s) ++ wpend (wp s); i_taken : k = taken one (log s) + rpend (rp s);
  i_wo : wopen (log s) = wcur (wp s); i_ro : ropen (log s) = rcur (rp s);
  i_tk : 0 <= taken one (log s);
  i_evs : evs_ok (csize s) (log s) }.
End Inv.

(** ** arithmetic *)
Lemma place_mod size n x i : is_pow2 size -> 0 <= i < n -> n <= size -> 0 <= x -> place size n (x mod size) i = (x + i) mod size.
Proof. intros. rewrite <- (SpscProof.place_mod size n x i) by assumption. reflexivity. Qed.
Lemma avail_read_eq s S k : inv s S k -> avail_read s = zlen S - k.
Proof.
  intros []. unfold avail_read. rewrite i_in0, i_out0. pose proof (pow2_bound _ i_pow0) as B. rewrite SpscProof.u32_sub. replace (c0 + zlen S - (c0 + k)) with (zlen S - k) by lia. apply u32_small. unfold two32. lia.
Qed.
Lemma avail_write_eq s S k : inv s S k -> avail_write s = csize s - (zlen S - k).
Proof.
  intro I. unfold avail_write. rewrite (avail_read_eq s S k I). destruct I. pose proof (pow2_bound _ i_pow0) as B. apply u32_small. unfold two32. lia.
Qed.

(** ** the other thread's part of the invariant is not disturbed *)
Lemma rinv_mono s s' S X k : rp s' = rp s -> csize s' = csize s -> at_rcall (log s') = at_rcall (log s) -> taken one (log s') = taken one (log s) -> 0 <= taken one (log s) -> k <= zlen S ->
  0 <= k -> rinv s S k -> rinv s' (S ++ X) k.
Proof.
  intros E1 E2 E3 E4 T0 KS K0 H. unfold rinv, next in *. rewrite E1, E2, E3, E4. pose proof (zlen_nonneg X) as ZX. rewrite zlen_app.
  assert (NX : forall m k1, k1 <= zlen S -> m <= k1 - taken one (log s) -> 0 <= k1 - taken one (log s) -> ztake m (zdrop (taken one (log s)) (S ++ X)) = ztake m (zdrop (taken one (log s)) S)).
  { intros m k1 A B C. rewrite zdrop_app_l by lia. apply ztake_app_l. rewrite zlen_zdrop by lia. lia. }
  destruct (rp s) as [| |t|c|c n start i t|c n t'].
  - exact Logic.I.
  - lia.
  - destruct H. split; [assumption|lia].
  - destruct H as (A & B & C & D). split; [exact A|]. split; [exact B|]. split; [lia|]. intros t E. specialize (D t E). lia.
  - destruct H as (A & B & C & D & D0 & (k1 & K1 & K2 & K3) & F & G). split; [exact A|]. split; [exact B|]. split; [exact C|]. split; [exact D|]. split; [exact D0|]. split; [exists k1; split; [lia|]; auto|]. split; [exact F|].
    destruct (rtgt c) as [t0|]; [|exact G]. rewrite G. f_equal. rewrite zdrop_app_l by lia. symmetry. apply ztake_app_l. rewrite zlen_zdrop by lia. lia.
  - destruct H as (A & k1 & K1 & K2 & K3). split; [exact A|]. exists k1. split; [lia|]. split; [exact K2|]. cbv zeta in K2. destruct A as (A & _).
    destruct c as [t size|[t|] size|size| |t]; cbn [rsize] in A; auto.
    + destruct K3 as (N & T). split; [exact N|]. rewrite (NX n k1) by lia. exact T.
    + destruct K3 as (N & T). split; [exact N|]. rewrite (NX n k1) by lia. exact T.
    + destruct (one <=? k1 - taken one (log s)) eqn:Q; [|exact K3]. rewrite (NX one k1) by lia. exact K3.
Qed.
Lemma winv_mono s s' S k k' : wp s' = wp s -> csize s' = csize s -> mem s' = mem s -> at_wcall (log s') = at_wcall (log s) -> wrote one (log s') = wrote one (log s) -> k <= k' ->
  winv s S k -> winv s' S k'.
Proof.
  intros E1 E2 E3 E4 E5 K H. unfold winv in *. rewrite E1, E2, E3, E4, E5. destruct (wp s) as [| |m|c|c n start i|c n].
  - exact Logic.I.
  - lia.
  - destruct H. split; [assumption|lia].
  - destruct H as (A & B & C & D). split; [exact A|]. split; [exact B|]. split; [lia|]. intros t E. specialize (D t E). lia.
  - destruct H as (A & B & C & D & D0 & (k0 & K1 & K2 & K3) & F). split; [exact A|]. split; [exact B|]. split; [exact C|]. split; [exact D|]. split; [exact D0|]. split; [exists k0; split; [lia|]; auto|exact F].
  - destruct H as (A & k0 & K1 & K2). split; [exact A|]. exists k0. split; [lia|exact K2].
Qed.

(** ** what the log says about the published bytes *)
Lemma wbytes_len c n : wok one c -> 0 <= n -> (match c with WWrite _ size => n <= size | _ => True end) -> zlen (wbytes one c n) = match c with WWrite _ _ => n | WPush _ => if n =? 1 then one else 0 | WSpace => 0 end.
Proof.
  intros (A & B) N L. destruct c as [s0 size| |s0]; cbn [wbytes wsize wsrc] in *; [apply zlen_ztake; lia|reflexivity|]. destruct (n =? 1); [apply zlen_ztake; lia|reflexivity].
Qed.
Lemma prefix_offered s S k : inv s S k -> exists X, offered one (log s) = S ++ X.
Proof.
  intros []. unfold offered. rewrite i_wo0. unfold winv in i_w0. destruct (wp s) as [| |m|c|c n start i|c n]; cbn [wcur wpend].
  1-5: assert (E : S = wrote one (log s)) by (rewrite i_wrote0; apply app_nil_r); rewrite E; eexists; reflexivity.
  destruct i_w0 as ((A & B) & k0 & K1 & K2 & K3). cbv zeta in K2, K3. destruct c as [s0 size| |s0]; cbn [wbytes wsize wsrc] in *.
  - exists (zdrop n (ztake size s0)). rewrite i_wrote0. cbn [wpend wbytes]. rewrite <- app_assoc. f_equal. rewrite <- (ztake_zdrop n (ztake size s0)) at 1. f_equal. rewrite ztake_ztake. f_equal. lia.
  - exists []. rewrite i_wrote0. cbn [wpend wbytes]. rewrite !app_nil_r. reflexivity.
  - rewrite i_wrote0. cbn [wpend wbytes]. destruct (n =? 1); [exists []; rewrite !app_nil_r; reflexivity|exists (ztake one s0); rewrite app_nil_r; reflexivity].
Qed.
Lemma rret_le s S k c n t : inv s S k -> rp s = RRet c n t -> 0 <= rbytes one c n <= rsize one c.
Proof.
  intros [] E. unfold rinv in i_r0. rewrite E in i_r0. destruct i_r0 as ((A & _) & k1 & _ & K2 & K3). cbv zeta in K2, K3.
  destruct c as [t0 size|[t0|] size|size| |t0]; cbn [rbytes rsize] in *; try lia.
  destruct (one <=? k1 - taken one (log s)); destruct K3 as (-> & _); cbn; lia.
Qed.
Lemma taken_le s S k : inv s S k -> taken one (log s) <= k <= taking one (log s).
Proof.
  intro I. pose proof I as I0. destruct I. unfold taking. rewrite i_ro0. destruct (rp s) as [| |t|c|c n start i t|c n t] eqn:E; cbn [rcur rpend] in *.
  1-5: unfold rinv in i_r0; rewrite E in i_r0; try lia.
  - cbn. lia.
  - destruct i_r0 as ((A & _) & _). lia.
  - destruct i_r0 as ((A & _) & _). lia.
  - destruct i_r0 as ((A & _) & _). lia.
  - pose proof (rret_le s S k c n t I0 E). lia.
Qed.
Lemma offered_next s S k m : inv s S k -> 0 <= m -> taken one (log s) + m <= zlen S -> ztake m (zdrop (taken one (log s)) (offered one (log s))) = next s S m.
Proof.
  intros I M H. destruct (prefix_offered s S k I) as (X & ->). destruct I. unfold next. rewrite zdrop_app_l by lia. apply ztake_app_l. rewrite zlen_zdrop by lia. lia.
Qed.
End P.
