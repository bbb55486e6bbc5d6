From Verif Require Import MpliteProof2 MpliteProof6.
From Verif Require Import CBase SeqLib RingBuffer2Model RingBuffer2Proof MsgQueueModel MsgQueueSpec MsgQueueProof
  SpscModel SpscSpec.

(** ** log lemmas *)
Lemma occupied_used q : occupied q = used q.
Proof. induction q; cbn; [reflexivity|]. rewrite IHq; reflexivity. Qed.
Lemma used_app a b : used (a ++ b) = used a + used b.
Proof. induction a; cbn [app used]; [lia|]. rewrite IHa. lia. Qed.
Lemma accepted_at_ccall l : (length (accepted (at_ccall l)) <= length (accepted l))%nat.
Proof.
  induction l as [|e l IH]; cbn; [lia|]. destruct e as [m|m c|t cap|t cap c t' sz| |n]; cbn; auto.
  destruct (c =? 0); [rewrite app_length; cbn|]; lia.
Qed.
Lemma pops_at_pcall l : (length (pops (at_pcall l)) <= length (pops l))%nat.
Proof.
  induction l as [|e l IH]; cbn; [lia|]. destruct e as [m|m c|t cap|t cap c t' sz| |n]; cbn; auto.
  destruct (c =? 0); [rewrite app_length; cbn|]; lia.
Qed.

(** ** invariant *)
Definition poff (p : ppc) : Z :=
  match p with P196 false _ | PCopy false _ _ _ _ => 4 | _ => 0 end.
Definition phead (p : ppc) : list Z :=
  match p with P196 false m | PCopy false m _ _ _ => le32 (zlen m) | _ => [] end.
Definition coff (c : cpc) : Z :=
  match c with C235 (JRead _ _ _) | CCopy (JRead _ _ _) _ _ _ _ => 4 | _ => 0 end.
Definition pflight (p : ppc) : list (list Z) :=
  match p with
  | PIdle => []
  | P44 m | P196 _ m | PCopy _ m _ _ _ => [m]
  | PRet m c => if c =? 0 then [] else [m]
  end.
Definition ppend (p : ppc) : list (list Z) :=
  match p with PRet m c => if c =? 0 then [m] else [] | _ => [] end.
Definition cpend (c : cpc) : list (list Z * list Z * Z) :=
  match c with CRet t cap code t' _ => if code =? 0 then [(t, t', cap)] else [] | _ => [] end.

Definition msz (m : list Z) : Prop := 0 < zlen m < two32.

Section Inv.
Variable s : st.
Variables D R : list (list Z).
Let size := csize s.
Definition tin := used (D ++ R) + poff (pp s).
Definition tout := used D + coff (cp s).
Definition stream := frames (D ++ R) ++ phead (pp s).

Definition pinv : Prop :=
  match pp s with
  | PIdle => True
  | P44 m => msz m /\ accepted (at_pcall (log s)) = D ++ R
  | P196 hd m => msz m /\ tin + (if hd then 4 else 0) + zlen m <= tout + size
  | PCopy hd m n start i =>
      msz m /\ tin + (if hd then 4 else 0) + zlen m <= tout + size /\
      n = zlen (psrc hd m) /\ start = tin mod size /\ 0 <= i <= n /\
      (forall j, 0 <= j < i -> znth ((tin + j) mod size) (mem s) = znth j (psrc hd m))
  | PRet m c => msz m /\ (c = 0 \/ c = 5 /\ size < occupied (waiting (at_pcall (log s))) + 4 + zlen m)
  end.

Definition jinv (j : job) : Prop :=
  exists m1 rest, R = m1 :: rest /\
  match j with
  | JNext => True
  | JPeek t cap a => 0 <= cap < two32 /\ cap <= zlen t /\ 4 + zlen m1 <= a
  | JDisc t cap n | JRead t cap n => 0 <= cap < two32 /\ cap <= zlen t /\ n = zlen m1 /\ n <= cap
  end.
Definition expect (j : job) (m1 : list Z) : list Z :=
  match j with JRead _ _ _ => m1 | _ => le32 (zlen m1) end.
Definition cinv : Prop :=
  match cp s with
  | CIdle | C60 => True
  | C78 t cap => 0 <= cap < two32 /\ cap <= zlen t
  | C235 j => jinv j
  | CCopy j n start i tgt =>
      jinv j /\ n = jreq j /\ start = tout mod size /\ 0 <= i <= n /\
      forall m1 rest, R = m1 :: rest ->
      match jtgt j with
      | None => i = n
      | Some t0 => tgt = ztake i (expect j m1) ++ zdrop i t0
      end
  | CRet t cap c t' sz' =>
      (c = 0 /\ sz' = cap) \/
      (c = 4 /\ sz' = cap /\ t' = t /\ nothing_missed (log s)) \/
      (c = 6 /\ t' = t /\ exists m1 rest, R = m1 :: rest /\ cap < zlen m1 /\ sz' = zlen m1)
  | CNRet n => (n = 0 /\ nothing_missed (log s)) \/ exists m1 rest, R = m1 :: rest /\ n = zlen m1
  end.

Fixpoint events_ok (l : list ev) : Prop :=
  match l with [] => True | e :: l => event_ok size e l /\ events_ok l end.

Record inv : Prop := {
  i_pow : is_pow2 size;
  i_len : size <= zlen (mem s);
  i_msz : Forall msz (D ++ R);
  i_in : cin s = u32 tin;
  i_out : cout s = u32 tout;
  i_ord : tout <= tin <= tout + size;
  i_mem : forall k, tout <= k < tin -> znth (k mod size) (mem s) = znth k stream;
  i_p : pinv;
  i_c : cinv;
  i_sent : sent (log s) = (D ++ R) ++ pflight (pp s);
  i_acc : D ++ R = accepted (log s) ++ ppend (pp s);
  i_pops : Forall2 stored (pops (log s) ++ cpend (cp s)) D;
  i_ev : events_ok (log s) }.
End Inv.

(** ** arithmetic *)
Lemma mod_ne a b s : 0 < s -> 0 < b - a < s -> a mod s <> b mod s.
Proof.
  intros Hs H E. assert ((b - a) mod s = 0) as Z0.
  { rewrite Zminus_mod, E, Z.sub_diag, Z.mod_0_l; lia. }
  rewrite Z.mod_small in Z0 by lia. lia.
Qed.
Lemma place_mod size n x i : is_pow2 size -> 0 <= i < n -> n <= size -> 0 <= x ->
  place size n (x mod size) i = (x + i) mod size.
Proof.
  intros P Hi Hn Hx. pose proof (pow2_bound _ P) as B.
  assert (0 <= x mod size < size) as Hm by (apply Z.mod_pos_bound; lia).
  unfold place. rewrite take_min_eq, u32_small by (unfold two32; lia).
  rewrite <- Zplus_mod_idemp_l. set (y := x mod size) in *. clearbody y. destruct (i <? Z.min n (size - y)) eqn:E.
  - rewrite Z.mod_small by lia. reflexivity.
  - replace (y + i) with ((i - Z.min n (size - y)) + 1 * size) by lia.
    rewrite Z.mod_add, Z.mod_small by lia. reflexivity.
Qed.
Lemma u32_sub a b : u32 (u32 a - u32 b) = u32 (a - b).
Proof. unfold u32. rewrite <- Zminus_mod. reflexivity. Qed.
Lemma u32_add a b : u32 (u32 a + b) = u32 (a + b).
Proof. unfold u32. apply Zplus_mod_idemp_l. Qed.
Lemma avail_read_eq s D R : inv s D R -> avail_read s = tin s D R - tout s D.
Proof.
  intros []. unfold avail_read. rewrite i_in0, i_out0. pose proof (pow2_bound _ i_pow0).
  rewrite u32_sub. apply u32_small. unfold two32; lia.
Qed.
Lemma avail_write_eq s D R : inv s D R -> avail_write s = csize s - (tin s D R - tout s D).
Proof.
  intros I. unfold avail_write. rewrite (avail_read_eq s D R I). destruct I. pose proof (pow2_bound _ i_pow0).
  apply u32_small. unfold two32; lia.
Qed.
Lemma poff_range p : 0 <= poff p <= 4.
Proof. destruct p as [|?|[] ?|[] ? ? ? ?|? ?]; cbn; lia. Qed.
Lemma coff_range p : 0 <= coff p <= 4.
Proof. destruct p as [| | |[]|[]| |]; cbn; lia. Qed.
Lemma stream_len s D R : zlen (stream s D R) = tin s D R.
Proof.
  unfold stream, tin. rewrite zlen_app, zlen_frames. f_equal.
  destruct (pp s) as [|?|[] ?|[] ? ? ? ?|? ?]; reflexivity.
Qed.

Lemma znth_stream_head s D m1 rest i : 0 <= i < 4 ->
  znth (used D + i) (stream s D (m1 :: rest)) = znth i (le32 (zlen m1)).
Proof.
  intro Hi. unfold stream, frames. rewrite map_app, concat_app, <- app_assoc.
  pose proof (zlen_frames D) as LD. unfold frames in LD.
  rewrite znth_app_r by lia. rewrite LD. replace (used D + i - used D) with i by lia.
  cbn [map concat]. rewrite <- !app_assoc. change (frame m1) with (le32 (zlen m1) ++ m1). rewrite <- !app_assoc. rewrite znth_app_l by (rewrite le32_len; lia). reflexivity.
Qed.
Lemma znth_stream_body s D m1 rest i : 0 <= i < zlen m1 ->
  znth (used D + 4 + i) (stream s D (m1 :: rest)) = znth i m1.
Proof.
  intro Hi. unfold stream, frames. rewrite map_app, concat_app, <- app_assoc.
  pose proof (zlen_frames D) as LD. unfold frames in LD.
  rewrite znth_app_r by lia. rewrite LD. replace (used D + 4 + i - used D) with (4 + i) by lia.
  cbn [map concat]. rewrite <- !app_assoc. change (frame m1) with (le32 (zlen m1) ++ m1). rewrite <- !app_assoc. rewrite znth_app_r by (rewrite le32_len; lia).
  rewrite le32_len. replace (4 + i - 4) with i by lia. rewrite znth_app_l by lia. reflexivity.
Qed.
