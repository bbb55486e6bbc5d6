(** Proofs for C78, part 1: the invariant, the steps of both threads *)
From Verif Require Import MpliteProof2 MpliteProof6.
From Verif Require Import CBase SeqLib RingBufModel RgMtModel RgMtSpec.
From Verif Require SpscProof SpscProof3.

(** ** arithmetic of the offsets *)
Lemma u64s x : 0 <= x < two64 -> u64 x = x. Proof. apply Z.mod_small. Qed.
Lemma mod_is x m q r : 0 <= r < m -> x = q * m + r -> x mod m = r.
Proof. intros R E. symmetry. apply (Z.mod_unique x m q r); lia. Qed.
Lemma first_eq size start n : 0 <= start < size -> size < 2 ^ 63 -> 0 <= n -> first_part size start n = Z.min n (size - start).
Proof. intros A B N. unfold first_part. rewrite u64s by (unfold two64 in *; lia). destruct (Z.gtb_spec n (size - start)); lia. Qed.
Lemma place_mod size n x i : 3 <= size < 2 ^ 63 -> 0 <= i < n -> n <= size -> 0 <= x -> place size n (x mod size) i = (x + i) mod size.
Proof.
  intros S I N X. pose proof (Z.mod_pos_bound x size ltac:(lia)) as B. pose proof (Z.div_mod x size ltac:(lia)) as D. unfold place. rewrite first_eq by lia. cbv zeta. destruct (Z.ltb_spec i (Z.min n (size - x mod size))).
  - symmetry. apply (mod_is _ _ (x / size)); lia.
  - symmetry. apply (mod_is _ _ (x / size + 1)); lia.
Qed.
Lemma advance_mod size n x : 3 <= size < 2 ^ 63 -> 0 < n < size -> 0 <= x -> advance size n (x mod size) (x mod size) = (x + n) mod size.
Proof.
  intros S N X. pose proof (Z.mod_pos_bound x size ltac:(lia)) as B. pose proof (Z.div_mod x size ltac:(lia)) as D. unfold advance. rewrite first_eq by lia. cbv zeta. set (f := Z.min n (size - x mod size)). assert (F : 0 < f <= n /\ f <= size - x mod size /\ (f = n \/ f = size - x mod size)) by lia.
  rewrite (u64s (n - f)) by (unfold two64; lia). rewrite (u64s (x mod size + f)) by (unfold two64; lia). destruct (Z.eqb_spec (n - f) 0) as [E|E].
  - destruct (Z.eqb_spec (x mod size + f) size) as [E2|E2]; symmetry; [apply (mod_is _ _ (x / size + 1)); lia|apply (mod_is _ _ (x / size)); lia].
  - symmetry. apply (mod_is _ _ (x / size + 1)); lia.
Qed.
Lemma avail_r_mod size a b : 3 <= size < 2 ^ 63 -> 0 <= a - b < size -> u64 (size + a mod size - b mod size) mod size = a - b.
Proof.
  intros S R. pose proof (Z.mod_pos_bound a size ltac:(lia)). pose proof (Z.mod_pos_bound b size ltac:(lia)). rewrite u64s by (unfold two64; lia). pose proof (Z.div_mod a size ltac:(lia)). pose proof (Z.div_mod b size ltac:(lia)).
  apply (mod_is _ _ (1 + b / size - a / size)); lia.
Qed.
Lemma avail_w_mod size a b : 3 <= size < 2 ^ 63 -> 0 <= a - b < size -> u64 (size + b mod size - a mod size - 1) mod size = size - 1 - (a - b).
Proof.
  intros S R. pose proof (Z.mod_pos_bound a size ltac:(lia)). pose proof (Z.mod_pos_bound b size ltac:(lia)). rewrite u64s by (unfold two64; lia). pose proof (Z.div_mod a size ltac:(lia)). pose proof (Z.div_mod b size ltac:(lia)).
  apply (mod_is _ _ (a / size - b / size)); lia.
Qed.

Definition wcur (p : wpc) : option wcall := match p with WIdle => None | WSpaceAt => Some WSpace | WCheck c | WCopy c _ _ | WRet c _ => Some c end.
Definition rcur (p : rpc) : option rcall := match p with RIdle => None | RAvailAt => Some RAvail | RCheck c | RCopy c _ _ _ | RRet c _ _ => Some c end.
Definition wpend (p : wpc) : list Z := match p with WRet c n => wbytes c n | _ => [] end.
Definition rpend (p : rpc) : Z := match p with RRet c n _ => rbytes c n | _ => 0 end.
Fixpoint evs_ok (cap : Z) (l : list ev) : Prop := match l with [] => True | e :: l => event_ok cap e l /\ evs_ok cap l end.

Section P.
Variable c0 : Z.
Hypothesis C0 : 0 <= c0.
(** S: all bytes published so far; k: how many of them have been taken *)
Section Inv.
Variables (s : st) (S : list Z) (k : Z).
Let K0 := taken (at_wcall (log s)).
Let W0 := zlen (wrote (at_rcall (log s))).
Let cap := csize s - 1.
Definition winv : Prop :=
  match wp s with
  | WIdle => True
  | WSpaceAt => K0 <= k
  | WCheck c => wok c /\ c <> WSpace /\ K0 <= k
  | WCopy c start i =>
      wok c /\ c <> WSpace /\ start = (c0 + zlen S) mod csize s /\ 0 <= i <= wlen c /\ 0 < wlen c /\
      (exists k0, K0 <= k0 <= k /\ zlen S - cap <= k0 /\ wlen c <= cap - (zlen S - k0)) /\
      (forall j, 0 <= j < i -> znth ((c0 + zlen S + j) mod csize s) (mem s) = znth j (wsrc c))
  | WRet c n =>
      wok c /\ exists k0, K0 <= k0 <= k /\
      let free := cap - (zlen (wrote (log s)) - k0) in
      0 <= free <= cap /\ n = match c with WWrite _ len => granted len free | WSpace => free end
  end.
Definition next (m : Z) : list Z := ztake m (zdrop (taken (log s)) S).
Definition rinv : Prop :=
  match rp s with
  | RIdle => True
  | RAvailAt => W0 <= zlen S
  | RCheck c => rok c /\ c <> RAvail /\ W0 <= zlen S
  | RCopy c start i t =>
      rok c /\ c <> RAvail /\ start = (c0 + k) mod csize s /\ 0 <= i <= rlen c /\ 0 < rlen c /\
      (exists k1, W0 <= k1 <= zlen S /\ k1 <= k + cap /\ rlen c <= k1 - k) /\
      match rtgt c with None => i = rlen c | Some t0 => t = ztake i (zdrop k S) ++ zdrop i t0 end
  | RRet c n t' =>
      rok c /\ exists k1, W0 <= k1 <= zlen S /\
      let stored := k1 - taken (log s) in
      0 <= stored <= cap /\ n = match c with RRead _ len | RPeek _ len | RDiscard len => granted len stored | RAvail => stored end /\
      t' = match rtgt c with Some t => Some (next n ++ zdrop n t) | None => None end
  end.
Record inv : Prop := {
  i_sz : 3 <= csize s < 2 ^ 63; i_len : csize s <= zlen (mem s);
  i_w_off : off_w s = (c0 + zlen S) mod csize s; i_r_off : off_r s = (c0 + k) mod csize s;
  i_rng : 0 <= k <= zlen S /\ zlen S <= k + cap;
  i_dat : forall j, k <= j < zlen S -> znth ((c0 + j) mod csize s) (mem s) = znth j S;
  i_w : winv; i_r : rinv;
  i_wrote : S = wrote (log s) ++ wpend (wp s); i_taken : k = taken (log s) + rpend (rp s);
  i_wo : wopen (log s) = wcur (wp s); i_ro : ropen (log s) = rcur (rp s);
  i_tk : 0 <= taken (log s);
  i_evs : evs_ok cap (log s) }.
End Inv.
Lemma avail_read_eq s S k : inv s S k -> avail_read s = zlen S - k.
Proof. intros []. unfold avail_read. rewrite i_w_off0, i_r_off0. rewrite avail_r_mod by lia. lia. Qed.
Lemma avail_write_eq s S k : inv s S k -> avail_write s = csize s - 1 - (zlen S - k).
Proof. intros []. unfold avail_write. rewrite i_w_off0, i_r_off0. rewrite avail_w_mod by lia. lia. Qed.
Lemma granted_rng len room : 0 <= room -> 0 <= granted len room <= room. Proof. intro R. unfold granted. destruct ((1 <=? len) && (len <=? room)) eqn:E; lia. Qed.
Lemma granted_le len room : 0 <= len -> 0 <= granted len room <= len. Proof. intro R. unfold granted. destruct ((1 <=? len) && (len <=? room)) eqn:E; lia. Qed.

(** ** the other thread's part of the invariant is not disturbed *)
Lemma rinv_mono s s' S X k : rp s' = rp s -> csize s' = csize s -> at_rcall (log s') = at_rcall (log s) -> taken (log s') = taken (log s) -> 0 <= taken (log s) -> k <= zlen S ->
  0 <= k -> rinv s S k -> rinv s' (S ++ X) k.
Proof.
  intros E1 E2 E3 E4 T0 KS K0 H. unfold rinv, next in *. rewrite E1, E2, E3, E4. pose proof (zlen_nonneg X) as ZX. rewrite zlen_app.
  assert (NX : forall m k1, k1 <= zlen S -> m <= k1 - taken (log s) -> 0 <= k1 - taken (log s) -> ztake m (zdrop (taken (log s)) (S ++ X)) = ztake m (zdrop (taken (log s)) S)).
  { intros m k1 A B C. rewrite zdrop_app_l by lia. apply ztake_app_l. rewrite zlen_zdrop by lia. lia. }
  destruct (rp s) as [| |c|c start i t|c n t'].
  - exact Logic.I.
  - lia.
  - destruct H as (A & B & C). split; [exact A|]. split; [exact B|lia].
  - destruct H as (A & B & C & D & D0 & (k1 & K1 & K2 & K3) & G). split; [exact A|]. split; [exact B|]. split; [exact C|]. split; [exact D|]. split; [exact D0|]. split; [exists k1; split; [lia|]; auto|].
    destruct (rtgt c) as [t0|]; [|exact G]. rewrite G. f_equal. rewrite zdrop_app_l by lia. symmetry. apply ztake_app_l. rewrite zlen_zdrop by lia. lia.
  - destruct H as (A & k1 & K1 & K2 & K3 & K4). split; [exact A|]. exists k1. split; [lia|]. split; [exact K2|]. split; [exact K3|]. cbv zeta in *. destruct (rtgt c); [|exact K4]. rewrite (NX n k1); [exact K4|lia| |lia].
    rewrite K3. destruct c as [t0 len|t0 len|len|]; try apply granted_rng; lia.
Qed.
Lemma winv_mono s s' S k k' : wp s' = wp s -> csize s' = csize s -> mem s' = mem s -> at_wcall (log s') = at_wcall (log s) -> wrote (log s') = wrote (log s) -> k <= k' ->
  winv s S k -> winv s' S k'.
Proof.
  intros E1 E2 E3 E4 E5 K H. unfold winv in *. rewrite E1, E2, E3, E4, E5. destruct (wp s) as [| |c|c start i|c n].
  - exact Logic.I.
  - lia.
  - destruct H as (A & B & C). split; [exact A|]. split; [exact B|lia].
  - destruct H as (A & B & C & D & D0 & (k0 & K1 & K2 & K3) & F). split; [exact A|]. split; [exact B|]. split; [exact C|]. split; [exact D|]. split; [exact D0|]. split; [exists k0; split; [lia|]; auto|exact F].
  - destruct H as (A & k0 & K1 & K2). split; [exact A|]. exists k0. split; [lia|exact K2].
Qed.
(** ** what the log says about the published bytes *)
Lemma prefix_offered s S k : inv s S k -> exists X, offered (log s) = S ++ X.
Proof.
  intros []. unfold offered. rewrite i_wo0. unfold winv in i_w0. destruct (wp s) as [| |c|c start i|c n]; cbn [wcur wpend].
  1-4: assert (E : S = wrote (log s)) by (rewrite i_wrote0; apply app_nil_r); rewrite E; eexists; reflexivity.
  destruct i_w0 as (A & k0 & K1 & K2 & K3). cbv zeta in K2, K3. destruct c as [s0 len|]; cbn [wbytes wlen wsrc wok] in *.
  - exists (zdrop n (ztake len s0)). rewrite i_wrote0. cbn [wpend wbytes]. rewrite <- app_assoc. f_equal. rewrite <- (ztake_zdrop n (ztake len s0)) at 1. f_equal. rewrite ztake_ztake. f_equal. pose proof (granted_le len (csize s - 1 - (zlen (wrote (log s)) - k0)) ltac:(lia)). lia.
  - exists []. rewrite i_wrote0. cbn [wpend wbytes]. rewrite !app_nil_r. reflexivity.
Qed.
Lemma rret_le s S k c n t : inv s S k -> rp s = RRet c n t -> 0 <= rbytes c n <= rlen c.
Proof.
  intros [] E. unfold rinv in i_r0. rewrite E in i_r0. destruct i_r0 as ((A & _) & k1 & _ & K2 & K3 & _). cbv zeta in K2, K3.
  destruct c as [t0 len|t0 len|len|]; cbn [rbytes rlen] in *; try lia; rewrite K3; apply granted_le; lia.
Qed.
Lemma taken_le s S k : inv s S k -> taken (log s) <= k <= taking (log s).
Proof.
  intro I. pose proof I as I0. destruct I. unfold taking. rewrite i_ro0. destruct (rp s) as [| |c|c start i t|c n t] eqn:E; cbn [rcur rpend] in *.
  5: pose proof (rret_le s S k c n t I0 E); lia.
  all: unfold rinv in i_r0; rewrite E in i_r0; cbn [rlen] in *; try lia.
  - destruct i_r0 as ((A & _) & _). lia.
Qed.
Lemma offered_next s S k m : inv s S k -> 0 <= m -> taken (log s) + m <= zlen S -> ztake m (zdrop (taken (log s)) (offered (log s))) = next s S m.
Proof.
  intros I M H. destruct (prefix_offered s S k I) as (X & ->). destruct I. unfold next. rewrite zdrop_app_l by lia. apply ztake_app_l. rewrite zlen_zdrop by lia. lia.
Qed.

(** ** the writer *)
Lemma w_move s S k p : inv s S k -> wcur p = wcur (wp s) -> wpend p = [] -> wpend (wp s) = [] -> winv (set_wp s p) S k -> inv (set_wp s p) S k.
Proof. intros [] E1 E2 E3 W. split; cbn [csize mem off_w off_r log wp rp set_wp]; auto; congruence. Qed.
Lemma w_decide s S k c n : inv s S k -> wcur (wp s) = Some c -> wpend (wp s) = [] -> wok c -> wbytes c n = [] -> taken (at_wcall (log s)) <= k ->
  (let free := csize s - 1 - (zlen S - k) in n = match c with WWrite _ len => granted len free | WSpace => free end) -> inv (set_wp s (WRet c n)) S k.
Proof.
  intros I E1 E2 OK E3 K0 A. pose proof I as I0. destruct I. apply w_move; auto. unfold winv. cbn [csize mem off_w off_r log wp rp set_wp]. split; [exact OK|]. exists k. split; [lia|].
  assert (E : S = wrote (log s)) by (rewrite i_wrote0, E2; apply app_nil_r). rewrite <- E. split; [lia|exact A].
Qed.
Lemma wstep_inv s S k : inv s S k -> exists s' X, wstep s = Ret s' /\ inv s' (S ++ X) k.
Proof.
  intro I. pose proof (avail_write_eq s S k I) as AW. pose proof I as I0. destruct I. unfold wstep. unfold winv in i_w0. destruct (wp s) as [| |c|c start i|c n] eqn:EW.
  - exists s, []. rewrite app_nil_r. auto.
  - eexists _, []. rewrite app_nil_r. split; [reflexivity|]. apply w_decide; rewrite ?EW; auto. exact Logic.I.
  - destruct i_w0 as (OK & NS & K0). rewrite AW. destruct ((wlen c =? 0) || (wlen c >? csize s - 1 - (zlen S - k))) eqn:Q.
    + eexists _, []. rewrite app_nil_r. split; [reflexivity|]. destruct c as [s0 len|]; [|congruence]. cbn [wlen] in Q. apply w_decide; rewrite ?EW; auto. cbv zeta. unfold granted. destruct ((1 <=? len) && (len <=? csize s - 1 - (zlen S - k))) eqn:Q2; [lia|reflexivity].
    + eexists _, []. rewrite app_nil_r. split; [reflexivity|]. apply w_move; rewrite ?EW; auto. unfold winv. cbn [wp set_wp csize log mem]. split; [exact OK|]. split; [exact NS|]. split; [exact i_w_off0|].
      assert (0 <= wlen c) by (destruct c; cbn [wok wlen] in *; lia). split; [lia|]. split; [lia|]. split; [exists k; lia|]. intros j Hj; lia.
  - destruct i_w0 as (OK & NS & Hst & Hi & Hn & (k0 & K1 & K2 & K3) & HC).
    assert (SL : wlen c <= zlen (wsrc c)) by (destruct c; cbn [wok wlen wsrc] in *; [lia|congruence]).
    destruct (i <? wlen c) eqn:E.
    + destruct (znth_in_range i (wsrc c)) as (b & Hb); [lia|]. rewrite (mload_znth _ _ _ Hb). cbn [bind].
      rewrite Hst, place_mod by (auto; lia).
      assert (0 <= (c0 + zlen S + i) mod csize s < csize s) as Hp by (apply Z.mod_pos_bound; lia).
      destruct (mstore_ok (mem s) ((c0 + zlen S + i) mod csize s) b ltac:(lia)) as (mm & HS & HL & HX & HO). rewrite HS. cbn [bind]. eexists _, []. rewrite app_nil_r. split; [reflexivity|].
      split; cbn [csize mem off_w off_r log wp rp set_wp set_mem]; auto.
      * lia.
      * intros j Hj. rewrite HO; [auto|]. apply SpscProof.mod_ne; lia.
      * unfold winv. cbn [csize mem off_w off_r log wp rp set_wp set_mem]. split; [exact OK|]. split; [exact NS|]. split; [auto|]. split; [lia|]. split; [exact Hn|]. split; [exists k0; auto|].
        intros j Hj. destruct (Z.eq_dec j i) as [->|NE]; [rewrite HX; congruence|]. rewrite HO; [apply HC; lia|]. apply SpscProof.mod_ne; lia.
    + assert (i = wlen c) by lia. subst i. set (n := wlen c) in *.
      assert (WB : wbytes c n = ztake n (wsrc c)) by (destruct c; [reflexivity|congruence]).
      assert (LW : zlen (ztake n (wsrc c)) = n) by (apply zlen_ztake; lia).
      assert (ES : S = wrote (log s)) by (rewrite i_wrote0; apply app_nil_r).
      eexists _, (ztake n (wsrc c)). split; [reflexivity|]. pose proof (i_rng0) as (R1 & R2).
      split; cbn [csize mem off_w off_r log wp rp set_wp set_w]; auto.
      * rewrite Hst, i_w_off0, advance_mod by lia. rewrite zlen_app, LW. f_equal. lia.
      * rewrite zlen_app, LW. lia.
      * intros j Hj. rewrite zlen_app, LW in Hj. destruct (Z_lt_dec j (zlen S)).
        -- rewrite znth_app_l by lia. apply i_dat0. lia.
        -- rewrite znth_app_r by lia. rewrite znth_ztake by lia. rewrite <- HC by lia. f_equal. f_equal. lia.
      * unfold winv. cbn [csize mem off_w off_r log wp rp set_wp set_w]. split; [exact OK|]. exists k0. split; [lia|]. rewrite <- ES. split; [lia|]. destruct c as [s0 len|]; [|congruence]. unfold n in *. cbn [wlen] in *.
        unfold granted. destruct ((1 <=? len) && (len <=? csize s - 1 - (zlen S - k0))) eqn:Q2; [reflexivity|lia].
      * apply (rinv_mono s); auto; lia.
      * cbn [wpend]. rewrite WB. rewrite <- ES. reflexivity.
  - destruct i_w0 as (OK & k0 & K1 & K2 & K3). eexists _, []. rewrite app_nil_r. split; [reflexivity|].
    split; cbn [csize mem off_w off_r log wp rp set_wp emit]; auto.
    + unfold winv. cbn. exact Logic.I.
    + cbn [wpend wrote]. rewrite app_nil_r. exact i_wrote0.
    + split; [|exact i_evs0]. cbn [event_ok]. split; [exact i_wo0|]. exists k0. pose proof (taken_le s S k I0). split; [lia|]. split; [exact K2|exact K3].
Qed.
Lemma wcall_inv s S k c : inv s S k -> wp s = WIdle -> wok c -> inv (set_wp (emit s (EWCall c)) (wbegin c)) S k.
Proof.
  intros I E OK. pose proof (taken_le s S k I) as T. destruct I. rewrite E in *. split; cbn [csize mem off_w off_r log wp rp set_wp emit]; auto.
  - unfold winv. cbn [csize mem off_w off_r log wp rp set_wp emit at_wcall]. destruct c as [s0 len|]; cbn [wbegin]; [|lia]. split; [exact OK|]. split; [discriminate|lia].
  - rewrite i_wrote0 at 1. destruct c; reflexivity.
  - destruct c; reflexivity.
  - split; [exact Logic.I|exact i_evs0].
Qed.

(** ** the reader *)
Lemma r_move s S k p : inv s S k -> rcur p = rcur (rp s) -> rpend p = 0 -> rpend (rp s) = 0 -> rinv (set_rp s p) S k -> inv (set_rp s p) S k.
Proof. intros [] E1 E2 E3 W. split; cbn [csize mem off_w off_r log wp rp set_rp]; auto; congruence. Qed.
Lemma r_decide s S k c n t' : inv s S k -> rcur (rp s) = Some c -> rpend (rp s) = 0 -> rok c -> rbytes c n = 0 -> zlen (wrote (at_rcall (log s))) <= zlen S ->
  (let stored := zlen S - k in n = match c with RRead _ len | RPeek _ len | RDiscard len => granted len stored | RAvail => stored end /\
   t' = match rtgt c with Some t => Some (next s S n ++ zdrop n t) | None => None end) -> inv (set_rp s (RRet c n t')) S k.
Proof.
  intros I E1 E2 OK E3 K0 A. pose proof I as I0. destruct I. apply r_move; auto. unfold rinv. cbn [csize mem off_w off_r log wp rp set_rp]. split; [exact OK|]. exists (zlen S). split; [lia|].
  rewrite E2, Z.add_0_r in i_taken0. rewrite <- i_taken0. split; [lia|exact A].
Qed.
Lemma rstep_inv s S k : inv s S k -> exists s' k', rstep s = Ret s' /\ inv s' S k'.
Proof.
  intro I. pose proof (avail_read_eq s S k I) as AR. pose proof I as I0. destruct I. unfold rstep. unfold rinv in i_r0. destruct (rp s) as [| |c|c start i t|c n t'] eqn:ER.
  - exists s, k. auto.
  - eexists _, k. split; [reflexivity|]. apply r_decide; rewrite ?ER; auto. split; [cbn; unfold two64; lia|exact Logic.I].
  - destruct i_r0 as (OK & NS & K0). rewrite AR. destruct ((rlen c =? 0) || (rlen c >? zlen S - k)) eqn:Q.
    + eexists _, k. split; [reflexivity|]. assert (N0 : forall t, next s S 0 ++ zdrop 0 t = t) by (intro t; unfold next; rewrite ztake_0, zdrop_0; reflexivity).
      assert (G : granted (rlen c) (zlen S - k) = 0) by (unfold granted; destruct ((1 <=? rlen c) && (rlen c <=? zlen S - k)) eqn:Q2; [lia|reflexivity]).
      apply r_decide; rewrite ?ER; auto; [destruct c; reflexivity|]. cbv zeta. split; [destruct c; cbn [rlen] in G; [symmetry; exact G ..|congruence]|]. destruct (rtgt c); [rewrite N0|]; reflexivity.
    + eexists _, k. split; [reflexivity|]. apply r_move; rewrite ?ER; auto. unfold rinv. cbn [rp set_rp csize log mem]. pose proof OK as (OK1 & OK2). split; [exact OK|]. split; [exact NS|]. split; [exact i_r_off0|].
      split; [destruct (rtgt c); lia|]. split; [lia|]. split; [exists (zlen S); lia|]. destruct (rtgt c); reflexivity.
  - destruct i_r0 as (OK & NS & Hst & Hi & Hn & (k1 & K1 & K2 & K3) & HT). pose proof OK as (OK1 & OK2). pose proof i_rng0 as (R1 & R2).
    destruct (i <? rlen c) eqn:E.
    + destruct (rtgt c) as [t0|] eqn:ET; [|lia].
      rewrite Hst, place_mod by (auto; lia). rewrite <- Z.add_assoc. pose proof (i_dat0 (k + i) ltac:(lia)) as HD. destruct (znth_in_range (k + i) S) as (b & Hb); [lia|]. rewrite Hb in HD. rewrite (mload_znth _ _ _ HD). cbn [bind].
      destruct (SpscProof3.fill_step (zdrop k S) t0 i b) as (t1 & HS & ->); [rewrite zlen_zdrop by lia; lia|lia|rewrite znth_zdrop by lia; exact Hb|]. rewrite HT, HS. cbn [bind]. eexists _, k. split; [reflexivity|].
      apply r_move; rewrite ?ER; auto. unfold rinv. cbn [csize mem off_w off_r log wp rp set_rp]. split; [exact OK|]. split; [exact NS|]. split; [auto|]. split; [lia|]. split; [exact Hn|]. split; [exists k1; auto|]. rewrite ET. reflexivity.
    + assert (i = rlen c) by lia. subst i. set (n := rlen c) in *. assert (EK : k = taken (log s)) by (rewrite i_taken0; cbn [rpend]; lia).
      assert (RP : rbytes c n = if is_peek c then 0 else n) by (destruct c; try reflexivity; congruence).
      assert (RI : forall s', log s' = log s -> csize s' = csize s -> rp s' = RRet c n (match rtgt c with Some _ => Some t | None => None end) -> rinv s' S (k + rbytes c n)).
      { intros s' L1 L2 L3. unfold rinv. rewrite L3, L1, L2. split; [exact OK|]. exists k1. split; [lia|]. rewrite <- EK. split; [lia|]. split.
        - assert (G : granted n (k1 - k) = n) by (unfold granted; destruct ((1 <=? n) && (n <=? k1 - k)) eqn:Q; [reflexivity|lia]). destruct c; cbn [rlen] in *; try (symmetry; exact G). congruence.
        - destruct (rtgt c) as [t0|]; [|reflexivity]. unfold next. rewrite L1, <- EK, HT. reflexivity. }
      destruct (is_peek c) eqn:PK.
      * eexists _, k. split; [reflexivity|]. apply r_move; rewrite ?ER; auto. rewrite RP, Z.add_0_r in RI. apply RI; reflexivity.
      * rewrite RP in RI. exists (set_rp (set_r s (advance (csize s) n start (off_r s))) (RRet c n (match rtgt c with Some _ => Some t | None => None end))), (k + n). split; [reflexivity|].
        split; cbn [csize mem off_w off_r log wp rp set_rp set_r]; auto.
        -- rewrite Hst, i_r_off0, advance_mod by lia. f_equal. lia.
        -- lia.
        -- intros j Hj. apply i_dat0. lia.
        -- apply (winv_mono s _ S k); auto. lia.
        -- cbn [rpend]. rewrite RP. lia.
  - destruct i_r0 as (OK & k1 & K1 & K2 & K3 & K4). pose proof (rret_le s S k c n t' I0 ER) as RL. pose proof i_rng0 as (R1 & R2). eexists _, k. split; [reflexivity|].
    split; cbn [csize mem off_w off_r log wp rp set_rp emit]; auto.
    + unfold rinv. cbn. exact Logic.I.
    + cbn [rpend taken]. rewrite Z.add_0_r. exact i_taken0.
    + cbn [taken]. lia.
    + split; [|exact i_evs0]. cbn [event_ok]. split; [exact i_ro0|]. exists k1. destruct (prefix_offered s S k I0) as (X & EX). split; [rewrite EX, zlen_app; pose proof (zlen_nonneg X); lia|]. split; [exact K2|]. cbv zeta in *. split; [exact K3|].
      rewrite K4. destruct (rtgt c); [|reflexivity]. rewrite (offered_next s S k); auto.
      * rewrite K3. destruct OK as (OK1 & _). destruct c as [t0 len|t0 len|len|]; cbn [rlen] in OK1; try apply granted_le; lia.
      * assert (n <= k1 - taken (log s)); [|lia]. rewrite K3. destruct c as [t0 len|t0 len|len|]; try apply granted_rng; lia.
Qed.
Lemma rcall_inv s S k c : inv s S k -> rp s = RIdle -> rok c -> inv (set_rp (emit s (ERCall c)) (rbegin c)) S k.
Proof.
  intros I E OK. pose proof I as I0. destruct I. rewrite E in *.
  assert (W : zlen (wrote (log s)) <= zlen S) by (rewrite i_wrote0, zlen_app; pose proof (zlen_nonneg (wpend (wp s))); lia).
  split; cbn [csize mem off_w off_r log wp rp set_rp emit]; auto.
  - unfold rinv. cbn [csize mem off_w off_r log wp rp set_rp emit at_rcall]. destruct c as [t0 len|t0 len|len|]; cbn [rbegin]; try (split; [exact OK|split; [discriminate|exact W]]). exact W.
  - cbn [taken]. rewrite i_taken0. destruct c; reflexivity.
  - destruct c; reflexivity.
  - split; [exact Logic.I|exact i_evs0].
Qed.
Lemma step_inv s S k s' : inv s S k -> step s s' -> exists S' k', inv s' S' k'.
Proof.
  intros I H. destruct H as [s s' H|s s' H|s c E OK|s c E OK].
  - destruct (wstep_inv s S k I) as (s1 & X & H1 & I1). rewrite H in H1. injection H1 as <-. eauto.
  - destruct (rstep_inv s S k I) as (s1 & X & H1 & I1). rewrite H in H1. injection H1 as <-. eauto.
  - exists S, k. apply wcall_inv; auto.
  - exists S, k. apply rcall_inv; auto.
Qed.
End P.
