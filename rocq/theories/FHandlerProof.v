From Verif Require Import MpliteProof2 MpliteProof6.
From Verif Require Import CBase SeqLib RingBuffer2Model RingBuffer2Proof FixedQueueModel MsgQueueModel SpscModel SpscSpec SpscProof
  FHandlerModel FHandlerSpec.

Lemma le_bytes_len n x : zlen (le_bytes n x) = Z.of_nat n.
Proof. revert x. induction n; intro x; cbn [le_bytes]; [reflexivity|]. rewrite zlen_cons, IHn. lia. Qed.
Lemma le_value_bytes n : forall x, 0 <= x < 256 ^ Z.of_nat n -> le_value (le_bytes n x) = x.
Proof.
  induction n; intros x H; cbn [le_bytes le_value]; [cbn in H; lia|].
  rewrite Nat2Z.inj_succ, Z.pow_succ_r in H by lia. rewrite IHn.
  - pose proof (Z.div_mod x 256). lia.
  - split; [apply Z.div_pos; lia|]. apply Z.div_lt_upper_bound; lia.
Qed.
Lemma wire_len k m : zlen (wire k m) = 8 + zlen m.
Proof. unfold wire. rewrite zlen_app, le_bytes_len. lia. Qed.
Lemma wire_token_ok k m : 0 <= k < two64 -> wire_token (wire k m) = k.
Proof.
  intro H. unfold wire_token, wire. replace 8 with (zlen (le_bytes 8 k)) at 1 by (rewrite le_bytes_len; reflexivity). rewrite ztake_app_len.
  apply le_value_bytes. exact H.
Qed.
Lemma wire_msg_ok k m : wire_msg (wire k m) = m.
Proof. unfold wire_msg, wire. replace 8 with (zlen (le_bytes 8 k)) at 1 by (rewrite le_bytes_len; reflexivity). apply zdrop_app_len. Qed.

Definition fover (s : fh) : Prop := fwk s = V73 \/ fwk s = VDone.
Definition vtok (s : fh) : Z := match fwk s with V50 | V51 | V235 | VCopy _ _ _ => 1 | _ => 0 end.
Definition fpost (s : fh) : Z := match fpr s with F126 _ | F127 _ => 1 | _ => 0 end.
Definition fdp (s : fh) : Z := match fds s with E168 | EDone => 1 | _ => 0 end.
Definition fflight (p : fpc) : list (list Z) :=
  match p with
  | F111 m | F117 m | F39 m _ | F196 m _ | FCopy m _ _ _ _ => [m]
  | FRet m c => if c =? 0 then [] else [m]
  | _ => []
  end.
Definition fpend (p : fpc) : list (list Z) :=
  match p with F126 m | F127 m => [m] | FRet m c => if c =? 0 then [m] else [] | _ => [] end.
Definition ftaken (p : fpc) : Z := match p with F126 _ => 1 | _ => 0 end.
Definition held (w : vpc) : bool := match w with V58 | V60 => true | _ => false end.

Section Inv.
Variable one : Z.
Variable s : fh.
Variable A : list (list Z).
Variable d : Z.
Let size := fsize s.

Definition vp : Prop :=
  match fpr s with
  | F111 m | F117 m => zlen m + 8 = one
  | F39 m w => zlen m + 8 = one /\ w = wire (zlen A) m
  | F196 m w => zlen m + 8 = one /\ w = wire (zlen A) m /\ one * (zlen A + 1 - d) <= size
  | FCopy m w n start i => zlen m + 8 = one /\ w = wire (zlen A) m /\ one * (zlen A + 1 - d) <= size /\
      n = one /\ start = (one * zlen A) mod size /\ 0 <= i <= n /\
      (forall j, 0 <= j < i -> znth ((one * zlen A + j) mod size) (fmem s) = znth j w)
  | _ => True
  end.
Definition vw : Prop :=
  match fwk s with
  | V235 => d < zlen A
  | VCopy n start i => d < zlen A /\ n = one /\ start = (one * d) mod size /\ 0 <= i <= n /\
      (forall m j, znth d A = Some m -> 0 <= j < i -> znth j (fbuf s) = znth j (wire d m))
  | V58 | V60 => exists m, 0 < d /\ znth (d - 1) A = Some m /\ fbuf s = wire (d - 1) m
  | _ => True
  end.
Record qinv : Prop := {
  v_pow : is_pow2 size;
  v_len : size <= zlen (fmem s);
  v_one : 8 <= one < two32;
  v_msg : Forall (fun m => zlen m + 8 = one) A;
  v_in : fin s = u32 (one * zlen A);
  v_out : fout s = u32 (one * d);
  v_d : 0 <= d <= zlen A;
  v_fit : one * (zlen A - d) <= size;
  v_tok : ftok s = zlen A - ftaken (fpr s);
  v_small : zlen A < two64;
  v_mem : forall k m j, d <= k -> znth k A = Some m -> 0 <= j < one ->
            znth ((one * k + j) mod size) (fmem s) = znth j (wire k m);
  v_buf : zlen (fbuf s) = one;
  v_p : vp;
  v_w : vw }.
Record sinv : Prop := {
  v_sem : 0 <= fsem s;
  v_cnt : fover s \/ zlen A - d + fdp s = fsem s + vtok s + fpost s;
  v_dp : fdp s = 1 -> fflag s = true /\ (fwk s = V50 \/ fover s \/ 1 <= fsem s);
  v_fl : fds s = E167 -> fflag s = true;
  v_end : (fflag s = true \/ fover s) -> kended (flog s);
  v_des : fds s <> ENone -> In KDestroy (flog s) }.
Fixpoint kord (l : list kev) : Prop :=
  match l with
  | [] => True
  | KCb k m :: l => (forall k' m', In (KCb k' m') l -> k' < k) /\ kord l
  | _ :: l => kord l
  end.
Definition nocb (l : list kev) : Prop := forall k m, ~ In (KCb k m) l.
Record linv : Prop := {
  v_sent : ksent (flog s) = A ++ fflight (fpr s);
  v_acc : A = kaccepted (flog s) ++ fpend (fpr s);
  v_min : 0 <= fmin s <= cleared (flog s) /\ cleared (flog s) <= zlen (kaccepted (flog s)) /\
          match fpr s with F153 => cleared (flog s) = zlen A | F156 => fmin s = zlen A /\ cleared (flog s) = zlen A | _ => fmin s = cleared (flog s) end;
  v_cb : forall k m, In (KCb k m) (flog s) -> 0 <= k < d - (if held (fwk s) then 1 else 0) /\ znth k A = Some m;
  v_ord : kord (flog s);
  v_all : forall k, cleared (flog s) <= k < d - (if held (fwk s) then 1 else 0) -> exists m, In (KCb k m) (flog s);
  v_clr : forall mid earlier, flog s = mid ++ KClearRet :: earlier ->
     zlen (kaccepted earlier) <= fmin s /\ (fwk s = V60 -> nocb mid \/ zlen (kaccepted earlier) <= d - 1);
  v_ok : forall later k m mid earlier, flog s = later ++ KCb k m :: mid ++ KClearRet :: earlier ->
     zlen (kaccepted earlier) <= k \/ nocb mid }.
Definition finv : Prop := qinv /\ sinv /\ linv.
End Inv.

Lemma favail_read_eq one s A d : qinv one s A d -> favail_read s = one * (zlen A - d).
Proof.
  intros []. unfold favail_read. rewrite v_in0, v_out0, u32_sub, <- Z.mul_sub_distr_l. pose proof (pow2_bound _ v_pow0).
  apply u32_small. unfold two32. nia.
Qed.
Lemma favail_write_eq one s A d : qinv one s A d -> favail_write s = fsize s - one * (zlen A - d).
Proof.
  intros Q. unfold favail_write. rewrite (favail_read_eq _ _ _ _ Q). destruct Q. pose proof (pow2_bound _ v_pow0).
  apply u32_small. unfold two32. nia.
Qed.
