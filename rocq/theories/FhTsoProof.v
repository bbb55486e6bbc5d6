From Verif Require Import MpliteProof2 MpliteProof6.
From Verif Require Import CBase SeqLib RingBuffer2Model RingBuffer2Proof FixedQueueModel MsgQueueModel SpscModel SpscSpec SpscProof
  FHandlerModel FHandlerSpec FHandlerProof FHandlerProof2 FhTsoModel FhTsoSpec.

(** what will be at index [i] of the data area when the stores in [b] have reached memory, [x] being there now *)
Fixpoint dget (b : list cst) (i : Z) (x : option Z) : option Z :=
  match b with [] => x | CByte p v :: b => dget b i (if p =? i then Some v else x) | _ :: b => dget b i x end.
Fixpoint c_min (b : list cst) (x : Z) : Z := match b with [] => x | CMin y :: b => c_min b y | _ :: b => c_min b x end.
Fixpoint min_sorted (b : list cst) (x : Z) : Prop := match b with [] => True | CMin y :: b => x <= y /\ min_sorted b y | _ :: b => min_sorted b x end.

Lemma dget_snoc b i x p v : dget (b ++ [CByte p v]) i x = if p =? i then Some v else dget b i x.
Proof. revert x. induction b as [|[q w|y|y] b IH]; intro x; cbn; auto. Qed.
Lemma dget_snoc_in b i x y : dget (b ++ [CIn y]) i x = dget b i x.
Proof. revert x. induction b as [|[q w|z|z] b IH]; intro x; cbn; auto. Qed.
Lemma dget_snoc_min b i x y : dget (b ++ [CMin y]) i x = dget b i x.
Proof. revert x. induction b as [|[q w|z|z] b IH]; intro x; cbn; auto. Qed.
Lemma dget_none b i x : (forall p v, In (CByte p v) b -> p <> i) -> dget b i x = x.
Proof.
  revert x. induction b as [|[q w|z|z] b IH]; intros x H; cbn; auto.
  - destruct (q =? i) eqn:E; [exfalso; apply (H q w); [left; reflexivity|lia]|]. apply IH. intros p v K. apply (H p v). right; exact K.
  - apply IH. intros p v K. apply (H p v). right; exact K.
  - apply IH. intros p v K. apply (H p v). right; exact K.
Qed.
Lemma c_in_snoc b x e : c_in (b ++ [e]) x = match e with CIn y => y | _ => c_in b x end.
Proof. revert x. induction b as [|[q w|z|z] b IH]; intro x; cbn; auto; destruct e; auto. Qed.
Lemma c_in_none b x : (forall y, ~ In (CIn y) b) -> c_in b x = x.
Proof.
  revert x. induction b as [|[q w|z|z] b IH]; intros x H; cbn; auto.
  - apply IH. intros y K. apply (H y). right; exact K.
  - exfalso. apply (H z). left; reflexivity.
  - apply IH. intros y K. apply (H y). right; exact K.
Qed.
Lemma c_min_snoc b x e : c_min (b ++ [e]) x = match e with CMin y => y | _ => c_min b x end.
Proof. revert x. induction b as [|[q w|z|z] b IH]; intro x; cbn; auto; destruct e; auto. Qed.
Lemma min_sorted_snoc b x e : min_sorted b x -> (forall y, e = CMin y -> c_min b x <= y) -> min_sorted (b ++ [e]) x.
Proof. revert x. induction b as [|[q w|z|z] b IH]; intros x H K; cbn in *; auto; [destruct e; auto|]. destruct H. split; auto. Qed.

Definition xover (s : ft) : Prop := x_wk s = V73 \/ x_wk s = VDone.
Definition wtok (w : vpc) : Z := match w with V50 | V51 | V235 | VCopy _ _ _ => 1 | _ => 0 end.
Definition cpost (p : fpc) : Z := match p with F126 _ | F127 _ => 1 | _ => 0 end.
Definition cbusy (p : fpc) : bool := match p with FCopy _ _ _ _ _ | F126 _ | F127 _ => true | _ => false end.
Definition edp (e : epc) : Z := match e with E168 | EDone => 1 | _ => 0 end.

Section Inv.
Variable one : Z.
Variable s : ft.
Variable A : list (list Z).   (* the messages whose store of in is in the client's buffer or in memory *)
Variables c d e : Z.          (* how many of them are in memory; taken by the worker; of these in memory *)
Let size := x_size s.

Definition xp : Prop :=
  match x_pr s with
  | F111 m | F117 m => zlen m + 8 = one
  | F39 m w => zlen m + 8 = one /\ w = wire (zlen A) m
  | F196 m w => zlen m + 8 = one /\ w = wire (zlen A) m /\ one * (zlen A + 1 - e) <= size
  | FCopy m w n start i => zlen m + 8 = one /\ w = wire (zlen A) m /\ one * (zlen A + 1 - e) <= size /\
      n = one /\ start = (one * zlen A) mod size /\ 0 <= i <= n /\
      (forall j, 0 <= j < i -> dget (x_cb s) ((one * zlen A + j) mod size) (znth ((one * zlen A + j) mod size) (x_mem s)) = znth j w)
  | FRet m code => code = 0 -> x_cb s = []
  | _ => True
  end.
Definition xw : Prop :=
  match x_wk s with
  | V235 => d < c
  | VCopy n start i => d < c /\ n = one /\ start = (one * d) mod size /\ 0 <= i <= n /\
      (forall m j, znth d A = Some m -> 0 <= j < i -> znth j (x_buf s) = znth j (wire d m))
  | V58 | V60 => exists m, 0 < d /\ znth (d - 1) A = Some m /\ x_buf s = wire (d - 1) m
  | _ => True
  end.
(** the shape of the client's buffer *)
Definition xshape : Prop :=
  (c = zlen A /\ forall y, ~ In (CIn y) (x_cb s)) \/
  (c = zlen A - 1 /\ cpost (x_pr s) = 1 /\ exists pre, x_cb s = pre ++ [CIn (u32 (one * zlen A))] /\ forall y, ~ In (CIn y) pre).
Record xqinv : Prop := {
  y_pow : is_pow2 size;
  y_len : size <= zlen (x_mem s);
  y_one : 8 <= one < two32;
  y_msg : Forall (fun m => zlen m + 8 = one) A;
  y_in : x_in s = u32 (one * c);
  y_shape : xshape;
  y_cb0 : forall m, x_pr s = FRet m 0 -> x_cb s = [];
  y_byte : forall p b, In (CByte p b) (x_cb s) -> cbusy (x_pr s) = true;
  y_loc : forall p b, In (CByte p b) (x_cb s) -> one * (c + 1 - e) <= size /\ exists j, 0 <= j < one /\ p = (one * c + j) mod size;
  y_out : x_out s = u32 (one * e);
  y_ob : (x_ob s = [] /\ e = d) \/ (x_ob s = [u32 (one * d)] /\ e = d - 1 /\ wtok (x_wk s) = 0);
  y_d : 0 <= e /\ d <= c /\ c <= zlen A;
  y_fit : one * (zlen A - e) <= size;
  y_tok : x_tok s = zlen A - ftaken (x_pr s);
  y_small : zlen A < two64;
  y_mem : forall k m j, d <= k -> znth k A = Some m -> 0 <= j < one ->
            dget (x_cb s) ((one * k + j) mod size) (znth ((one * k + j) mod size) (x_mem s)) = znth j (wire k m);
  y_buf : zlen (x_buf s) = one;
  y_p : xp;
  y_w : xw }.
Record xsinv : Prop := {
  y_sem : 0 <= x_sem s;
  y_cnt : xover s \/ zlen A - d + edp (x_ds s) = x_sem s + wtok (x_wk s) + cpost (x_pr s);
  y_dp : edp (x_ds s) = 1 -> x_flag s = true /\ x_dfl s = false /\ (x_wk s = V50 \/ xover s \/ 1 <= x_sem s);
  y_fl : x_ds s = E167 -> x_flag s = true \/ x_dfl s = true;
  y_dfl : x_dfl s = true -> x_ds s = E167;
  y_wfl : x_wfl s = true -> x_wk s = VDone;
  y_end : (x_flag s = true \/ xover s) -> kended (x_log s);
  y_des : x_ds s <> ENone -> In KDestroy (x_log s);
  y_dd : x_ds s = EDone -> x_wk s = VDone /\ x_ob s = [] /\ x_wfl s = false;
  y_dl : In KDestroyed (x_log s) -> x_ds s = EDone }.
Record xlinv : Prop := {
  y_sent : ksent (x_log s) = A ++ fflight (x_pr s);
  y_acc : A = kaccepted (x_log s) ++ fpend (x_pr s);
  y_min : c_min (x_cb s) (x_min s) <= cleared (x_log s) <= zlen (kaccepted (x_log s)) /\ 0 <= x_min s <= cleared (x_log s) /\
          (forall v, In (CMin v) (x_cb s) -> 0 <= v <= cleared (x_log s)) /\
          match x_pr s with F153 => cleared (x_log s) = zlen A
                          | F156 => c_min (x_cb s) (x_min s) = zlen A /\ cleared (x_log s) = zlen A
                          | _ => c_min (x_cb s) (x_min s) = cleared (x_log s) end;
  y_cb : forall k m, In (KCb k m) (x_log s) -> 0 <= k < d - (if held (x_wk s) then 1 else 0) /\ znth k A = Some m;
  y_ord : kord (x_log s);
  y_sort : min_sorted (x_cb s) (x_min s);
  y_all : forall k, cleared (x_log s) <= k < d - (if held (x_wk s) then 1 else 0) -> exists m, In (KCb k m) (x_log s);
  y_cl0 : forall mid earlier, x_log s = mid ++ KClearRet :: earlier -> zlen (kaccepted earlier) <= c_min (x_cb s) (x_min s);
  y_clr : forall mid m0 mid2 earlier, x_log s = mid ++ KPushRet m0 0 :: mid2 ++ KClearRet :: earlier ->
     zlen (kaccepted earlier) <= x_min s /\ (x_wk s = V60 -> nocb mid \/ zlen (kaccepted earlier) <= d - 1);
  y_ok : forall later k m mid m0 mid2 earlier, x_log s = later ++ KCb k m :: mid ++ KPushRet m0 0 :: mid2 ++ KClearRet :: earlier ->
     zlen (kaccepted earlier) <= k \/ nocb mid }.
Definition xinv : Prop := xqinv /\ xsinv /\ xlinv.
End Inv.

Lemma own_out_eq one s A c d e : xqinv one s A c d e -> xown_out s = u32 (one * d).
Proof. intros []. unfold xown_out. destruct y_ob0 as [[-> E]|[-> E]]; cbn; [|reflexivity]. rewrite y_out0, E. reflexivity. Qed.
Lemma own_in_eq one s A c d e : xqinv one s A c d e -> xown_in s = u32 (one * zlen A).
Proof.
  intros []. unfold xown_in. destruct y_shape0 as [[E N]|(E & _ & pre & -> & N)].
  - rewrite c_in_none by exact N. rewrite y_in0, E. reflexivity.
  - rewrite c_in_snoc. reflexivity.
Qed.
Lemma xavail_read_eq one s A c d e : xqinv one s A c d e -> xavail_read s = one * (c - d).
Proof.
  intros Q. unfold xavail_read. rewrite (own_out_eq _ _ _ _ _ _ Q). destruct Q. rewrite y_in0, u32_sub, <- Z.mul_sub_distr_l. pose proof (pow2_bound _ y_pow0).
  assert (e <= d) by (destruct y_ob0; lia). apply u32_small. unfold two32. nia.
Qed.
Lemma xavail_write_eq one s A c d e : xqinv one s A c d e -> xavail_write s = x_size s - one * (zlen A - e).
Proof.
  intros Q. unfold xavail_write. rewrite (own_in_eq _ _ _ _ _ _ Q). destruct Q. rewrite y_out0, u32_sub, <- Z.mul_sub_distr_l. pose proof (pow2_bound _ y_pow0).
  assert (e <= d) by (destruct y_ob0; lia).
  rewrite (u32_small (one * (zlen A - e))) by (unfold two32; nia). apply u32_small. unfold two32. nia.
Qed.
(** what the worker reads is there: the client's pending bytes lie elsewhere *)
Lemma worker_sees one s A c d e k m j : xqinv one s A c d e -> d <= k < c -> znth k A = Some m -> 0 <= j < one ->
  znth ((one * k + j) mod x_size s) (x_mem s) = znth j (wire k m).
Proof.
  intros Q Hk Hm Hj. destruct Q. pose proof (pow2_bound _ y_pow0) as PB. assert (e <= d) by (destruct y_ob0; lia). rewrite <- (y_mem0 k m j) by (auto; lia). symmetry. apply dget_none.
  intros p b K E. destruct (y_loc0 p b K) as (F & j' & Hj' & P).
  assert ((one * c + j') mod x_size s <> (one * k + j) mod x_size s); [|congruence].
  apply not_eq_sym. apply mod_ne; nia.
Qed.
