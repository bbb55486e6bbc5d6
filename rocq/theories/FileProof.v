From Verif Require Import CBase CStr SeqLib FileModel FileSpec.

(** ** append_slash *)
Lemma strnlen_text : forall t n r, text t -> (length t < n)%nat -> strnlen (t ++ 0 :: r) n = Ret (zlen t).
Proof.
  induction t as [|c t IH]; intros n r T L; destruct n as [|n]; cbn [length] in L; try lia.
  - reflexivity.
  - inversion T as [|? ? Hc T']; subst. cbn [app strnlen]. destruct (Z.eqb_spec c 0); [contradiction|].
    rewrite IH by (try exact T'; lia). cbn [bind]. rewrite zlen_cons. reflexivity.
Qed.
Lemma has_backslash_text t r : text t -> has_backslash (t ++ 0 :: r) = Ret (inset 92 t).
Proof.
  induction 1 as [|c t H T IH]; [reflexivity|]. cbn [app has_backslash inset existsb].
  rewrite (Z.eqb_sym 92 c). destruct (Z.eqb_spec c 92); [reflexivity|]. destruct (Z.eqb_spec c 0); [contradiction|]. exact IH.
Qed.
Lemma repeat_snoc {A} (x : A) n : repeat x (S n) = repeat x n ++ [x].
Proof. induction n as [|n IH]; [reflexivity|]. cbn [repeat app] in *. rewrite <- IH. reflexivity. Qed.
Lemma trim_ok : forall n fuel q x post, x <> 32 -> (n < fuel)%nat ->
  trim_spaces fuel (q ++ [x] ++ repeat 32 n ++ post) (zlen q + 1 + Z.of_nat n) = Ret (zlen q + 1).
Proof.
  induction n as [|n IH]; intros fuel q x post Hx L; (destruct fuel as [|fuel]; [lia|]); cbn [trim_spaces]; pose proof (zlen_nonneg q).
  - destruct (Z.ltb_spec 0 (zlen q + 1 + Z.of_nat 0)); [|lia].
    cbn [repeat app]. rewrite (mload_app0 q) by lia. cbn [bind]. destruct (Z.eqb_spec x 32); [contradiction|]. f_equal; lia.
  - destruct (Z.ltb_spec 0 (zlen q + 1 + Z.of_nat (S n))); [|lia].
    rewrite repeat_snoc.
    replace (q ++ [x] ++ (repeat 32 n ++ [32]) ++ post) with ((q ++ [x] ++ repeat 32 n) ++ 32 :: post) at 1
      by (rewrite <- !app_assoc; reflexivity).
    rewrite mload_app0 by (rewrite !zlen_app; unfold zlen at 4; rewrite repeat_length; change (zlen [x]) with 1; lia).
    cbn [bind]. change (32 =? 32) with true. cbv iota.
    rewrite <- app_assoc. replace (zlen q + 1 + Z.of_nat (S n) - 1) with (zlen q + 1 + Z.of_nat n) by lia.
    apply IH; [exact Hx|lia].
Qed.
Lemma trim_all : forall n fuel post, (n < fuel)%nat -> trim_spaces fuel (repeat 32 n ++ post) (Z.of_nat n) = Ret 0.
Proof.
  induction n as [|n IH]; intros fuel post L; (destruct fuel as [|fuel]; [lia|]); [reflexivity|]. cbn [trim_spaces].
  destruct (Z.ltb_spec 0 (Z.of_nat (S n))); [|lia]. rewrite repeat_snoc, <- app_assoc. cbn [app].
  rewrite (mload_app0 (repeat 32 n)) by (unfold zlen; rewrite repeat_length; lia). cbn [bind].
  change (32 =? 32) with true. cbv iota. replace (Z.of_nat (S n) - 1) with (Z.of_nat n) by lia. apply IH. lia.
Qed.
Lemma text_repeat n : text (repeat 32 n).
Proof. induction n; constructor; [lia|assumption]. Qed.
Lemma zlen_repeat {A} (x : A) n : zlen (repeat x n) = Z.of_nat n.
Proof. unfold zlen. rewrite repeat_length. reflexivity. Qed.

Lemma append_slash_ok q x n post size :
  let p := q ++ [x] ++ repeat 32 n in let buf := p ++ 0 :: post in
  text q -> x <> 0 -> x <> 32 -> 3 <= size -> zlen p < size <= zlen buf ->
  let sl := if inset 92 p then 92 else 47 in
  append_slash buf size =
    Ret (if x =? sl then buf
         else if zlen q + 2 <? size then q ++ [x; sl; 0] ++ zdrop (zlen q + 3) buf
         else q ++ [sl; 0] ++ zdrop (zlen q + 2) buf, 0).
Proof.
  intros p buf Tq X0 X32 H3 Hs sl. unfold append_slash. pose proof (zlen_nonneg q).
  assert (Tp : text p).
  { apply Forall_app. split; [exact Tq|]. constructor; [exact X0|apply text_repeat]. }
  assert (Lp : zlen p = zlen q + 1 + Z.of_nat n).
  { unfold p. rewrite !zlen_app, zlen_repeat. change (zlen [x]) with 1. lia. }
  assert (exists c r, buf = c :: r /\ c <> 0) as (c & r & Eb & Hc).
  { unfold buf. destruct p as [|c r]; [change (zlen (@nil Z)) with 0 in Lp; lia|].
    inversion Tp; subst. exists c. eexists. split; [reflexivity|assumption]. }
  rewrite Eb at 1. rewrite mload_cons_0. cbn [bind].
  destruct (Z.eqb_spec c 0); [contradiction|]. destruct (Z.ltb_spec size 3); [lia|]. cbn [orb].
  unfold buf at 1. rewrite strnlen_text by (try exact Tp; unfold zlen in *; lia). cbn [bind].
  rewrite Lp.
  replace buf with (q ++ [x] ++ repeat 32 n ++ 0 :: post) at 1 by (unfold buf, p; rewrite <- !app_assoc; reflexivity).
  rewrite trim_ok by (try exact X32; lia). cbn [bind].
  destruct (Z.ltb_spec (zlen q + 1) 1); [lia|].
  unfold buf at 1. rewrite has_backslash_text by exact Tp. cbn [bind]. fold sl.
  assert (Eb2 : buf = q ++ x :: repeat 32 n ++ 0 :: post) by (unfold buf, p; rewrite <- !app_assoc; reflexivity).
  rewrite Eb2 at 1. rewrite (mload_app0 q) by lia. cbn [bind].
  destruct (x =? sl); [reflexivity|].
  replace (zlen q + 1 + 1) with (zlen q + 2) by lia.
  assert (G : forall pre a b rest, buf = pre ++ a :: b :: rest -> forall loc, loc = zlen pre ->
    (do buf <- mstore buf loc sl; do buf <- mstore buf (loc + 1) 0; Ret (buf, 0)) = Ret (pre ++ [sl; 0] ++ zdrop (zlen pre + 2) buf, 0)).
  { intros pre a b rest E loc ->. rewrite E. rewrite mstore_app by reflexivity. cbn [bind].
    rewrite mstore_app by (rewrite zlen_snoc; reflexivity). cbn [bind].
    f_equal. f_equal. rewrite <- !app_assoc. cbn [app]. f_equal. f_equal. f_equal.
    replace (pre ++ a :: b :: rest) with ((pre ++ [a; b]) ++ rest) by (rewrite <- app_assoc; reflexivity).
    replace (zlen pre + 2) with (zlen (pre ++ [a; b])) by (rewrite zlen_app; reflexivity).
    rewrite zdrop_app_len. reflexivity. }
  destruct (Z.ltb_spec (zlen q + 2) size).
  - assert (exists b rest a, buf = (q ++ [x]) ++ a :: b :: rest) as (b & rest & a & E).
    { assert (B : zlen q + 3 <= zlen buf) by lia. rewrite Eb2 in B |- *.
      rewrite zlen_app, zlen_cons in B.
      destruct (repeat 32 n ++ 0 :: post) as [|a [|b rest]] eqn:ER.
      - change (zlen (@nil Z)) with 0 in B. lia.
      - rewrite zlen_cons in B. change (zlen (@nil Z)) with 0 in B. lia.
      - exists b, rest, a. rewrite <- app_assoc. reflexivity. }
    rewrite (G _ _ _ _ E) by (rewrite zlen_snoc; reflexivity). rewrite zlen_snoc.
    f_equal. f_equal. rewrite <- app_assoc. cbn [app]. do 4 f_equal. f_equal. lia.
  - assert (n = 0%nat) by lia. subst n. cbn [repeat app] in Eb2.
    rewrite (G _ _ _ _ Eb2) by lia. reflexivity.
Qed.

(** ** mkdirs *)
Lemma cstr_pre pre k : text pre -> (0 < k)%nat -> cstr_at (pre ++ repeat 0 k) 0 = Ret pre.
Proof.
  intros T Hk. destruct k as [|k]; [lia|]. cbn [repeat].
  unfold cstr_at, strlen_at. pose proof (zlen_nonneg (pre ++ 0 :: repeat 0 k)).
  destruct (Z.leb_spec 0 0); [|lia]. destruct (Z.leb_spec 0 (zlen (pre ++ 0 :: repeat 0 k))); [|lia]. cbn [andb].
  rewrite zdrop_0, find0_text by exact T. cbn [bind]. unfold zsub. rewrite zdrop_0, ztake_app_len. reflexivity.
Qed.
Lemma mkdirs_loop_ok {F} (ops : fsys F) : forall rest pre k f calls, text (pre ++ rest) ->
  zlen pre + Z.of_nat k = 256 -> (zlen (pre ++ rest) < 256 \/ zlen (pre ++ rest) = 256 /\ exists r' c, rest = r' ++ [c] /\ is_sep c = false) ->
  mkdirs_loop ops (length rest) (pre ++ rest) (pre ++ repeat 0 k) (zlen pre) f calls =
    Ret (create_missing ops (dirs_from pre rest) f calls).
Proof.
  induction rest as [|c rest IH]; intros pre k f calls T Hk Hl.
  - cbn [length mkdirs_loop]. rewrite app_nil_r. rewrite Z.ltb_irrefl. reflexivity.
  - cbn [length mkdirs_loop]. pose proof (zlen_nonneg pre). pose proof (zlen_nonneg rest).
    assert (Lz : zlen (pre ++ c :: rest) = zlen pre + 1 + zlen rest) by (rewrite zlen_app, zlen_cons; lia).
    destruct (Z.ltb_spec (zlen pre) (zlen (pre ++ c :: rest))); [|lia].
    rewrite mload_app0 by reflexivity. cbn [bind].
    destruct k as [|k]; [destruct Hl as [Hl|[Hl _]]; lia|]. cbn [repeat].
    rewrite mstore_app by reflexivity. cbn [bind].
    replace (pre ++ c :: rest) with ((pre ++ [c]) ++ rest) in * by (rewrite <- app_assoc; reflexivity).
    assert (HL' : zlen ((pre ++ [c]) ++ rest) < 256 \/
      zlen ((pre ++ [c]) ++ rest) = 256 /\ (rest = [] /\ is_sep c = false \/ exists r' c', rest = r' ++ [c'] /\ is_sep c' = false)).
    { destruct Hl as [Hl|(Hl & r' & c' & E & S)]; [left; exact Hl|right; split; [exact Hl|]].
      destruct r' as [|a r']; cbn [app] in E; injection E as -> ->; [left; split; [reflexivity|exact S]|right; exists r', c'; split; [reflexivity|exact S]]. }
    assert (K : forall f calls, mkdirs_loop ops (length rest) ((pre ++ [c]) ++ rest) ((pre ++ [c]) ++ repeat 0 k) (zlen pre + 1) f calls =
      Ret (create_missing ops (dirs_from (pre ++ [c]) rest) f calls)).
    { intros f1 calls1. rewrite <- zlen_snoc with (x := c).
      destruct HL' as [HL'|[HL' [[-> S]|HL'']]].
      - apply IH; [exact T|rewrite zlen_snoc; lia|left; exact HL'].
      - cbn [length mkdirs_loop dirs_from create_missing]. rewrite app_nil_r, Z.ltb_irrefl. reflexivity.
      - apply IH; [exact T|rewrite zlen_snoc; lia|right; split; [exact HL'|exact HL'']]. }
    cbn [dirs_from]. unfold is_sep at 1.
    destruct (Z.eqb_spec c 92) as [E92|N92]; destruct (Z.eqb_spec c 47) as [E47|N47]; cbn [negb andb orb]; try apply K; try lia.
    all: assert (Kp : (0 < k)%nat) by (destruct HL' as [HL'|[HL' [[-> S]|(r' & c' & -> & S)]]];
        [lia|exfalso; unfold is_sep in S; subst c; discriminate|
         rewrite !zlen_app, zlen_cons in HL'; change (zlen (@nil Z)) with 0 in HL'; pose proof (zlen_nonneg r'); change (zlen [c']) with 1 in HL'; lia]).
    all: rewrite cstr_pre by (try exact Kp; apply Forall_app in T; apply T); cbn [bind create_missing].
    all: destruct (fs_exists ops f (pre ++ [c])); [apply K|].
    all: destruct (fs_mkdir ops f (pre ++ [c])) as [r f'].
    all: destruct (r =? 0); cbn [negb]; [apply K|reflexivity].
Qed.
Lemma mkdirs_ok {F} (ops : fsys F) path f : text path ->
  (zlen path < 256 \/ zlen path = 256 /\ exists r' c, path = r' ++ [c] /\ is_sep c = false) ->
  mkdirs ops path f = Ret (create_missing ops (dirs_of path) f []).
Proof.
  intros T H. unfold mkdirs. destruct (Z.ltb_spec 256 (zlen path)); [lia|].
  apply (mkdirs_loop_ok ops path [] 256 f [] T); [reflexivity|exact H].
Qed.
Lemma find0_none : forall t, text t -> find0 t = Ub.
Proof. induction 1 as [|c t H T IH]; [reflexivity|]. cbn [find0]. destruct (Z.eqb_spec c 0); [contradiction|]. rewrite IH. reflexivity. Qed.

Lemma create_missing_sane {F} (ops : fsys F) : fs_sane ops -> forall ds f calls r f' calls',
  create_missing ops ds f calls = (r, f', calls') ->
  (forall p, fs_exists ops f p = true -> fs_exists ops f' p = true) /\
  (r = 0 -> forall d, In d ds -> fs_exists ops f' d = true).
Proof.
  intro Hs. induction ds as [|d ds IH]; intros f calls r f' calls' E; cbn [create_missing] in E.
  - injection E as <- <- <-. split; [auto|intros _ d []].
  - destruct (fs_exists ops f d) eqn:Ex.
    + destruct (IH _ _ _ _ _ E) as [P Q]. split; [exact P|]. intros R d' [<-|I]; [apply P; exact Ex|apply Q; assumption].
    + destruct (fs_mkdir ops f d) as [r1 f1] eqn:Em. destruct (Hs _ _ _ _ Em) as [M1 M2].
      destruct (Z.eqb_spec r1 0) as [->|N].
      * destruct (IH _ _ _ _ _ E) as [P Q]. split; [auto|]. intros R d' [<-|I]; [apply P, M1; reflexivity|apply Q; assumption].
      * injection E as <- <- <-. split; [exact M2|intro; contradiction].
Qed.
(** the paths tried: a subsequence of the directories, in order *)
Inductive subseq {A} : list A -> list A -> Prop :=
| sub_nil : forall l, subseq [] l
| sub_skip : forall x a b, subseq a b -> subseq a (x :: b)
| sub_take : forall x a b, subseq a b -> subseq (x :: a) (x :: b).
Lemma create_missing_calls {F} (ops : fsys F) : forall ds f calls r f' calls',
  create_missing ops ds f calls = (r, f', calls') -> exists mine, calls' = rev mine ++ calls /\ subseq mine ds.
Proof.
  induction ds as [|d ds IH]; intros f calls r f' calls' E; cbn [create_missing] in E.
  - injection E as <- <- <-. exists []. split; [reflexivity|constructor].
  - destruct (fs_exists ops f d).
    + destruct (IH _ _ _ _ _ E) as (m & -> & S). exists m. split; [reflexivity|constructor; exact S].
    + destruct (fs_mkdir ops f d) as [r1 f1]. destruct (r1 =? 0).
      * destruct (IH _ _ _ _ _ E) as (m & -> & S). exists (d :: m). split; [cbn [rev]; rewrite <- app_assoc; reflexivity|constructor; exact S].
      * injection E as <- <- <-. exists [d]. split; [reflexivity|constructor; constructor].
Qed.
