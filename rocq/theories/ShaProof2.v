(** Proofs about sha1.hpp / sha2.hpp, part 2: buffering and padding. *)
Require Import Verif.Common Verif.EndianModel Verif.EndianProps Verif.ItoaModel Verif.ShaModel Verif.ShaSpec Verif.ShaProof.
Ltac Zify.zify_post_hook ::= idtac.

Lemma be_rev n : forall x, be n x = rev (to_le n x).
Proof.
  induction n; intros x; auto. cbn [to_le rev]. rewrite <- IHn. unfold be. rewrite seq_S, map_app. cbn [map Nat.add]. f_equal.
  - apply map_ext_in. intros i Hi. apply in_seq in Hi. rewrite Z.div_div by (try apply Z.pow_pos_nonneg; lia). do 2 f_equal.
    rewrite <- Z.pow_succ_r by lia. f_equal. lia.
  - replace (Z.of_nat (S n) - 1 - Z.of_nat n) with 0 by lia. change (256 ^ 0) with 1. rewrite Z.div_1_r. auto.
Qed.
Lemma be_length n x : length (be n x) = n.
Proof. unfold be. rewrite map_length, seq_length. auto. Qed.
Lemma be_bytes n x : bytes (be n x).
Proof. rewrite be_rev. apply Forall_rev. apply to_le_bytes. Qed.
Lemma be_split a b x : be (a + b) x = be a (x / 256 ^ Z.of_nat b) ++ be b x.
Proof. rewrite !be_rev, Nat.add_comm, to_le_add, rev_app_distr. auto. Qed.
Lemma be_zero n : be n 0 = repeat 0 n.
Proof.
  rewrite be_rev. induction n; auto. cbn [to_le rev]. change (0 / 256) with 0. rewrite IHn. change (0 mod 256) with 0.
  rewrite <- repeat_cons. auto.
Qed.

Lemma memcpy_exact (a b c s : list Z) off : off = zlen a -> length b = length s -> memcpy_at (a ++ b ++ c) off s = Ok (a ++ s ++ c).
Proof.
  intros -> L. unfold memcpy_at. rewrite !zlen_app.
  assert (zlen s = zlen b) as Es by (unfold zlen; lia). rewrite Es.
  pose proof (zlen_nonneg a). pose proof (zlen_nonneg b). pose proof (zlen_nonneg c).
  destruct (Z.ltb_spec (zlen a) 0); [lia|]. destruct (Z.ltb_spec (zlen a + (zlen b + zlen c)) (zlen a + zlen b)); [lia|].
  cbn [orb]. rewrite to_nat_zlen, firstn_app_exact. do 3 f_equal.
  rewrite app_assoc. replace (Z.to_nat (zlen a + zlen b)) with (length (a ++ b)) by (rewrite app_length; unfold zlen; lia).
  apply skipn_app_exact.
Qed.

Lemma memcpy_end (a b s : list Z) off : off = zlen a -> length b = length s -> memcpy_at (a ++ b) off s = Ok (a ++ s).
Proof. intros H1 H2. pose proof (memcpy_exact a b [] s off H1 H2) as Q. rewrite !app_nil_r in Q. auto. Qed.

Lemma cut_concat n (bl : list (list Z)) k x : Forall (fun b => length b = n) bl ->
  cut n (length bl + k) (concat bl ++ x) = bl ++ cut n k x.
Proof.
  induction 1 as [|b bl Hb Hbl IH]; auto. cbn [length Nat.add cut concat]. rewrite <- app_assoc.
  rewrite <- Hb at 1. rewrite firstn_app_exact. cbn [app]. f_equal. rewrite <- Hb at 2. rewrite skipn_app_exact. apply IH.
Qed.
Lemma concat_length n (bl : list (list Z)) : Forall (fun b => length b = n) bl -> length (concat bl) = (n * length bl)%nat.
Proof. induction 1 as [|b bl Hb Hbl IH]; cbn [concat length]; [lia|]. rewrite app_length. lia. Qed.
Lemma blocks_concat n bl x : (0 < n)%nat -> Forall (fun b => length b = n) bl -> blocks n (concat bl ++ x) = bl ++ blocks n x.
Proof.
  intros Hn F. unfold blocks. rewrite app_length, (concat_length n) by auto. rewrite Nat.add_comm, Nat.mul_comm.
  rewrite Nat.div_add by lia. rewrite Nat.add_comm. apply cut_concat. auto.
Qed.
Lemma blocks_one n x : (0 < n)%nat -> length x = n -> blocks n x = [x].
Proof.
  intros Hn L. unfold blocks. rewrite L, Nat.div_same by lia. cbn [cut]. rewrite firstn_all2 by lia. auto.
Qed.
Lemma blocks_two n x y : (0 < n)%nat -> length x = n -> length y = n -> blocks n (x ++ y) = [x; y].
Proof.
  intros Hn L1 L2. replace (x ++ y) with (concat [x] ++ y) by (cbn [concat]; rewrite app_nil_r; auto).
  rewrite blocks_concat by (auto; constructor; auto). rewrite blocks_one by auto. auto.
Qed.

Lemma bytes_repeat0 n : bytes (repeat 0 n).
Proof. unfold bytes. apply Forall_forall. intros x Hx. apply repeat_spec in Hx. subst. unfold is_byte. lia. Qed.

Section Engine.
Variable B : nat.
Variable bs : Z.
Variable compress : list Z -> list Z -> res (list Z).
Variable sc : list Z -> list Z -> list Z.
Variable good : list Z -> Prop.
Variable H0 : list Z.
Hypothesis Hbs : bs = Z.of_nat B.
Hypothesis HB : (17 <= B)%nat.
Hypothesis Hc : forall H p, good H -> bytes p -> (B <= length p)%nat ->
  compress H p = Ok (sc H (firstn B p)) /\ good (sc H (firstn B p)).
Hypothesis G0 : good H0.

(** the object has consumed exactly the message m *)
Definition Inv (s : sha) (m : list Z) : Prop := exists bl r,
  m = concat bl ++ r /\ Forall (fun b => length b = B) bl /\ (length r < B)%nat /\
  s_h s = fold_left sc bl H0 /\ s_total s = (bs * zlen bl) mod 2 ^ 64 /\ s_bufSize s = zlen r /\
  (exists t, s_buf s = r ++ t) /\ length (s_buf s) = B /\ bytes (s_buf s) /\ good (s_h s).

Lemma round_ok s p : good (s_h s) -> bytes p -> (B <= length p)%nat ->
  sh_round bs compress s p = Ok (mk_sha ((s_total s + bs) mod 2 ^ 64) (s_bufSize s) (s_buf s) (sc (s_h s) (firstn B p))) /\
  good (sc (s_h s) (firstn B p)).
Proof. intros G Bp L. unfold sh_round. destruct (Hc _ _ G Bp L) as [-> Gs]. auto. Qed.

Lemma while_ok : forall fuel s buf, (length buf < fuel)%nat -> bytes buf -> good (s_h s) ->
  exists bl r, buf = concat bl ++ r /\ Forall (fun b => length b = B) bl /\ (length r < B)%nat /\ bytes r /\
  good (fold_left sc bl (s_h s)) /\ (forall T, s_total s = T mod 2 ^ 64 ->
  sh_while bs compress fuel s buf = Ok (mk_sha ((T + bs * zlen bl) mod 2 ^ 64) (s_bufSize s) (s_buf s) (fold_left sc bl (s_h s)), r)).
Proof.
  induction fuel; intros s buf L Bb G; [lia|]. cbn [sh_while].
  destruct (Z.leb_spec bs (zlen buf)) as [H|H]; unfold zlen in H.
  - destruct (round_ok s buf G Bb ltac:(lia)) as [-> G2]. cbn [bind].
    rewrite Hbs, Nat2Z.id. rewrite <- Hbs.
    edestruct (IHfuel (mk_sha ((s_total s + bs) mod 2 ^ 64) (s_bufSize s) (s_buf s) (sc (s_h s) (firstn B buf))) (skipn B buf))
      as (bl & r & E & F & R & Br & G3 & W).
    { rewrite skipn_length. lia. } { apply bytes_skipn'; auto. } { exact G2. }
    exists (firstn B buf :: bl), r. cbn [s_h s_total s_bufSize s_buf] in *.
    split; [cbn [concat]; rewrite <- app_assoc, <- E; symmetry; apply firstn_skipn|].
    split; [constructor; auto; rewrite firstn_length; lia|].
    split; auto. split; auto. split; auto.
    intros T HT. rewrite (W (T + bs)).
    2:{ rewrite HT, Zplus_mod_idemp_l. auto. }
    cbn [fold_left]. rewrite zlen_cons. do 3 f_equal. f_equal. lia.
  - exists [], buf. cbn [concat fold_left app]. repeat split; auto; [lia|].
    intros T HT. rewrite zlen_nil, Z.mul_0_r, Z.add_0_r, <- HT. destruct s; reflexivity.
Qed.

Definition tail_part (s : sha) (buf : list Z) : res sha :=
  let! (s, buf) := sh_while bs compress (S (length buf)) s buf in
  if 0 <? zlen buf then
    let! rb := memcpy_at (s_buf s) 0 buf in
    Ok (mk_sha (s_total s) (zlen buf) rb (s_h s))
  else Ok s.

Lemma tail_ok s m buf : Inv s m -> s_bufSize s = 0 -> bytes buf -> exists s', tail_part s buf = Ok s' /\ Inv s' (m ++ buf).
Proof.
  intros (bl & r & Em & F & R & Eh & Et & En & _ & Lb & Bb & G) Z0 Bbuf.
  assert (r = []) as -> by (rewrite Z0 in En; destruct r; auto; rewrite zlen_cons in En; pose proof (zlen_nonneg r); lia).
  rewrite app_nil_r in Em. unfold tail_part.
  destruct (while_ok (S (length buf)) s buf ltac:(lia) Bbuf G) as (bl2 & x & Ebuf & F2 & Lx & Bx & G2 & W).
  rewrite (W _ Et). cbn [bind]. clear W.
  destruct (Z.ltb_spec 0 (zlen x)) as [Hx|Hx].
  - cbn [s_buf s_total s_h s_bufSize].
    assert (s_buf s = [] ++ firstn (length x) (s_buf s) ++ skipn (length x) (s_buf s)) as Eb by (cbn [app]; rewrite firstn_skipn; auto).
    rewrite Eb, memcpy_exact by (auto; rewrite firstn_length; lia). cbn [bind app].
    eexists. split; [reflexivity|]. exists (bl ++ bl2), x. cbn [s_buf s_total s_h s_bufSize].
    split; [rewrite Em, Ebuf, concat_app, <- app_assoc; auto|].
    split; [apply Forall_app; auto|]. split; auto. split; [rewrite fold_left_app, Eh; auto|].
    split; [rewrite zlen_app; f_equal; lia|]. split; auto. split; [eexists; reflexivity|].
    split; [rewrite app_length, skipn_length; lia|]. split; auto. apply bytes_app. split; auto. apply bytes_skipn'; auto.
  - assert (x = []) as -> by (destruct x; auto; rewrite zlen_cons in Hx; pose proof (zlen_nonneg x); lia).
    eexists. split; [reflexivity|]. exists (bl ++ bl2), []. cbn [s_buf s_total s_h s_bufSize].
    split; [rewrite Em, Ebuf, concat_app, <- app_assoc; auto|].
    split; [apply Forall_app; auto|]. split; auto. split; [rewrite fold_left_app, Eh; auto|].
    split; [rewrite zlen_app; f_equal; lia|]. split; auto. split; [eexists; reflexivity|]. auto.
Qed.

Lemma update_ok s m buf : Inv s m -> bytes buf -> exists s', sh_update bs compress s buf = Ok s' /\ Inv s' (m ++ buf).
Proof.
  intros I Bbuf. pose proof I as (bl & r & Em & F & R & Eh & Et & En & (t & Eb) & Lb & Bb & G).
  unfold sh_update. fold (tail_part). destruct (Z.eqb_spec (zlen buf) 0) as [Z0|Z0].
  { exists s. split; auto. assert (buf = []) as -> by (destruct buf; auto; rewrite zlen_cons in Z0; pose proof (zlen_nonneg buf); lia).
    rewrite app_nil_r. auto. }
  assert (Lt: (length r + length t = B)%nat) by (rewrite <- Lb, Eb, app_length; auto).
  destruct (Z.ltb_spec 0 (s_bufSize s)) as [Hr|Hr].
  2:{ cbn [bind]. assert (E0: s_bufSize s = 0) by (rewrite En in *; pose proof (zlen_nonneg r); lia).
      rewrite E0. destruct (Z.eqb_spec 0 bs); [lia|]. cbn [bind].
      destruct (tail_ok s m buf I E0 Bbuf) as (s' & E & I'). exists s'. split; auto. }
  cbv zeta. rewrite En in *.
  destruct (Z_lt_le_dec (zlen r + zlen buf) bs) as [Hlt|Hge].
  - rewrite Z.min_r by lia. rewrite to_nat_zlen, firstn_all, skipn_all. unfold zlen in Hlt.
    assert (Et': t = firstn (length buf) t ++ skipn (length buf) t) by (rewrite firstn_skipn; auto).
    rewrite Eb, Et', memcpy_exact by (auto; rewrite firstn_length; lia). cbn [bind s_bufSize s_buf].
    destruct (Z.eqb_spec (zlen r + zlen buf) bs); [unfold zlen in *; lia|]. cbn [bind].
    cbn [length sh_while]. destruct (Z.leb_spec bs (zlen (@nil Z))) as [Hx|Hx]; [rewrite zlen_nil in Hx; lia|]. cbn [bind].
    change (0 <? zlen (@nil Z)) with false. cbn [s_buf s_total s_h s_bufSize].
    eexists. split; [reflexivity|]. exists bl, (r ++ buf). cbn [s_buf s_total s_h s_bufSize].
    split; [rewrite Em, app_assoc; auto|]. split; auto. split; [rewrite app_length; lia|]. split; auto. split; auto.
    split; [rewrite zlen_app; auto|]. split; [rewrite app_assoc; eexists; reflexivity|].
    split; [rewrite !app_length, skipn_length; lia|]. split; auto.
    rewrite Eb in Bb. apply bytes_app in Bb as [B1 B2]. apply bytes_app. split; auto. apply bytes_app. split; auto. apply bytes_skipn'; auto.
  - rewrite Z.min_l by lia. unfold zlen in Hge.
    assert (Ek: Z.to_nat (bs - zlen r) = length t) by (unfold zlen; lia). rewrite Ek.
    rewrite Eb. rewrite memcpy_end by (auto; rewrite firstn_length; lia).
    cbn [bind s_bufSize s_buf]. replace (zlen r + (bs - zlen r)) with bs by lia. rewrite Z.eqb_refl.
    rewrite Eb in Bb. apply bytes_app in Bb as [B1 B2].
    assert (Bb': bytes (r ++ firstn (length t) buf)) by (apply bytes_app; split; auto; apply bytes_firstn; auto).
    assert (Lb': length (r ++ firstn (length t) buf) = B) by (rewrite app_length, firstn_length; lia).
    destruct (round_ok (mk_sha (s_total s) bs (r ++ firstn (length t) buf) (s_h s)) (r ++ firstn (length t) buf) G Bb' ltac:(lia)) as [-> G2].
    cbn [bind s_bufSize s_buf s_total s_h] in *. rewrite firstn_all2 in * by lia.
    edestruct (tail_ok (mk_sha ((s_total s + bs) mod 2 ^ 64) 0 (r ++ firstn (length t) buf) (sc (s_h s) (r ++ firstn (length t) buf)))
       (concat bl ++ (r ++ firstn (length t) buf)) (skipn (length t) buf)) as (s' & E & I').
    + exists (bl ++ [r ++ firstn (length t) buf]), []. cbn [s_bufSize s_buf s_total s_h].
      split; [rewrite concat_app; cbn [concat]; rewrite !app_nil_r; auto|].
      split; [apply Forall_app; split; auto|]. split; [cbn [length]; lia|].
      split; [rewrite fold_left_app, Eh; auto|]. split; [rewrite Et, Zplus_mod_idemp_l, zlen_app; change (zlen [r ++ firstn (length t) buf]) with 1; f_equal; lia|].
      split; auto. split; [eexists; reflexivity|]. auto.
    + reflexivity.
    + apply bytes_skipn'; auto.
    + exists s'. split; [rewrite (firstn_all2 (r ++ firstn (length t) buf)) by lia; exact E|]. rewrite Em. rewrite <- !app_assoc in I'. rewrite firstn_skipn in I'. rewrite <- app_assoc. auto.
Qed.

Lemma Inv_new rb : length rb = B -> bytes rb -> Inv (mk_sha 0 0 rb H0) [].
Proof.
  intros L Hb. clear Hc. exists [], []. cbn [concat app fold_left length s_h s_total s_bufSize s_buf].
  split; auto. split; auto. split; [lia|]. split; auto. split; [rewrite zlen_nil, Z.mul_0_r; auto|]. split; auto. split; [exists rb; reflexivity|]. auto.
Qed.

Fixpoint updates (s : sha) (l : list (list Z)) : res sha :=
  match l with [] => Ok s | x :: r => let! s := sh_update bs compress s x in updates s r end.
Lemma updates_ok l : forall s m, Inv s m -> Forall bytes l -> exists s', updates s l = Ok s' /\ Inv s' (m ++ concat l).
Proof.
  induction l as [|x l IH]; intros s m I F; cbn [updates concat].
  - exists s. rewrite app_nil_r. auto.
  - apply Forall_cons_iff in F as [F1 F2]. destruct (update_ok s m x I F1) as (s1 & -> & I1). cbn [bind].
    destruct (IH s1 _ I1 F2) as (s' & E & I'). exists s'. rewrite app_assoc. auto.
Qed.

(** the blocks of the padded message *)
Lemma pad_blocks lb bl r : (8 <= lb < 17)%nat -> Forall (fun b => length b = B) bl -> (length r < B)%nat ->
  let L := 8 * zlen (concat bl ++ r) in let n := length r in
  blocks B (pad bs (Z.of_nat lb) (concat bl ++ r)) =
  if (n <? B - lb)%nat then bl ++ [r ++ [128] ++ repeat 0 (B - lb - 1 - n) ++ be lb L]
  else bl ++ [r ++ [128] ++ repeat 0 (B - 1 - n); repeat 0 (B - lb) ++ be lb L].
Proof using Hbs HB. clear Hc G0 H0 good sc compress.
  intros Hlb F R L n. unfold pad. fold L.
  assert (Ez: zeros bs (Z.of_nat lb) (zlen (concat bl ++ r)) = (bs - Z.of_nat lb - 1 - Z.of_nat n) mod bs).
  { unfold zeros. rewrite zlen_app. unfold zlen. rewrite (concat_length B) by auto. fold n.
    replace (bs - Z.of_nat lb - 1 - (Z.of_nat (B * length bl) + Z.of_nat n)) with
      ((bs - Z.of_nat lb - 1 - Z.of_nat n) + (- Z.of_nat (length bl)) * bs) by (rewrite Hbs, Nat2Z.inj_mul; ring).
    apply Z.mod_add. lia. }
  rewrite Ez, Nat2Z.id. rewrite <- app_assoc.
  destruct (Nat.ltb_spec n (B - lb)) as [Hn|Hn].
  - rewrite Z.mod_small by (unfold n in *; lia).
    replace (Z.to_nat (bs - Z.of_nat lb - 1 - Z.of_nat n)) with (B - lb - 1 - n)%nat by lia.
    rewrite blocks_concat by (auto; lia). f_equal. apply blocks_one; [lia|].
    rewrite !app_length, repeat_length, be_length. cbn [length]. unfold n in *. lia.
  - replace ((bs - Z.of_nat lb - 1 - Z.of_nat n) mod bs) with (2 * bs - Z.of_nat lb - 1 - Z.of_nat n).
    2:{ apply (Z.mod_unique _ _ (-1)); unfold n in *; lia. }
    replace (Z.to_nat (2 * bs - Z.of_nat lb - 1 - Z.of_nat n)) with ((B - 1 - n) + (B - lb))%nat by (unfold n in *; lia).
    rewrite blocks_concat by (auto; lia). f_equal. rewrite repeat_app.
    replace (r ++ [128] ++ (repeat 0 (B - 1 - n) ++ repeat 0 (B - lb)) ++ be lb L) with
      ((r ++ [128] ++ repeat 0 (B - 1 - n)) ++ (repeat 0 (B - lb) ++ be lb L)) by (rewrite <- !app_assoc; auto).
    apply blocks_two; [lia| |]; rewrite !app_length, repeat_length, ?be_length; cbn [length]; unfold n in *; lia.
Qed.


Lemma sh2_term_ok little lb s m : (8 <= lb < 17)%nat -> Inv s m -> zlen m < 2 ^ 61 ->
  exists s', sh2_term bs compress little (Z.of_nat lb) s = Ok s' /\ s_h s' = fold_left sc (blocks B (pad bs (Z.of_nat lb) m)) H0 /\
    length (s_buf s') = B /\ bytes (s_buf s') /\ good (s_h s').
Proof.
  intros Hlb (bl & r & Em & F & R & Eh & Et & En & (t & Eb) & Lb & Bb & G) Hm.
  assert (Lt: (length r + length t = B)%nat) by (rewrite <- Lb, Eb, app_length; auto).
  assert (Elen: zlen m = bs * zlen bl + zlen r).
  { rewrite Em, zlen_app. unfold zlen. rewrite (concat_length B) by auto. rewrite Hbs. lia. }
  assert (EL: ((s_total s + s_bufSize s) mod 2 ^ 64 * 8) mod 2 ^ 64 = 8 * zlen m).
  { rewrite Et, En, Zplus_mod_idemp_l, <- Elen. pose proof (zlen_nonneg m). rewrite !Z.mod_small by lia. lia. }
  unfold sh2_term. cbv zeta. rewrite EL, En. replace (pad bs (Z.of_nat lb) m) with (pad bs (Z.of_nat lb) (concat bl ++ r)) by (rewrite Em; auto). rewrite pad_blocks by auto. rewrite <- Em.
  rewrite Eb in Bb. apply bytes_app in Bb as [Br Bt].
  destruct t as [|t0 t]; [cbn [length] in Lt; lia|]. cbn [length] in Lt.
  rewrite Eb, wr_app by auto. cbn [bind]. 
  rewrite memcpy_end; [|rewrite zlen_app; auto|rewrite repeat_length; unfold zlen; lia].
  cbn [bind]. rewrite <- app_assoc.
  replace (Z.to_nat (bs - zlen r - 1)) with (B - 1 - length r)%nat by (unfold zlen; lia).
  assert (Ebe: be lb (8 * zlen m) = repeat 0 (lb - 8) ++ be 8 (8 * zlen m)).
  { replace lb with ((lb - 8) + 8)%nat at 1 by lia. rewrite be_split. f_equal. rewrite Z.div_small; [apply be_zero|].
    pose proof (zlen_nonneg m). change (256 ^ Z.of_nat 8) with (2 ^ 64). lia. }
  assert (BE: forall q, length q = 8%nat -> Set64bitAsBE little q (8 * zlen m) = Ok (be 8 (8 * zlen m))).
  { intros q Lq. pose proof (set_be_bytes 8 little q (8 * zlen m) (or_intror (or_intror eq_refl)) ltac:(lia)) as Q. cbn [SetBE] in Q.
    rewrite Q, skipn_all2, app_nil_r, be_rev by lia. auto. }
  assert (B128: bytes [128]) by (constructor; auto; unfold is_byte; lia).
  destruct (Z.leb_spec (bs - Z.of_nat lb) (zlen r)) as [H|H]; unfold zlen in H.
  - destruct (Nat.ltb_spec (length r) (B - lb)); [lia|].
    assert (Bk: bytes (r ++ [128] ++ repeat 0 (B - 1 - length r))).
    { apply bytes_app; split; auto. apply bytes_app; split; auto. apply bytes_repeat0. }
    assert (Lk: length (r ++ [128] ++ repeat 0 (B - 1 - length r)) = B) by (rewrite !app_length, repeat_length; cbn [length]; lia).
    destruct (round_ok s _ G Bk ltac:(lia)) as [-> G2]. cbn [bind]. rewrite firstn_all2 in G2 |- * by lia.
    remember (r ++ [128] ++ repeat 0 (B - 1 - length r)) as b1 eqn:Eb1.
    replace (Z.to_nat (bs - 8)) with (B - 8)%nat by lia.
    assert (EM: memcpy_at b1 0 (repeat 0 (B - 8)) = Ok (repeat 0 (B - 8) ++ skipn (B - 8) b1)).
    { pose proof (memcpy_exact [] (firstn (B - 8) b1) (skipn (B - 8) b1) (repeat 0 (B - 8)) 0 eq_refl) as Q.
      cbn [app] in Q. rewrite firstn_skipn in Q. apply Q. rewrite firstn_length, repeat_length. lia. }
    rewrite EM. cbn [bind].
    rewrite at_off_exact by apply repeat_length. rewrite BE by (rewrite skipn_length; lia). cbn [bind].
    assert (Bk2: bytes (repeat 0 (B - 8) ++ be 8 (8 * zlen m))) by (apply bytes_app; split; [apply bytes_repeat0|apply be_bytes]).
    assert (Lk2: length (repeat 0 (B - 8) ++ be 8 (8 * zlen m)) = B) by (rewrite !app_length, repeat_length, be_length; cbn [length]; lia).
    destruct (round_ok (mk_sha ((s_total s + bs) mod 2 ^ 64) (s_bufSize s) (s_buf s) (sc (s_h s) b1))
      (repeat 0 (B - 8) ++ be 8 (8 * zlen m)) G2 Bk2 ltac:(lia)) as [Er G3].
    rewrite ?firstn_all2 in Er by lia. rewrite Er. cbn [bind]. 
    rewrite (firstn_all2 (repeat 0 (B - 8) ++ be 8 (8 * zlen m))) in G3 by lia. cbn [s_h s_total s_buf s_bufSize] in *.
    eexists. split; [reflexivity|]. cbn [s_h s_buf]. split; [|auto].
    rewrite fold_left_app. cbn [fold_left]. rewrite Eh, Ebe. f_equal. rewrite app_assoc, <- repeat_app. do 2 f_equal. lia.
  - destruct (Nat.ltb_spec (length r) (B - lb)); [|lia]. cbn [bind].
    assert (Es: r ++ [128] ++ repeat 0 (B - 1 - length r) = (r ++ [128] ++ repeat 0 (B - lb - 1 - length r) ++ repeat 0 (lb - 8)) ++ repeat 0 8).
    { rewrite <- !app_assoc. do 2 f_equal. rewrite <- !repeat_app. f_equal. lia. }
    rewrite Es. replace (Z.to_nat (bs - 8)) with (B - 8)%nat by lia.
    rewrite at_off_exact. 2:{ rewrite !app_length, !repeat_length. cbn [length]. lia. }
    rewrite BE by (rewrite repeat_length; auto). cbn [bind].
    assert (Ek: (r ++ [128] ++ repeat 0 (B - lb - 1 - length r) ++ repeat 0 (lb - 8)) ++ be 8 (8 * zlen m) =
                r ++ [128] ++ repeat 0 (B - lb - 1 - length r) ++ be lb (8 * zlen m)).
    { rewrite Ebe, <- !app_assoc. auto. }
    rewrite Ek.
    assert (Bk: bytes (r ++ [128] ++ repeat 0 (B - lb - 1 - length r) ++ be lb (8 * zlen m))).
    { apply bytes_app; split; auto. apply bytes_app; split; auto. apply bytes_app. split; [apply bytes_repeat0|apply be_bytes]. }
    assert (Lk: length (r ++ [128] ++ repeat 0 (B - lb - 1 - length r) ++ be lb (8 * zlen m)) = B) by (rewrite !app_length, repeat_length, be_length; cbn [length]; lia).
    destruct (round_ok s _ G Bk ltac:(lia)) as [-> G2]. cbn [bind]. rewrite firstn_all2 in G2 |- * by lia.
    eexists. split; [reflexivity|]. cbn [s_h s_buf]. split; [|auto]. rewrite fold_left_app, Eh. auto.
Qed.
End Engine.

Lemma set32_exact little q x : length q = 4%nat -> Set32bitAsBE little q x = Ok (be 4 x).
Proof.
  intros Lq. pose proof (set_be_bytes 4 little q x (or_intror (or_introl eq_refl)) ltac:(lia)) as Q. cbn [SetBE] in Q.
  rewrite Q, skipn_all2, app_nil_r, be_rev by lia. auto.
Qed.
Lemma set32_be little q x : (4 <= length q)%nat -> Set32bitAsBE little q x = Ok (be 4 x ++ skipn 4 q).
Proof.
  intros Lq. pose proof (set_be_bytes 4 little q x (or_intror (or_introl eq_refl)) Lq) as Q. cbn [SetBE] in Q.
  rewrite Q, be_rev. auto.
Qed.
Lemma set64_be little q x : (8 <= length q)%nat -> Set64bitAsBE little q x = Ok (be 8 x ++ skipn 8 q).
Proof.
  intros Lq. pose proof (set_be_bytes 8 little q x (or_intror (or_intror eq_refl)) Lq) as Q. cbn [SetBE] in Q.
  rewrite Q, be_rev. auto.
Qed.
Lemma be_mod n x : be n (x mod 256 ^ Z.of_nat n) = be n x.
Proof. rewrite !be_rev, to_le_mod. auto. Qed.

Section Sha1Term.
Variable compress : list Z -> list Z -> res (list Z).
Variable sc : list Z -> list Z -> list Z.
Variable good : list Z -> Prop.
Variable H0 : list Z.
Hypothesis Hc : forall H p, good H -> bytes p -> (64 <= length p)%nat ->
  compress H p = Ok (sc H (firstn 64 p)) /\ good (sc H (firstn 64 p)).

Lemma sh1_term_ok little junk s m : Inv 64 64 sc good H0 s m -> zlen m < 2 ^ 61 ->
  exists s', sh1_term 64 compress little junk s = Ok s' /\ s_h s' = fold_left sc (blocks 64 (pad 64 8 m)) H0 /\ s_buf s' = s_buf s /\ good (s_h s').
Proof.
  intros (bl & r & Em & F & R & Eh & Et & En & (t & Eb) & Lb & Bb & G) Hm.
  assert (Lt: (length r + length t = 64)%nat) by (rewrite <- Lb, Eb, app_length; auto).
  assert (Elen: zlen m = 64 * zlen bl + zlen r).
  { rewrite Em, zlen_app. unfold zlen. rewrite (concat_length 64) by auto. lia. }
  assert (EL: (s_total s + s_bufSize s) mod 2 ^ 64 = zlen m).
  { rewrite Et, En, Zplus_mod_idemp_l, <- Elen. pose proof (zlen_nonneg m). rewrite !Z.mod_small by lia. lia. }
  unfold sh1_term. cbv zeta. rewrite EL, En.
  replace (pad 64 8 m) with (pad 64 (Z.of_nat 8) (concat bl ++ r)) by (rewrite Em; auto).
  rewrite (pad_blocks 64 64) by (auto; lia). rewrite <- Em.
  rewrite Eb in Bb. apply bytes_app in Bb as [Br Bt].
  rewrite Eb, to_nat_zlen, firstn_app_exact.
  assert (EM: memcpy_at (repeat junk 64) 0 r = Ok (r ++ repeat junk (64 - length r))).
  { replace (repeat junk 64) with ([] ++ repeat junk (length r) ++ repeat junk (64 - length r))
      by (cbn [app]; rewrite <- repeat_app; f_equal; lia).
    rewrite memcpy_exact by (auto; rewrite repeat_length; auto). auto. }
  rewrite EM. cbn [bind]. clear EM.
  rewrite memcpy_end; [|auto|rewrite !repeat_length; unfold zlen; lia]. cbn [bind].
  replace (Z.to_nat (64 - zlen r)) with (S (63 - length r)) by (unfold zlen; lia). change (repeat 0 (S (63 - length r))) with (0 :: repeat 0 (63 - length r)).
  rewrite wr_app by auto. cbn [bind]. rewrite <- app_assoc.
  replace (64 - 1 - length r)%nat with (63 - length r)%nat by lia.
  change (64 - 8)%nat with 56%nat. replace (56 - 1 - length r)%nat with (55 - length r)%nat by lia.
  assert (B128: bytes [128]) by (constructor; auto; unfold is_byte; lia).
  assert (EB: be 8 (8 * zlen m) = be 4 (Z.shiftr (zlen m) 29 mod 2 ^ 32) ++ be 4 (((zlen m * 8) mod 2 ^ 64) mod 2 ^ 32)).
  { pose proof (zlen_nonneg m). change 8%nat with (4 + 4)%nat. rewrite be_split. change (2 ^ 32) with (256 ^ Z.of_nat 4). rewrite !be_mod.
    rewrite Z.shiftr_div_pow2 by lia. rewrite (Z.mod_small (zlen m * 8)) by lia. 
    change (256 ^ Z.of_nat 4) with (8 * 2 ^ 29). rewrite Z.div_mul_cancel_l by lia. rewrite (Z.mul_comm 8). auto. }
  destruct (Z.leb_spec 56 (zlen r)) as [H|H]; unfold zlen in H.
  - destruct (Nat.ltb_spec (length r) 56); [lia|].
    assert (Bk: bytes (r ++ [128] ++ repeat 0 (63 - length r))).
    { apply bytes_app; split; auto. apply bytes_app; split; auto. apply bytes_repeat0. }
    assert (Lk: length (r ++ [128] ++ repeat 0 (63 - length r)) = 64%nat) by (rewrite !app_length, repeat_length; cbn [length]; lia).
    destruct (round_ok 64 64 compress sc good Hc s _ G Bk ltac:(lia)) as [-> G2]. cbn [bind]. rewrite firstn_all2 in G2 |- * by lia.
    remember (r ++ [128] ++ repeat 0 (63 - length r)) as b1 eqn:Eb1.
    rewrite <- (app_nil_l b1). rewrite memcpy_end by (auto; rewrite Lk, repeat_length; auto).
    cbn [bind app]. change (repeat 0 64) with (repeat 0 56 ++ repeat 0 8).
    rewrite at_off_exact by (rewrite repeat_length; auto). rewrite set32_be by (rewrite repeat_length; lia). cbn [bind].
    change (skipn 4 (repeat 0 8)) with (repeat 0 4). rewrite app_assoc.
    rewrite at_off_exact by (rewrite app_length, repeat_length, be_length; auto).
    rewrite set32_exact by apply repeat_length. cbn [bind]. rewrite <- app_assoc, <- EB.
    assert (Bk2: bytes (repeat 0 56 ++ be 8 (8 * zlen m))) by (apply bytes_app; split; [apply bytes_repeat0|apply be_bytes]).
    assert (Lk2: length (repeat 0 56 ++ be 8 (8 * zlen m)) = 64%nat) by (rewrite !app_length, repeat_length, be_length; auto).
    match goal with |- context[sh_round 64 compress ?s' _] => destruct (round_ok 64 64 compress sc good Hc s' _ G2 Bk2 ltac:(lia)) as [Er G3] end.
    rewrite Er. rewrite (firstn_all2 (repeat 0 56 ++ be 8 (8 * zlen m))) in G3 |- * by lia. cbn [s_h s_total s_buf s_bufSize] in *.
    eexists. split; [reflexivity|]. cbn [s_h s_buf]. split; [|auto].
    rewrite fold_left_app. cbn [fold_left]. rewrite Eh. auto.
  - destruct (Nat.ltb_spec (length r) 56); [|lia]. cbn [bind].
    assert (Es: r ++ [128] ++ repeat 0 (63 - length r) = (r ++ [128] ++ repeat 0 (55 - length r)) ++ repeat 0 8).
    { rewrite <- !app_assoc. do 2 f_equal. rewrite <- !repeat_app. f_equal. lia. }
    rewrite Es. 
    rewrite at_off_exact. 2:{ rewrite !app_length, !repeat_length. cbn [length]. lia. }
    rewrite set32_be by (rewrite repeat_length; lia). cbn [bind].
    change (skipn 4 (repeat 0 8)) with (repeat 0 4). rewrite app_assoc.
    rewrite at_off_exact. 2:{ rewrite !app_length, repeat_length, be_length. cbn [length]. lia. }
    rewrite set32_exact by apply repeat_length. cbn [bind]. rewrite <- app_assoc, <- EB, <- !app_assoc.
    assert (Bk: bytes (r ++ [128] ++ repeat 0 (55 - length r) ++ be 8 (8 * zlen m))).
    { apply bytes_app; split; auto. apply bytes_app; split; auto. apply bytes_app. split; [apply bytes_repeat0|apply be_bytes]. }
    assert (Lk: length (r ++ [128] ++ repeat 0 (55 - length r) ++ be 8 (8 * zlen m)) = 64%nat) by (rewrite !app_length, repeat_length, be_length; cbn [length]; lia).
    destruct (round_ok 64 64 compress sc good Hc s _ G Bk ltac:(lia)) as [-> G2]. rewrite firstn_all2 in G2 |- * by lia.
    eexists. split; [reflexivity|]. cbn [s_h s_buf]. split; [|auto]. rewrite fold_left_app, Eh. auto.
Qed.
End Sha1Term.

(** writing the words out *)
Lemma put32_ok little h : forall n k rest, (k + n <= length h)%nat -> (4 * n <= length rest)%nat ->
  put32 little n (Z.of_nat k) h (flat_map (be 4) (firstn k h) ++ rest) = Ok (flat_map (be 4) (firstn (k + n) h) ++ skipn (4 * n) rest).
Proof.
  induction n; intros k rest L R.
  - cbn [put32]. rewrite Nat.add_0_r. auto.
  - cbn [put32]. rewrite rd_word by lia. cbn [bind].
    assert (Ef: forall k l, length (flat_map (be 4) (firstn k l)) = (4 * length (firstn k l))%nat).
    { clear. intros k l. generalize (firstn k l). induction l0; auto. cbn [flat_map]. rewrite app_length, be_length. cbn [length]. lia. }
    rewrite at_off_exact by (rewrite Ef, firstn_length; lia).
    rewrite set32_be by lia. cbn [bind].
    assert (E1: flat_map (be 4) (firstn (S k) h) = flat_map (be 4) (firstn k h) ++ be 4 (nth k h 0)).
    { rewrite <- (firstn_skipn k h) at 1. rewrite firstn_app, firstn_firstn, Nat.min_r by lia.
      rewrite firstn_length. replace (S k - Nat.min k (length h))%nat with 1%nat by lia.
      rewrite flat_map_app. f_equal. assert (skipn k h = nth k h 0 :: skipn (S k) h) as ->.
      { clear - L. assert (k < length h)%nat by lia. clear L. revert k H. induction h as [|x h IH]; intros k H; cbn [length] in H; [lia|].
        destruct k; auto. cbn [skipn nth]. rewrite IH by lia. auto. }
      cbn [firstn flat_map]. apply app_nil_r. }
    rewrite app_assoc, <- E1. replace (Z.of_nat k + 1) with (Z.of_nat (S k)) by lia.
    rewrite IHn; [|lia|rewrite skipn_length; lia]. rewrite skipn_skipn. replace (k + S n)%nat with (S k + n)%nat by lia.
    do 3 f_equal. lia.
Qed.
Lemma put64_ok little h : forall n k rest, (k + n <= length h)%nat -> (8 * n <= length rest)%nat ->
  put64 little n (Z.of_nat k) h (flat_map (be 8) (firstn k h) ++ rest) = Ok (flat_map (be 8) (firstn (k + n) h) ++ skipn (8 * n) rest).
Proof.
  induction n; intros k rest L R.
  - cbn [put64]. rewrite Nat.add_0_r. auto.
  - cbn [put64]. rewrite rd_word by lia. cbn [bind].
    assert (Ef: forall k l, length (flat_map (be 8) (firstn k l)) = (8 * length (firstn k l))%nat).
    { clear. intros k l. generalize (firstn k l). induction l0; auto. cbn [flat_map]. rewrite app_length, be_length. cbn [length]. lia. }
    rewrite at_off_exact by (rewrite Ef, firstn_length; lia).
    rewrite set64_be by lia. cbn [bind].
    assert (E1: flat_map (be 8) (firstn (S k) h) = flat_map (be 8) (firstn k h) ++ be 8 (nth k h 0)).
    { rewrite <- (firstn_skipn k h) at 1. rewrite firstn_app, firstn_firstn, Nat.min_r by lia.
      rewrite firstn_length. replace (S k - Nat.min k (length h))%nat with 1%nat by lia.
      rewrite flat_map_app. f_equal. assert (skipn k h = nth k h 0 :: skipn (S k) h) as ->.
      { clear - L. assert (k < length h)%nat by lia. clear L. revert k H. induction h as [|x h IH]; intros k H; cbn [length] in H; [lia|].
        destruct k; auto. cbn [skipn nth]. rewrite IH by lia. auto. }
      cbn [firstn flat_map]. apply app_nil_r. }
    rewrite app_assoc, <- E1. replace (Z.of_nat k + 1) with (Z.of_nat (S k)) by lia.
    rewrite IHn; [|lia|rewrite skipn_length; lia]. rewrite skipn_skipn. replace (k + S n)%nat with (S k + n)%nat by lia.
    do 3 f_equal. lia.
Qed.
Lemma put32_all little h n md : length h = n -> (4 * n <= length md)%nat ->
  put32 little n 0 h md = Ok (flat_map (be 4) h ++ skipn (4 * n) md).
Proof.
  intros L R. pose proof (put32_ok little h n 0 md ltac:(lia) R) as Q. cbn [firstn flat_map app Nat.add] in Q.
  rewrite (firstn_all2 h) in Q by lia. exact Q.
Qed.
Lemma put64_all little h n md : length h = n -> (8 * n <= length md)%nat ->
  put64 little n 0 h md = Ok (flat_map (be 8) h ++ skipn (8 * n) md).
Proof.
  intros L R. pose proof (put64_ok little h n 0 md ltac:(lia) R) as Q. cbn [firstn flat_map app Nat.add] in Q.
  rewrite (firstn_all2 h) in Q by lia. exact Q.
Qed.
