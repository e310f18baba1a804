(** C32: the compressed succinct vector answers get and rank like the source bits. *)
Require Import Verif.Common Verif.Cnt Verif.StreamModel Verif.EndianModel Verif.SerializerModel Verif.SerializerProps Verif.SucModel Verif.BitVecModel Verif.BitVecProof Verif.SucProof Verif.SucProps Verif.CSucModel.
From Coq Require Import Permutation.
Ltac Zify.zify_post_hook ::= idtac.

(** ** Specification: bit i of an array of 64-bit words *)
Definition bit_of (buf : list Z) (i : Z) : bool := Z.testbit (nth (Z.to_nat (i / 64)) buf 0) (i mod 64).
(** the words the encoder looks at: [blockSize] words, zeros after them *)
Definition sbit (buf : list Z) (bitSize i : Z) : bool := if i / 64 <? blockSize bitSize then bit_of buf i else false.
Definition word_ok (w : Z) : Prop := 0 <= w < 2 ^ 64.

(** ** Table entries *)
Definition codebit (e : enc) (j : Z) : bool := if 64 <=? j then negb (ev e =? 0) else Z.testbit (ev e) j.
Definition wf (e : enc) : Prop :=
  7 <= elen e <= 16384 /\ (elen e < 64 -> 0 <= ev e < 2 ^ elen e) /\ (64 <= elen e -> ev e = 0 \/ ev e = all1) /\ erk e = cnt (codebit e) (elen e).
Lemma all1_bit j : 0 <= j < 64 -> Z.testbit all1 j = true.
Proof. intros. change all1 with (Z.ones 64). apply Z.ones_spec_low. lia. Qed.
Lemma cnt_true f n : 0 <= n -> (forall i, 0 <= i < n -> f i = true) -> cnt f n = n.
Proof.
  intros Hn. pattern n. apply Zind; [rewrite cnt_0; lia| |auto]. intros k Hk IH E. rewrite cnt_S by auto. rewrite IH, E by (intros; try apply E; lia). cbn. lia.
Qed.
Lemma small_bit v n j : 0 <= v < 2 ^ n -> 0 <= n <= j -> Z.testbit v j = false.
Proof.
  intros Hv Hj. destruct (Z.eq_dec v 0) as [-> |]; [apply Z.bits_0|]. apply Z.bits_above_log2; [lia|]. apply Z.lt_le_trans with n; [|lia]. apply Z.log2_lt_pow2; lia.
Qed.
Lemma mk_enc_wf x64 v len : 7 <= len <= 16384 -> (len < 64 -> 0 <= v < 2 ^ len) -> (64 <= len -> v = 0 \/ v = all1) -> wf (mk_enc x64 v len).
Proof.
  intros HL Hs Hb. unfold wf, mk_enc. cbn [elen ev erk]. split; auto. split; auto. split; auto. destruct (len <=? 64) eqn:E.
  - apply Z.leb_le in E. rewrite popcnt64_cnt. replace 64 with (len + (64 - len)) by lia. rewrite cnt_add by lia.
    rewrite (cnt_ext (codebit _) (Z.testbit v) len). 2:{ intros i Hi. unfold codebit. cbn [ev]. destruct (64 <=? i) eqn:E2; [lia|]. auto. }
    destruct (Z.eq_dec len 64) as [-> |]; [rewrite (cnt_0 _ (64 - 64)); lia|]. rewrite (cnt_false (fun i => Z.testbit v (len + i))); [lia|]. intros i Hi. apply small_bit with len; lia.
  - apply Z.leb_gt in E. destruct (Hb ltac:(lia)) as [-> | ->].
    + change (0 =? 0) with true. cbv iota. symmetry. apply cnt_false. intros i Hi. unfold codebit. cbn [ev]. destruct (64 <=? i); [auto|apply Z.bits_0].
    + change (all1 =? 0) with false. cbv iota. symmetry. apply cnt_true; [lia|]. intros i Hi. unfold codebit. cbn [ev]. destruct (64 <=? i) eqn:E2; [auto|apply all1_bit; lia].
Qed.
Lemma enc_insert_perm e l : Permutation (enc_insert e l) (e :: l).
Proof.
  induction l as [|x l IH]; cbn [enc_insert]; [auto|]. destruct (enc_lt x e); [|auto]. apply perm_trans with (x :: e :: l); [auto|apply perm_swap].
Qed.
Lemma enc_sort_perm l : Permutation (enc_sort l) l.
Proof. unfold enc_sort. induction l as [|x l IH]; cbn [fold_right]; [auto|]. eapply perm_trans; [apply enc_insert_perm|]. auto. Qed.
Lemma initTable_perm x64 : Permutation (initTable x64) (map (fun e => mk_enc x64 (fst e) (snd e)) fixed_tbl ++ map (fun i => mk_enc x64 (Z.of_nat i) 7) (seq 0 128)).
Proof. apply enc_sort_perm. Qed.
Definition pair_ok (p : Z * Z) : bool :=
  (7 <=? snd p) && (snd p <=? 16384) && (if snd p <? 64 then (0 <=? fst p) && (fst p <? 2 ^ snd p) else (fst p =? 0) || (fst p =? all1)).
Lemma fixed_ok : forallb pair_ok fixed_tbl = true.
Proof. vm_compute. reflexivity. Qed.
Lemma initTable_wf x64 : Forall wf (initTable x64).
Proof.
  apply Forall_forall. intros e He. apply (Permutation_in _ (initTable_perm x64)) in He. apply in_app_or in He. destruct He as [He|He]; apply in_map_iff in He.
  - destruct He as ([v len] & <- & Hin). pose proof fixed_ok as F. rewrite forallb_forall in F. specialize (F _ Hin). unfold pair_ok in F. cbn [fst snd] in *.
    apply andb_true_iff in F. destruct F as [F1 F3]. apply andb_true_iff in F1. apply mk_enc_wf; [lia| |].
    + intros L. replace (len <? 64) with true in F3 by lia. apply andb_true_iff in F3. lia.
    + intros L. replace (len <? 64) with false in F3 by lia. apply orb_true_iff in F3. lia.
  - destruct He as (i & <- & Hin). apply in_seq in Hin. apply mk_enc_wf; [lia| |lia]. intros _. change (2 ^ 7) with 128. lia.
Qed.
Lemma initTable_len x64 : length (initTable x64) = 256%nat.
Proof. rewrite (Permutation_length (initTable_perm x64)), app_length, !map_length, seq_length. reflexivity. Qed.
Lemma initTable_7 x64 v : 0 <= v < 128 -> In (mk_enc x64 v 7) (initTable x64).
Proof.
  intros Hv. apply (Permutation_in _ (Permutation_sym (initTable_perm x64))). apply in_or_app. right. apply in_map_iff. exists (Z.to_nat v). rewrite Z2Nat.id by lia. split; auto. apply in_seq. lia.
Qed.
Definition complete (tbl : list enc) : Prop := forall v, 0 <= v < 128 -> exists e, In e tbl /\ ev e = v /\ elen e = 7.

(** ** Reading the source *)
Section Src.
Variables (buf : list Z) (bitSize : Z).
Hypothesis Hsz : 0 <= bitSize.
Hypothesis Hbuf : blockSize bitSize <= zlen buf.
Hypothesis Hw : Forall word_ok buf.
Notation sb := (sbit buf bitSize).

Lemma land_mask v n : 0 <= n -> Z.land v (getMask n) = v mod 2 ^ n.
Proof. intros. unfold getMask. rewrite Z.shiftl_1_l. replace (2 ^ n - 1) with (Z.ones n) by (rewrite Z.ones_equiv; lia). apply Z.land_ones. auto. Qed.
Lemma bs_nonneg : 0 <= blockSize bitSize.
Proof. unfold blockSize. apply Z.div_pos; lia. Qed.
Lemma word_nth q : word_ok (nth (Z.to_nat q) buf 0).
Proof.
  destruct (nth_in_or_default (Z.to_nat q) buf 0) as [I| ->]; [|unfold word_ok; lia]. rewrite Forall_forall in Hw. auto.
Qed.
Lemma peek_spec at_ : 0 <= at_ -> exists w, peek buf bitSize at_ = Ok w /\ word_ok w /\ forall j, 0 <= j < 64 -> Z.testbit w j = sb (at_ + j).
Proof.
  intros Ha. unfold peek. change 63 with (Z.ones 6). rewrite Z.land_ones by lia. change (2 ^ 6) with 64.
  pose proof (Z.div_mod at_ 64 ltac:(lia)) as DM. pose proof (Z.mod_pos_bound at_ 64 ltac:(lia)) as RB. pose proof (Z.div_pos at_ 64 ltac:(lia) ltac:(lia)) as QB. pose proof bs_nonneg as BS.
  set (q := at_ / 64) in *. set (r := at_ mod 64) in *. clearbody q r.
  assert (forall j, 0 <= j < 64 -> r + j < 64 -> (at_ + j) / 64 = q /\ (at_ + j) mod 64 = r + j) as Lo.
  { intros j Hj Hr. split; symmetry; [apply Z.div_unique with (r + j); lia|apply Z.mod_unique with q; lia]. }
  assert (forall j, 0 <= j < 64 -> 64 <= r + j -> (at_ + j) / 64 = q + 1 /\ (at_ + j) mod 64 = r + j - 64) as Hi.
  { intros j Hj Hr. split; symmetry; [apply Z.div_unique with (r + j - 64); lia|apply Z.mod_unique with (q + 1); lia]. }
  destruct (blockSize bitSize <=? q) eqn:E.
  { apply Z.leb_le in E. exists 0. split; auto. split; [unfold word_ok; lia|]. intros j Hj. rewrite Z.bits_0. unfold sbit.
    assert (q <= (at_ + j) / 64). { destruct (Z_lt_le_dec (r + j) 64) as [L|L]; [destruct (Lo j Hj L)|destruct (Hi j Hj L)]; lia. }
    destruct (_ <? _) eqn:E2; auto. apply Z.ltb_lt in E2. lia. }
  apply Z.leb_gt in E. destruct (r =? 0) eqn:E0.
  { apply Z.eqb_eq in E0. exists (nth (Z.to_nat q) buf 0). split; [apply rd_nth; lia|]. split; [apply word_nth|]. intros j Hj. destruct (Lo j Hj ltac:(lia)) as [A B]. unfold sbit, bit_of. rewrite A, B.
    replace (q <? blockSize bitSize) with true by lia. f_equal. lia. }
  apply Z.eqb_neq in E0. rewrite (rd_nth buf q 0) by lia. cbn [bind].
  set (L := nth (Z.to_nat q) buf 0). assert (word_ok L) as WL by apply word_nth.
  assert (exists H, (if q <? blockSize bitSize - 1 then rd buf (q + 1) else Ok 0) = Ok H /\ word_ok H /\ forall j, 0 <= j < 64 -> Z.testbit H j = if q + 1 <? blockSize bitSize then Z.testbit (nth (Z.to_nat (q + 1)) buf 0) j else false) as (H & -> & WH & HH).
  { destruct (q <? blockSize bitSize - 1) eqn:E3.
    - apply Z.ltb_lt in E3. exists (nth (Z.to_nat (q + 1)) buf 0). split; [apply rd_nth; lia|]. split; [apply word_nth|]. intros. replace (q + 1 <? blockSize bitSize) with true by lia. auto.
    - apply Z.ltb_ge in E3. exists 0. split; auto. split; [unfold word_ok; lia|]. intros. rewrite Z.bits_0. destruct (q + 1 <? blockSize bitSize) eqn:E4; auto. apply Z.ltb_lt in E4. lia. }
  cbn [bind]. eexists. split; [reflexivity|]. rewrite land_mask by lia. unfold word_ok in WL, WH. split.
  - unfold word_ok. split. { apply Z.lor_nonneg. split; [apply Z.mod_pos_bound, Z.pow_pos_nonneg; lia|apply Z.mod_pos_bound; lia]. }
    assert (forall x y, 0 <= x < 2 ^ 64 -> 0 <= y < 2 ^ 64 -> Z.lor x y < 2 ^ 64) as LB.
    { intros x y Hx Hy. destruct (Z.eq_dec (Z.lor x y) 0) as [-> |NZ]; [lia|]. assert (0 <= Z.lor x y) by (apply Z.lor_nonneg; lia). apply Z.log2_lt_pow2; [lia|]. rewrite Z.log2_lor by lia. 
      destruct (Z.eq_dec x 0) as [-> |]; destruct (Z.eq_dec y 0) as [-> |]; try (cbn; lia).
      - change (Z.log2 0) with 0. pose proof (Z.log2_lt_pow2 y 64 ltac:(lia)). lia.
      - change (Z.log2 0) with 0. pose proof (Z.log2_lt_pow2 x 64 ltac:(lia)). lia.
      - pose proof (Z.log2_lt_pow2 x 64 ltac:(lia)). pose proof (Z.log2_lt_pow2 y 64 ltac:(lia)). lia. }
    apply LB; [|apply Z.mod_pos_bound; lia]. pose proof (Z.mod_pos_bound (Z.shiftr L r) (2 ^ (64 - r)) ltac:(apply Z.pow_pos_nonneg; lia)). pose proof (Z.pow_le_mono_r 2 (64 - r) 64 ltac:(lia) ltac:(lia)). lia.
  - intros j Hj. rewrite Z.lor_spec, !tb_mod by lia. rewrite Z.shiftr_spec, Z.shiftl_spec by lia. replace (j <? 64) with true by lia. unfold sbit, bit_of. destruct (Z_lt_le_dec (r + j) 64) as [K|K].
    + destruct (Lo j Hj K) as [-> ->]. replace (q <? blockSize bitSize) with true by lia. replace (j <? 64 - r) with true by lia. rewrite (Z.testbit_neg_r H) by lia. rewrite !andb_true_l || idtac. rewrite orb_false_r. fold L. f_equal. lia.
    + destruct (Hi j Hj K) as [-> ->]. replace (j <? 64 - r) with false by lia. rewrite HH by lia. replace (j - (64 - r)) with (r + j - 64) by lia. cbn [orb andb]. auto.
Qed.

Lemma word_eq v w : word_ok v -> word_ok w -> (forall j, 0 <= j < 64 -> Z.testbit v j = Z.testbit w j) -> v = w.
Proof.
  intros Hv Hx E. apply Z.bits_inj'. intros j Hj. destruct (Z_lt_le_dec j 64); [apply E; lia|]. rewrite !(small_bit _ 64) by (unfold word_ok in *; lia). auto.
Qed.
(** the target of an entry of 64 bits or more is one bit repeated *)
Definition rep (b : bool) : Z := if b then all1 else 0.
Lemma rep_bit b j : 0 <= j < 64 -> Z.testbit (rep b) j = b.
Proof. intros. destruct b; cbn [rep]; [apply all1_bit; auto|apply Z.bits_0]. Qed.
Lemma rep_ok b : word_ok (rep b).
Proof. destruct b; unfold word_ok, rep, all1; lia. Qed.
Definition matches (cur : Z) (e : enc) : Prop := forall j, 0 <= j < elen e -> sb (cur + j) = codebit e j.
Lemma same_words_spec b cur : 0 <= cur -> forall n j, 0 <= j -> exists f, same_words buf bitSize cur (rep b) n j = Ok f /\ (f = true <-> forall i, 64 * j <= i < 64 * (j + Z.of_nat n) -> sb (cur + i) = b).
Proof.
  intros Hc. induction n as [|n IH]; intros j Hj; cbn [same_words].
  - exists true. split; auto. split; auto. intros _ i Hi. lia.
  - destruct (peek_spec (cur + j * 64) ltac:(lia)) as (w & -> & Ww & Bw). cbn [bind]. destruct (w =? rep b) eqn:E; cbn [negb].
    + apply Z.eqb_eq in E. subst w. destruct (IH (j + 1) ltac:(lia)) as (f & -> & Hf). exists f. split; auto. rewrite Hf. split; intros H i Hi.
      * destruct (Z_lt_le_dec i (64 * (j + 1))); [|apply H; lia]. specialize (Bw (i - 64 * j) ltac:(lia)). rewrite rep_bit in Bw by lia. rewrite Bw. f_equal. lia.
      * apply H. lia.
    + exists false. split; auto. split; [discriminate|]. intros H. apply Z.eqb_neq in E. exfalso. apply E. apply word_eq; [auto|apply rep_ok|]. intros i Hi. rewrite rep_bit, Bw by lia.
      rewrite <- Z.add_assoc. apply H. lia.
Qed.
Lemma mod_eq_bits v w n : 0 <= n -> (v mod 2 ^ n = w mod 2 ^ n <-> forall j, 0 <= j < n -> Z.testbit v j = Z.testbit w j).
Proof.
  intros Hn. split.
  - intros E j Hj. pose proof (f_equal (fun z => Z.testbit z j) E) as E2. cbn beta in E2. rewrite !tb_mod in E2 by lia. replace (j <? n) with true in E2 by lia. auto.
  - intros E. apply Z.bits_inj'. intros j Hj. rewrite !tb_mod by lia. destruct (j <? n) eqn:E2; auto. apply E. lia.
Qed.
Lemma entry_found_spec e cur v : wf e -> 0 <= cur -> peek buf bitSize cur = Ok v -> exists f, entry_found buf bitSize cur v e = Ok f /\ (f = true <-> matches cur e).
Proof.
  intros (HL & Hs & Hb & _) Hc Pv. destruct (peek_spec cur Hc) as (v' & Pv' & Wv & Bv). rewrite Pv in Pv'. injection Pv' as <-. unfold entry_found, matches. destruct (64 <=? elen e) eqn:E.
  - apply Z.leb_le in E. assert (exists b, ev e = rep b) as (b & Eb). { destruct (Hb E) as [-> | ->]; [exists false|exists true]; auto. }
    assert (forall j, 0 <= j -> codebit e j = b) as CB. { intros j Hj. unfold codebit. rewrite Eb. destruct (64 <=? j) eqn:E2; [destruct b; auto|apply rep_bit; lia]. }
    rewrite Eb. pose proof (Z.div_mod (elen e) 64 ltac:(lia)) as DM. pose proof (Z.mod_pos_bound (elen e) 64 ltac:(lia)) as RB. assert (1 <= elen e / 64) as QB by (apply Z.div_le_lower_bound; lia).
    set (q := elen e / 64) in *. set (r := elen e mod 64) in *. clearbody q r. destruct (v =? rep b) eqn:E1.
    + apply Z.eqb_eq in E1. subst v. destruct (same_words_spec b cur Hc (Z.to_nat (q - 1)) 1 ltac:(lia)) as (f & -> & Hf). cbn [bind]. rewrite Z2Nat.id in Hf by lia.
      assert (f = true <-> forall i, 0 <= i < 64 * q -> sb (cur + i) = b) as Hf'.
      { rewrite Hf. split; intros H i Hi; [|apply H; lia]. destruct (Z_lt_le_dec i 64); [|apply H; lia]. rewrite <- Bv by lia. apply rep_bit. lia. }
      destruct (f && (0 <? r)) eqn:E2.
      * apply andb_true_iff in E2. destruct E2 as [-> E2]. apply Z.ltb_lt in E2. destruct (peek_spec (cur + q * 64) ltac:(lia)) as (w & -> & Ww & Bw). cbn [bind]. eexists. split; [reflexivity|].
        rewrite !land_mask by lia. rewrite Z.eqb_eq, mod_eq_bits by lia. split.
        -- intros H j Hj. rewrite CB by lia. destruct (Z_lt_le_dec j (64 * q)); [apply Hf'; auto; lia|]. specialize (H (j - 64 * q) ltac:(lia)). rewrite rep_bit, Bw in H by lia. rewrite <- H. f_equal. lia.
        -- intros H j Hj. rewrite rep_bit, Bw by lia. rewrite <- Z.add_assoc. rewrite H by lia. apply CB. lia.
      * exists f. split; auto. rewrite Hf'. split; intros H i Hi.
        -- rewrite CB by lia. assert (f = true) as -> by (apply Hf'; auto). cbn [andb] in E2. apply Z.ltb_ge in E2. apply H. lia.
        -- rewrite <- (CB i) by lia. apply H. lia.
    + exists false. split; auto. split; [discriminate|]. intros H. apply Z.eqb_neq in E1. exfalso. apply E1. apply word_eq; [auto|apply rep_ok|]. intros j Hj. rewrite rep_bit, Bv by lia. rewrite H by lia. apply CB. lia.
  - apply Z.leb_gt in E. eexists. split; [reflexivity|]. rewrite land_mask, Z.eqb_eq by lia. rewrite <- (Z.mod_small (ev e) (2 ^ elen e)) at 1 by auto. rewrite mod_eq_bits by lia. unfold codebit. split; intros H j Hj.
    + replace (64 <=? j) with false by lia. rewrite <- Bv by lia. apply H. lia.
    + rewrite Bv by lia. rewrite H by lia. replace (64 <=? j) with false by lia. auto.
Qed.
Lemma find_entry_spec tbl cur v : Forall wf tbl -> 0 <= cur -> peek buf bitSize cur = Ok v -> (exists e, In e tbl /\ matches cur e) ->
  forall i, exists k e, find_entry buf bitSize cur v i tbl = Ok (i + Z.of_nat k, e) /\ nth_error tbl k = Some e /\ matches cur e.
Proof.
  intros Hwf Hc Pv. induction Hwf as [|e tbl We Hwf IH]; intros (e0 & Hin & M) i; [destruct Hin|]. cbn [find_entry].
  destruct (entry_found_spec e cur v We Hc Pv) as (f & -> & Hf). cbn [bind]. destruct f.
  - exists 0%nat, e. rewrite Z.add_0_r. split; auto. split; auto. apply Hf. auto.
  - destruct Hin as [-> |Hin]. { apply Hf in M. discriminate. }
    destruct (IH ltac:(eauto) (i + 1)) as (k & e' & -> & N & M'). exists (S k), e'. split; [f_equal; f_equal; lia|]. auto.
Qed.
Lemma some_match tbl cur : complete tbl -> 0 <= cur -> exists e, In e tbl /\ matches cur e.
Proof.
  intros HC Hc. destruct (peek_spec cur Hc) as (v & _ & Wv & Bv). destruct (HC (v mod 2 ^ 7)) as (e & Hin & E1 & E2). { change 128 with (2 ^ 7). apply Z.mod_pos_bound. lia. }
  exists e. split; auto. intros j Hj. rewrite E2 in Hj. unfold codebit. replace (64 <=? j) with false by lia. rewrite E1, tb_mod, Bv by lia. replace (j <? 7) with true by lia. auto.
Qed.
Fixpoint sumlen (es : list enc) : Z := match es with [] => 0 | e :: r => elen e + sumlen r end.
Fixpoint sumrk (es : list enc) : Z := match es with [] => 0 | e :: r => erk e + sumrk r end.
(** the codes spell the source from cur on *)
Fixpoint codes (cur : Z) (es : list enc) : Prop := match es with [] => True | e :: r => matches cur e /\ codes (cur + elen e) r end.
Definition coded (tbl : list enc) : list Z -> list enc -> Prop := Forall2 (fun v e => 0 <= v < 256 /\ nth_error tbl (Z.to_nat v) = Some e).
Lemma encode_spec tbl : Forall wf tbl -> complete tbl -> (length tbl <= 256)%nat ->
  forall fuel cur vec rk, 0 <= cur <= Z.max (bitSize - 1) 0 -> bitSize - cur < Z.of_nat fuel -> 0 <= rk < 2 ^ 32 ->
  exists vs es, encode fuel tbl buf bitSize cur vec rk = Ok (vec ++ vs, (rk + sumrk es) mod 2 ^ 32) /\ coded tbl vs es /\ codes cur es /\ es <> [] /\
    bitSize <= cur + sumlen es <= Z.max (bitSize - 1) 0 + 16384.
Proof.
  intros Hwf HC HL. induction fuel as [|fuel IH]; intros cur vec rk Hcur HF Hrk. { exfalso. lia. }
  cbn [encode]. destruct (peek_spec cur ltac:(lia)) as (v & Pv & _ & _). rewrite Pv. cbn [bind].
  destruct (find_entry_spec tbl cur v Hwf ltac:(lia) Pv (some_match tbl cur HC ltac:(lia)) 0) as (k & e & -> & N & M). cbn [bind]. rewrite Z.add_0_l.
  assert (k < length tbl)%nat as Hk by (apply nth_error_Some; rewrite N; discriminate). rewrite (Z.mod_small (Z.of_nat k)) by lia.
  assert (wf e) as (WL & _). { rewrite Forall_forall in Hwf. apply Hwf. eapply nth_error_In; eauto. }
  assert (0 <= Z.of_nat k < 256 /\ nth_error tbl (Z.to_nat (Z.of_nat k)) = Some e) as Hc1 by (rewrite Nat2Z.id; split; [lia|auto]).
  destruct (cur <? bitSize) eqn:E.
  - apply Z.ltb_lt in E. destruct (bitSize <=? cur + elen e) eqn:E2.
    + apply Z.leb_le in E2. exists [Z.of_nat k], [e]. cbn [sumrk sumlen codes]. rewrite !Z.add_0_r. split; auto. split; [constructor; [auto|constructor]|]. split; [auto|]. split; [discriminate|]. lia.
    + apply Z.leb_gt in E2. destruct (IH (cur + elen e) (vec ++ [Z.of_nat k]) ((rk + erk e) mod 2 ^ 32)) as (vs & es & -> & A & B & NE & C); [lia|lia|apply Z.mod_pos_bound; lia|].
      exists (Z.of_nat k :: vs), (e :: es). cbn [sumrk sumlen codes]. rewrite <- app_assoc. cbn [app]. split. { do 2 f_equal. rewrite Zplus_mod_idemp_l. f_equal. lia. }
      split; [constructor; auto|]. split; auto. split; [discriminate|]. lia.
  - apply Z.ltb_ge in E. replace (bitSize <=? cur) with true by lia. exists [Z.of_nat k], [e]. cbn [sumrk sumlen codes]. rewrite !Z.add_0_r. split; auto. split; [constructor; [auto|constructor]|]. split; [auto|]. split; [discriminate|]. lia.
Qed.
End Src.

(** ** The block table *)
Lemma sumlen_app a b : sumlen (a ++ b) = sumlen a + sumlen b.
Proof. induction a; cbn [sumlen app]; lia. Qed.
Lemma sumrk_app a b : sumrk (a ++ b) = sumrk a + sumrk b.
Proof. induction a; cbn [sumrk app]; lia. Qed.
Lemma sum_bounds es : Forall wf es -> 7 * zlen es <= sumlen es /\ 0 <= sumrk es <= sumlen es.
Proof.
  induction 1 as [|e es (A & _ & _ & R) H IH]; [cbn; lia|]. rewrite zlen_cons. cbn [sumlen sumrk]. pose proof (cnt_bounds (codebit e) (elen e) ltac:(lia)). lia.
Qed.
Lemma zlen_repeat {A} (x : A) n : zlen (repeat x n) = Z.of_nat n.
Proof. unfold zlen. rewrite repeat_length. auto. Qed.
Lemma sample_spec b next : next <= 2 ^ 32 - 1024 -> forall fuel acc, next - 1024 * zlen acc <= 1024 * Z.of_nat fuel ->
  exists n, sample fuel (1024 * zlen acc) next b acc = Ok (1024 * (zlen acc + Z.of_nat n), acc ++ repeat b n) /\
    next <= 1024 * (zlen acc + Z.of_nat n) /\ (forall k, 0 <= k < Z.of_nat n -> 1024 * (zlen acc + k) < next).
Proof.
  intros Hn. induction fuel as [|fuel IH]; intros acc HF.
  - cbn [sample]. replace (_ <? next) with false by lia. exists 0%nat. cbn [repeat]. rewrite app_nil_r, Z.add_0_r. split; auto. split; lia.
  - cbn [sample]. destruct (_ <? next) eqn:E.
    + apply Z.ltb_lt in E. pose proof (zlen_nonneg acc). unfold skip. rewrite Z.mod_small by lia.
      replace (1024 * zlen acc + 1024) with (1024 * zlen (acc ++ [b])) by (rewrite zlen_app, zlen_cons; change (zlen (@nil block)) with 0; lia).
      destruct (IH (acc ++ [b])) as (n & -> & A & B). { rewrite zlen_app, zlen_cons. change (zlen (@nil block)) with 0. lia. }
      assert (zlen (acc ++ [b]) = zlen acc + 1) as L by (rewrite zlen_app, zlen_cons; change (zlen (@nil block)) with 0; lia). rewrite L in *.
      exists (S n). split. { rewrite <- app_assoc. cbn [repeat app]. do 2 f_equal. lia. } split; [lia|]. intros k Hk. destruct (Z.eq_dec k 0) as [-> |]; [lia|]. specialize (B (k - 1) ltac:(lia)). lia.
    + apply Z.ltb_ge in E. exists 0%nat. cbn [repeat]. rewrite app_nil_r, Z.add_0_r. split; auto. split; lia.
Qed.
(** block b describes the code that contains bit 1024 b *)
Definition block_good (es : list enc) (b : Z) (k : block) : Prop := exists pre e post, es = pre ++ e :: post /\ k = mk_b (sumlen pre) (zlen pre) (sumrk pre) /\ sumlen pre <= 1024 * b < sumlen pre + elen e.
Definition blocks_good (es : list enc) (l : list block) : Prop := forall b k, 0 <= b -> nth_error l (Z.to_nat b) = Some k -> block_good es b k.
Lemma nth_error_repeat_some {A} (x y : A) n i : nth_error (repeat x n) i = Some y -> x = y /\ (i < n)%nat.
Proof. revert i. induction n; intros [|i] H; cbn in H; try discriminate. - injection H as ->. split; auto. lia. - apply IHn in H. split; [tauto|lia]. Qed.
Lemma blocks_spec f tbl es : 17 <= Z.of_nat f -> Forall wf es -> sumlen es <= 2 ^ 32 - 1024 ->
  forall vs rest, coded tbl vs rest -> forall pre acc, es = pre ++ rest -> blocks_good es acc -> sumlen pre <= 1024 * zlen acc -> 
  exists bl, blocks f tbl vs (zlen pre) (sumlen pre) (sumrk pre) (1024 * zlen acc) acc = Ok bl /\ blocks_good es bl /\ sumlen es <= 1024 * zlen bl.
Proof.
  intros Hf Hwf HL vs rest HC. induction HC as [|v e vs rest [Hv N] HC IH]; intros pre acc E G A.
  - exists acc. cbn [blocks]. rewrite app_nil_r in E. subst pre. auto.
  - cbn [blocks]. unfold rd. replace (v <? 0) with false by lia. rewrite N. cbn [bind].
    assert (Forall wf pre /\ wf e /\ Forall wf rest) as (Wp & We & Wr). { rewrite E in Hwf. apply Forall_app in Hwf. destruct Hwf as [? H]. inversion H; auto. }
    pose proof (sum_bounds pre Wp) as [B1 B2]. pose proof (sum_bounds rest Wr) as [B3 B4]. pose proof We as (WL & _ & _ & WR). pose proof (cnt_bounds (codebit e) (elen e) ltac:(lia)) as CB. pose proof (zlen_nonneg pre) as ZP. pose proof (zlen_nonneg rest).
    assert (sumlen es = sumlen pre + elen e + sumlen rest) as SE by (rewrite E, sumlen_app; cbn [sumlen]; lia).
    rewrite !Z.mod_small by lia.
    destruct (sample_spec (mk_b (sumlen pre) (zlen pre) (sumrk pre)) (sumlen pre + elen e) ltac:(lia) f acc ltac:(lia)) as (n & -> & S1 & S2). cbn [bind].
    assert (zlen (acc ++ repeat (mk_b (sumlen pre) (zlen pre) (sumrk pre)) n) = zlen acc + Z.of_nat n) as LA by (rewrite zlen_app, zlen_repeat; auto).
    specialize (IH (pre ++ [e]) (acc ++ repeat (mk_b (sumlen pre) (zlen pre) (sumrk pre)) n)). rewrite LA, sumlen_app, sumrk_app, zlen_app, zlen_cons in IH. cbn [sumlen sumrk] in IH. change (zlen (@nil enc)) with 0 in IH. rewrite !Z.add_0_r, ?Z.add_0_l in IH.
    replace (zlen pre + (0 + 1)) with (zlen pre + 1) in IH by lia. apply IH; [rewrite <- app_assoc; auto| |lia].
    intros b k Hb Hk. destruct (Nat.lt_ge_cases (Z.to_nat b) (length acc)) as [L|L].
    + rewrite nth_error_app1 in Hk by auto. auto.
    + rewrite nth_error_app2 in Hk by auto. apply nth_error_repeat_some in Hk. destruct Hk as [<- Hi]. exists pre, e, rest. split; auto. split; auto.
      assert (zlen acc <= b) by (unfold zlen; lia). split; [lia|]. specialize (S2 (b - zlen acc)). replace (zlen acc + (b - zlen acc)) with b in S2 by lia. apply S2. unfold zlen. lia.
Qed.

(** ** Walking the codes *)
Lemma coded_at tbl vs es k e : coded tbl vs es -> nth_error es k = Some e -> exists v, nth_error vs k = Some v /\ 0 <= v < 256 /\ nth_error tbl (Z.to_nat v) = Some e.
Proof. intros H. revert k. induction H as [|v e' vs es [A B] H IH]; intros [|k] E; cbn in *; try discriminate. - injection E as ->. eauto. - apply IH; auto. Qed.
Lemma walk_spec c es : coded (ctbl c) (cvec c) es -> Forall wf es -> sumlen es < 2 ^ 32 ->
  forall rest pre fuel pos rk, es = pre ++ rest -> 0 <= pos < sumlen rest -> (length rest < fuel)%nat -> 0 <= rk -> rk + sumrk rest < 2 ^ 64 ->
  exists mid e post, rest = mid ++ e :: post /\ walk fuel c (zlen pre) pos rk = Ok (e, pos - sumlen mid, rk + sumrk mid) /\ 0 <= pos - sumlen mid < elen e.
Proof.
  intros HC Hwf HL. induction rest as [|e rest IH]; intros pre fuel pos rk E Hp HF Hr HR. { cbn in Hp. lia. }
  destruct fuel as [|fuel]; [cbn in HF; lia|]. cbn [walk].
  destruct (coded_at _ _ _ (length pre) e HC) as (v & N1 & Hv & N2). { rewrite E, nth_error_app2, Nat.sub_diag by lia. auto. }
  assert (rd (cvec c) (zlen pre) = Ok v) as ->. { unfold rd. pose proof (zlen_nonneg pre). replace (zlen pre <? 0) with false by lia. unfold zlen. rewrite Nat2Z.id, N1. auto. } cbn [bind].
  assert (rd (ctbl c) v = Ok e) as ->. { unfold rd. replace (v <? 0) with false by lia. rewrite N2. auto. } cbn [bind].
  assert (Forall wf pre /\ wf e /\ Forall wf rest) as (Wp & We & Wr). { rewrite E in Hwf. apply Forall_app in Hwf. destruct Hwf as [? H]. inversion H; auto. }
  pose proof (sum_bounds pre Wp) as [B1 B2]. pose proof (sum_bounds rest Wr) as [B3 B4]. pose proof We as (WL & _ & _ & WR). pose proof (cnt_bounds (codebit e) (elen e) ltac:(lia)) as CB. pose proof (zlen_nonneg pre) as ZP. pose proof (zlen_nonneg rest).
  assert (sumlen es = sumlen pre + elen e + sumlen rest) as SE by (rewrite E, sumlen_app; cbn [sumlen]; lia). cbn [sumlen sumrk] in *.
  destruct (pos <? elen e) eqn:E1.
  - apply Z.ltb_lt in E1. exists [], e, rest. cbn [sumlen sumrk app]. rewrite Z.sub_0_r, Z.add_0_r. split; auto. split; auto. lia.
  - apply Z.ltb_ge in E1. rewrite !Z.mod_small by lia. destruct (IH (pre ++ [e]) fuel (pos - elen e) (rk + erk e)) as (mid & e' & post & E2 & W & P); try lia. { rewrite <- app_assoc. auto. } { cbn in HF. lia. }
    exists (e :: mid), e', post. rewrite zlen_app, zlen_cons in W. change (zlen (@nil enc)) with 0 in W. replace (zlen pre + (1 + 0)) with (zlen pre + 1) in W by lia. rewrite W. cbn [sumlen sumrk app]. split; [rewrite E2; auto|].
    split; [do 2 f_equal; [f_equal; lia|lia]|lia].
Qed.
Lemma codes_app buf bs a : forall cur b, codes buf bs cur (a ++ b) <-> codes buf bs cur a /\ codes buf bs (cur + sumlen a) b.
Proof. induction a as [|e a IH]; intros cur b; cbn [codes app sumlen]. - rewrite Z.add_0_r. tauto. - rewrite IH, Z.add_assoc. tauto. Qed.
Lemma codes_rank buf bs es : Forall wf es -> forall cur, 0 <= cur -> codes buf bs cur es -> cnt (sbit buf bs) (cur + sumlen es) = cnt (sbit buf bs) cur + sumrk es.
Proof.
  induction 1 as [|e es We H IH]; intros cur Hc C; cbn [sumlen sumrk codes] in *; [rewrite !Z.add_0_r; auto|]. destruct C as [M C]. pose proof We as (WL & _ & _ & WR). rewrite Z.add_assoc, IH by (auto; lia). rewrite cnt_add by lia.
  rewrite (cnt_ext (fun i => sbit buf bs (cur + i)) (codebit e)) by (intros; apply M; lia). rewrite WR. lia.
Qed.
Lemma sbit_in buf bs i : 0 <= i < bs -> sbit buf bs i = bit_of buf i.
Proof.
  intros H. unfold sbit. replace (i / 64 <? blockSize bs) with true; auto. symmetry. apply Z.ltb_lt. unfold blockSize. apply Z.div_lt_upper_bound; [lia|]. pose proof (Z.div_mod (bs + 63) 64 ltac:(lia)). pose proof (Z.mod_pos_bound (bs + 63) 64 ltac:(lia)). lia.
Qed.
Lemma land_bit v p : 0 <= v -> 0 <= p -> negb (Z.land v (Z.shiftl 1 p) =? 0) = Z.testbit v p.
Proof.
  intros Hv Hp. rewrite Z.shiftl_1_l. destruct (Z.testbit v p) eqn:E.
  - apply negb_true_iff, Z.eqb_neq. intros Z0. pose proof (f_equal (fun z => Z.testbit z p) Z0) as F. cbn beta in F. rewrite Z.land_spec, Z.pow2_bits_true, Z.bits_0, E in F by lia. discriminate.
  - apply negb_false_iff, Z.eqb_eq. apply Z.bits_inj'. intros j Hj. rewrite Z.land_spec, Z.bits_0, Z.pow2_bits_eqb by lia. destruct (p =? j) eqn:E2; [apply Z.eqb_eq in E2; subst; rewrite E|rewrite andb_false_r]; auto.
Qed.
Lemma wf_ev e : wf e -> 0 <= ev e.
Proof. intros (A & B & C & _). destruct (Z_lt_le_dec (elen e) 64) as [L|L]; [apply B; auto|]. destruct (C L) as [-> | ->]; unfold all1; lia. Qed.

(** what init builds *)
Inductive built (x64 : bool) (buf : list Z) (bs : Z) (c : csuc) : Prop :=
  built_intro es : cbits c = bs -> ctbl c = initTable x64 -> coded (ctbl c) (cvec c) es -> Forall wf es -> codes buf bs 0 es -> bs <= sumlen es <= 2 ^ 32 - 1024 ->
    blocks_good es (cblk c) -> sumlen es <= 1024 * zlen (cblk c) -> crk c = sumrk es -> built x64 buf bs c.
Lemma coded_wf tbl vs es : Forall wf tbl -> coded tbl vs es -> Forall wf es.
Proof. intros H. induction 1 as [|v e vs es [_ N] _ IH]; constructor; auto. rewrite Forall_forall in H. apply H. eapply nth_error_In; eauto. Qed.
Lemma init_built x64 f buf bs : 17 <= Z.of_nat f -> 0 <= bs <= 2 ^ 32 - 2 ^ 14 - 2 ^ 10 + 1 -> Forall word_ok buf -> blockSize bs <= zlen buf ->
  exists c, c_init x64 f c_empty buf bs = Ok c /\ built x64 buf bs c.
Proof.
  intros Hf Hb Hw Hl. unfold c_init. replace (2 ^ 32 <=? bs) with false by lia.
  destruct (encode_spec buf bs ltac:(lia) Hl Hw (initTable x64) (initTable_wf x64) ltac:(intros v Hv; exists (mk_enc x64 v 7); split; [apply initTable_7; auto|auto]) ltac:(rewrite initTable_len; lia) (S (Z.to_nat bs)) 0 [] 0 ltac:(lia) ltac:(lia) ltac:(lia))
    as (vs & es & -> & C1 & C2 & NE & C3). cbn [bind app]. rewrite Z.add_0_l in *. pose proof (coded_wf _ _ _ (initTable_wf x64) C1) as W. pose proof (sum_bounds es W) as [SB1 SB2].
  destruct (blocks_spec f (initTable x64) es Hf W ltac:(lia) vs es C1 [] [] eq_refl ltac:(intros b k _ N; destruct (Z.to_nat b); discriminate) ltac:(cbn; lia)) as (bl & B & G & Z1).
  cbn [sumlen sumrk] in B. change (zlen (@nil enc)) with 0 in B. change (1024 * zlen (@nil block)) with 0 in B. cbn [cblk c_empty]. rewrite B. cbn [bind]. eexists. split; [reflexivity|].
  apply built_intro with es; cbn [cbits ctbl cvec cblk crk]; auto; [lia|]. rewrite Z.mod_small; lia.
Qed.
Lemma locate x64 buf bs c pos rk0 : built x64 buf bs c -> 0 <= pos < bs -> exists b, rd (cblk c) (pos / skip) = Ok b /\
  forall rk, rk = rk0 \/ rk = brk b -> 0 <= rk < 2 ^ 32 -> exists pre mid e, walk (S (length (cvec c))) c (vecPos b) ((pos - orgPos b) mod 2 ^ 64) rk = Ok (e, pos - sumlen (pre ++ mid), rk + sumrk mid) /\ wf e /\
    0 <= pos - sumlen (pre ++ mid) < elen e /\ matches buf bs (sumlen (pre ++ mid)) e /\ brk b = sumrk pre /\ cnt (sbit buf bs) (sumlen (pre ++ mid)) = sumrk (pre ++ mid) /\ 0 <= sumrk pre /\ 0 <= sumrk mid /\ sumrk (pre ++ mid) < 2 ^ 32 /\ 0 <= sumlen (pre ++ mid).
Proof.
  intros [es E1 E2 CO W CD SL BG ZB RK] Hp. unfold skip. pose proof (Z.div_mod pos 1024 ltac:(lia)) as DM. pose proof (Z.mod_pos_bound pos 1024 ltac:(lia)) as MB. pose proof (Z.div_pos pos 1024 ltac:(lia) ltac:(lia)) as QP.
  assert (pos / 1024 < zlen (cblk c)) as LT by lia. set (b := pos / 1024) in *. clearbody b.
  destruct (nth_error (cblk c) (Z.to_nat b)) as [k|] eqn:N. 2:{ apply nth_error_None in N. unfold zlen in LT. lia. }
  exists k. split. { unfold rd. replace (b <? 0) with false by lia. rewrite N. auto. }
  intros rk _ Hrk. destruct (BG b k QP N) as (pre & e0 & post & E & -> & PB). cbn [vecPos orgPos brk].
  assert (sumlen es = sumlen pre + sumlen (e0 :: post)) as SE by (rewrite E, sumlen_app; auto). pose proof W as W'. rewrite E in W'. apply Forall_app in W'. destruct W' as [Wp Wr].
  pose proof (sum_bounds pre Wp) as [B1 B2]. pose proof (sum_bounds _ Wr) as [B3 B4]. pose proof (zlen_nonneg pre). rewrite Z.mod_small by lia.
  assert (length (cvec c) = length es) as LE by (clear - CO; induction CO; cbn; auto).
  destruct (walk_spec c es CO W ltac:(lia) (e0 :: post) pre (S (length (cvec c))) (pos - sumlen pre) rk E ltac:(lia)) as (mid & e & post' & E3 & WK & P); [rewrite LE, E, app_length; cbn; lia|lia|lia|].
  exists pre, mid, e. rewrite sumlen_app, sumrk_app. rewrite WK. split; [do 2 f_equal; f_equal; lia|]. rewrite E3 in Wr. apply Forall_app in Wr. destruct Wr as [Wm We]. inversion We; subst.
  pose proof (sum_bounds mid Wm) as [B5 B6]. pose proof (zlen_nonneg mid). split; auto. split; [lia|].
  rewrite E3, app_assoc in CD. apply codes_app in CD. destruct CD as [CD1 CD2]. cbn [codes] in CD2. destruct CD2 as [CD2 _]. rewrite Z.add_0_l, sumlen_app in CD2. split; auto. split; auto.
  pose proof (codes_rank buf (cbits c) (pre ++ mid) ltac:(apply Forall_app; auto) 0 ltac:(lia) CD1) as R. rewrite Z.add_0_l, sumlen_app, sumrk_app, (cnt_0 _ 0) in R by lia.
  split; [lia|]. split; [lia|]. split; [lia|]. rewrite E3, sumlen_app in SE. cbn [sumlen] in SE. inversion We as [|? ? X Y]; subst. pose proof (sum_bounds _ Y) as [B7 _]. pose proof (zlen_nonneg post'). destruct X as (X & _). lia.
Qed.
Definition clean (buf : list Z) (bs : Z) : Prop := forall i, bs <= i < 64 * blockSize bs -> bit_of buf i = false.
Lemma built_get x64 buf bs c pos : built x64 buf bs c -> 0 <= pos < bs -> c_get c pos = Ok (bit_of buf pos).
Proof.
  intros B Hp. destruct (locate x64 buf bs c pos 0 B Hp) as (b & R & L). unfold c_get. destruct B as [es E1 _ _ _ _ _ _ _ _]. rewrite E1. replace (bs <=? pos) with false by lia. rewrite R. cbn [bind].
  destruct (L 0 ltac:(auto) ltac:(lia)) as (pre & mid & e & -> & We & P & M & _). cbn [bind]. set (p := pos - sumlen (pre ++ mid)) in *. f_equal. rewrite <- (sbit_in buf bs pos) by lia.
  replace pos with (sumlen (pre ++ mid) + p) by lia. rewrite M by lia. unfold codebit. destruct (64 <=? p) eqn:E; auto. apply land_bit; [apply wf_ev; auto|lia].
Qed.
Lemma built_rank x64 buf bs c pos : built x64 buf bs c -> 0 <= pos < bs -> c_rank1 x64 c pos = Ok (cnt (bit_of buf) pos).
Proof.
  intros B Hp. destruct (locate x64 buf bs c pos 0 B Hp) as (b & R & L). unfold c_rank1. pose proof B as [es E1 _ _ _ _ _ _ _ _]. rewrite E1. replace (bs <=? pos) with false by lia. rewrite R. cbn [bind].
  assert (0 <= brk b < 2 ^ 32) as BR. { destruct (L 0 ltac:(auto) ltac:(lia)) as (pre & mid & e & _ & _ & _ & _ & H1 & _ & H2 & H3 & H4 & _). rewrite sumrk_app in H4. lia. }
  destruct (L (brk b) ltac:(auto) BR) as (pre & mid & e & -> & We & P & M & H1 & H2 & H3 & H4 & H5 & H6). cbn [bind]. set (p := pos - sumlen (pre ++ mid)) in *. rewrite (cnt_ext (bit_of buf) (sbit buf bs)) by (intros; symmetry; apply sbit_in; lia).
  replace pos with (sumlen (pre ++ mid) + p) by lia. rewrite cnt_add by lia. rewrite H2, sumrk_app, H1.
  assert ((if 64 <=? p then if ev e =? 0 then 0 else p else popcnt64 x64 (Z.land (ev e) (getMask p))) = cnt (fun i => sbit buf bs (sumlen (pre ++ mid) + i)) p) as ->.
  { rewrite (cnt_ext _ (codebit e)) by (intros; apply M; lia). destruct (64 <=? p) eqn:E.
    - apply Z.leb_le in E. destruct We as (_ & _ & WB & _). destruct (WB ltac:(lia)) as [W0|W1].
      + rewrite W0. cbn [Z.eqb]. symmetry. apply cnt_false. intros i Hi. unfold codebit. rewrite W0. destruct (64 <=? i); auto. apply Z.bits_0.
      + rewrite W1. change (all1 =? 0) with false. cbv iota. symmetry. apply cnt_true; [lia|]. intros i Hi. unfold codebit. rewrite W1. destruct (64 <=? i) eqn:E2; auto. apply all1_bit. lia.
    - apply Z.leb_gt in E. rewrite popcnt64_cnt, land_mask by lia. rewrite cnt_mod' by lia. apply cnt_ext. intros i Hi. unfold codebit. replace (64 <=? i) with false by lia. auto. }
  pose proof (cnt_bounds (fun i => sbit buf bs (sumlen (pre ++ mid) + i)) p ltac:(lia)). f_equal. rewrite sumrk_app in H5. destruct B as [? _ _ _ _ _ SL _ _ _]. rewrite Z.mod_small; lia.
Qed.
Lemma built_total x64 buf bs c : 0 <= bs -> built x64 buf bs c -> clean buf bs -> crk c = cnt (bit_of buf) bs.
Proof.
  intros Hb [es E1 _ _ W CD SL _ _ RK] CL. rewrite RK. pose proof (codes_rank buf bs es W 0 ltac:(lia) CD) as R. rewrite Z.add_0_l, (cnt_0 _ 0) in R by lia. rewrite Z.add_0_l in R. rewrite <- R.
  replace (sumlen es) with (bs + (sumlen es - bs)) by lia. rewrite cnt_add by lia. rewrite (cnt_false (fun i => sbit buf bs (bs + i))).
  - rewrite Z.add_0_r. apply cnt_ext. intros. apply sbit_in. lia.
  - intros i Hi. cbn beta. unfold sbit. destruct (_ <? _) eqn:E; auto. apply Z.ltb_lt in E. apply CL. pose proof (Z.div_mod (bs + i) 64 ltac:(lia)). pose proof (Z.mod_pos_bound (bs + i) 64 ltac:(lia)). lia.
Qed.

(** C32: get and rank1 are the bit and the number of 1s before it, for every position below bitSize *)
Theorem C32_queries : forall x64 f buf bitSize, 17 <= Z.of_nat f -> 0 <= bitSize <= 2 ^ 32 - 2 ^ 14 - 2 ^ 10 + 1 -> Forall word_ok buf -> blockSize bitSize <= zlen buf ->
  exists c, c_init x64 f c_empty buf bitSize = Ok c /\
    (forall pos, 0 <= pos < bitSize ->
      c_get c pos = Ok (bit_of buf pos) /\
      c_rank1 x64 c pos = Ok (cnt (bit_of buf) pos) /\
      c_rank0 x64 c pos = Ok (cnt (fun i => negb (bit_of buf i)) pos)) /\
    (forall pos, bitSize <= pos -> c_get c pos = Exn) /\
    (clean buf bitSize -> forall pos, bitSize <= pos -> c_rank1 x64 c pos = Ok (cnt (bit_of buf) bitSize)) /\
    (clean buf bitSize -> c_rank0 x64 c bitSize = Ok (cnt (fun i => negb (bit_of buf i)) bitSize)).
Proof.
  intros x64 f buf bs Hf Hb Hw Hl. destruct (init_built x64 f buf bs Hf Hb Hw Hl) as (c & I & B). exists c. split; auto. split.
  { intros pos Hp. split; [eapply built_get; eauto|]. pose proof (built_rank x64 buf bs c pos B Hp) as R. split; auto. unfold c_rank0. rewrite R. cbn [bind]. rewrite cnt_negb by lia. pose proof (cnt_bounds (bit_of buf) pos ltac:(lia)). rewrite Z.mod_small; auto. lia. }
  assert (cbits c = bs) as CB by (destruct B; auto).
  split. { intros pos Hp. unfold c_get. rewrite CB. replace (bs <=? pos) with true by lia. auto. }
  assert (clean buf bs -> forall pos, bs <= pos -> c_rank1 x64 c pos = Ok (cnt (bit_of buf) bs)) as T.
  { intros CL pos Hp. unfold c_rank1. rewrite CB. replace (bs <=? pos) with true by lia. f_equal. eapply built_total; eauto. lia. }
  split; auto. intros CL. unfold c_rank0. rewrite T by (auto; lia). cbn [bind]. rewrite cnt_negb by lia. pose proof (cnt_bounds (bit_of buf) bs ltac:(lia)). rewrite Z.mod_small; auto. lia.
Qed.

(** ** save and load *)
Lemma u32_rt x : 0 <= x < 2 ^ 32 -> exists e, saveVariableInt true u32 x = Ok e /\ forall rest sched, exists sched', loadVariableInt true u32 (mk_is (e ++ rest) sched) = Ok (x, mk_is rest sched').
Proof. intros Hx. destruct (C09_variable_int true u32 x) as (e & S & _ & L & _); [left; auto|unfold in_range; auto|eauto]. Qed.
Lemma split3 (a b c : list Z) n m : length a = n -> length b = m -> firstn n (a ++ b ++ c) = a /\ firstn m (skipn n (a ++ b ++ c)) = b /\ skipn (n + m) (a ++ b ++ c) = c.
Proof.
  intros <- <-. rewrite firstn_app_exact, skipn_app_exact, firstn_app_exact. split; auto. split; auto. rewrite <- app_length, app_assoc. apply skipn_app_exact.
Qed.
Lemma enc_rt e : 0 <= ev e < 2 ^ 64 -> 0 <= elen e < 2 ^ 32 -> 0 <= erk e < 2 ^ 32 -> length (enc_bytes e) = 16%nat /\ bytes_enc (enc_bytes e) = e.
Proof.
  destruct e as [v l r]. cbn [ev elen erk]. intros Hv Hl Hr. unfold enc_bytes, bytes_enc. cbn [ev elen erk]. split; [rewrite !app_length, !len_to_le; auto|].
  destruct (split3 (to_le 8 v) (to_le 4 l) (to_le 4 r) 8 4 (len_to_le _ _) (len_to_le _ _)) as (-> & -> & E). change 12%nat with (8 + 4)%nat. rewrite E.
  rewrite !of_to_le by (change (256 ^ Z.of_nat 4) with (2 ^ 32); change (256 ^ Z.of_nat 8) with (2 ^ 64); auto). auto.
Qed.
Lemma block_rt b : 0 <= orgPos b < 2 ^ 32 -> 0 <= vecPos b < 2 ^ 32 -> 0 <= brk b < 2 ^ 32 -> length (block_bytes b) = 12%nat /\ bytes_block (block_bytes b) = b.
Proof.
  destruct b as [v l r]. cbn [orgPos vecPos brk]. intros Hv Hl Hr. unfold block_bytes, bytes_block. cbn [orgPos vecPos brk]. split; [rewrite !app_length, !len_to_le; auto|].
  destruct (split3 (to_le 4 v) (to_le 4 l) (to_le 4 r) 4 4 (len_to_le _ _) (len_to_le _ _)) as (-> & -> & E). change 8%nat with (4 + 4)%nat. rewrite E.
  rewrite !of_to_le by (change (256 ^ Z.of_nat 4) with (2 ^ 32); auto). auto.
Qed.
Lemma blocks_count es l : Forall wf es -> blocks_good es l -> 1024 * (zlen l - 1) < sumlen es \/ l = [].
Proof.
  intros W G. destruct l as [|b l]; [auto|left]. destruct (nth_error (b :: l) (length l)) as [k|] eqn:N. 2:{ apply nth_error_None in N. cbn in N. lia. }
  destruct (G (Z.of_nat (length l)) k ltac:(lia) ltac:(rewrite Nat2Z.id; auto)) as (pre & e & post & E & _ & P). rewrite E in W. apply Forall_app in W. destruct W as [_ W]. inversion W as [|? ? _ W2]; subst. pose proof (sum_bounds _ W2) as [B _]. pose proof (zlen_nonneg post).
  rewrite sumlen_app. cbn [sumlen]. rewrite zlen_cons. unfold zlen at 1. lia.
Qed.
Lemma built_saved x64 buf bs c : 0 <= bs -> built x64 buf bs c -> exists e, c_save_vec c = Ok e /\ forall rest sched, exists sched', c_load_vec (mk_is (e ++ rest) sched) = Ok (c, mk_is rest sched').
Proof.
  intros Hb [es E1 E2 CO W CD SL BG ZB RK]. pose proof (sum_bounds es W) as [SB1 SB2]. pose proof (zlen_nonneg es) as ZE.
  destruct (u32_rt (cbits c) ltac:(lia)) as (e1 & S1 & L1). destruct (u32_rt (crk c) ltac:(lia)) as (e4 & S4 & L4).
  assert (length (cvec c) = length es) as LE by (clear - CO; induction CO; cbn; auto).
  destruct (podvec_rt 1 (to_le 1) of_le (cvec c)) as (e2 & S2 & L2).
  { apply Forall_forall. intros v Hv. split; [apply len_to_le|]. apply of_to_le. change (256 ^ Z.of_nat 1) with 256. apply In_nth_error in Hv. destruct Hv as [k Hk]. destruct (nth_error es k) as [e|] eqn:N.
    - destruct (coded_at _ _ _ k e CO N) as (v' & N' & R & _). rewrite Hk in N'. injection N' as <-. auto.
    - apply nth_error_None in N. assert (k < length (cvec c))%nat by (apply nth_error_Some; rewrite Hk; discriminate). lia. }
  { unfold zlen in *. lia. }
  destruct (podvec_rt 12 block_bytes bytes_block (cblk c)) as (e3 & S3 & L3).
  { apply Forall_forall. intros b Hin. apply In_nth_error in Hin. destruct Hin as [k Hk]. destruct (BG (Z.of_nat k) b ltac:(lia) ltac:(rewrite Nat2Z.id; auto)) as (pre & e & post & E & -> & P).
    pose proof W as W'. rewrite E in W'. apply Forall_app in W'. destruct W' as [Wp Wr]. pose proof (sum_bounds pre Wp) as [B1 B2]. pose proof (sum_bounds _ Wr) as [B3 B4]. pose proof (zlen_nonneg pre). pose proof (zlen_nonneg (e :: post)).
    assert (sumlen es = sumlen pre + sumlen (e :: post)) as SE by (rewrite E, sumlen_app; auto). apply block_rt; cbn [orgPos vecPos brk]; lia. }
  { destruct (blocks_count es _ W BG) as [H| ->]; [lia|cbn; lia]. }
  destruct (podvec_rt 16 enc_bytes bytes_enc (ctbl c)) as (e5 & S5 & L5).
  { rewrite E2. eapply Forall_impl; [|apply initTable_wf]. intros e We. pose proof (wf_ev e We) as EV. destruct We as (A & B & C & D). pose proof (cnt_bounds (codebit e) (elen e) ltac:(lia)). apply enc_rt; [|lia|lia].
    split; auto. destruct (Z_lt_le_dec (elen e) 64) as [L|L]; [pose proof (B L); pose proof (Z.pow_le_mono_r 2 (elen e) 64 ltac:(lia) ltac:(lia)); lia|]. destruct (C L) as [-> | ->]; unfold all1; lia. }
  { rewrite E2. unfold zlen. rewrite initTable_len. lia. }
  unfold c_save_vec, c_load_vec. rewrite S1, S2, S3, S4, S5. cbn [bind]. eexists. split; [reflexivity|]. intros rest sched. rewrite <- !app_assoc.
  destruct (L1 (e2 ++ e3 ++ e4 ++ e5 ++ rest) sched) as (s1 & ->). cbn [bind]. destruct (L2 (e3 ++ e4 ++ e5 ++ rest) s1) as (s2 & ->). cbn [bind]. destruct (L3 (e4 ++ e5 ++ rest) s2) as (s3 & ->). cbn [bind].
  destruct (L4 (e5 ++ rest) s3) as (s4 & ->). cbn [bind]. destruct (L5 rest s4) as (s5 & ->). cbn [bind]. exists s5. destruct c; auto.
Qed.
(** C32: a saved vector loads back as the same vector *)
Theorem C32_save_load : forall x64 f buf bitSize c, 17 <= Z.of_nat f -> 0 <= bitSize <= 2 ^ 32 - 2 ^ 14 - 2 ^ 10 + 1 -> Forall word_ok buf -> blockSize bitSize <= zlen buf ->
  c_init x64 f c_empty buf bitSize = Ok c ->
  exists e, c_save_vec c = Ok e /\ forall rest sched, exists sched', c_load_vec (mk_is (e ++ rest) sched) = Ok (c, mk_is rest sched').
Proof. intros x64 f buf bs c Hf Hb Hw Hl I. destruct (init_built x64 f buf bs Hf Hb Hw Hl) as (c' & I' & B). rewrite I in I'. injection I' as <-. eapply built_saved; eauto. lia. Qed.
(** the length limit is checked *)
Theorem C32_too_long : forall x64 f c buf bitSize, 2 ^ 32 <= bitSize -> c_init x64 f c buf bitSize = Exn.
Proof. intros. unfold c_init. replace (2 ^ 32 <=? bitSize) with true by lia. auto. Qed.

(** ** Non-vacuity *)
Definition demo_buf : list Z := [5; 18446744073709551615; 0; 9].
Lemma demo_ok : Forall word_ok demo_buf.
Proof. repeat constructor; unfold word_ok; lia. Qed.
Definition ask (x64 : bool) (c : res csuc) (pos : Z) : res (bool * Z) := let! c := c in let! b := c_get c pos in let! r := c_rank1 x64 c pos in Ok (b, r).
Example demo_hyp : 0 <= 200 <= 2 ^ 32 - 2 ^ 14 - 2 ^ 10 + 1 /\ blockSize 200 <= zlen demo_buf /\ clean demo_buf 197.
Proof. split; [lia|]. split; [vm_compute; discriminate|]. intros i Hi. change (64 * blockSize 197) with 256 in Hi. unfold bit_of. replace (i / 64) with 3 by (apply Z.div_unique with (i - 192); lia). replace (i mod 64) with (i - 192) by (apply Z.mod_unique with 3; lia).
  change (nth (Z.to_nat 3) demo_buf 0) with 9. apply small_bit with 4; lia. Qed.
Example demo : map (ask true (c_init true 17 c_empty demo_buf 200)) [0; 1; 2; 100; 195; 199] = [Ok (true, 0); Ok (false, 1); Ok (true, 1); Ok (true, 38); Ok (true, 67); Ok (false, 68)].
Proof. vm_compute. reflexivity. Qed.

(** ** Findings *)
(** bits of the last word past bitSize are counted: the number of 1s of a one-bit vector is 1 although its bit is 0 *)
Theorem C32_dirty_finding : let c := c_init true 17 c_empty [64] 1 in
  (let! c := c in c_get c 0) = Ok false /\ (let! c := c in c_rank1 true c 1) = Ok 1 /\ ~ clean [64] 1.
Proof. split; [vm_compute; reflexivity|]. split; [vm_compute; reflexivity|]. intros C. specialize (C 6). change (bit_of [64] 6) with true in C. discriminate C. change (blockSize 1) with 1. lia. Qed.
(** a second init keeps the block table of the first: a query of a valid position reads outside the code vector *)
Definition ones18 : list Z := repeat all1 18.
Definition first18 : list Z := 1 :: repeat 0 17.
Theorem C32_reinit_finding : (let! c := c_init true 17 c_empty ones18 1152 in c_get c 1050) = Ok true /\
  (let! c := c_init true 17 c_empty first18 1152 in let! c := c_init true 17 c ones18 1152 in c_get c 1050) = UB.
Proof. split; vm_compute; reflexivity. Qed.
(** an all-zero source of 2^32-1 bits is accepted, but its last code wraps the 32-bit position, so the last blocks are missing *)
Definition e0 : enc := mk_e 0 16384 0.
Lemma table_head x64 : exists tl, initTable x64 = e0 :: tl.
Proof. destruct x64; vm_compute; eexists; reflexivity. Qed.
Section Zeros.
Variables (buf : list Z).
Let bs : Z := 2 ^ 32 - 1.
Hypothesis Hz : Forall (fun w => w = 0) buf.
Hypothesis Hl : blockSize bs <= zlen buf.
Lemma zeros_ok : Forall word_ok buf.
Proof. eapply Forall_impl; [|exact Hz]. intros w ->. unfold word_ok. lia. Qed.
Lemma zeros_match cur : matches buf bs cur e0.
Proof.
  intros j Hj. unfold codebit, e0. cbn [ev elen] in *. rewrite Z.bits_0. change (negb (0 =? 0)) with false. unfold sbit, bit_of. replace (nth (Z.to_nat ((cur + j) / 64)) buf 0) with 0.
  - rewrite Z.bits_0. destruct (_ <? _), (64 <=? j); auto.
  - destruct (nth_in_or_default (Z.to_nat ((cur + j) / 64)) buf 0) as [I|E]; [|auto]. rewrite Forall_forall in Hz. symmetry. apply Hz. auto.
Qed.
Lemma wf_e0 : wf e0.
Proof. apply (mk_enc_wf true 0 16384); lia. Qed.
Lemma zeros_encode tl : forall n fuel k vec, 0 <= k -> k + Z.of_nat n = 2 ^ 18 -> (1 <= n)%nat -> (n <= fuel)%nat -> encode fuel (e0 :: tl) buf bs (16384 * k) vec 0 = Ok (vec ++ repeat 0 n, 0).
Proof.
  induction n as [|n IH]; intros fuel k vec Hk HS H1 HF; [lia|]. destruct fuel as [|fuel]; [lia|]. cbn [encode].
  destruct (peek_spec buf bs ltac:(unfold bs; lia) Hl zeros_ok (16384 * k) ltac:(lia)) as (v & Pv & _ & _). rewrite Pv. cbn [bind find_entry].
  destruct (entry_found_spec buf bs ltac:(unfold bs; lia) Hl zeros_ok e0 (16384 * k) v wf_e0 ltac:(lia) Pv) as (f & -> & Hf). cbn [bind].
  assert (f = true) as -> by (apply Hf, zeros_match). cbn [bind]. change (0 mod 256) with 0. cbn [erk elen e0]. change ((0 + 0) mod 2 ^ 32) with 0.
  replace (16384 * k <? bs) with true by (unfold bs; lia). destruct (bs <=? 16384 * k + 16384) eqn:E.
  - apply Z.leb_le in E. unfold bs in E. replace n with 0%nat by lia. auto.
  - apply Z.leb_gt in E. unfold bs in E. replace (16384 * k + 16384) with (16384 * (k + 1)) by lia. rewrite (IH fuel (k + 1) (vec ++ [0])) by lia. rewrite <- app_assoc. auto.
Qed.
Lemma zeros_blocks f tl : 17 <= Z.of_nat f -> forall n k acc, 0 <= k -> k + Z.of_nat n = 2 ^ 18 -> (1 <= n)%nat -> zlen acc = 16 * k ->
  exists bl, blocks f (e0 :: tl) (repeat 0 n) k ((16384 * k) mod 2 ^ 32) 0 (16384 * k) acc = Ok bl /\ zlen bl = 16 * (2 ^ 18 - 1).
Proof.
  intros Hf. induction n as [|n IH]; intros k acc Hk HS H1 HA; [lia|]. cbn [repeat blocks]. change (rd (e0 :: tl) 0) with (Ok e0). cbn [bind elen erk e0]. rewrite (Z.mod_small (16384 * k)) by lia. change ((0 + 0) mod 2 ^ 32) with 0. destruct n as [|n].
  - replace (16384 * k + 16384) with (2 ^ 32) by lia. rewrite Z.mod_same by lia. destruct f; [lia|]. cbn [sample]. replace (16384 * k <? 0) with false by lia. cbn [bind]. exists acc. split; [auto|lia].
  - rewrite !(Z.mod_small (16384 * k + 16384)) by lia. set (b := mk_b _ _ _). destruct (sample_spec b (16384 * k + 16384) ltac:(lia) f acc ltac:(lia)) as (m & E & A & B). replace (1024 * zlen acc) with (16384 * k) in E by lia. rewrite E. cbn [bind].
    assert (m = 16%nat) as ->. { destruct (Z_lt_le_dec 16 (Z.of_nat m)) as [G|G]; [specialize (B 16 ltac:(lia))|]; lia. }
    replace (1024 * (zlen acc + Z.of_nat 16)) with (16384 * (k + 1)) by lia. replace (16384 * k + 16384) with ((16384 * (k + 1)) mod 2 ^ 32) by (rewrite Z.mod_small; lia). apply IH; try lia. rewrite zlen_app, zlen_repeat. lia.
Qed.
End Zeros.
Theorem C32_limit_finding : forall x64 f buf, 17 <= Z.of_nat f -> Forall (fun w => w = 0) buf -> blockSize (2 ^ 32 - 1) <= zlen buf ->
  exists c, c_init x64 f c_empty buf (2 ^ 32 - 1) = Ok c /\ c_get c (2 ^ 32 - 2) = UB /\ c_rank1 x64 c (2 ^ 32 - 2) = UB.
Proof.
  intros x64 f buf Hf Hz Hl. destruct (table_head x64) as (tl & Ht). unfold c_init. replace (2 ^ 32 <=? 2 ^ 32 - 1) with false by reflexivity. rewrite Ht.
  pose proof (zeros_encode buf Hz Hl tl (Z.to_nat (2 ^ 18)) (S (Z.to_nat (2 ^ 32 - 1))) 0 [] ltac:(lia) ltac:(lia) ltac:(lia) ltac:(lia)) as E. change (16384 * 0) with 0 in E. rewrite E. cbn [bind app].
  destruct (zeros_blocks f tl Hf (Z.to_nat (2 ^ 18)) 0 [] ltac:(lia) ltac:(lia) ltac:(lia) ltac:(reflexivity)) as (bl & B & L). change (16384 * 0) with 0 in B. change (0 mod 2 ^ 32) with 0 in B. cbn [cblk c_empty]. rewrite B. cbn [bind].
  eexists. split; [reflexivity|]. unfold c_get, c_rank1. cbn [cbits cblk].
  assert (rd bl ((2 ^ 32 - 2) / skip) = UB) as R. { unfold rd. change ((2 ^ 32 - 2) / skip) with 4194303. change (4194303 <? 0) with false. cbv iota. destruct (nth_error bl (Z.to_nat 4194303)) eqn:N; auto. assert (Z.to_nat 4194303 < length bl)%nat by (apply nth_error_Some; rewrite N; discriminate). unfold zlen in L. lia. }
  rewrite R. split; reflexivity.
Qed.
Print Assumptions C32_queries.
Print Assumptions C32_save_load.
Print Assumptions C32_too_long.
Print Assumptions C32_dirty_finding.
Print Assumptions C32_reinit_finding.
Print Assumptions C32_limit_finding.
