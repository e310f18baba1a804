(** Bit-level lemmas about the block operations of BitVecModel. *)
Require Import Verif.Common Verif.BitVecModel.
Ltac Zify.zify_post_hook ::= idtac.

Lemma nth_upd {A} (l : list A) k v j d : nth j (upd l k v) d = if (j =? k)%nat && (k <? length l)%nat then v else nth j l d.
Proof.
  revert k j. induction l as [|h t IH]; intros k j.
  - cbn [upd length]. destruct (_ && _) eqn:E; auto. apply andb_true_iff in E. destruct E as [_ E]. apply Nat.ltb_lt in E. lia.
  - destruct k as [|k], j as [|j]; cbn [upd nth length]; auto.
    rewrite IH. cbn [Nat.eqb]. change (S k <? S (length t))%nat with (k <? length t)%nat. auto.
Qed.
Lemma rd_ok (l : list Z) i : 0 <= i < zlen l -> rd l i = Ok (nth (Z.to_nat i) l 0).
Proof. apply rd_nth. Qed.

Section W.
Variable w : Z.
Hypothesis Hw : 0 < w <= 64.

Lemma wle a b : w * a < w * b + w -> a <= b.
Proof. intros. nia. Qed.
Lemma wle' a b : a <= b -> w * a <= w * b.
Proof. intros. nia. Qed.
Lemma wcase a b : (a <= b /\ w * a <= w * b) \/ (b + 1 <= a /\ w * b + w <= w * a).
Proof. destruct (Z_le_gt_dec a b); [left|right]; split; nia. Qed.
Ltac solve_w k n dn := pose proof (wcase k n); pose proof (wcase n k); pose proof (wcase k dn); pose proof (wcase dn k); pose proof (wcase n dn); pose proof (wcase dn n); pose proof (wcase 1 k); lia.
Definition word (x : Z) : Prop := 0 <= x < 2 ^ w.
Definition words (l : list Z) : Prop := Forall word l.
(** bit i of a block array *)
Definition vbit (l : list Z) (i : Z) : bool := Z.testbit (nth (Z.to_nat (i / w)) l 0) (i mod w).

Lemma word_nth l j : words l -> word (nth j l 0).
Proof.
  intros H. destruct (Nat.lt_ge_cases j (length l)) as [L|L].
  - apply (proj1 (Forall_forall _ _) H). apply nth_In. auto.
  - rewrite nth_overflow by auto. unfold word. split; [lia|]. apply Z.pow_pos_nonneg; lia.
Qed.
Lemma words_upd l k v : words l -> word v -> words (upd l k v).
Proof.
  revert k. induction l as [|h t IH]; intros [|k] H Hv; cbn [upd]; auto; inversion H; subst; constructor; auto. apply IH; auto.
Qed.
Lemma tb_high x j : word x -> w <= j -> Z.testbit x j = false.
Proof.
  intros (H1 & H2) Hj. destruct (Z.eq_dec x 0) as [-> |]; [apply Z.testbit_0_l|].
  apply Z.bits_above_log2; auto. apply Z.log2_lt_pow2; try lia. eapply Z.lt_le_trans; [exact H2|]. apply Z.pow_le_mono_r; lia.
Qed.
Lemma tb_mod x n j : 0 <= n -> 0 <= j -> Z.testbit (x mod 2 ^ n) j = (j <? n) && Z.testbit x j.
Proof.
  intros Hn Hj. destruct (j <? n) eqn:E; cbn [andb]; [apply Z.mod_pow2_bits_low; lia|apply Z.mod_pow2_bits_high; lia].
Qed.
Lemma tb_shl x s j : 0 <= j -> Z.testbit (shlT w x s) j = (j <? w) && Z.testbit x (j - s).
Proof. intros. unfold shlT. rewrite tb_mod by lia. rewrite Z.shiftl_spec by lia. auto. Qed.
Lemma tb_shr x s j : 0 <= j -> Z.testbit (shrT x s) j = Z.testbit x (j + s).
Proof. intros. unfold shrT. rewrite Z.shiftr_spec by lia. auto. Qed.
Lemma mask_ones r : GetMaskBit r = Z.ones r.
Proof. unfold GetMaskBit, Z.ones. lia. Qed.
Lemma tb_ones x r j : 0 <= r -> 0 <= j -> Z.testbit (Z.land x (Z.ones r)) j = (j <? r) && Z.testbit x j.
Proof. intros. rewrite Z.land_ones by lia. apply tb_mod; lia. Qed.
Lemma word_land_ones x r : 0 <= r <= w -> word (Z.land x (Z.ones r)).
Proof.
  intros. rewrite Z.land_ones by lia. unfold word. pose proof (Z.mod_pos_bound x (2 ^ r) ltac:(apply Z.pow_pos_nonneg; lia)).
  assert (2 ^ r <= 2 ^ w) by (apply Z.pow_le_mono_r; lia). lia.
Qed.
Lemma word_bits x : 0 <= x -> (forall j, w <= j -> Z.testbit x j = false) -> word x.
Proof.
  intros H0 H. split; auto. destruct (Z.eq_dec x 0) as [-> |]; [apply Z.pow_pos_nonneg; lia|].
  apply Z.log2_lt_pow2; [lia|]. destruct (Z_lt_le_dec (Z.log2 x) w); auto. specialize (H _ l). rewrite Z.bit_log2 in H by lia. discriminate.
Qed.
Lemma word_lor x y : word x -> word y -> word (Z.lor x y).
Proof.
  intros Hx Hy. apply word_bits; [apply Z.lor_nonneg; split; apply Hx || apply Hy|]. intros j Hj. rewrite Z.lor_spec, !tb_high; auto.
Qed.
Lemma word_shl x s : word (shlT w x s).
Proof. unfold shlT, word. apply Z.mod_pos_bound. apply Z.pow_pos_nonneg; lia. Qed.
Lemma word_shr x s : word x -> 0 <= s -> word (shrT x s).
Proof.
  intros Hx Hs. unfold shrT. apply word_bits; [apply Z.shiftr_nonneg; apply Hx|]. intros j Hj. rewrite Z.shiftr_spec by lia. apply tb_high; auto. lia.
Qed.
Lemma word_land x y : word x -> word (Z.land x y).
Proof.
  intros Hx. apply word_bits; [apply Z.land_nonneg; left; apply Hx|]. intros j Hj. rewrite Z.land_spec, tb_high; auto.
Qed.
Lemma word_pow2 r : 0 <= r < w -> word (Z.shiftl 1 r).
Proof. intros. rewrite Z.shiftl_1_l. unfold word. split; [apply Z.pow_nonneg; lia|apply Z.pow_lt_mono_r; lia]. Qed.

(** bits of an updated array *)
Lemma vbit_upd l k v i : 0 <= i -> 0 <= k < zlen l ->
  vbit (upd l (Z.to_nat k) v) i = if i / w =? k then Z.testbit v (i mod w) else vbit l i.
Proof.
  intros Hi Hk. unfold vbit. rewrite nth_upd. unfold zlen in Hk. assert (0 <= i / w) by (apply Z.div_pos; lia).
  destruct (i / w =? k) eqn:E.
  - assert (i / w = k) as -> by lia. rewrite Nat.eqb_refl. destruct (_ <? _)%nat eqn:E2; [auto|]. apply Nat.ltb_ge in E2. lia.
  - destruct (Z.to_nat (i / w) =? Z.to_nat k)%nat eqn:E2; [apply Nat.eqb_eq in E2; lia|auto].
Qed.
Lemma vbit_over l i : w * zlen l <= i -> vbit l i = false.
Proof.
  intros H. unfold vbit. rewrite nth_overflow; [apply Z.testbit_0_l|]. unfold zlen in H. apply Nat2Z.inj_le. rewrite Z2Nat.id; [|apply Z.div_pos; lia].
  apply Z.div_le_lower_bound; lia.
Qed.
Lemma vbit_word l k j : 0 <= k -> 0 <= j < w -> vbit l (w * k + j) = Z.testbit (nth (Z.to_nat k) l 0) j.
Proof.
  intros Hk Hj. unfold vbit. replace (w * k + j) with (j + k * w) by lia. rewrite Z.div_add, Z.mod_add, Z.div_small, Z.mod_small by lia. auto.
Qed.
Lemma split_idx i : 0 <= i -> exists k j, i = w * k + j /\ 0 <= k /\ 0 <= j < w /\ i / w = k /\ i mod w = j.
Proof.
  intros. exists (i / w), (i mod w). pose proof (Z.mod_pos_bound i w). pose proof (Z.div_mod i w). repeat split; try lia. apply Z.div_pos; lia.
Qed.

Lemma roundup_spec bitLen : 0 <= bitLen -> bitLen + w <= 2 ^ 64 -> exists n, RoundupBit w bitLen = n /\ w * n - w < bitLen <= w * n /\ 0 <= n.
Proof.
  intros H0 H1. unfold RoundupBit. rewrite Z.mod_small by lia. exists ((bitLen + w - 1) / w). split; auto.
  pose proof (Z.div_mod (bitLen + w - 1) w ltac:(lia)). pose proof (Z.mod_pos_bound (bitLen + w - 1) w ltac:(lia)). split; [lia|]. apply Z.div_pos; lia.
Qed.
(** the mask of the last block: bitLen = w * (n-1) + m, 0 < m <= w *)
Lemma mask_spec bitLen n (b : bool) : 0 < bitLen -> w * n - w < bitLen <= w * n -> b = (0 <? bitLen mod w) ->
  (if b then GetMaskBit (bitLen mod w) else 2 ^ w - 1) = Z.ones (bitLen - w * (n - 1)).
Proof.
  intros H0 Hn ->. pose proof (Z.mod_pos_bound bitLen w ltac:(lia)). pose proof (Z.div_mod bitLen w ltac:(lia)) as D.
  destruct (0 <? bitLen mod w) eqn:E.
  - rewrite mask_ones. f_equal. assert (bitLen / w = n - 1) by nia. nia.
  - assert (n = bitLen / w) by nia. assert (bitLen - w * (n - 1) = w) as -> by nia. unfold Z.ones. rewrite Z.shiftl_1_l. lia.
Qed.

(** source arrays *)
Definition src_is (src : option (list Z)) (dst : list Z) (S : Z -> Z) (n : Z) : Prop := forall j, 0 <= j < n -> rsrc src dst j = Ok (S j).
Lemma src_is_upd src dst S n k v : src_is src dst S n -> 0 <= k -> (k < n -> v = S k) -> src_is src (upd dst (Z.to_nat k) v) S n.
Proof.
  intros H Hk Hv j Hj. pose proof (H j Hj) as E. unfold rsrc in *. destruct src as [s|]; auto.
  assert (0 <= j < zlen dst). { unfold rd in E. destruct (j <? 0) eqn:E0; [lia|]. destruct (nth_error dst (Z.to_nat j)) eqn:E1; [|discriminate]. split; [lia|]. assert (nth_error dst (Z.to_nat j) <> None) by congruence. apply nth_error_Some in H0. unfold zlen. lia. }
  rewrite rd_ok in E by auto. rewrite rd_ok by (unfold zlen in *; rewrite upd_length; auto). rewrite nth_upd.
  destruct (_ && _) eqn:E2; auto. apply andb_true_iff in E2. destruct E2 as [E2 _]. apply Nat.eqb_eq in E2. assert (j = k) by lia. subst. f_equal. apply Hv. lia.
Qed.
Lemma src_is_le src dst S n m : src_is src dst S n -> m <= n -> src_is src dst S m.
Proof. intros H Hm j Hj. apply H. lia. Qed.
Lemma src_is_some s dst : src_is (Some s) dst (fun j => nth (Z.to_nat j) s 0) (zlen s).
Proof. intros j Hj. apply rd_ok. auto. Qed.
Lemma src_is_none dst : src_is None dst (fun j => nth (Z.to_nat j) dst 0) (zlen dst).
Proof. intros j Hj. apply rd_ok. auto. Qed.

Definition same_len (a b : list Z) := length a = length b.

Lemma copy_loop_spec src S : forall n i dst, 0 <= i -> src_is src dst S (i + Z.of_nat n) -> i + Z.of_nat n <= zlen dst ->
  exists dst', copy_loop n i dst src = Ok dst' /\ length dst' = length dst /\ src_is src dst' S (i + Z.of_nat n) /\
  forall j, 0 <= j -> nth (Z.to_nat j) dst' 0 = if (i <=? j) && (j <? i + Z.of_nat n) then S j else nth (Z.to_nat j) dst 0.
Proof.
  induction n; intros i dst Hi HS HL.
  - exists dst. split; [reflexivity|]. split; auto. split; auto. intros j Hj. destruct ((i <=? j) && (j <? i + Z.of_nat 0)) eqn:E; auto. lia.
  - cbn [copy_loop]. rewrite (HS i) by lia. cbn [bind]. rewrite wr_ok by lia. cbn [bind].
    destruct (IHn (i + 1) (upd dst (Z.to_nat i) (S i))) as (dst' & E & L & HS' & H).
    + lia.
    + replace (i + 1 + Z.of_nat n) with (i + Z.of_nat (Datatypes.S n)) by lia. apply src_is_upd; auto.
    + unfold zlen in *. rewrite upd_length. lia.
    + exists dst'. split; auto. rewrite upd_length in L. split; auto. split.
      * replace (i + Z.of_nat (Datatypes.S n)) with (i + 1 + Z.of_nat n) by lia. auto.
      * intros j Hj. rewrite H by auto. rewrite nth_upd. unfold zlen in HL.
        destruct ((i + 1 <=? j) && (j <? i + 1 + Z.of_nat n)) eqn:E1, ((i <=? j) && (j <? i + Z.of_nat (Datatypes.S n))) eqn:E2; auto; try lia.
        -- assert (j = i) by lia. subst. rewrite Nat.eqb_refl. destruct (_ <? _)%nat eqn:E3; auto. apply Nat.ltb_ge in E3. lia.
        -- destruct (Z.to_nat j =? Z.to_nat i)%nat eqn:E3; auto. apply Nat.eqb_eq in E3. lia.
Qed.

Theorem C25_CopyBit : forall dst src S bitLen, 0 <= bitLen -> bitLen + w <= 2 ^ 64 ->
  src_is src dst S (RoundupBit w bitLen) -> (forall j, word (S j)) -> RoundupBit w bitLen <= zlen dst -> words dst ->
  exists dst', CopyBit w dst src bitLen = Ok dst' /\ length dst' = length dst /\ words dst' /\
  forall i, 0 <= i -> vbit dst' i =
    if i <? bitLen then Z.testbit (S (i / w)) (i mod w) else if i <? w * RoundupBit w bitLen then false else vbit dst i.
Proof.
  intros dst src S bitLen H0 H1 HS HSw HL HW. destruct (roundup_spec bitLen H0 H1) as (n & En & Hn & Hn0). rewrite En in *. clear En.
  pose proof (Z.mod_pos_bound bitLen w ltac:(lia)) as Mb. pose proof (Z.div_mod bitLen w ltac:(lia)) as D.
  assert (Q0: 0 <= bitLen / w) by (apply Z.div_pos; lia).
  unfold CopyBit. 
  assert (Hq: bitLen / w <= n) by nia.
  destruct (copy_loop_spec src S (Z.to_nat (bitLen / w)) 0 dst) as (dst1 & E & L & HS' & H); try lia.
  { eapply src_is_le; [exact HS|]. lia. }
  rewrite E. cbn [bind].
  assert (W1: words dst1).
  { apply Forall_forall. intros x Hx. destruct (In_nth _ _ 0 Hx) as (k & Hk & <-). specialize (H (Z.of_nat k) ltac:(lia)). rewrite Nat2Z.id in H. rewrite H.
    destruct (_ && _); auto. apply word_nth; auto. }
  assert (B1: forall i, 0 <= i -> vbit dst1 i = if i <? w * (bitLen / w) then Z.testbit (S (i / w)) (i mod w) else vbit dst i).
  { intros i Hi. unfold vbit. rewrite H by (apply Z.div_pos; lia). rewrite Z2Nat.id by lia. assert (0 <= i / w) by (apply Z.div_pos; lia).
    pose proof (Z.div_mod i w ltac:(lia)). pose proof (Z.mod_pos_bound i w ltac:(lia)).
    destruct ((0 <=? i / w) && (i / w <? 0 + bitLen / w)) eqn:E1, (i <? w * (bitLen / w)) eqn:E2; auto; nia. }
  destruct (bitLen mod w =? 0) eqn:Er.
  - exists dst1. split; auto. split; auto. split; auto. intros i Hi. rewrite B1 by auto.
    replace (w * (bitLen / w)) with bitLen by lia. destruct (i <? bitLen) eqn:E1; auto. destruct (i <? w * n) eqn:E2; auto.
    assert (n <= bitLen / w) as Q1 by (apply wle; lia). apply wle' in Q1. lia.
  - assert (Hn1: n = bitLen / w + 1) by nia.
    assert (R: rsrc src dst1 (bitLen / w) = Ok (S (bitLen / w))).
    { unfold rsrc. destruct src as [s|]; [apply HS; lia|]. assert (rsrc None dst (bitLen / w) = Ok (S (bitLen / w))) as R0 by (apply HS; lia).
      unfold rsrc in R0. rewrite rd_ok in * by (unfold zlen in *; lia). rewrite H by lia. destruct (_ && _) eqn:E1; [lia|auto]. }
    rewrite R. cbn [bind]. rewrite wr_ok by (unfold zlen in *; lia). eexists. split; [reflexivity|]. split; [rewrite upd_length; auto|].
    rewrite mask_ones. split; [apply words_upd; auto; apply word_land_ones; lia|].
    intros i Hi. rewrite vbit_upd by (unfold zlen in *; lia). rewrite tb_ones by (try apply Z.mod_pos_bound; lia). rewrite B1 by auto.
    destruct (split_idx i Hi) as (k & j & Ei & Hk & Hj & E1 & E2). rewrite E1, E2.
    destruct (k =? bitLen / w) eqn:Ek.
    + assert (k = bitLen / w) by lia. subst k. destruct (j <? bitLen mod w) eqn:Ej, (i <? bitLen) eqn:Eb; cbn [andb]; try lia; try nia; rewrite ?H2; auto.
      destruct (i <? w * n) eqn:E3; auto. nia.
    + assert (Q: k < bitLen / w \/ bitLen / w + 1 <= k) by lia. destruct Q as [Q|Q].
      * assert (Q2: w * (k + 1) <= w * (bitLen / w)) by (apply wle'; lia). destruct (i <? w * (bitLen / w)) eqn:E3, (i <? bitLen) eqn:E4; auto; lia.
      * apply wle' in Q. destruct (i <? w * (bitLen / w)) eqn:E3, (i <? bitLen) eqn:E4; auto; try lia. destruct (i <? w * n) eqn:E5; auto. lia.
Qed.

Lemma shl_loop_spec src S shift : 0 <= shift <= w -> forall k dst, src_is src dst S (Z.of_nat k) -> Z.of_nat k < zlen dst ->
  exists dst', shl_loop w k shift dst src (S (Z.of_nat k)) = Ok (dst', S 0) /\ length dst' = length dst /\
  forall j, 0 <= j -> nth (Z.to_nat j) dst' 0 =
    if (1 <=? j) && (j <=? Z.of_nat k) then Z.lor (shlT w (S j) shift) (shrT (S (j - 1)) (w - shift)) else nth (Z.to_nat j) dst 0.
Proof.
  intros Hs. induction k; intros dst HS HL.
  - exists dst. split; [reflexivity|]. split; auto. intros j Hj. destruct (_ && _) eqn:E; auto. lia.
  - cbn [shl_loop]. rewrite (HS (Z.of_nat k)) by lia. cbn [bind]. rewrite wr_ok by lia. cbn [bind].
    match goal with |- context [upd dst _ ?v] => destruct (IHk (upd dst (Z.to_nat (Z.of_nat (Datatypes.S k))) v)) as (dst' & E & L & H) end.
    + apply src_is_upd; [eapply src_is_le; [exact HS|lia]|lia|lia].
    + unfold zlen in *. rewrite upd_length. lia.
    + exists dst'. split; auto. rewrite upd_length in L. split; auto. intros j Hj. rewrite H by auto. rewrite nth_upd. unfold zlen in HL.
      destruct ((1 <=? j) && (j <=? Z.of_nat k)) eqn:E1, ((1 <=? j) && (j <=? Z.of_nat (Datatypes.S k))) eqn:E2; auto; try lia.
      * assert (j = Z.of_nat (Datatypes.S k)) by lia. subst. rewrite Nat.eqb_refl. destruct (_ <? _)%nat eqn:E3; [|apply Nat.ltb_ge in E3; lia]. cbn [andb].
        do 3 f_equal. lia.
      * destruct (Z.to_nat j =? Z.to_nat (Z.of_nat (Datatypes.S k)))%nat eqn:E3; auto. apply Nat.eqb_eq in E3. lia.
Qed.
Lemma copy_back_spec src S : forall k dst, src_is src dst S (Z.of_nat k + 1) -> Z.of_nat k < zlen dst ->
  exists dst', copy_back_loop k dst src = Ok dst' /\ length dst' = length dst /\ src_is src dst' S (Z.of_nat k + 1) /\
  forall j, 0 <= j -> nth (Z.to_nat j) dst' 0 = if (1 <=? j) && (j <=? Z.of_nat k) then S j else nth (Z.to_nat j) dst 0.
Proof.
  induction k; intros dst HS HL.
  - exists dst. split; [reflexivity|]. split; auto. split; auto. intros j Hj. destruct (_ && _) eqn:E; auto. lia.
  - cbn [copy_back_loop]. rewrite (HS (Z.of_nat (Datatypes.S k))) by lia. cbn [bind]. rewrite wr_ok by lia. cbn [bind].
    assert (HS1: src_is src (upd dst (Z.to_nat (Z.of_nat (Datatypes.S k))) (S (Z.of_nat (Datatypes.S k)))) S (Z.of_nat (Datatypes.S k) + 1)) by (apply src_is_upd; auto; lia).
    destruct (IHk (upd dst (Z.to_nat (Z.of_nat (Datatypes.S k))) (S (Z.of_nat (Datatypes.S k))))) as (dst' & E & L & HS' & H).
    + eapply src_is_le; [exact HS1|lia].
    + unfold zlen in *. rewrite upd_length. lia.
    + exists dst'. split; auto. rewrite upd_length in L. split; auto.
      assert (HJ: forall j, 0 <= j -> nth (Z.to_nat j) dst' 0 = if (1 <=? j) && (j <=? Z.of_nat (Datatypes.S k)) then S j else nth (Z.to_nat j) dst 0).
      { intros j Hj. rewrite H by auto. rewrite nth_upd. unfold zlen in HL.
        destruct ((1 <=? j) && (j <=? Z.of_nat k)) eqn:E1, ((1 <=? j) && (j <=? Z.of_nat (Datatypes.S k))) eqn:E2; auto; try lia.
        - assert (j = Z.of_nat (Datatypes.S k)) by lia. subst. rewrite Nat.eqb_refl. destruct (_ <? _)%nat eqn:E3; [auto|apply Nat.ltb_ge in E3; lia].
        - destruct (Z.to_nat j =? Z.to_nat (Z.of_nat (Datatypes.S k)))%nat eqn:E3; auto. apply Nat.eqb_eq in E3. lia. }
      split; auto. intros j Hj. destruct (Z.eq_dec j (Z.of_nat (Datatypes.S k))) as [-> |NE]; [|apply HS'; lia].
      pose proof (HS1 (Z.of_nat (Datatypes.S k)) ltac:(lia)) as R0. unfold rsrc in *. destruct src; auto.
      rewrite rd_ok by (unfold zlen in *; lia). rewrite HJ by lia. destruct (_ && _) eqn:E1; auto; lia.
Qed.

(** ShiftLeftBit into another array or in place: (src[0..bitLen) << shift) | ext, and the carry out *)
Theorem C25_ShiftLeftBit : forall dst src S bitLen shift ext, 0 < bitLen -> bitLen + w <= 2 ^ 64 -> 0 <= shift < w ->
  src_is src dst S (RoundupBit w bitLen) -> (forall j, word (S j)) -> RoundupBit w bitLen <= zlen dst -> words dst -> word ext ->
  let n := RoundupBit w bitLen in
  let bit i := (0 <=? i) && (i <? bitLen) && Z.testbit (S (i / w)) (i mod w) in
  exists dst' ret, ShiftLeftBit w dst src bitLen shift ext = Ok (dst', ret) /\ length dst' = length dst /\ words dst' /\
  (forall i, 0 <= i < w * n -> vbit dst' i = bit (i - shift) || Z.testbit ext i) /\
  (forall i, w * n <= i -> vbit dst' i = vbit dst i) /\
  (forall i, 0 <= i -> Z.testbit ret i = bit (w * n + i - shift)).
Proof.
  intros dst src S bitLen shift ext H0 H1 Hsh HS HSw HL HW Hext. cbn zeta. destruct (roundup_spec bitLen ltac:(lia) H1) as (n & En & Hn & Hn0).
  unfold ShiftLeftBit. rewrite En in *. clear En. destruct (bitLen =? 0) eqn:E0; [lia|]. destruct (w <=? shift) eqn:E1; [lia|]. clear E0 E1.
  rewrite (mask_spec bitLen n _ H0 Hn eq_refl). set (m := bitLen - w * (n - 1)).
  assert (Hm: 0 < m <= w) by (unfold m; nia). assert (Hn1: 1 <= n) by nia.
  (* bits of a block *)
  assert (BITS: forall k j, 0 <= k -> 0 <= j < w -> (w * k + j) / w = k /\ (w * k + j) mod w = j).
  { intros k j Hk Hj. replace (w * k + j) with (j + k * w) by lia. rewrite Z.div_add, Z.mod_add, Z.div_small, Z.mod_small by lia. auto. }
  (* the source with the last block masked *)
  set (S' := fun k => if k =? n - 1 then Z.land (S k) (Z.ones m) else S k).
  assert (S'w: forall k, word (S' k)) by (intros k; unfold S'; destruct (k =? n - 1); auto; apply word_land_ones; lia).
  set (bit := fun i => (0 <=? i) && (i <? bitLen) && Z.testbit (S (i / w)) (i mod w)).
  assert (S'b: forall k j, 0 <= k < n -> 0 <= j < w -> Z.testbit (S' k) j = bit (w * k + j)).
  { intros k j Hk Hj. unfold bit. destruct (BITS k j ltac:(lia) Hj) as [-> ->]. unfold S'. destruct (k =? n - 1) eqn:Ek.
    - rewrite tb_ones by lia. f_equal. assert (k = n - 1) by lia. subst k. unfold m. destruct (0 <=? _) eqn:?, (_ <? bitLen) eqn:?, (j <? _) eqn:?; auto; nia.
    - assert (Q: w * (k + 1) <= w * (n - 1)) by (apply wle'; lia). assert (Q2: 0 <= w * k) by (apply Z.mul_nonneg_nonneg; lia). destruct (0 <=? _) eqn:?, (_ <? bitLen) eqn:?; auto; lia. }
  assert (bit_neg: forall i, i < 0 -> bit i = false) by (intros i Hi; unfold bit; destruct (0 <=? i) eqn:?; auto; lia).
  assert (bit_hi: forall i, bitLen <= i -> bit i = false) by (intros i Hi; unfold bit; destruct (i <? bitLen) eqn:?, (0 <=? i); auto; lia).
  (* it is enough to know the blocks *)
  assert (FIN: forall dst' ret, length dst' = length dst ->
     (forall k, 0 <= k -> nth (Z.to_nat k) dst' 0 = if k <? n then Z.lor (shlT w (S' k) shift) (if k =? 0 then ext else shrT (S' (k - 1)) (w - shift)) else nth (Z.to_nat k) dst 0) ->
     ret = shrT (S' (n - 1)) (w - shift) ->
     length dst' = length dst /\ words dst' /\ (forall i, 0 <= i < w * n -> vbit dst' i = bit (i - shift) || Z.testbit ext i) /\
     (forall i, w * n <= i -> vbit dst' i = vbit dst i) /\ (forall i, 0 <= i -> Z.testbit ret i = bit (w * n + i - shift))).
  { intros dst' ret L H ->. split; auto. split; [|split; [|split]].
    - apply Forall_forall. intros x Hx. destruct (In_nth _ _ 0 Hx) as (k & Hk & <-). specialize (H (Z.of_nat k) ltac:(lia)). rewrite Nat2Z.id in H. rewrite H.
      destruct (Z.of_nat k <? n); [|apply word_nth; auto]. apply word_lor; [apply word_shl|]. destruct (Z.of_nat k =? 0); auto. apply word_shr; auto. lia.
    - intros i Hi. destruct (split_idx i ltac:(lia)) as (k & j & Ei & Hk & Hj & E2 & E3). unfold vbit. rewrite E2, E3, H by lia. clear E2 E3.
      destruct (k <? n) eqn:Ekn; [|solve_w k n n]. rewrite Z.lor_spec, tb_shl by lia. destruct (j <? w) eqn:Ejw; [|lia]. cbn [andb].
      destruct (k =? 0) eqn:Ek0.
      + assert (k = 0) by lia. subst k. rewrite Z.mul_0_r in Ei. cbn [Z.add] in Ei. subst i. f_equal.
        destruct (Z_lt_le_dec (j - shift) 0); [rewrite bit_neg by lia; apply Z.testbit_neg_r; lia|]. rewrite S'b by lia. f_equal. lia.
      + rewrite (tb_high ext i) by (auto; solve_w k n n). rewrite orb_false_r. rewrite tb_shr by lia.
        destruct (Z_lt_le_dec (j - shift) 0).
        * rewrite Z.testbit_neg_r by lia. cbn [orb]. rewrite S'b by lia. f_equal. lia.
        * rewrite (tb_high (S' (k - 1))) by (auto; lia). rewrite orb_false_r. rewrite S'b by lia. f_equal. lia.
    - intros i Hi. destruct (split_idx i ltac:(nia)) as (k & j & Ei & Hk & Hj & E2 & E3). unfold vbit. rewrite E2, E3, H by lia. destruct (k <? n) eqn:Ekn; auto. solve_w k n n.
    - intros i Hi. rewrite tb_shr by lia. destruct (Z_lt_le_dec (i + (w - shift)) w).
      + rewrite S'b by lia. f_equal. lia.
      + rewrite tb_high by auto. symmetry. apply bit_hi. lia. }
  assert (R: rsrc src dst (n - 1) = Ok (S (n - 1))) by (apply HS; lia).
  assert (shl0: forall x, word x -> shlT w x 0 = x) by (intros x Hx; unfold shlT; rewrite Z.shiftl_0_r; apply Z.mod_small; apply Hx).
  assert (shrw: forall x, word x -> shrT x w = 0) by (intros x Hx; unfold shrT; rewrite Z.shiftr_div_pow2 by lia; apply Z.div_small; apply Hx).
  destruct (shift =? 0) eqn:Es0.
  - assert (shift = 0) by lia. subst shift. destruct (n =? 1) eqn:En1.
    + assert (n = 1) by lia. subst n. change (1 - 1) with 0 in *. rewrite R. cbn [bind]. rewrite wr_ok by lia. cbn [bind]. do 2 eexists. split; [reflexivity|].
      apply FIN; [apply upd_length| |rewrite Z.sub_0_r, shrw; auto].
      intros k Hk. rewrite nth_upd. unfold zlen in HL. change (Z.to_nat 0) with O. destruct (k <? 1) eqn:Ek.
      * assert (k = 0) by lia. subst. cbn [Z.eqb Z.to_nat Nat.eqb]. destruct (0 <? length dst)%nat eqn:E2; [|apply Nat.ltb_ge in E2; lia]. cbn [andb]. rewrite shl0 by auto. unfold S'. cbn [Z.eqb]. auto.
      * destruct (Z.to_nat k =? 0)%nat eqn:E2; [apply Nat.eqb_eq in E2; lia|auto].
    + rewrite R. cbn [bind]. rewrite wr_ok by lia. cbn [bind].
      set (dst1 := upd dst (Z.to_nat (n - 1)) (Z.land (S (n - 1)) (Z.ones m))).
      assert (L1: length dst1 = length dst) by apply upd_length.
      assert (HS1: src_is src dst1 S (n - 1)). { apply src_is_upd; [eapply src_is_le; [exact HS|lia]|lia|lia]. }
      destruct (copy_back_spec src S (Z.to_nat (n - 2)) dst1) as (dst2 & E2 & L2 & HS2 & H2).
      { eapply src_is_le; [exact HS1|lia]. } { unfold zlen in *. lia. }
      rewrite E2. cbn [bind]. rewrite (HS2 0) by lia. cbn [bind]. rewrite wr_ok by (unfold zlen in *; lia). cbn [bind]. do 2 eexists. split; [reflexivity|].
      apply FIN; [rewrite upd_length; lia| |rewrite Z.sub_0_r, shrw; auto].
      intros k Hk. rewrite nth_upd. unfold zlen in HL. change (Z.to_nat 0) with O. rewrite Z.sub_0_r. destruct (k =? 0) eqn:Ek0.
      * assert (k = 0) by lia. subst. cbn [Z.to_nat Nat.eqb]. destruct (0 <? length dst2)%nat eqn:E3; [|apply Nat.ltb_ge in E3; lia]. cbn [andb]. destruct (0 <? n) eqn:E4; [|lia]. rewrite shl0 by auto. unfold S'. destruct (0 =? n - 1) eqn:E5; [lia|auto].
      * destruct (Z.to_nat k =? 0)%nat eqn:E3; [apply Nat.eqb_eq in E3; lia|]. cbn [andb]. rewrite H2 by lia. rewrite shl0, shrw, Z.lor_0_r by auto.
        unfold dst1. rewrite nth_upd. destruct ((1 <=? k) && (k <=? Z.of_nat (Z.to_nat (n - 2)))) eqn:E4.
        -- destruct (k <? n) eqn:E5; [|lia]. unfold S'. destruct (k =? n - 1) eqn:E6; [lia|auto].
        -- destruct (k <? n) eqn:E5.
           ++ assert (k = n - 1) by lia. subst k. rewrite Nat.eqb_refl. destruct (_ <? _)%nat eqn:E6; [|apply Nat.ltb_ge in E6; lia]. cbn [andb]. unfold S'. rewrite Z.eqb_refl. auto.
           ++ destruct (Z.to_nat k =? Z.to_nat (n - 1))%nat eqn:E6; [apply Nat.eqb_eq in E6; lia|auto].
  - rewrite R. cbn [bind].
    destruct (shl_loop_spec src S' shift ltac:(lia) (Z.to_nat (n - 1)) dst) as (dst1 & E & L & H).
    { intros j Hj. unfold S'. destruct (j =? n - 1) eqn:Ej; [lia|]. apply HS. lia. } { unfold zlen in *. lia. }
    rewrite Z2Nat.id in * by lia. assert (S' (n - 1) = Z.land (S (n - 1)) (Z.ones m)) as ES by (unfold S'; rewrite Z.eqb_refl; auto). rewrite <- ES, E. cbn [bind].
    rewrite wr_ok by (unfold zlen in *; lia). cbn [bind]. do 2 eexists. split; [reflexivity|]. apply FIN; [rewrite upd_length; lia| |auto].
    intros k Hk. rewrite nth_upd, H by lia. unfold zlen in HL. change (Z.to_nat 0) with O. destruct (k =? 0) eqn:Ek0.
    + assert (k = 0) by lia. subst. cbn [Z.to_nat Nat.eqb]. destruct (0 <? length dst1)%nat eqn:E3; [|apply Nat.ltb_ge in E3; lia]. cbn [andb]. destruct (0 <? n) eqn:E4; [|lia]. auto.
    + destruct (Z.to_nat k =? 0)%nat eqn:E3; [apply Nat.eqb_eq in E3; lia|]. cbn [andb].
      destruct ((1 <=? k) && (k <=? n - 1)) eqn:E4, (k <? n) eqn:E5; auto; lia.
Qed.
Theorem C25_ShiftLeft_edge : forall dst src bitLen shift ext,
  ShiftLeftBit w dst src 0 shift ext = Ok (dst, 0) /\ (bitLen <> 0 -> w <= shift -> ShiftLeftBit w dst src bitLen shift ext = Exn).
Proof.
  intros. unfold ShiftLeftBit. split; auto. intros. destruct (bitLen =? 0) eqn:?; [lia|]. destruct (w <=? shift) eqn:?; [auto|lia].
Qed.

(** the internal shiftLeftBit: keeps the low [shift] bits of dst *)
Lemma shiftLeftBit_spec dst src bitLen shift : 0 < bitLen -> bitLen + shift + w <= 2 ^ 64 -> 0 < shift < w ->
  RoundupBit w bitLen <= zlen src -> words src -> RoundupBit w (bitLen + shift) <= zlen dst -> words dst ->
  exists dst', shiftLeftBit w dst src bitLen shift = Ok dst' /\ length dst' = length dst /\ words dst' /\
  forall i, 0 <= i -> vbit dst' i = if i <? shift then vbit dst i else if i <? bitLen + shift then vbit src (i - shift)
     else if i <? w * RoundupBit w (bitLen + shift) then false else vbit dst i.
Proof.
  intros H0 H1 Hsh HS HSw HL HW. destruct (roundup_spec bitLen ltac:(lia) ltac:(lia)) as (n & En & Hn & Hn0).
  destruct (roundup_spec (bitLen + shift) ltac:(lia) ltac:(lia)) as (dn & Edn & Hdn & Hdn0).
  unfold shiftLeftBit. rewrite En, Edn in *. clear En Edn. 
  rewrite (mask_spec bitLen n (negb (bitLen mod w =? 0)) H0 Hn) by (pose proof (Z.mod_pos_bound bitLen w ltac:(lia)); destruct (_ =? 0) eqn:?, (0 <? _) eqn:?; auto; lia). set (m := bitLen - w * (n - 1)).
  assert (Hm: 0 < m <= w) by (unfold m; nia). assert (Hn1: 1 <= n) by nia. assert (dn = n \/ dn = n + 1) by nia.
  set (S := fun k => nth (Z.to_nat k) src 0).
  set (S' := fun k => if k =? n - 1 then Z.land (S k) (Z.ones m) else S k).
  assert (Sw: forall k, word (S k)) by (intros; apply word_nth; auto).
  assert (S'w: forall k, word (S' k)) by (intros k; unfold S'; destruct (k =? n - 1); auto; apply word_land_ones; lia).
  assert (S'b: forall k j, 0 <= k < n -> 0 <= j < w -> Z.testbit (S' k) j = (w * k + j <? bitLen) && vbit src (w * k + j)).
  { intros k j Hk Hj. rewrite vbit_word by lia. unfold S', S. destruct (k =? n - 1) eqn:Ek.
    - rewrite tb_ones by lia. f_equal. assert (k = n - 1) by lia. subst k. unfold m. destruct (_ <? bitLen) eqn:?, (j <? _) eqn:?; auto; lia.
    - assert (Q: w * (k + 1) <= w * (n - 1)) by (apply wle'; lia). destruct (_ <? bitLen) eqn:?; auto; lia. }
  rewrite (rd_ok src) by lia. cbn [bind]. fold (S (n - 1)). assert (ES: S' (n - 1) = Z.land (S (n - 1)) (Z.ones m)) by (unfold S'; rewrite Z.eqb_refl; auto). rewrite <- ES.
  set (dst0 := if n <? dn then upd dst (Z.to_nat n) (shrT (S' (n - 1)) (w - shift)) else dst).
  assert (E0: (if n <? dn then wr dst (dn - 1) (shrT (S' (n - 1)) (w - shift)) else Ok dst) = Ok dst0).
  { unfold dst0. destruct (n <? dn) eqn:E; auto. rewrite wr_ok by lia. do 3 f_equal. lia. }
  rewrite E0. cbn [bind]. assert (L0: length dst0 = length dst) by (unfold dst0; destruct (_ <? _); auto; apply upd_length).
  destruct (shl_loop_spec (Some src) S' shift ltac:(lia) (Z.to_nat (n - 1)) dst0) as (dst1 & E & L & H2).
  { intros j Hj. unfold S'. destruct (j =? n - 1) eqn:Ej; [lia|]. apply rd_ok. lia. } { unfold zlen in *. lia. }
  rewrite Z2Nat.id in * by lia. rewrite E. cbn [bind]. rewrite rd_ok by (unfold zlen in *; lia). cbn [bind]. rewrite wr_ok by (unfold zlen in *; lia).
  rewrite mask_ones. rewrite (H2 0) by lia. cbn [Z.leb andb Z.compare Z.to_nat].
  assert (Hd0: nth 0 dst0 0 = nth 0 dst 0). { unfold dst0. destruct (_ <? _); auto. rewrite nth_upd. destruct (0 =? Z.to_nat n)%nat eqn:E1; auto. apply Nat.eqb_eq in E1. lia. }
  rewrite Hd0.
  set (D := fun k => if k <? n then Z.lor (shlT w (S' k) shift) (if k =? 0 then Z.land (nth 0 dst 0) (Z.ones shift) else shrT (S' (k - 1)) (w - shift)) else if k <? dn then shrT (S' (n - 1)) (w - shift) else nth (Z.to_nat k) dst 0).
  eexists. split; [reflexivity|]. split; [rewrite upd_length; lia|]. 
  assert (HD: forall k, 0 <= k -> nth (Z.to_nat k) (upd dst1 0 (Z.lor (shlT w (S' 0) shift) (Z.land (nth 0 dst 0) (Z.ones shift)))) 0 = D k).
  { intros k Hk. rewrite nth_upd, H2 by lia. unfold D, zlen in *. destruct (k =? 0) eqn:Ek0.
    - assert (k = 0) by lia. subst. cbn [Z.to_nat Nat.eqb]. destruct (0 <? length dst1)%nat eqn:E3; [|apply Nat.ltb_ge in E3; lia]. cbn [andb]. destruct (0 <? n) eqn:E4; [|lia]. auto.
    - destruct (Z.to_nat k =? 0)%nat eqn:E3; [apply Nat.eqb_eq in E3; lia|]. cbn [andb]. destruct ((1 <=? k) && (k <=? n - 1)) eqn:E4, (k <? n) eqn:E5; auto; try lia.
      unfold dst0. destruct (n <? dn) eqn:E6.
      + rewrite nth_upd. destruct (k <? dn) eqn:E7.
        * assert (k = n) by lia. subst k. rewrite Nat.eqb_refl. destruct (_ <? _)%nat eqn:E8; auto. apply Nat.ltb_ge in E8. lia.
        * destruct (Z.to_nat k =? Z.to_nat n)%nat eqn:E8; auto. apply Nat.eqb_eq in E8. lia.
      + destruct (k <? dn) eqn:E7; auto. lia. }
  change (Z.to_nat 0) with O. split.
  - apply Forall_forall. intros x Hx. destruct (In_nth _ _ 0 Hx) as (k & Hk & <-). specialize (HD (Z.of_nat k) ltac:(lia)). rewrite Nat2Z.id in HD. rewrite HD. unfold D.
    destruct (Z.of_nat k <? n); [|destruct (Z.of_nat k <? dn); [apply word_shr; auto; lia|apply word_nth; auto]]. apply word_lor; [apply word_shl|]. destruct (Z.of_nat k =? 0); [apply word_land_ones; lia|]. apply word_shr; auto. lia.
  - intros i Hi. destruct (split_idx i ltac:(lia)) as (k & j & Ei & Hk & Hj & E2 & E3). unfold vbit at 1. rewrite E2, E3, HD by lia. unfold D.
    assert (V: vbit dst i = Z.testbit (nth (Z.to_nat k) dst 0) j) by (unfold vbit; rewrite E2, E3; auto). clear E2 E3.
    destruct (k <? n) eqn:Ekn.
    + rewrite Z.lor_spec, tb_shl by lia. destruct (j <? w) eqn:Ejw; [|lia]. cbn [andb]. destruct (k =? 0) eqn:Ek0.
      * assert (k = 0) by lia. subst k. rewrite Z.mul_0_r in Ei. cbn [Z.add] in Ei. subst i. rewrite tb_ones by lia. destruct (j <? shift) eqn:Ej.
        -- rewrite Z.testbit_neg_r by lia. cbn [orb andb]. auto.
        -- cbn [andb]. rewrite orb_false_r, S'b by lia. rewrite Z.mul_0_r. cbn [Z.add]. destruct (j - shift <? bitLen) eqn:Eb, (j <? bitLen + shift) eqn:Eb2; cbn [andb]; auto; try lia.
           destruct (j <? w * dn) eqn:E5; auto. solve_w 0 n dn.
      * destruct (i <? shift) eqn:Eis; [solve_w k n dn|]. rewrite tb_shr by lia. destruct (Z_lt_le_dec (j - shift) 0).
        -- rewrite Z.testbit_neg_r by lia. cbn [orb]. rewrite S'b by lia. replace (w * (k - 1) + (j + (w - shift))) with (i - shift) by lia.
           destruct (i - shift <? bitLen) eqn:Eb, (i <? bitLen + shift) eqn:Eb2; cbn [andb]; auto; try lia. destruct (i <? w * dn) eqn:E5; auto. solve_w k n dn.
        -- rewrite (tb_high (S' (k - 1))) by (auto; lia). rewrite orb_false_r, S'b by lia. replace (w * k + (j - shift)) with (i - shift) by lia.
           destruct (i - shift <? bitLen) eqn:Eb, (i <? bitLen + shift) eqn:Eb2; cbn [andb]; auto; try lia. destruct (i <? w * dn) eqn:E5; auto. solve_w k n dn.
    + destruct (i <? shift) eqn:Eis; [solve_w k n dn|]. destruct (k <? dn) eqn:Ekd.
      * assert (k = n) by lia. subst k. rewrite tb_shr by lia. destruct (Z_lt_le_dec (j + (w - shift)) w).
        -- rewrite S'b by lia. replace (w * (n - 1) + (j + (w - shift))) with (i - shift) by lia.
           destruct (i - shift <? bitLen) eqn:Eb, (i <? bitLen + shift) eqn:Eb2; cbn [andb]; auto; try lia. destruct (i <? w * dn) eqn:E5; auto. solve_w n n dn.
        -- rewrite tb_high by auto. destruct (i <? bitLen + shift) eqn:Eb2; [lia|]. destruct (i <? w * dn) eqn:E5; auto. solve_w n n dn.
      * destruct (i <? bitLen + shift) eqn:Eb2; [solve_w k n dn|]. destruct (i <? w * dn) eqn:E5; auto. solve_w k n dn.
Qed.

Lemma shr_loop_spec src S shift : 0 <= shift <= w -> (forall j, 0 <= j < zlen src -> rd src j = Ok (S j)) ->
  forall n i dst, 0 <= i -> i + Z.of_nat n < zlen src -> i + Z.of_nat n <= zlen dst ->
  exists dst', shr_loop w n i shift dst src (S i) = Ok (dst', S (i + Z.of_nat n)) /\ length dst' = length dst /\
  forall j, 0 <= j -> nth (Z.to_nat j) dst' 0 =
    if (i <=? j) && (j <? i + Z.of_nat n) then Z.lor (shrT (S j) shift) (shlT w (S (j + 1)) (w - shift)) else nth (Z.to_nat j) dst 0.
Proof.
  intros Hs HS. induction n; intros i dst Hi HL HD.
  - exists dst. split; [cbn [shr_loop]; replace (i + Z.of_nat 0) with i by lia; auto|]. split; auto. intros j Hj. destruct (_ && _) eqn:E; auto. lia.
  - cbn [shr_loop]. rewrite HS by lia. cbn [bind]. rewrite wr_ok by lia. cbn [bind].
    match goal with |- context [upd dst _ ?v] => destruct (IHn (i + 1) (upd dst (Z.to_nat i) v)) as (dst' & E & L & H) end; try lia.
    + unfold zlen in *. rewrite upd_length. lia.
    + exists dst'. split; [rewrite E; replace (i + Z.of_nat (Datatypes.S n)) with (i + 1 + Z.of_nat n) by lia; auto|]. rewrite upd_length in L. split; auto. intros j Hj. rewrite H by auto. rewrite nth_upd. unfold zlen in HD.
      destruct ((i + 1 <=? j) && (j <? i + 1 + Z.of_nat n)) eqn:E1, ((i <=? j) && (j <? i + Z.of_nat (Datatypes.S n))) eqn:E2; auto; try lia.
      * assert (j = i) by lia. subst. rewrite Nat.eqb_refl. destruct (_ <? _)%nat eqn:E3; [auto|apply Nat.ltb_ge in E3; lia].
      * destruct (Z.to_nat j =? Z.to_nat i)%nat eqn:E3; auto. apply Nat.eqb_eq in E3. lia.
Qed.

Lemma shiftRightBit_spec dst src bitLen shift : 0 < bitLen -> bitLen + shift + w <= 2 ^ 64 -> 0 < shift < w ->
  RoundupBit w (bitLen + shift) <= zlen src -> words src -> RoundupBit w bitLen <= zlen dst -> words dst ->
  exists dst', shiftRightBit w dst src bitLen shift = Ok dst' /\ length dst' = length dst /\ words dst' /\
  forall i, 0 <= i -> vbit dst' i = if i <? bitLen then vbit src (i + shift) else if i <? w * RoundupBit w bitLen then false else vbit dst i.
Proof.
  intros H0 H1 Hsh HS HSw HL HW. destruct (roundup_spec bitLen ltac:(lia) ltac:(lia)) as (dn & Edn & Hdn & Hdn0).
  destruct (roundup_spec (bitLen + shift) ltac:(lia) ltac:(lia)) as (n & En & Hn & Hn0).
  unfold shiftRightBit. rewrite En, Edn in *. clear En Edn.
  rewrite (mask_spec (bitLen + shift) n (negb ((bitLen + shift) mod w =? 0)) ltac:(lia) Hn) by (pose proof (Z.mod_pos_bound (bitLen + shift) w ltac:(lia)); destruct (_ =? 0) eqn:?, (0 <? _) eqn:?; auto; lia). set (m := bitLen + shift - w * (n - 1)).
  assert (Hm: 0 < m <= w) by (unfold m; nia). assert (Hn1: 1 <= n) by nia. assert (Hdn1: 1 <= dn) by nia. assert (n = dn \/ n = dn + 1) by nia.
  set (S := fun k => nth (Z.to_nat k) src 0).
  set (S' := fun k => if k =? n - 1 then Z.land (S k) (Z.ones m) else S k).
  assert (Sw: forall k, word (S k)) by (intros; apply word_nth; auto).
  assert (S'w: forall k, word (S' k)) by (intros k; unfold S'; destruct (k =? n - 1); auto; apply word_land_ones; lia).
  assert (S'b: forall k j, 0 <= k < n -> 0 <= j < w -> Z.testbit (S' k) j = (w * k + j <? bitLen + shift) && vbit src (w * k + j)).
  { intros k j Hk Hj. rewrite vbit_word by lia. unfold S', S. destruct (k =? n - 1) eqn:Ek.
    - rewrite tb_ones by lia. f_equal. assert (k = n - 1) by lia. subst k. unfold m. destruct (_ <? bitLen + _) eqn:?, (j <? _) eqn:?; auto; lia.
    - assert (Q: w * (k + 1) <= w * (n - 1)) by (apply wle'; lia). destruct (_ <? bitLen + _) eqn:?; auto; lia. }
  assert (FIN: forall dst', length dst' = length dst -> (forall k, 0 <= k -> nth (Z.to_nat k) dst' 0 =
      if k <? dn then (if k =? n - 1 then shrT (S' k) shift else Z.lor (shrT (S' k) shift) (shlT w (S' (k + 1)) (w - shift))) else nth (Z.to_nat k) dst 0) ->
      length dst' = length dst /\ words dst' /\ forall i, 0 <= i -> vbit dst' i = if i <? bitLen then vbit src (i + shift) else if i <? w * dn then false else vbit dst i).
  { intros dst' L H2. split; auto. split.
    - apply Forall_forall. intros x Hx. destruct (In_nth _ _ 0 Hx) as (k & Hk & <-). specialize (H2 (Z.of_nat k) ltac:(lia)). rewrite Nat2Z.id in H2. rewrite H2.
      destruct (Z.of_nat k <? dn); [|apply word_nth; auto]. destruct (Z.of_nat k =? n - 1); [apply word_shr; auto; lia|]. apply word_lor; [apply word_shr; auto; lia|apply word_shl].
    - intros i Hi. destruct (split_idx i ltac:(lia)) as (k & j & Ei & Hk & Hj & E2 & E3). unfold vbit at 1. rewrite E2, E3, H2 by lia.
      destruct (k <? dn) eqn:Ekd.
      + assert (X: (if k =? n - 1 then Z.testbit (shrT (S' k) shift) j else Z.testbit (Z.lor (shrT (S' k) shift) (shlT w (S' (k + 1)) (w - shift))) j) =
          (i + shift <? bitLen + shift) && vbit src (i + shift)).
        { destruct (k =? n - 1) eqn:Ek.
          - rewrite tb_shr by lia. destruct (Z_lt_le_dec (j + shift) w).
            + rewrite S'b by lia. replace (w * k + (j + shift)) with (i + shift) by lia. auto.
            + rewrite tb_high by auto. destruct (i + shift <? bitLen + shift) eqn:?; auto. solve_w k n dn.
          - rewrite Z.lor_spec, tb_shr, tb_shl by lia. destruct (j <? w) eqn:?; [|lia]. cbn [andb]. destruct (Z_lt_le_dec (j + shift) w).
            + rewrite (Z.testbit_neg_r (S' (k + 1))) by lia. rewrite orb_false_r, S'b by lia. replace (w * k + (j + shift)) with (i + shift) by lia. auto.
            + rewrite tb_high by auto. cbn [orb]. rewrite S'b by lia. replace (w * (k + 1) + (j - (w - shift))) with (i + shift) by lia. auto. }
        replace (i + shift <? bitLen + shift) with (i <? bitLen) in X by (destruct (i <? bitLen) eqn:?, (i + shift <? bitLen + shift) eqn:?; auto; lia).
        destruct (k =? n - 1); rewrite X; (destruct (i <? bitLen) eqn:?; cbn [andb]; auto; destruct (i <? w * dn) eqn:?; auto; solve_w k n dn).
      + destruct (i <? bitLen) eqn:?; [solve_w k n dn|]. destruct (i <? w * dn) eqn:?; [solve_w k n dn|]. unfold vbit. rewrite E2, E3. auto. }
  destruct (n =? 1) eqn:En1.
  - assert (n = 1) by lia. subst n. rewrite rd_ok by lia. cbn [bind]. rewrite wr_ok by lia. eexists. split; [reflexivity|]. apply FIN; [apply upd_length|].
    intros k Hk. rewrite nth_upd. unfold zlen in *. assert (dn = 1) by lia. subst dn. change (Z.to_nat 0) with O. destruct (k <? 1) eqn:Ek.
    + assert (k = 0) by lia. subst. cbn [Z.to_nat Nat.eqb Z.eqb Z.sub Z.opp Z.add Z.pos_sub]. destruct (0 <? length dst)%nat eqn:E2; [|apply Nat.ltb_ge in E2; lia]. cbn [andb].
      unfold S'. change (0 =? 1 - 1) with true. cbn iota. unfold S. auto.
    + destruct (Z.to_nat k =? 0)%nat eqn:E2; [apply Nat.eqb_eq in E2; lia|auto].
  - rewrite rd_ok by lia. cbn [bind]. 
    destruct (shr_loop_spec src S shift ltac:(lia) ltac:(intros j Hj; apply rd_ok; auto) (Z.to_nat (n - 2)) 0 dst) as (dst1 & E & L & H2); try lia.
    rewrite Z2Nat.id in * by lia. cbn [Z.add] in *. change (nth (Z.to_nat 0) src 0) with (S 0). rewrite E. cbn [bind]. rewrite rd_ok by lia. cbn [bind]. fold (S (n - 1)).
    rewrite wr_ok by (unfold zlen in *; lia). cbn [bind].
    assert (ES: S' (n - 1) = Z.land (S (n - 1)) (Z.ones m)) by (unfold S'; rewrite Z.eqb_refl; auto). rewrite <- ES.
    assert (ES2: S' (n - 2) = S (n - 2)) by (unfold S'; destruct (n - 2 =? n - 1) eqn:?; auto; lia). rewrite <- ES2.
    set (dst2 := upd dst1 (Z.to_nat (n - 2)) (Z.lor (shrT (S' (n - 2)) shift) (shlT w (S' (n - 1)) (w - shift)))).
    assert (L2: length dst2 = length dst) by (unfold dst2; rewrite upd_length; auto).
    assert (H3: forall k, 0 <= k -> nth (Z.to_nat k) dst2 0 = if k <? n - 1 then Z.lor (shrT (S' k) shift) (shlT w (S' (k + 1)) (w - shift)) else nth (Z.to_nat k) dst 0).
    { intros k Hk. unfold dst2. rewrite nth_upd, H2 by lia. destruct (k <? n - 1) eqn:Ek.
      - destruct (Z.eq_dec k (n - 2)) as [-> |NE].
        + rewrite Nat.eqb_refl. destruct (_ <? _)%nat eqn:E3; [|apply Nat.ltb_ge in E3; unfold zlen in *; lia]. cbn [andb]. do 2 f_equal. f_equal. lia.
        + destruct (Z.to_nat k =? Z.to_nat (n - 2))%nat eqn:E3; [apply Nat.eqb_eq in E3; lia|]. cbn [andb]. destruct ((0 <=? k) && (k <? n - 2)) eqn:E4; [|lia].
          unfold S'. destruct (k =? n - 1) eqn:?; [lia|]. destruct (k + 1 =? n - 1) eqn:?; [lia|]. auto.
      - destruct (Z.to_nat k =? Z.to_nat (n - 2))%nat eqn:E3; [apply Nat.eqb_eq in E3; lia|]. cbn [andb]. destruct ((0 <=? k) && (k <? n - 2)) eqn:E4; [lia|]. auto. }
    destruct (n =? dn) eqn:End.
    + rewrite wr_ok by (unfold zlen in *; lia). eexists. split; [reflexivity|]. apply FIN; [rewrite upd_length; auto|].
      intros k Hk. rewrite nth_upd, H3 by lia. assert (dn = n) by lia. subst dn. destruct (k =? n - 1) eqn:Ek.
      * assert (k = n - 1) by lia. subst. rewrite Nat.eqb_refl. destruct (_ <? _)%nat eqn:E3; [|apply Nat.ltb_ge in E3; unfold zlen in *; lia]. cbn [andb]. destruct (n - 1 <? n) eqn:?; [auto|lia].
      * destruct (Z.to_nat k =? Z.to_nat (n - 1))%nat eqn:E3; [apply Nat.eqb_eq in E3; lia|]. cbn [andb]. destruct (k <? n - 1) eqn:?, (k <? n) eqn:?; auto; lia.
    + eexists. split; [reflexivity|]. apply FIN; auto. intros k Hk. rewrite H3 by lia. assert (dn = n - 1) by lia. subst dn. destruct (k <? n - 1) eqn:?; auto. destruct (k =? n - 1) eqn:?; [lia|auto].
Qed.
End W.
