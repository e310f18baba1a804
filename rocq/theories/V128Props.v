(** Property C76 (v128.hpp, portable branches of bit_operation.hpp). *)
Require Import Verif.Common Verif.ArrayProps Verif.V128Model.

Definition u128 (x : Z) : Prop := 0 <= x < 2 ^ 128.

Lemma mod_bits a n i : 0 <= n -> 0 <= i -> Z.testbit (a mod 2 ^ n) i = (i <? n) && Z.testbit a i.
Proof.
  intros Hn Hi. destruct (i <? n) eqn:E; cbn [andb].
  - apply Z.mod_pow2_bits_low. lia.
  - apply Z.mod_pow2_bits_high. lia.
Qed.
Lemma of64_bits h l i : 0 <= l < 2 ^ 64 -> 0 <= i -> Z.testbit (of64 h l) i = if i <? 64 then Z.testbit l i else Z.testbit h (i - 64).
Proof.
  intros Hl Hi. unfold of64. destruct (i <? 64) eqn:E.
  - rewrite <- (Z.mod_pow2_bits_low _ 64) by lia. rewrite Z.add_comm, Z_mod_plus_full, Z.mod_small by lia. auto.
  - replace i with (i - 64 + 64) at 1 by lia. rewrite <- Z.div_pow2_bits by lia. rewrite Z.add_comm, Z.div_add, Z.div_small by lia. auto.
Qed.
Lemma u128_bits x i : u128 x -> 128 <= i -> Z.testbit x i = false.
Proof. intros H Hi. unfold u128 in H. rewrite <- (Z.mod_small x (2 ^ 128)) by auto. rewrite mod_bits by lia. destruct (i <? 128) eqn:E; auto; lia. Qed.
Lemma hi_bits x i : 0 <= i -> Z.testbit (hi64 x) i = Z.testbit x (i + 64).
Proof. intros. unfold hi64. apply Z.div_pow2_bits; lia. Qed.
Lemma lo_bits x i : 0 <= i -> Z.testbit (lo64 x) i = (i <? 64) && Z.testbit x i.
Proof. intros. apply mod_bits; lia. Qed.
Lemma lo_rng x : 0 <= lo64 x < 2 ^ 64.
Proof. unfold lo64. apply Z.mod_pos_bound. lia. Qed.
Lemma shiftr_rng x n : 0 <= n -> 0 <= x < 2 ^ 64 -> 0 <= Z.shiftr x n < 2 ^ 64.
Proof.
  intros. rewrite Z.shiftr_div_pow2 by lia. assert (0 < 2 ^ n) by (apply Z.pow_pos_nonneg; lia).
  split; [apply Z.div_pos; lia|]. eapply Z.le_lt_trans; [|apply H0]. apply Z.div_le_upper_bound; nia.
Qed.
Lemma psrlq_bits n x i : 0 <= n -> 0 <= i -> u128 x ->
  Z.testbit (psrlq n x) i = (n <? 64) && if i <? 64 then (i + n <? 64) && Z.testbit x (i + n) else Z.testbit x (i + n).
Proof.
  intros Hn Hi Hx. unfold psrlq. destruct (n <? 64) eqn:En; cbn [andb]; try apply Z.bits_0.
  rewrite of64_bits by (first [assumption | apply shiftr_rng; [lia|apply lo_rng]]). destruct (i <? 64) eqn:E.
  - rewrite Z.shiftr_spec, lo_bits by lia. auto.
  - rewrite Z.shiftr_spec, hi_bits by lia. f_equal. lia.
Qed.
Lemma psllq_bits n x i : 0 <= n -> 0 <= i -> u128 x ->
  Z.testbit (psllq n x) i = (n <? 64) && if i <? 64 then (n <=? i) && Z.testbit x (i - n) else (i <? 128) && (n <=? i - 64) && Z.testbit x (i - n).
Proof.
  intros Hn Hi Hx. unfold psllq. destruct (n <? 64) eqn:En; cbn [andb]; try apply Z.bits_0.
  rewrite of64_bits by (first [assumption | apply Z.mod_pos_bound; lia]). destruct (i <? 64) eqn:E.
  - rewrite mod_bits, Z.shiftl_spec by lia. rewrite E. cbn [andb]. destruct (n <=? i) eqn:E2; cbn [andb].
    + rewrite lo_bits by lia. destruct (i - n <? 64) eqn:E3; auto; lia.
    + rewrite Z.testbit_neg_r by lia. auto.
  - rewrite mod_bits, Z.shiftl_spec by lia. destruct (i <? 128) eqn:E1, (i - 64 <? 64) eqn:E1'; try lia; cbn [andb]; auto.
    destruct (n <=? i - 64) eqn:E2; cbn [andb].
    + rewrite hi_bits by lia. f_equal. lia.
    + rewrite Z.testbit_neg_r by lia. auto.
Qed.
Lemma psrldq8 x : u128 x -> u128 (psrldq 8 x) /\ forall i, 0 <= i -> Z.testbit (psrldq 8 x) i = Z.testbit x (i + 64).
Proof.
  intros H. unfold psrldq. change (8 * 8) with 64. split.
  - unfold u128 in *. rewrite Z.shiftr_div_pow2 by lia. lia.
  - intros i Hi. apply Z.shiftr_spec. lia.
Qed.
Lemma pslldq8 x : u128 (pslldq 8 x) /\ forall i, 0 <= i -> Z.testbit (pslldq 8 x) i = (i <? 128) && (64 <=? i) && Z.testbit x (i - 64).
Proof.
  unfold pslldq. change (8 * 8) with 64. split.
  - apply Z.mod_pos_bound. lia.
  - intros i Hi. rewrite mod_bits, Z.shiftl_spec by lia. destruct (64 <=? i) eqn:E; [rewrite andb_true_r; auto|].
    rewrite Z.testbit_neg_r by lia. rewrite !andb_false_r. auto.
Qed.

(** ** C76 *)
(** shrBit and shlBit shift the 128-bit number *)
Theorem C76_shrBit : forall n x, 0 <= n < 64 -> u128 x -> shrBit n x = x / 2 ^ n.
Proof.
  intros n x Hn Hx. rewrite <- Z.shiftr_div_pow2 by lia. apply Z.bits_inj'. intros i Hi. unfold shrBit, por.
  destruct (psrldq8 x Hx) as [H8 B8]. rewrite Z.lor_spec, psrlq_bits, psllq_bits, Z.shiftr_spec by (auto; lia).
  destruct (n <? 64) eqn:E; [cbn [andb]|lia]. destruct (i <? 64) eqn:E1.
  - destruct (64 - n <? 64) eqn:E2; cbn [andb].
    + destruct (64 - n <=? i) eqn:E3, (i + n <? 64) eqn:E4; try lia; cbn [andb orb]; rewrite ?orb_false_r; auto.
      rewrite B8 by lia. f_equal. lia.
    + destruct (i + n <? 64) eqn:E4; [|lia]. cbn [andb]. apply orb_false_r.
  - destruct (64 - n <? 64) eqn:E2; cbn [andb]; [|apply orb_false_r].
    destruct (i <? 128) eqn:E3; cbn [andb]; [|apply orb_false_r]. destruct (64 - n <=? i - 64) eqn:E4; cbn [andb]; [|apply orb_false_r].
    rewrite B8 by lia. rewrite !(u128_bits x) by (auto; lia). auto.
Qed.
Theorem C76_shlBit : forall n x, 0 <= n < 64 -> u128 x -> shlBit n x = x * 2 ^ n mod 2 ^ 128.
Proof.
  intros n x Hn Hx. rewrite <- Z.shiftl_mul_pow2 by lia. apply Z.bits_inj'. intros i Hi. unfold shlBit, por.
  destruct (pslldq8 x) as [H8 B8]. rewrite Z.lor_spec, psrlq_bits, psllq_bits, mod_bits, Z.shiftl_spec by (auto; lia).
  destruct (n <? 64) eqn:E; [cbn [andb]|lia]. destruct (i <? 64) eqn:E1.
  - destruct (i <? 128) eqn:E0; [cbn [andb]|lia].
    replace ((n <=? i) && Z.testbit x (i - n)) with (Z.testbit x (i - n)).
    2: { destruct (n <=? i) eqn:E2; cbn [andb]; auto. apply Z.testbit_neg_r. lia. }
    destruct (64 - n <? 64) eqn:E2; cbn [andb]; [|apply orb_false_r]. destruct (i + (64 - n) <? 64) eqn:E3; cbn [andb]; [|apply orb_false_r].
    rewrite B8 by lia. destruct (64 <=? i + (64 - n)) eqn:E4; [lia|]. rewrite andb_false_r. apply orb_false_r.
  - destruct (i <? 128) eqn:E0; cbn [andb].
    + destruct (64 - n <? 64) eqn:E2; cbn [andb].
      * rewrite B8 by lia. destruct (n <=? i - 64) eqn:E3; cbn [andb orb].
        -- destruct (i + (64 - n) <? 128) eqn:E4; cbn [andb]; [|apply orb_false_r].
           destruct (64 <=? i + (64 - n)) eqn:E5; [|lia]. cbn [andb]. replace (i + (64 - n) - 64) with (i - n) by lia. apply orb_diag.
        -- destruct (i + (64 - n) <? 128) eqn:E4; [|lia]. destruct (64 <=? i + (64 - n)) eqn:E5; [|lia]. cbn [andb]. f_equal. lia.
      * assert (n = 0) as -> by lia. destruct (0 <=? i - 64) eqn:E3; [|lia]. cbn [andb]. apply orb_false_r.
    + destruct (64 - n <? 64) eqn:E2; cbn [andb]; auto. rewrite B8 by lia. destruct (i + (64 - n) <? 128) eqn:E4; [lia|]. auto.
Qed.

(** the 384-bit number of three registers *)
Definition num3 (x0 x1 x2 : Z) : Z := x2 * 2 ^ 256 + x1 * 2 ^ 128 + x0.
Definition num (t : Z * Z * Z) : Z := let '(x0, x1, x2) := t in num3 x0 x1 x2.
Definition all128 (t : Z * Z * Z) : Prop := let '(x0, x1, x2) := t in u128 x0 /\ u128 x1 /\ u128 x2.
(** rotation of a 384-bit number *)
Definition rotr (x k : Z) : Z := x / 2 ^ k + (x mod 2 ^ k) * 2 ^ (384 - k).
Definition rotl (x k : Z) : Z := x * 2 ^ k mod 2 ^ 384 + x / 2 ^ (384 - k).

Lemma palignr_eq n a b : 0 <= n <= 16 -> u128 a -> u128 b ->
  palignr n a b = (a mod 2 ^ (8 * n)) * 2 ^ (128 - 8 * n) + b / 2 ^ (8 * n).
Proof.
  intros Hn Ha Hb. unfold palignr, u128 in *. rewrite Z.shiftr_div_pow2 by lia.
  assert (E: 2 ^ 128 = 2 ^ (128 - 8 * n) * 2 ^ (8 * n)) by (rewrite <- Z.pow_add_r by lia; f_equal; lia).
  remember (2 ^ (8 * n)) as k. remember (2 ^ (128 - 8 * n)) as k'.
  assert (0 < k) by (subst; apply Z.pow_pos_nonneg; lia). assert (0 < k') by (subst; apply Z.pow_pos_nonneg; lia).
  rewrite E at 1. rewrite Z.mul_assoc, Z.div_add_l by lia.
  assert (Hb': 0 <= b / k < k'). { split; [apply Z.div_pos; lia|apply Z.div_lt_upper_bound; lia]. }
  rewrite (Z.div_mod a k) at 1 by lia. symmetry. apply Z.mod_unique with (q := a / k).
  - left. pose proof (Z.mod_pos_bound a k). split; nia.
  - rewrite E. ring.
Qed.
Lemma palignr_u128 n a b : u128 (palignr n a b).
Proof. apply Z.mod_pos_bound. lia. Qed.

Theorem C76_rotrByte : forall n x0 x1 x2, 0 <= n <= 16 -> u128 x0 -> u128 x1 -> u128 x2 ->
  num (rotrByte n x0 x1 x2) = rotr (num3 x0 x1 x2) (8 * n) /\ all128 (rotrByte n x0 x1 x2).
Proof.
  intros n x0 x1 x2 Hn H0 H1 H2. split; [|cbn; repeat split; try apply palignr_u128; apply Z.mod_pos_bound; lia].
  unfold rotrByte, num, num3, rotr. cbv zeta. rewrite !palignr_eq by auto.
  assert (E: 2 ^ 128 = 2 ^ (128 - 8 * n) * 2 ^ (8 * n)) by (rewrite <- Z.pow_add_r by lia; f_equal; lia).
  assert (E2: 2 ^ 256 = 2 ^ 128 * 2 ^ 128) by reflexivity.
  assert (E3: 2 ^ (384 - 8 * n) = 2 ^ (128 - 8 * n) * 2 ^ 128 * 2 ^ 128) by (rewrite <- !Z.pow_add_r by lia; f_equal; lia).
  rewrite E2, E3. remember (2 ^ (8 * n)) as k. remember (2 ^ (128 - 8 * n)) as k'.
  assert (0 < k) by (subst; apply Z.pow_pos_nonneg; lia).
  assert (D: (x2 * (2 ^ 128 * 2 ^ 128) + x1 * 2 ^ 128 + x0) / k = x2 * k' * 2 ^ 128 + x1 * k' + x0 / k).
  { replace (x2 * (2 ^ 128 * 2 ^ 128) + x1 * 2 ^ 128 + x0) with ((x2 * k' * 2 ^ 128 + x1 * k') * k + x0) by (rewrite E; ring). apply Z.div_add_l. lia. }
  assert (M: (x2 * (2 ^ 128 * 2 ^ 128) + x1 * 2 ^ 128 + x0) mod k = x0 mod k).
  { replace (x2 * (2 ^ 128 * 2 ^ 128) + x1 * 2 ^ 128 + x0) with (x0 + (x2 * k' * 2 ^ 128 + x1 * k') * k) by (rewrite E; ring). apply Z.mod_add. lia. }
  rewrite D, M. pose proof (Z.div_mod x1 k ltac:(lia)) as D1. pose proof (Z.div_mod x2 k ltac:(lia)) as D2.
  rewrite D2 at 3. rewrite D1 at 3. rewrite E. ring.
Qed.
Lemma rotl_byte_eq n x0 x1 x2 : 0 <= n <= 16 -> rotlByte n x0 x1 x2 =
  (palignr (16 - n) x0 x2, palignr (16 - n) x1 x0, palignr (16 - n) x2 x1).
Proof. reflexivity. Qed.
Theorem C76_rotlByte : forall n x0 x1 x2, 0 <= n <= 16 -> u128 x0 -> u128 x1 -> u128 x2 ->
  num (rotlByte n x0 x1 x2) = rotl (num3 x0 x1 x2) (8 * n) /\ all128 (rotlByte n x0 x1 x2).
Proof.
  intros n x0 x1 x2 Hn H0 H1 H2. split; [|cbn; repeat split; try apply palignr_u128; apply Z.mod_pos_bound; lia].
  rewrite rotl_byte_eq by auto. unfold num, num3, rotl. rewrite !palignr_eq by (auto; lia).
  replace (8 * (16 - n)) with (128 - 8 * n) by lia. replace (128 - (128 - 8 * n)) with (8 * n) by lia.
  assert (E: 2 ^ 128 = 2 ^ (8 * n) * 2 ^ (128 - 8 * n)) by (rewrite <- Z.pow_add_r by lia; f_equal; lia).
  assert (E2: 2 ^ 256 = 2 ^ 128 * 2 ^ 128) by reflexivity.
  assert (E3: 2 ^ (384 - 8 * n) = 2 ^ (128 - 8 * n) * 2 ^ 128 * 2 ^ 128) by (rewrite <- !Z.pow_add_r by lia; f_equal; lia).
  assert (E4: 2 ^ 384 = 2 ^ 128 * 2 ^ 128 * 2 ^ 128) by reflexivity.
  unfold u128 in *. rewrite E2, E3, E4. remember (2 ^ (8 * n)) as k. remember (2 ^ (128 - 8 * n)) as k'. remember (2 ^ 128) as M.
  assert (0 < k) by (subst; apply Z.pow_pos_nonneg; lia). assert (0 < k') by (subst; apply Z.pow_pos_nonneg; lia). assert (0 < M) by nia.
  pose proof (Z.div_mod x0 k' ltac:(lia)) as D0. pose proof (Z.div_mod x1 k' ltac:(lia)) as D1. pose proof (Z.div_mod x2 k' ltac:(lia)) as D2.
  pose proof (Z.mod_pos_bound x0 k' ltac:(lia)) as B0. pose proof (Z.mod_pos_bound x1 k' ltac:(lia)) as B1. pose proof (Z.mod_pos_bound x2 k' ltac:(lia)) as B2.
  assert (Q: forall x, 0 <= x < M -> 0 <= x / k' < k). { intros x Hx. split; [apply Z.div_pos; lia|apply Z.div_lt_upper_bound; nia]. }
  pose proof (Q x0 H0) as Q0. pose proof (Q x1 H1) as Q1. pose proof (Q x2 H2) as Q2. clear Q.
  assert (L: 0 <= x1 * M + x0 < M * M) by nia.
  assert (Dv: (x2 * (M * M) + x1 * M + x0) / (k' * M * M) = x2 / k').
  { symmetry. apply Z.div_unique with (r := (x2 mod k') * (M * M) + x1 * M + x0); [left; split; nia|]. rewrite D2 at 1. ring. }
  assert (Mv: (x2 * (M * M) + x1 * M + x0) * k mod (M * M * M) = (x2 mod k') * k * (M * M) + x1 * M * k + x0 * k).
  { symmetry. apply Z.mod_unique with (q := x2 / k').
    - left. assert ((x2 mod k') * (M * M) + (x1 * M + x0) < k' * (M * M)) by nia. split; [nia|]. replace (M * M * M) with (k * (k' * (M * M))) by (rewrite E at 3; ring). nia.
    - rewrite D2 at 1. replace (M * M * M) with (k * k' * (M * M)) by (rewrite <- E; ring). ring. }
  rewrite Dv, Mv. clear Dv Mv L Heqk Heqk' HeqM. revert D0 D1 D2. generalize (x0 / k') (x0 mod k') (x1 / k') (x1 mod k') (x2 / k') (x2 mod k').
  intros q0 r0 q1 r1 q2 r2 -> -> ->. rewrite E. ring.
Qed.

(** swap128 exchanges the two blocks (also if they are the same one), copy128 copies *)
Theorem C76_swap_copy : forall mem p q a b, 0 <= p -> 0 <= q -> nth_error mem (Z.to_nat p) = Some a -> nth_error mem (Z.to_nat q) = Some b ->
  (exists mem', swap128 mem p q = Ok mem' /\ length mem' = length mem /\ nth_error mem' (Z.to_nat p) = Some b /\ nth_error mem' (Z.to_nat q) = Some a /\
     forall i, i <> Z.to_nat p -> i <> Z.to_nat q -> nth_error mem' i = nth_error mem i) /\
  (exists mem', copy128 mem p q = Ok mem' /\ length mem' = length mem /\ nth_error mem' (Z.to_nat p) = Some b /\
     forall i, i <> Z.to_nat p -> nth_error mem' i = nth_error mem i).
Proof.
  intros mem p q a b Hp Hq A B.
  assert (Lp: (Z.to_nat p < length mem)%nat) by (apply nth_error_Some; congruence).
  assert (Lq: (Z.to_nat q < length mem)%nat) by (apply nth_error_Some; congruence).
  unfold swap128, copy128.
  assert (RA: rd mem p = Ok a) by (unfold rd; rewrite A; destruct (p <? 0) eqn:E1; [lia|auto]).
  assert (RB: rd mem q = Ok b) by (unfold rd; rewrite B; destruct (q <? 0) eqn:E1; [lia|auto]).
  rewrite RA, RB. cbn [bind]. rewrite wr_ok by (unfold zlen; lia). cbn [bind]. rewrite wr_ok by (unfold zlen; rewrite upd_length; lia).
  split; (eexists; split; [reflexivity|]); rewrite ?upd_length.
  - split; [auto|]. split; [|split].
    + destruct (Nat.eq_dec (Z.to_nat p) (Z.to_nat q)) as [E|N].
      * rewrite E in *. rewrite nth_error_upd_eq by (rewrite upd_length; auto). congruence.
      * rewrite nth_error_upd_ne by auto. apply nth_error_upd_eq. auto.
    + apply nth_error_upd_eq. rewrite upd_length. auto.
    + intros k N1 N2. rewrite !nth_error_upd_ne by auto. auto.
  - split; [auto|]. split; [apply nth_error_upd_eq; auto|]. intros k N. apply nth_error_upd_ne. auto.
Qed.

(** lowest and highest set bit, bit masks *)
Lemma ctz_spec n x : 0 < x < 2 ^ Z.of_nat n -> 0 <= ctz_fuel n x < Z.of_nat n /\ Z.testbit x (ctz_fuel n x) = true /\ forall i, 0 <= i < ctz_fuel n x -> Z.testbit x i = false.
Proof.
  revert x. induction n; intros x H; [simpl in H; lia|]. cbn [ctz_fuel]. destruct (Z.odd x) eqn:O.
  - split; [lia|]. split; [rewrite Z.bit0_odd; auto|lia].
  - rewrite Nat2Z.inj_succ, Z.pow_succ_r in H by lia.
    assert (Hx: x = 2 * (x / 2)) by (rewrite Zodd_even_bool in O; apply negb_false_iff in O; rewrite Zeven_mod in O; apply Zeq_bool_eq in O; lia).
    destruct (IHn (x / 2)) as (A & B & C); [lia|].
    split; [lia|]. split.
    + replace (1 + ctz_fuel n (x / 2)) with (ctz_fuel n (x / 2) + 1) by lia. rewrite <- Z.div_pow2_bits by lia. auto.
    + intros i Hi. destruct (Z.eq_dec i 0) as [->|]; [rewrite Z.bit0_odd; auto|].
      replace i with (i - 1 + 1) by lia. rewrite <- Z.div_pow2_bits by lia. apply C. lia.
Qed.
Lemma bits_spec n x : 0 < x < 2 ^ Z.of_nat n -> bits_fuel n x = Z.log2 x + 1.
Proof.
  revert x. induction n; intros x H; [simpl in H; lia|]. cbn [bits_fuel]. destruct (x =? 0) eqn:E; [lia|].
  rewrite Nat2Z.inj_succ, Z.pow_succ_r in H by lia. destruct (Z.eq_dec x 1) as [->|].
  - destruct n; reflexivity.
  - rewrite IHn by lia. 
    assert (L: Z.log2 x = Z.succ (Z.log2 (x / 2))).
    { destruct (Z.odd x) eqn:O.
      - rewrite <- Z.log2_succ_double by lia. f_equal. rewrite Zodd_mod in O. apply Zeq_bool_eq in O. lia.
      - rewrite <- Z.log2_double by lia. f_equal. rewrite Zodd_even_bool in O; apply negb_false_iff in O; rewrite Zeven_mod in O; apply Zeq_bool_eq in O. lia. }
    rewrite L. lia.
Qed.
Lemma bsf32_spec x : 0 < x < 2 ^ 32 -> exists r, bsf32 x = Ok r /\ 0 <= r < 32 /\ Z.testbit x r = true /\ forall i, 0 <= i < r -> Z.testbit x i = false.
Proof.
  intros H. unfold bsf32, builtin_ctz. destruct (x =? 0) eqn:E; [lia|]. eexists. split; [reflexivity|]. apply (ctz_spec 32 x). auto.
Qed.
Lemma bsr32_spec x : 0 < x < 2 ^ 32 -> bsr32 x = Ok (Z.log2 x).
Proof.
  intros H. unfold bsr32, builtin_clz. destruct (x =? 0) eqn:E; [lia|]. cbn [bind]. rewrite (bits_spec 32) by auto. f_equal.
  assert (B: 0 <= Z.log2 x < 32) by (split; [apply Z.log2_nonneg|apply Z.log2_lt_pow2; lia]).
  assert (C: forallb (fun k => Z.lxor (32 - (k + 1)) 31 =? k) (map Z.of_nat (seq 0 32)) = true) by reflexivity.
  rewrite forallb_forall in C. apply Z.eqb_eq, C. apply in_map_iff. exists (Z.to_nat (Z.log2 x)). split; [lia|]. apply in_seq. lia.
Qed.
Theorem C76_bit_scan : forall x, 0 <= x < 2 ^ 64 ->
  (x = 0 -> bsf64 x = UB /\ bsr64 x = UB) /\
  (x <> 0 -> (exists r, bsf64 x = Ok r /\ 0 <= r < 64 /\ Z.testbit x r = true /\ forall i, 0 <= i < r -> Z.testbit x i = false) /\
             (exists r, bsr64 x = Ok r /\ 0 <= r < 64 /\ Z.testbit x r = true /\ forall i, r < i -> Z.testbit x i = false)).
Proof.
  intros x H. split; [intros ->; split; reflexivity|]. intros N. split.
  - unfold bsf64. destruct (x mod 2 ^ 32 =? 0) eqn:E; cbn [negb].
    + rewrite Z.shiftr_div_pow2 by lia. rewrite (Z.mod_small (x / 2 ^ 32)) by lia.
      destruct (bsf32_spec (x / 2 ^ 32)) as (r & -> & R & T & F); [lia|]. cbn [bind]. exists (r + 32). split; [auto|]. split; [lia|].
      rewrite Z.div_pow2_bits in T by lia. split; [auto|]. intros i Hi. destruct (Z_lt_le_dec i 32).
      * rewrite <- (Z.mod_pow2_bits_low x 32) by lia. replace (x mod 2 ^ 32) with 0 by lia. apply Z.bits_0.
      * specialize (F (i - 32) ltac:(lia)). rewrite Z.div_pow2_bits in F by lia. rewrite <- F. f_equal. lia.
    + destruct (bsf32_spec (x mod 2 ^ 32)) as (r & -> & R & T & F); [lia|]. exists r. split; [auto|]. split; [lia|].
      rewrite Z.mod_pow2_bits_low in T by lia. split; [auto|]. intros i Hi. rewrite <- (Z.mod_pow2_bits_low x 32) by lia. apply F. lia.
  - assert (L: bsr64 x = Ok (Z.log2 x)).
    { unfold bsr64. rewrite Z.shiftr_div_pow2 by lia. rewrite (Z.mod_small (x / 2 ^ 32)) by lia. destruct (x / 2 ^ 32 =? 0) eqn:E; cbn [negb].
      - rewrite Z.mod_small by lia. apply bsr32_spec. lia.
      - rewrite bsr32_spec by lia. cbn [bind]. f_equal. rewrite <- Z.shiftr_div_pow2 by lia. rewrite Z.log2_shiftr by lia.
        assert (32 <= Z.log2 x) by (apply Z.log2_le_pow2; lia). lia. }
    exists (Z.log2 x). split; [auto|]. split; [split; [apply Z.log2_nonneg|apply Z.log2_lt_pow2; lia]|].
    split; [apply Z.bit_log2; lia|]. intros i Hi. apply Z.bits_above_log2; lia.
Qed.
Theorem C76_mask : forall x, 0 <= x < 64 -> exists m, makeBitMask64 x = Ok m /\ 0 <= m < 2 ^ 64 /\ forall i, 0 <= i -> Z.testbit m i = (i <? x).
Proof.
  intros x H. unfold makeBitMask64. destruct (x <? 64) eqn:E; [|lia]. eexists. split; [reflexivity|].
  split; [apply Z.mod_pos_bound; lia|]. intros i Hi. rewrite Z.shiftl_mul_pow2 by lia.
  assert (0 < 2 ^ x) by (apply Z.pow_pos_nonneg; lia). assert (2 ^ x < 2 ^ 64) by (apply Z.pow_lt_mono_r; lia).
  rewrite (Z.mod_small (1 * 2 ^ x)) by lia. rewrite Z.mod_small by lia. replace (1 * 2 ^ x - 1) with (Z.ones x) by (rewrite Z.ones_equiv; lia).
  destruct (i <? x) eqn:E2; [apply Z.ones_spec_low; lia|apply Z.ones_spec_high; lia].
Qed.
Example C76_nonvacuous :
  shrBit 7 (set4 0x11223344 0x55667788 0x99aabbcc 0xddeeff00) = set4 0x11223344 0x55667788 0x99aabbcc 0xddeeff00 / 128
  /\ rotrByte 3 0x0102030405060708090a0b0c0d0e0f10 0x1112131415161718191a1b1c1d1e1f20 0x2122232425262728292a2b2c2d2e2f30
     = (0x1e1f200102030405060708090a0b0c0d, 0x2e2f301112131415161718191a1b1c1d, 0x0e0f102122232425262728292a2b2c2d)
  /\ swap128 [1; 2; 3] 0 2 = Ok [3; 2; 1] /\ bsf64 (2 ^ 40) = Ok 40 /\ bsr64 (2 ^ 40 + 1) = Ok 40 /\ makeBitMask64 3 = Ok 7.
Proof. repeat split. Qed.
(** ** Finding: rotrByte<n> and rotlByte<n> accept counts above 16 but do not rotate then: bytes are lost. *)
Theorem C76_rotate_far_finding : rotrByte 17 1 0 0 = (0, 0, 0) /\ rotlByte 17 (2 ^ 120) 0 0 <> rotlByte 1 0 (2 ^ 120) 0.
Proof. split; [reflexivity|]. vm_compute. discriminate. Qed.

Print Assumptions C76_shrBit.
Print Assumptions C76_shlBit.
Print Assumptions C76_rotrByte.
Print Assumptions C76_rotlByte.
Print Assumptions C76_swap_copy.
Print Assumptions C76_bit_scan.
Print Assumptions C76_mask.
