Require Import Verif.Common Verif.StreamModel Verif.EndianModel Verif.SerializerModel Verif.BitVecModel Verif.BitVecProof Verif.Cnt Verif.SucModel.
Ltac Zify.zify_post_hook ::= idtac.

Lemma popn_cnt n x : popn n x = cnt (Z.testbit x) (Z.of_nat n).
Proof. unfold cnt. rewrite Nat2Z.id. induction n; cbn [popn cntn]; auto. rewrite IHn. auto. Qed.
Lemma cnt_mod x n m : 0 <= n -> m <= n -> cnt (Z.testbit (x mod 2 ^ n)) m = cnt (Z.testbit x) m.
Proof. intros. apply cnt_ext. intros i Hi. rewrite tb_mod by lia. destruct (i <? n) eqn:?; auto; lia. Qed.
Lemma cnt_mod' x n m : 0 <= n <= m -> cnt (Z.testbit (x mod 2 ^ n)) m = cnt (Z.testbit x) n.
Proof.
  intros. replace m with (n + (m - n)) by lia. rewrite cnt_add, cnt_mod by lia. rewrite (cnt_false (fun i => Z.testbit (x mod 2 ^ n) (n + i))); [lia|]. intros i Hi. cbn beta. rewrite tb_mod by lia. destruct (n + i <? n) eqn:?; auto; lia.
Qed.
Lemma popcnt32_cnt x : popcnt32 x = cnt (Z.testbit x) 32.
Proof. unfold popcnt32. rewrite popn_cnt. apply cnt_mod; lia. Qed.
Lemma popcnt32_low x n : 0 <= n <= 32 -> popcnt32 (x mod 2 ^ n) = cnt (Z.testbit x) n.
Proof. intros. rewrite popcnt32_cnt. apply cnt_mod'. auto. Qed.
Lemma cnt_shiftr x n m : 0 <= n -> cnt (Z.testbit (Z.shiftr x n)) m = cnt (fun i => Z.testbit x (n + i)) m.
Proof. intros. apply cnt_ext. intros i Hi. rewrite Z.shiftr_spec by lia. f_equal. lia. Qed.
Lemma popcnt64_cnt b x : popcnt64 b x = cnt (Z.testbit x) 64.
Proof.
  unfold popcnt64. destruct b. { apply (popn_cnt 64). } rewrite !popcnt32_cnt, cnt_shiftr by lia. change 64 with (32 + 32). rewrite cnt_add by lia. auto.
Qed.
Lemma sel_shiftr x h r p : 0 <= h -> is_sel (Z.testbit (Z.shiftr x h)) (r - cnt (Z.testbit x) h) p -> is_sel (Z.testbit x) r (h + p).
Proof.
  intros Hh S. apply is_sel_shift; auto. eapply is_sel_ext with (n := p + 1); [|destruct S; lia|exact S]. intros i Hi. rewrite Z.shiftr_spec by lia. f_equal. lia.
Qed.
(** one halving step of select64 *)
Lemma half_step v r h : 0 < h -> 0 <= v -> 1 <= r <= cnt (Z.testbit v) (2 * h) ->
  let c := cnt (Z.testbit v) h in
  exists r' v', (if c <? r then (r - c, Z.shiftr v h) else (r, v)) = (r', v') /\ 0 <= v' /\ 1 <= r' <= cnt (Z.testbit v') h /\
  forall p, is_sel (Z.testbit v') r' p -> is_sel (Z.testbit v) r ((if c <? r then h else 0) + p).
Proof.
  intros Hh Hv Hr c. destruct (c <? r) eqn:E; do 2 eexists; (split; [reflexivity|]).
  - split; [apply Z.shiftr_nonneg; auto|]. replace (2 * h) with (h + h) in Hr by lia. rewrite cnt_add in Hr by lia. fold c in Hr. rewrite cnt_shiftr by lia. split; [lia|].
    intros p S. apply sel_shiftr; auto. lia.
  - split; auto. fold c. split; [lia|]. auto.
Qed.

Definition sel8_ok (v r : Z) : bool :=
  if cnt (Z.testbit v) 8 <? r then true else
  match select8 v r with Ok p => (0 <=? p) && (p <? 8) && Z.testbit v p && (cnt (Z.testbit v) p =? r - 1) | _ => false end.
Lemma select8_table : forallb (fun v => forallb (fun r => sel8_ok (Z.of_nat v) (Z.of_nat r)) (seq 1 7)) (seq 0 256) = true.
Proof. vm_compute. reflexivity. Qed.
Lemma select8_spec v r : 0 <= v < 256 -> 1 <= r <= 7 -> r <= cnt (Z.testbit v) 8 -> exists p, select8 v r = Ok p /\ 0 <= p < 8 /\ is_sel (Z.testbit v) r p.
Proof.
  intros Hv Hr Hc. pose proof select8_table as T. rewrite forallb_forall in T. specialize (T (Z.to_nat v) ltac:(apply in_seq; lia)).
  rewrite forallb_forall in T. specialize (T (Z.to_nat r) ltac:(apply in_seq; lia)). rewrite !Z2Nat.id in T by lia. unfold sel8_ok in T.
  destruct (_ <? r) eqn:E; [lia|]. destruct (select8 v r) as [p| | |] eqn:E2; try discriminate. apply andb_true_iff in T. destruct T as [T T3]. apply andb_true_iff in T. destruct T as [T T2]. exists p. split; auto. split; [lia|]. split; [lia|]. split; auto. lia.
Qed.
Lemma cnt_full f n : 0 <= n -> cnt f n = n -> forall i, 0 <= i < n -> f i = true.
Proof.
  intros Hn. pattern n. apply Zind; [lia| |auto]. intros k Hk IH E i Hi. rewrite cnt_S in E by auto. pose proof (cnt_bounds f k Hk). pose proof (b2z_range (f k)).
  destruct (Z.eq_dec i k) as [-> |]; [destruct (f k); auto; cbn in E; lia|]. apply IH; lia.
Qed.

(** C28: select64 returns the position of the r-th set bit *)
Theorem C28_select64 : forall x64 v r, 0 <= v < 2 ^ 64 -> 1 <= r ->
  exists p, select64 x64 v r = Ok p /\
    if r <=? cnt (Z.testbit v) 64 then 0 <= p < 64 /\ is_sel (Z.testbit v) r p else p = 64.
Proof.
  intros x64 v r Hv Hr. unfold select64. rewrite popcnt64_cnt. destruct (_ <? r) eqn:E0.
  { exists 64. split; auto. destruct (r <=? _) eqn:?; auto; lia. }
  destruct (r <=? cnt _ 64) eqn:E1; [|lia].
  rewrite (popcnt32_low v 32) by lia.
  destruct (half_step v r 32 ltac:(lia) ltac:(lia) ltac:(change (2 * 32) with 64; lia)) as (r1 & v1 & S1 & Hv1 & Hr1 & P1).
  set (p1 := if cnt (Z.testbit v) 32 <? r then 32 else 0) in *.
  assert (Ep1: (if cnt (Z.testbit v) 32 <? r then (r - cnt (Z.testbit v) 32, 32, Z.shiftr v 32) else (r, 0, v)) = (r1, p1, v1)) by (unfold p1; destruct (cnt (Z.testbit v) 32 <? r); inversion S1; auto).
  rewrite Ep1. clear S1 Ep1.
  rewrite (popcnt32_low v1 16) by lia.
  destruct (half_step v1 r1 16 ltac:(lia) ltac:(lia) ltac:(change (2 * 16) with 32; lia)) as (r2 & v2 & S2 & Hv2 & Hr2 & P2).
  set (p2 := p1 + (if cnt (Z.testbit v1) 16 <? r1 then 16 else 0)).
  assert (Ep2: (if cnt (Z.testbit v1) 16 <? r1 then (r1 - cnt (Z.testbit v1) 16, p1 + 16, Z.shiftr v1 16) else (r1, p1, v1)) = (r2, p2, v2)) by (unfold p2; destruct (cnt (Z.testbit v1) 16 <? r1); inversion S2; rewrite ?Z.add_0_r; auto).
  rewrite Ep2. clear S2 Ep2.
  rewrite (popcnt32_low v2 8) by lia.
  destruct (half_step v2 r2 8 ltac:(lia) ltac:(lia) ltac:(change (2 * 8) with 16; lia)) as (r3 & v3 & S3 & Hv3 & Hr3 & P3).
  set (p3 := p2 + (if cnt (Z.testbit v2) 8 <? r2 then 8 else 0)).
  assert (Ep3: (if cnt (Z.testbit v2) 8 <? r2 then (r2 - cnt (Z.testbit v2) 8, p2 + 8, Z.shiftr v2 8) else (r2, p2, v2)) = (r3, p3, v3)) by (unfold p3; destruct (cnt (Z.testbit v2) 8 <? r2); inversion S3; rewrite ?Z.add_0_r; auto).
  rewrite Ep3. clear S3 Ep3.
  assert (B8: 0 <= v3 mod 2 ^ 8 < 256) by (apply Z.mod_pos_bound; lia).
  pose proof (cnt_bounds (Z.testbit v3) 8 ltac:(lia)).
  assert (LOW: forall p, 0 <= p < 8 -> is_sel (Z.testbit (v3 mod 2 ^ 8)) r3 p -> 0 <= p3 + p < 64 /\ is_sel (Z.testbit v) r (p3 + p)).
  { intros p Hp S. split.
    - unfold p3, p2, p1. repeat match goal with |- context [if ?b then _ else _] => destruct b end; lia.
    - unfold p3, p2. rewrite <- !Z.add_assoc. apply P1, P2, P3. eapply is_sel_ext with (n := 8); [|exact Hp|exact S]. intros i Hi. rewrite tb_mod by lia. destruct (i <? 8) eqn:?; auto; lia. }
  destruct ((r3 =? 8) && _) eqn:E8.
  - exists (p3 + 7). split; auto. apply LOW; [lia|]. apply andb_true_iff in E8. destruct E8 as [A B]. assert (v3 mod 2 ^ 8 = 255) as -> by lia. assert (r3 = 8) as -> by lia. split; [lia|]. split; reflexivity.
  - assert (r3 <> 8).
    { intros ->. apply andb_false_iff in E8. destruct E8 as [A|A]; [discriminate|].
      assert (C8: cnt (Z.testbit v3) 8 = 8) by lia. assert (v3 mod 2 ^ 8 = 255); [|lia]. apply Z.bits_inj'. intros i Hi. rewrite tb_mod by lia. change 255 with (Z.ones 8).
      rewrite Z.testbit_ones_nonneg by lia. destruct (i <? 8) eqn:?; auto. cbn [andb]. apply (cnt_full _ 8); auto; lia. }
    destruct (select8_spec (v3 mod 2 ^ 8) r3) as (p & Es & Hp & S); try lia. { rewrite cnt_mod by lia. lia. }
    rewrite Es. cbn [bind]. exists (p3 + p). split; auto.
Qed.
Theorem C28_popcnt : forall x64 x, 0 <= x < 2 ^ 64 -> popcnt64 x64 x = cnt (Z.testbit x) 64 /\ (x < 2 ^ 32 -> popcnt32 x = popcnt64 x64 x).
Proof.
  intros x64 x Hx. split; [apply popcnt64_cnt|]. intros H. rewrite popcnt32_cnt, popcnt64_cnt. change 64 with (32 + 32). rewrite cnt_add by lia. rewrite (cnt_false (fun i => Z.testbit x (32 + i))); [lia|].
  intros i Hi. apply (tb_high 32); [unfold word; lia|lia].
Qed.
Lemma ctz_spec x : forall n i, 0 <= i -> (forall j, 0 <= j < i -> Z.testbit x j = false) ->
  match ctz_from n i x with
  | Ok p => i <= p < i + Z.of_nat n /\ Z.testbit x p = true /\ forall j, 0 <= j < p -> Z.testbit x j = false
  | UB => forall j, 0 <= j < i + Z.of_nat n -> Z.testbit x j = false
  | _ => False
  end.
Proof.
  induction n; intros i Hi H; cbn [ctz_from].
  - intros j Hj. apply H. lia.
  - destruct (Z.testbit x i) eqn:E.
    + split; [lia|auto].
    + specialize (IHn (i + 1) ltac:(lia)). assert (H': forall j, 0 <= j < i + 1 -> Z.testbit x j = false) by (intros; destruct (Z.eq_dec j i) as [-> |]; auto; apply H; lia).
      specialize (IHn H'). destruct (ctz_from n (i + 1) x); auto; [split; [lia|apply IHn]|]. intros j Hj. apply IHn. lia.
Qed.
Lemma clz_spec x : forall n k, 
  match clz_from n k x with
  | Ok c => let p := Z.of_nat n - 1 - (c - k) in 0 <= p /\ k <= c /\ Z.testbit x p = true /\ forall j, p < j < Z.of_nat n -> Z.testbit x j = false
  | UB => forall j, 0 <= j < Z.of_nat n -> Z.testbit x j = false
  | _ => False
  end.
Proof.
  induction n; intros k; cbn [clz_from].
  - intros j Hj. lia.
  - destruct (Z.testbit x (Z.of_nat n)) eqn:E.
    + cbn zeta. replace (Z.of_nat (S n) - 1 - (k - k)) with (Z.of_nat n) by lia. repeat split; auto; try lia.
    + specialize (IHn (k + 1)). destruct (clz_from n (k + 1) x) as [c| | |]; auto.
      * cbn zeta in *. replace (Z.of_nat n - 1 - (c - (k + 1))) with (Z.of_nat (S n) - 1 - (c - k)) in IHn by lia. destruct IHn as (A & B & C & D). repeat split; auto; try lia.
        intros j Hj. destruct (Z.eq_dec j (Z.of_nat n)) as [-> |]; auto. apply D. lia.
      * intros j Hj. destruct (Z.eq_dec j (Z.of_nat n)) as [-> |]; auto. apply IHn. lia.
Qed.
Lemma all_zero n x : 0 <= n -> 0 <= x < 2 ^ n -> (forall j, 0 <= j < n -> Z.testbit x j = false) -> x = 0.
Proof. intros Hn Hx H. apply Z.bits_inj'. intros j Hj. rewrite Z.testbit_0_l. destruct (Z_lt_le_dec j n); [auto|]. rewrite <- (Z.mod_small x (2 ^ n)) by auto. rewrite tb_mod by lia. destruct (j <? n) eqn:?; auto; lia. Qed.
Lemma lxor_sub c n : 0 <= c < 2 ^ n -> 0 <= n -> Z.lxor c (2 ^ n - 1) = 2 ^ n - 1 - c.
Proof.
  intros Hc Hn. 
  replace (2 ^ n - 1) with (Z.ones n) by (rewrite Z.ones_equiv; lia).
  assert (Z.lxor c (Z.ones n) + c = Z.ones n); [|lia].
  assert (D: Z.land (Z.lxor c (Z.ones n)) c = 0).
  { apply Z.bits_inj'. intros j Hj. rewrite Z.land_spec, Z.lxor_spec, Z.testbit_0_l, Z.testbit_ones_nonneg by lia. destruct (Z.testbit c j) eqn:E; [|apply andb_false_r].
    destruct (j <? n) eqn:?; auto. exfalso. rewrite <- (Z.mod_small c (2 ^ n)) in E by auto. rewrite tb_mod in E by lia. destruct (j <? n); [lia|discriminate]. }
  rewrite Z.add_nocarry_lxor by auto. rewrite Z.lxor_assoc, (Z.lxor_comm _ c), <- Z.lxor_assoc, Z.lxor_nilpotent, Z.lxor_0_l. auto.
Qed.
(** lowest and highest set bit *)
Definition lowest (x p : Z) : Prop := 0 <= p /\ Z.testbit x p = true /\ forall j, 0 <= j < p -> Z.testbit x j = false.
Definition highest (x p : Z) : Prop := 0 <= p /\ Z.testbit x p = true /\ forall j, p < j -> Z.testbit x j = false.
Lemma bsf_n n x : 0 < x < 2 ^ Z.of_nat n -> exists p, ctz_from n 0 x = Ok p /\ lowest x p.
Proof.
  intros Hx. pose proof (ctz_spec x n 0 ltac:(lia) ltac:(intros; lia)) as S. destruct (ctz_from n 0 x) as [p| | |]; try contradiction.
  - exists p. split; auto. destruct S as (A & B & C). split; [lia|auto].
  - pose proof (all_zero (Z.of_nat n) x ltac:(lia) ltac:(lia) S). lia.
Qed.
Lemma bsr_n n k x : 0 < x < 2 ^ Z.of_nat n -> Z.of_nat n = 2 ^ k -> 0 <= k -> exists c, clz_from n 0 x = Ok c /\ highest x (Z.lxor c (2 ^ k - 1)).
Proof.
  intros Hx En Hk. pose proof (clz_spec x n 0) as S. destruct (clz_from n 0 x) as [c| | |]; try contradiction.
  - exists c. split; auto. cbn zeta in S. destruct S as (A & B & C & D). rewrite lxor_sub by lia. replace (2 ^ k - 1 - c) with (Z.of_nat n - 1 - (c - 0)) by lia. split; auto. split; auto.
    intros j Hj. destruct (Z_lt_le_dec j (Z.of_nat n)); [apply D; lia|]. rewrite <- (Z.mod_small x (2 ^ Z.of_nat n)) by lia. rewrite tb_mod by lia. destruct (j <? Z.of_nat n) eqn:?; auto; lia.
  - pose proof (all_zero (Z.of_nat n) x ltac:(lia) ltac:(lia) S). lia.
Qed.
Theorem C28_bsf_bsr : forall x64 x, 0 < x < 2 ^ 64 ->
  (exists p, bsf64 x64 x = Ok p /\ lowest x p) /\ (exists p, bsr64 x64 x = Ok p /\ highest x p) /\
  (x < 2 ^ 32 -> (exists p, bsf32 x = Ok p /\ lowest x p) /\ (exists p, bsr32 x = Ok p /\ highest x p)).
Proof.
  assert (F32: forall y, 0 < y < 2 ^ 32 -> exists p, bsf32 y = Ok p /\ lowest y p) by (intros y Hy; unfold bsf32; rewrite Z.mod_small by lia; apply (bsf_n 32); exact Hy).
  assert (R32: forall y, 0 < y < 2 ^ 32 -> exists p, bsr32 y = Ok p /\ highest y p).
  { intros y Hy. unfold bsr32. rewrite Z.mod_small by lia. destruct (bsr_n 32 5 y) as (c & E & H); auto; try lia. rewrite E. cbn [bind]. eexists. split; [reflexivity|]. exact H. }
  intros x64 x Hx. assert (SH: Z.shiftr x 32 = x / 2 ^ 32) by (apply Z.shiftr_div_pow2; lia).
  assert (DM: x = 2 ^ 32 * (x / 2 ^ 32) + x mod 2 ^ 32) by (apply Z.div_mod; lia). pose proof (Z.mod_pos_bound x (2 ^ 32) ltac:(lia)).
  assert (0 <= x / 2 ^ 32 < 2 ^ 32) by (split; [apply Z.div_pos; lia|apply Z.div_lt_upper_bound; lia]).
  split; [|split].
  - unfold bsf64. destruct x64; [apply (bsf_n 64); exact Hx|]. destruct (x mod 2 ^ 32 =? 0) eqn:E; cbn [negb].
    + destruct (F32 (Z.shiftr x 32)) as (p & Ep & A & B & C); [rewrite SH; lia|]. rewrite Ep. cbn [bind]. eexists. split; [reflexivity|]. split; [lia|]. rewrite Z.shiftr_spec in B by lia. split; auto.
      intros j Hj. destruct (Z_lt_le_dec j 32).
      * replace (Z.testbit x j) with (Z.testbit (x mod 2 ^ 32) j) by (rewrite tb_mod by lia; destruct (j <? 32) eqn:?; auto; lia). replace (x mod 2 ^ 32) with 0 by lia. apply Z.testbit_0_l.
      * specialize (C (j - 32) ltac:(lia)). rewrite Z.shiftr_spec in C by lia. replace (j - 32 + 32) with j in C by lia. auto.
    + destruct (F32 (x mod 2 ^ 32)) as (p & Ep & A & B & C); [lia|]. exists p. split; auto. split; auto. rewrite tb_mod in B by lia. apply andb_true_iff in B. destruct B as [B1 B]. split; auto.
      intros j Hj. specialize (C j Hj). rewrite tb_mod in C by lia. destruct (j <? 32) eqn:?; auto; lia.
  - unfold bsr64. destruct x64.
    { destruct (bsr_n 64 6 x) as (c & E & H1); auto; try lia. rewrite E. cbn [bind]. eexists. split; [reflexivity|]. exact H1. }
    destruct (Z.shiftr x 32 =? 0) eqn:E; cbn [negb].
    + destruct (R32 (x mod 2 ^ 32)) as (p & Ep & A & B & C); [lia|]. exists p. split; auto. replace (x mod 2 ^ 32) with x in * by lia. split; auto.
    + destruct (R32 (Z.shiftr x 32)) as (p & Ep & A & B & C); [lia|]. rewrite Ep. cbn [bind]. eexists. split; [reflexivity|]. split; [lia|]. rewrite Z.shiftr_spec in B by lia. split; auto.
      intros j Hj. specialize (C (j - 32) ltac:(lia)). rewrite Z.shiftr_spec in C by lia. replace (j - 32 + 32) with j in C by lia. auto.
  - intros Hl. split; [apply F32; lia|apply R32; lia].
Qed.
