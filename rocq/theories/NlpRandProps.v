(** C83: uniform and normal random doubles (include/cybozu/nlp/random.hpp) *)
Require Import Verif.Common Verif.NlpRandModel.
Ltac Zify.zify_post_hook ::= idtac.

(** ** Specification: the doubles, in units of 2^-1127 *)
(** m * 2^e with 53 bits of m and e at least that of the smallest subnormal *)
Definition fmt (f : Z) : Prop := exists m e, f = m * 2 ^ e /\ 53 <= e /\ Z.abs m < 2 ^ 53.
Definition finite (f : Z) : Prop := Z.abs f < 2 ^ 2151.

(** ** Rounding *)
Lemma p2 a b : 0 <= a -> 0 <= b -> 2 ^ (a + b) = 2 ^ a * 2 ^ b.
Proof. intros. apply Z.pow_add_r; auto. Qed.
Lemma p2pos a : 0 <= a -> 0 < 2 ^ a.
Proof. intros. apply Z.pow_pos_nonneg; lia. Qed.
Lemma fmt_opp f : fmt f -> fmt (- f).
Proof. intros (m & e & -> & E & M). exists (- m), e. rewrite Z.abs_opp. split; [ring|auto]. Qed.
Lemma fmt_div53 f : fmt f -> exists g, f = g * 2 ^ 53.
Proof. intros (m & e & -> & E & M). exists (m * 2 ^ (e - 53)). rewrite <- Z.mul_assoc, <- p2 by lia. repeat f_equal. lia. Qed.
Lemma fmt_div f e : fmt f -> 53 <= e -> 2 ^ (e + 52) <= f -> exists g, f = g * 2 ^ e.
Proof.
  intros (m & k & -> & K & M) E L. destruct (Z_le_gt_dec e k) as [C|C].
  - exists (m * 2 ^ (k - e)). rewrite <- Z.mul_assoc, <- p2 by lia. repeat f_equal. lia.
  - exfalso. assert (m * 2 ^ k < 2 ^ 53 * 2 ^ k) by (apply Zmult_lt_compat_r; [apply p2pos|]; lia). rewrite <- p2 in H by lia.
    assert (2 ^ (53 + k) <= 2 ^ (e + 52)) by (apply Z.pow_le_mono_r; lia). lia.
Qed.
Lemma rne_bounds n d : 0 < d -> n / d <= rne n d <= n / d + 1 /\ (n mod d = 0 -> rne n d = n / d).
Proof.
  intros D. unfold rne. pose proof (Z.mod_pos_bound n d D) as B.
  destruct (Z.ltb_spec (2 * (n mod d)) d); [split; [lia|auto]|]. destruct (Z.ltb_spec d (2 * (n mod d))); [split; [lia|intros; lia]|].
  destruct (Z.even (n / d)); split; try lia; intros; lia.
Qed.
(** the exponent of the result *)
Definition ex (n s : Z) : Z := Z.max 53 (Z.log2 n - s - 52).
Lemma ex_spec n s : 0 < n -> 0 <= s -> 53 <= ex n s /\ (ex n s = 53 \/ 2 ^ (ex n s + 52 + s) <= n) /\ n < 2 ^ (ex n s + 53 + s).
Proof.
  intros N S. unfold ex. pose proof (Z.log2_nonneg n). pose proof (Z.log2_spec n N) as [L1 L2]. split; [lia|]. split.
  - destruct (Z_le_gt_dec (Z.log2 n - s - 52) 53); [left; lia|right]. rewrite Z.max_r by lia. replace (Z.log2 n - s - 52 + 52 + s) with (Z.log2 n) by lia. auto.
  - apply Z.lt_le_trans with (1 := L2). apply Z.pow_le_mono_r; lia.
Qed.
Lemma rpos_0 s : 0 <= s -> rpos 0 s = 0.
Proof. intros S. unfold rpos, rne. set (d := 2 ^ _). assert (0 < d) by (apply p2pos; lia). rewrite Z.div_0_l, Z.mod_0_l by lia. destruct (Z.ltb_spec (2 * 0) d); lia. Qed.
Lemma rpos_fmt n s : 0 <= n -> 0 <= s -> fmt (rpos n s).
Proof.
  intros N S. destruct (Z.eq_dec n 0) as [->|NZ]; [rewrite rpos_0 by auto; exists 0, 53; lia|].
  destruct (ex_spec n s) as (E1 & E2 & E3); [lia|auto|]. unfold rpos. fold (ex n s). set (e := ex n s) in *.
  assert (D: 0 < 2 ^ (s + e)) by (apply p2pos; lia). destruct (rne_bounds n _ D) as [[B1 B2] _].
  assert (Q: n / 2 ^ (s + e) < 2 ^ 53) by (apply Z.div_lt_upper_bound; auto; rewrite <- p2 by lia; replace (s + e + 53) with (e + 53 + s) by lia; auto).
  assert (Q0: 0 <= n / 2 ^ (s + e)) by (apply Z.div_pos; lia).
  destruct (Z.eq_dec (rne n (2 ^ (s + e))) (2 ^ 53)) as [X|X].
  - exists (2 ^ 52), (e + 1). rewrite X. split; [rewrite <- !p2 by lia; f_equal; lia|]. split; lia.
  - exists (rne n (2 ^ (s + e))), e. repeat split; auto. lia.
Qed.
(** the doubles next to n *)
Lemma below n s f : 0 < n -> 0 <= s -> fmt f -> f * 2 ^ s <= n -> f <= n / 2 ^ (s + ex n s) * 2 ^ ex n s.
Proof.
  intros N S F L. destruct (ex_spec n s N S) as (E1 & E2 & E3). set (e := ex n s) in *. assert (PE: 0 < 2 ^ e) by (apply p2pos; lia). assert (D: 0 < 2 ^ (s + e)) by (apply p2pos; lia).
  assert (DV: (exists g, f = g * 2 ^ e) -> f <= n / 2 ^ (s + e) * 2 ^ e).
  { intros (g & ->). apply Zmult_le_compat_r; [|lia]. apply Z.div_le_lower_bound; auto. rewrite p2 by lia. replace (2 ^ s * 2 ^ e * g) with (g * 2 ^ e * 2 ^ s) by ring. auto. }
  destruct E2 as [E2|E2]; [apply DV; rewrite E2; apply fmt_div53; auto|].
  destruct (Z_le_gt_dec (2 ^ (e + 52)) f) as [C|C]; [apply DV, fmt_div; auto|].
  apply Z.le_trans with (2 ^ (e + 52)); [lia|]. rewrite Z.add_comm, p2 by lia. apply Zmult_le_compat_r; [|lia].
  apply Z.div_le_lower_bound; auto. rewrite <- p2 by lia. replace (s + e + 52) with (e + 52 + s) by lia. auto.
Qed.
Lemma above n s f : 0 < n -> 0 <= s -> fmt f -> n <= f * 2 ^ s ->
  (if n mod 2 ^ (s + ex n s) =? 0 then n / 2 ^ (s + ex n s) else n / 2 ^ (s + ex n s) + 1) * 2 ^ ex n s <= f.
Proof.
  intros N S F L. assert (PS: 0 < 2 ^ s) by (apply p2pos; auto).
  destruct (ex_spec n s N S) as (E1 & E2 & E3). set (e := ex n s) in *.
  assert (D: 0 < 2 ^ (s + e)) by (apply p2pos; lia). assert (PE: 0 < 2 ^ e) by (apply p2pos; lia).
  assert (DV: exists g, f = g * 2 ^ e).
  { destruct E2 as [E2|E2]; [rewrite E2; apply fmt_div53; auto|]. apply fmt_div; auto. rewrite (p2 (e + 52) s) in E2 by lia.
    apply Zmult_lt_0_le_reg_r with (2 ^ s); lia. }
  destruct DV as (g & ->). apply Zmult_le_compat_r; [|lia].
  assert (NG: n <= g * 2 ^ (s + e)) by (rewrite p2 by lia; replace (g * (2 ^ s * 2 ^ e)) with (g * 2 ^ e * 2 ^ s) by ring; auto).
  pose proof (Z.div_mod n (2 ^ (s + e)) ltac:(lia)) as DM. pose proof (Z.mod_pos_bound n _ D) as MB.
  assert (QG: n / 2 ^ (s + e) <= g) by (apply Z.div_le_upper_bound; auto; lia).
  destruct (Z.eqb_spec (n mod 2 ^ (s + e)) 0) as [M0|M0]; [auto|].
  destruct (Z.eq_dec (n / 2 ^ (s + e)) g) as [EQ|]; [|lia]. exfalso. rewrite EQ in DM. lia.
Qed.
Lemma rpos_lo n s f : 0 <= n -> 0 <= s -> fmt f -> f * 2 ^ s <= n -> f <= rpos n s.
Proof.
  intros N S F L. assert (PS: 0 < 2 ^ s) by (apply p2pos; auto).
  destruct (Z_le_gt_dec f 0) as [FZ|FP].
  { apply Z.le_trans with 0; auto. unfold rpos. apply Z.mul_nonneg_nonneg; [|apply Z.pow_nonneg; lia].
    set (d := 2 ^ _). assert (D: 0 < d) by (apply p2pos; lia). destruct (rne_bounds n d D) as [[B _] _]. assert (0 <= n / d) by (apply Z.div_pos; lia). lia. }
  assert (NP: 0 < n) by (assert (0 < f * 2 ^ s) by (apply Z.mul_pos_pos; lia); lia).
  pose proof (below n s f NP S F L) as B. unfold rpos. fold (ex n s). destruct (ex_spec n s NP S) as (E1 & _).
  apply Z.le_trans with (1 := B). apply Zmult_le_compat_r; [|apply Z.pow_nonneg; lia]. apply rne_bounds. apply p2pos. lia.
Qed.
Lemma rpos_hi n s f : 0 <= n -> 0 <= s -> fmt f -> n <= f * 2 ^ s -> rpos n s <= f.
Proof.
  intros N S F L. assert (PS: 0 < 2 ^ s) by (apply p2pos; auto).
  destruct (Z.eq_dec n 0) as [->|NZ].
  { rewrite rpos_0 by auto. destruct (Z_le_gt_dec 0 f); auto. assert (f * 2 ^ s < 0) by (apply Z.mul_neg_pos; lia). lia. }
  pose proof (above n s f ltac:(lia) S F L) as B. unfold rpos. fold (ex n s). destruct (ex_spec n s ltac:(lia) S) as (E1 & _).
  apply Z.le_trans with (2 := B). apply Zmult_le_compat_r; [|apply Z.pow_nonneg; lia].
  assert (D: 0 < 2 ^ (s + ex n s)) by (apply p2pos; lia). destruct (rne_bounds n _ D) as [[B1 B2] B3]. destruct (Z.eqb_spec (n mod 2 ^ (s + ex n s)) 0) as [M0|M0]; [rewrite (B3 M0)|]; lia.
Qed.
Lemma rnd_fmt n s : 0 <= s -> fmt (rnd n s).
Proof. intros S. unfold rnd. destruct (Z.ltb_spec n 0); [apply fmt_opp|]; apply rpos_fmt; lia. Qed.
Lemma rnd_lo n s f : 0 <= s -> fmt f -> f * 2 ^ s <= n -> f <= rnd n s.
Proof.
  intros S F L. unfold rnd. destruct (Z.ltb_spec n 0); [|apply rpos_lo; auto].
  assert (X: rpos (- n) s <= - f) by (apply rpos_hi; [lia|auto|apply fmt_opp; auto|]; replace (- f * 2 ^ s) with (- (f * 2 ^ s)) by ring; lia). lia.
Qed.
Lemma rnd_hi n s f : 0 <= s -> fmt f -> n <= f * 2 ^ s -> rnd n s <= f.
Proof.
  intros S F L. unfold rnd. destruct (Z.ltb_spec n 0); [|apply rpos_hi; auto].
  assert (X: - f <= rpos (- n) s) by (apply rpos_lo; [lia|auto|apply fmt_opp; auto|]; replace (- f * 2 ^ s) with (- (f * 2 ^ s)) by ring; lia). lia.
Qed.
Lemma rnd_id f s : 0 <= s -> fmt f -> rnd (f * 2 ^ s) s = f.
Proof. intros S F. apply Z.le_antisymm; [apply rnd_hi|apply rnd_lo]; auto; lia. Qed.
(** the rounding is to nearest: no double is closer *)
Theorem C83_nearest n s f : 0 <= s -> fmt f -> Z.abs (rnd n s * 2 ^ s - n) <= Z.abs (f * 2 ^ s - n).
Proof.
  intros S F. assert (P: forall n f, 0 <= n -> fmt f -> Z.abs (rpos n s * 2 ^ s - n) <= Z.abs (f * 2 ^ s - n)).
  { clear n f F. intros n f N F. assert (PS: 0 < 2 ^ s) by (apply p2pos; auto). destruct (Z.eq_dec n 0) as [->|NZ]; [rewrite rpos_0 by auto; rewrite Z.mul_0_l; apply Z.abs_nonneg|].
    destruct (ex_spec n s ltac:(lia) S) as (E1 & _). assert (D: 0 < 2 ^ (s + ex n s)) by (apply p2pos; lia).
    pose proof (Z.div_mod n (2 ^ (s + ex n s)) ltac:(lia)) as DM. pose proof (Z.mod_pos_bound n _ D) as MB.
    pose proof (below n s f ltac:(lia) S F) as LO. pose proof (above n s f ltac:(lia) S F) as HI. unfold rpos. fold (ex n s).
    assert (DS: 2 ^ (s + ex n s) = 2 ^ ex n s * 2 ^ s) by (rewrite p2 by lia; ring). set (d := 2 ^ (s + ex n s)) in *. set (q := n / d) in *. set (r := n mod d) in *.
    rewrite <- Z.mul_assoc, <- DS.
    assert (LO': f * 2 ^ s <= n -> f * 2 ^ s <= q * d) by (intros X; rewrite DS, Z.mul_assoc; apply Zmult_le_compat_r; [auto|lia]).
    assert (HI': n <= f * 2 ^ s -> (if r =? 0 then q else q + 1) * d <= f * 2 ^ s) by (intros X; rewrite DS, Z.mul_assoc; apply Zmult_le_compat_r; [auto|lia]).
    assert (RN: rne n d * d = q * d /\ 2 * r <= d \/ rne n d * d = q * d + d /\ d <= 2 * r).
    { unfold rne. fold q r. destruct (Z.ltb_spec (2 * r) d); [left; lia|]. destruct (Z.ltb_spec d (2 * r)); [right; split; [ring|lia]|]. destruct (Z.even q); [left; lia|right; split; [ring|lia]]. }
    set (g := f * 2 ^ s) in *. set (qd := q * d) in *. replace (d * q) with qd in DM by (unfold qd; ring).
    destruct (Z_le_gt_dec g n) as [C|C].
    - specialize (LO' C). lia.
    - specialize (HI' ltac:(lia)). destruct (Z.eqb_spec r 0) as [R0|R0]; [fold qd in HI'; lia|]. replace ((q + 1) * d) with (qd + d) in HI' by (unfold qd; ring). lia. }
  unfold rnd. destruct (Z.ltb_spec n 0); [|apply P; auto]. specialize (P (- n) (- f) ltac:(lia) (fmt_opp f F)).
  replace (- rpos (- n) s * 2 ^ s - n) with (- (rpos (- n) s * 2 ^ s - - n)) by ring. rewrite Z.abs_opp.
  replace (f * 2 ^ s - n) with (- (- f * 2 ^ s - - n)) by ring. rewrite Z.abs_opp. auto.
Qed.

(** ** The uniform generator *)
Lemma fmt_int n e : Z.abs n <= 2 ^ 53 -> 53 <= e -> fmt (n * 2 ^ e).
Proof.
  intros N E. assert (C: n = 2 ^ 53 \/ n = - 2 ^ 53 \/ Z.abs n < 2 ^ 53) by lia. destruct C as [->|[->|C]]; [| |exists n, e; auto].
  - exists (2 ^ 52), (e + 1). split; [rewrite p2 by lia; change (2 ^ 53) with (2 ^ 52 * 2 ^ 1); ring|lia].
  - exists (- 2 ^ 52), (e + 1). split; [rewrite p2 by lia; change (2 ^ 53) with (2 ^ 52 * 2 ^ 1); ring|lia].
Qed.
Lemma fin_ok v : finite v -> fin v = Some v.
Proof. unfold finite, fin. destruct (Z.ltb_spec (Z.abs v) (2 ^ 2151)); [auto|lia]. Qed.
Lemma fin_small n e : Z.abs n <= 2 ^ 53 -> 0 <= e -> e <= 2000 -> finite (n * 2 ^ e).
Proof.
  intros N E1 E2. unfold finite. rewrite Z.abs_mul, (Z.abs_eq (2 ^ e)) by (apply Z.pow_nonneg; lia).
  apply Z.le_lt_trans with (2 ^ 53 * 2 ^ e); [apply Zmult_le_compat_r; auto; apply Z.pow_nonneg; lia|]. rewrite <- p2 by lia. apply Z.pow_lt_mono_r; lia.
Qed.
(** an exact product or sum *)
Lemma fmul_exact x y f : fmt f -> finite f -> x * y = f * 2 ^ 1127 -> fmul x y = Some f.
Proof. intros F B E. unfold fmul. rewrite E, rnd_id by (auto; lia). apply fin_ok. auto. Qed.
Lemma fadd_exact x y f : fmt f -> finite f -> x + y = f -> fadd x y = Some f.
Proof. intros F B E. unfold fadd. rewrite E. replace f with (f * 2 ^ 0) at 1 by (rewrite Z.pow_0_r; ring). rewrite rnd_id by (auto; lia). apply fin_ok. auto. Qed.
Definition word32 (w : Z) : Prop := 0 <= w < 2 ^ 32.
(** the 53 random bits *)
Definition bits (w1 w2 : Z) : Z := w1 / 2 ^ 5 * 2 ^ 26 + w2 / 2 ^ 6.
Lemma bits_range w1 w2 : word32 w1 -> word32 w2 -> 0 <= w1 / 2 ^ 5 < 2 ^ 27 /\ 0 <= w2 / 2 ^ 6 < 2 ^ 26 /\ 0 <= bits w1 w2 < 2 ^ 53.
Proof.
  unfold word32, bits. intros W1 W2. assert (A: 0 <= w1 / 2 ^ 5 < 2 ^ 27) by (split; [apply Z.div_pos; lia|apply Z.div_lt_upper_bound; lia]).
  assert (B: 0 <= w2 / 2 ^ 6 < 2 ^ 26) by (split; [apply Z.div_pos; lia|apply Z.div_lt_upper_bound; lia]). repeat split; try lia.
Qed.
(** the first half of the computation is exact: z = bits / 2^53 *)
Lemma getDouble_z a b w1 w2 : word32 w1 -> word32 w2 ->
  getDouble a b w1 w2 = obind (fsub b a) (fun d => obind (fmul d (bits w1 w2 * 2 ^ 1074)) (fun p => fadd p a)).
Proof.
  intros W1 W2. destruct (bits_range w1 w2 W1 W2) as (A & B & C). unfold getDouble, of_int, one. rewrite !Z.shiftr_div_pow2 by lia.
  rewrite (fmul_exact _ _ (w1 / 2 ^ 5 * 2 ^ 26 * 2 ^ 1127)); [|apply fmt_int; lia|apply fin_small; lia|ring]. cbn [obind].
  rewrite (fadd_exact _ _ (bits w1 w2 * 2 ^ 1127)); [|apply fmt_int; lia|apply fin_small; lia|unfold bits; ring]. cbn [obind].
  rewrite (fmul_exact _ _ (bits w1 w2 * 2 ^ 1074)); [reflexivity|apply fmt_int; lia|apply fin_small; lia|ring].
Qed.
(** With the default bounds 0 and 1 the value is exactly the 53 bits as a binary fraction: a multiple of 2^-53 in [0, 1) *)
Theorem C83_unit w1 w2 : word32 w1 -> word32 w2 ->
  getDouble (of_int 0) (of_int 1) w1 w2 = Some (bits w1 w2 * 2 ^ 1074) /\ 0 <= bits w1 w2 * 2 ^ 1074 < one.
Proof.
  intros W1 W2. destruct (bits_range w1 w2 W1 W2) as (A & B & C). rewrite getDouble_z by auto. unfold fsub, of_int, one.
  replace (1 * 2 ^ 1127 - 0 * 2 ^ 1127) with (1 * 2 ^ 1127 * 2 ^ 0) by (rewrite Z.pow_0_r; ring). rewrite rnd_id by (try apply fmt_int; lia). rewrite fin_ok by (apply fin_small; lia). cbn [obind].
  rewrite (fmul_exact _ _ (bits w1 w2 * 2 ^ 1074)); [|apply fmt_int; lia|apply fin_small; lia|ring]. cbn [obind]. split.
  - apply fadd_exact; [apply fmt_int; lia|apply fin_small; lia|ring].
  - assert (P: 0 < 2 ^ 1074) by (apply p2pos; lia). split; [apply Z.mul_nonneg_nonneg; lia|]. change 1127 with (53 + 1074). rewrite p2 by lia. apply Zmult_lt_compat_r; lia.
Qed.
(** (b - a) * z rounded does not exceed b - a, even if b - a was rounded up *)
Lemma prod_le D k g : 0 <= D -> D = g * 2 ^ 53 -> 0 <= k < 2 ^ 53 -> rnd (rnd D 0 * (k * 2 ^ 1074)) 1127 <= D.
Proof.
  intros D0 DG K. set (r1 := rnd D 0). assert (F1: fmt r1) by (apply rnd_fmt; lia). assert (R0: 0 <= r1) by (apply rnd_lo; [lia|exists 0, 53; lia|lia]).
  assert (S: 2 ^ 1127 = 2 ^ 53 * 2 ^ 1074) by (rewrite <- p2 by lia; reflexivity). assert (PQ: 0 < 2 ^ 1074) by (apply p2pos; lia).
  destruct (Z_le_gt_dec r1 D) as [C|C].
  - apply Z.le_trans with r1; auto. apply rnd_hi; [lia|auto|]. rewrite S. replace (r1 * (k * 2 ^ 1074)) with (r1 * k * 2 ^ 1074) by ring. rewrite Z.mul_assoc. apply Zmult_le_compat_r; [|lia]. apply Zmult_le_compat_l; lia.
  - (* rounded up: D lies strictly between q * 2^e and r1 = (q + 1) * 2^e *)
    assert (DP: 0 < D).
    { destruct (Z.eq_dec D 0) as [Z0|]; [|lia]. exfalso. unfold r1 in C. rewrite Z0 in C. change (rnd 0 0) with (rpos 0 0) in C. rewrite rpos_0 in C by lia. lia. }
    assert (RP: r1 = rpos D 0) by (unfold r1, rnd; destruct (Z.ltb_spec D 0); [lia|auto]).
    destruct (ex_spec D 0 DP ltac:(lia)) as (E1 & E2 & E3). unfold rpos in RP. fold (ex D 0) in RP. set (e := ex D 0) in *. rewrite Z.add_0_l in RP.
    assert (PE: 0 < 2 ^ e) by (apply p2pos; lia). destruct (rne_bounds D (2 ^ e) PE) as [[B1 B2] B3]. pose proof (Z.div_mod D (2 ^ e) ltac:(lia)) as DM. pose proof (Z.mod_pos_bound D _ PE) as MB.
    destruct E2 as [E2|E2].
    { exfalso. assert (M0: D mod 2 ^ e = 0) by (rewrite E2, DG; apply Z.mod_mul; lia). rewrite (B3 M0) in RP. rewrite M0 in DM. lia. }
    set (q := D / 2 ^ e) in *. assert (RQ: rne D (2 ^ e) = q + 1) by (destruct (Z.eq_dec (rne D (2 ^ e)) q) as [X|]; [|lia]; exfalso; rewrite X in RP; lia). rewrite RQ in RP.
    assert (Q53: q < 2 ^ 53) by (apply Z.div_lt_upper_bound; auto; rewrite <- p2 by lia; replace (e + 53) with (e + 53 + 0) by lia; auto).
    assert (Q52: 2 ^ 52 <= q) by (apply Z.div_le_lower_bound; auto; rewrite <- p2 by lia; replace (e + 52) with (e + 52 + 0) by lia; auto).
    assert (FQ: fmt (q * 2 ^ e)) by (exists q, e; lia).
    apply Z.le_trans with (q * 2 ^ e); [|lia]. rewrite RP.
    set (X := 2 ^ e * 2 ^ 1074). assert (PX: 0 < X) by (apply Z.mul_pos_pos; auto).
    replace ((q + 1) * 2 ^ e * (k * 2 ^ 1074)) with ((q + 1) * k * X) by (unfold X; ring).
    destruct (Z_le_gt_dec ((q + 1) * k * X) (q * 2 ^ e * 2 ^ 1127)) as [C2|C2]; [apply rnd_hi; auto; lia|].
    (* between q * 2^e and the midpoint *)
    assert (QX: q * 2 ^ e * 2 ^ 1127 = q * 2 ^ 53 * X) by (rewrite S; unfold X; ring). rewrite QX in C2.
    assert (UP: 2 * ((q + 1) * k) < (2 * q + 1) * 2 ^ 53).
    { assert ((q + 1) * k <= (q + 1) * (2 ^ 53 - 1)) by (apply Zmult_le_compat_l; lia). change (2 ^ 53) with (2 * 2 ^ 52) in *. lia. }
    set (N := (q + 1) * k) in *. assert (LN: q * 2 ^ 53 < N) by (apply Zmult_lt_reg_r with X; lia).
    assert (NX: 0 < N * X) by (apply Z.mul_pos_pos; lia).
    assert (XP: X = 2 ^ (e + 1074)) by (unfold X; rewrite p2 by lia; auto).
    assert (LG: Z.log2 (N * X) = e + 1074 + 105).
    { apply Z.log2_unique; [lia|]. rewrite XP. split.
      - replace (2 ^ (e + 1074 + 105)) with (2 ^ 52 * 2 ^ 53 * 2 ^ (e + 1074)) by (rewrite <- !p2 by lia; f_equal; lia). apply Zmult_le_compat_r; [|rewrite <- XP; lia]. lia.
      - replace (2 ^ Z.succ (e + 1074 + 105)) with (2 ^ 53 * 2 ^ 53 * 2 ^ (e + 1074)) by (rewrite <- !p2 by lia; f_equal; lia). apply Zmult_lt_compat_r; [rewrite <- XP; lia|]. lia. }
    unfold rnd. destruct (Z.ltb_spec (N * X) 0); [lia|]. unfold rpos. rewrite LG. replace (Z.max 53 (e + 1074 + 105 - 1127 - 52)) with e by lia.
    assert (DX: 2 ^ (1127 + e) = 2 ^ 53 * X) by (rewrite XP, <- p2 by lia; f_equal; lia). rewrite DX.
    assert (QQ: N * X / (2 ^ 53 * X) = q /\ N * X mod (2 ^ 53 * X) = (N - q * 2 ^ 53) * X).
    { assert (PD: 0 < 2 ^ 53 * X) by (apply Z.mul_pos_pos; lia). assert (B: 0 <= (N - q * 2 ^ 53) * X < 2 ^ 53 * X) by (split; [apply Z.mul_nonneg_nonneg; lia|apply Zmult_lt_compat_r; lia]).
      split; symmetry; [apply Z.div_unique with ((N - q * 2 ^ 53) * X)|apply Z.mod_unique with q]; auto; ring. }
    unfold rne. destruct QQ as [-> ->]. destruct (Z.ltb_spec (2 * ((N - q * 2 ^ 53) * X)) (2 ^ 53 * X)) as [_|L]; [lia|]. exfalso.
    assert (2 * (N - q * 2 ^ 53) * X < 2 ^ 53 * X) by (apply Zmult_lt_compat_r; lia). lia.
Qed.
(** For any finite bounds a <= b whose difference does not overflow, the value is a double in [a, b] *)
Theorem C83_range a b w1 w2 : word32 w1 -> word32 w2 -> fmt a -> fmt b -> finite a -> finite b -> a <= b -> finite (rnd (b - a) 0) ->
  exists r, getDouble a b w1 w2 = Some r /\ fmt r /\ a <= r <= b.
Proof.
  intros W1 W2 FA FB IA IB L FD. destruct (bits_range w1 w2 W1 W2) as (_ & _ & C). rewrite getDouble_z by auto. unfold fsub. rewrite fin_ok by auto. cbn [obind].
  destruct (fmt_div53 a FA) as (ga & GA). destruct (fmt_div53 b FB) as (gb & GB).
  pose proof (prod_le (b - a) (bits w1 w2) (gb - ga) ltac:(lia) ltac:(rewrite GA, GB; ring) C) as PL.
  set (p := rnd (rnd (b - a) 0 * (bits w1 w2 * 2 ^ 1074)) 1127) in *.
  assert (R0: 0 <= rnd (b - a) 0) by (apply rnd_lo; [lia|exists 0, 53; lia|lia]).
  assert (P0: 0 <= p) by (apply rnd_lo; [lia|exists 0, 53; lia|rewrite Z.mul_0_l; apply Z.mul_nonneg_nonneg; [exact R0|apply Z.mul_nonneg_nonneg; [apply C|apply Z.pow_nonneg; lia]]]).
  assert (FP: finite p).
  { unfold finite in *. destruct (Z_le_gt_dec p (rnd (b - a) 0)) as [X|X]; [lia|]. exfalso.
    assert (PB: p <= rnd (b - a) 0) by (apply rnd_lo; [lia|apply rnd_fmt; lia|rewrite Z.pow_0_r; lia]). lia. }
  unfold fmul. fold p. rewrite fin_ok by auto. cbn [obind]. unfold fadd.
  assert (RA: a <= rnd (p + a) 0) by (apply rnd_lo; [lia|auto|rewrite Z.pow_0_r; lia]). assert (RB: rnd (p + a) 0 <= b) by (apply rnd_hi; [lia|auto|rewrite Z.pow_0_r; lia]).
  rewrite fin_ok by (unfold finite in *; lia). eexists. split; [reflexivity|]. split; [apply rnd_fmt; lia|lia].
Qed.
(** the exact case of the hypotheses: bounds -1 and 3 *)
Example C83_range_ex : fmt (of_int (-1)) /\ fmt (of_int 3) /\ finite (of_int (-1)) /\ finite (of_int 3) /\ finite (rnd (of_int 3 - of_int (-1)) 0).
Proof.
  assert (F: forall n, Z.abs n <= 2 ^ 53 -> fmt (of_int n) /\ finite (of_int n)) by (intros n N; split; [apply fmt_int; lia|apply fin_small; lia]).
  destruct (F (-1)) as [A1 A2]; [lia|]. destruct (F 3) as [B1 B2]; [lia|]. destruct (F 4) as [C1 C2]; [lia|]. split; [auto|]. split; [auto|]. split; [auto|]. split; [auto|].
  replace (of_int 3 - of_int (-1)) with (of_int 4 * 2 ^ 0) by (unfold of_int; rewrite Z.pow_0_r; ring). rewrite rnd_id by (auto; lia). auto.
Qed.
(** ** Finding: the upper bound of the documented half-open interval can be returned
    for a = 1, b = 2 and all bits set the last addition rounds 2 - 2^-53 to 2 *)
Theorem C83_upper_finding : getDouble (of_int 1) (of_int 2) (2 ^ 32 - 1) (2 ^ 32 - 1) = Some (of_int 2).
Proof. vm_compute. reflexivity. Qed.

(** ** The normal generator *)
(** the partial sums stay between -6 and -6 + i *)
Lemma sum_range g : (forall w1 w2, word32 w1 -> word32 w2 -> exists v, getDouble (a_ g) (b_ g) w1 w2 = Some v /\ 0 <= v <= one) ->
  forall ws i sum, Forall (fun p => word32 (fst p) /\ word32 (snd p)) ws -> 0 <= i -> i + zlen ws <= 100 -> of_int (-6) <= sum <= of_int (-6 + i) -> fmt sum ->
  exists r, sumup g sum ws = Some r /\ fmt r /\ of_int (-6) <= r <= of_int (-6 + i + zlen ws).
Proof.
  intros G. induction ws as [|[w1 w2] ws IH]; intros i sum W I1 I2 B F; cbn [sumup].
  - exists sum. rewrite zlen_nil, Z.add_0_r. auto.
  - rewrite zlen_cons in *. pose proof (zlen_nonneg ws). inversion W as [|? ? [Wa Wb] W']; subst. cbn [fst snd] in *. destruct (G w1 w2 Wa Wb) as (v & -> & V). cbn [obind]. unfold fadd.
    assert (PO: 0 < one) by (apply p2pos; lia). assert (FI: forall n, Z.abs n <= 2 ^ 53 -> fmt (of_int n)) by (intros n N; apply fmt_int; lia).
    assert (MO: forall n m, n <= m -> of_int n <= of_int m) by (intros n m L; apply Zmult_le_compat_r; lia).
    assert (LO: of_int (-6) <= rnd (sum + v) 0) by (apply rnd_lo; [lia|apply FI; lia|rewrite Z.pow_0_r; lia]).
    assert (HI: rnd (sum + v) 0 <= of_int (-6 + (i + 1))) by (apply rnd_hi; [lia|apply FI; lia|rewrite Z.pow_0_r; unfold of_int in *; lia]).
    assert (FN: finite (rnd (sum + v) 0)).
    { unfold finite. assert (T: finite (of_int (-6)) /\ finite (of_int 100)) by (split; apply fin_small; lia). unfold finite in T. pose proof (MO (-6 + (i + 1)) 100 ltac:(lia)). lia. }
    rewrite fin_ok by auto. cbn [obind]. destruct (IH (i + 1) (rnd (sum + v) 0) W' ltac:(lia) ltac:(lia) ltac:(auto) (rnd_fmt (sum + v) 0 ltac:(lia))) as (r & E & FR & BR).
    exists r. split; auto. split; auto. replace (-6 + i + (1 + zlen ws)) with (-6 + (i + 1) + zlen ws) by lia. auto.
Qed.
(** With the default parameters (mean 0, deviation 1, seed 0) every value is a double in [-6, 6] *)
Theorem C83_normal ws : Forall (fun p => word32 (fst p) /\ word32 (snd p)) ws -> length ws = 12%nat ->
  exists r, normal_get (normal_new (of_int 0) (of_int 1) 0) ws = Some r /\ fmt r /\ of_int (-6) <= r <= of_int 6.
Proof.
  intros W L. assert (Z12: zlen ws = 12) by (unfold zlen; rewrite L; reflexivity).
  destruct (sum_range (gen_ (normal_new (of_int 0) (of_int 1) 0))) with (ws := ws) (i := 0) (sum := of_int (-6)) as (r & E & F & B); auto; try lia.
  - cbn [normal_new gen_ uniform_new a_ b_]. intros w1 w2 W1 W2. destruct (C83_unit w1 w2 W1 W2) as [-> X]. eexists. split; [reflexivity|]. lia.
  - rewrite Z.add_0_r. lia.
  - apply fmt_int; lia.
  - rewrite Z12 in B. unfold normal_get. rewrite E. cbn [obind normal_new s_ u_]. exists r.
    assert (FN: finite r) by (unfold finite; assert (T: finite (of_int (-6)) /\ finite (of_int 6)) by (split; apply fin_small; lia); unfold finite in T; change (-6 + 0 + 12) with 6 in B; lia).
    rewrite (fmul_exact _ _ r F FN) by (unfold of_int, one; ring). cbn [obind]. rewrite (fadd_exact _ _ r F FN) by (unfold of_int; ring). auto.
Qed.
(** ** Finding: the seed of NormalRandomGenerator is used as the lower bound of its uniform generator, which is always
    seeded with 0; with seed 1 every value of the standard normal generator is 6 *)
Theorem C83_seed_finding ws u s seed : rg (gen_ (normal_new u s seed)) = 0 /\ a_ (gen_ (normal_new u s seed)) = of_int seed /\
  (Forall (fun p => word32 (fst p) /\ word32 (snd p)) ws -> length ws = 12%nat -> normal_get (normal_new (of_int 0) (of_int 1) 1) ws = Some (of_int 6)).
Proof.
  split; [reflexivity|]. split; [reflexivity|]. intros W L.
  assert (FI: forall n, Z.abs n <= 100 -> fmt (of_int n) /\ finite (of_int n)) by (intros n N; split; [apply fmt_int; lia|apply fin_small; lia]).
  assert (G: forall w1 w2, word32 w1 -> word32 w2 -> getDouble (of_int 1) (of_int 1) w1 w2 = Some (of_int 1)).
  { intros w1 w2 W1 W2. destruct (FI 1 ltac:(lia)) as [F1 F2]. destruct (C83_range (of_int 1) (of_int 1) w1 w2 W1 W2 F1 F1 F2 F2) as (r & -> & _ & B); [lia| |f_equal; lia].
    rewrite Z.sub_diag. unfold rnd. cbn [Z.ltb Z.compare]. rewrite rpos_0 by lia. unfold finite. cbn [Z.abs]. apply p2pos. lia. }
  assert (S: forall ws i, Forall (fun p => word32 (fst p) /\ word32 (snd p)) ws -> -6 <= i -> i + zlen ws <= 50 -> sumup (mk_u (of_int 1) (of_int 1) 0) (of_int i) ws = Some (of_int (i + zlen ws))).
  { clear ws W L. induction ws as [|[w1 w2] ws IH]; intros i W I1 I2; cbn [sumup a_ b_]; [rewrite zlen_nil, Z.add_0_r; auto|]. rewrite zlen_cons in *. pose proof (zlen_nonneg ws).
    inversion W as [|? ? [Wa Wb] W']; subst. cbn [fst snd] in *. rewrite G by auto. cbn [obind]. destruct (FI (i + 1) ltac:(lia)) as [F1 F2]. rewrite (fadd_exact _ _ (of_int (i + 1)) F1 F2) by (unfold of_int; ring). cbn [obind].
    rewrite IH by (auto; lia). f_equal. f_equal. lia. }
  unfold normal_get, normal_new, uniform_new. cbn [gen_ s_ u_]. assert (Z12: zlen ws = 12) by (unfold zlen; rewrite L; reflexivity).
  rewrite S by (auto; lia). rewrite Z12. cbn [obind]. change (-6 + 12) with 6. destruct (FI 6 ltac:(lia)) as [F1 F2].
  rewrite (fmul_exact _ _ (of_int 6) F1 F2) by (unfold of_int, one; generalize (2 ^ 1127); intros o; ring). cbn [obind]. apply (fadd_exact _ _ _ F1 F2). unfold of_int. ring.
Qed.

Print Assumptions C83_nearest.
Print Assumptions C83_unit.
Print Assumptions C83_range.
Print Assumptions C83_normal.
Print Assumptions C83_upper_finding.
Print Assumptions C83_seed_finding.
