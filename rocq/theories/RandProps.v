(** Properties C39 (generators), C40 (shuffle), C62 (Pcg32 period), C63 (RandomGenerator::read). *)
Require Import Permutation Znumtheory.
Require Import Verif.Common Verif.EndianModel Verif.EndianProps Verif.ShaSpec Verif.ShaProof Verif.HashProps Verif.RandModel.
Ltac Zify.zify_post_hook ::= idtac.

(** ** Specification of the generators (Marsaglia 2003; Vigna; O'Neill), on 32 and 64-bit words *)
Definition SHL (w n x : Z) : Z := (x * 2 ^ n) mod 2 ^ w.
(** Marsaglia's xorshift128 with shifts 11, 8, 19 *)
Definition xorshift128 (s : Z * Z * Z * Z) : Z * Z * Z * Z :=
  let '(x, y, z, w) := s in
  let t := Z.lxor x (SHL 32 11 x) in (y, z, w, Z.lxor (Z.lxor w (SHR 19 w)) (Z.lxor t (SHR 8 t))).
(** xorshift128plus (23, 18, 5): next state and output *)
Definition xorshift128plus (s : Z * Z) : (Z * Z) * Z :=
  let '(a, b) := s in
  let t := Z.lxor a (SHL 64 23 a) in
  let c := Z.lxor (Z.lxor t (SHR 18 t)) (Z.lxor b (SHR 5 b)) in ((b, c), add64 b c).
(** xoroshiro128plus (55, 14, 36) *)
Definition xoroshiro128plus (s : Z * Z) : (Z * Z) * Z :=
  let '(a, b) := s in
  let t := Z.lxor a b in
  ((Z.lxor (ROTL 64 55 a) (Z.lxor t (SHL 64 14 t)), ROTL 64 36 t), add64 a b).
(** PCG-XSH-RR 64/32 with increment 0x6d *)
Definition pcg_next (s : Z) : Z := (6364136223846793005 * s + 0x6d) mod 2 ^ 64.
Definition pcg_out (s : Z) : Z := ROTR 32 (s / 2 ^ 59) ((Z.lxor s (SHR 18 s) / 2 ^ 27) mod 2 ^ 32).

Definition xs_state (s : xs) : Z * Z * Z * Z := (x_ s, y_ s, z_ s, w_ s).
Definition xp_state (s : xp) : Z * Z := (s0_ s, s1_ s).
Definition state128 (s : Z * Z * Z * Z) : Prop := let '(x, y, z, w) := s in word 32 x /\ word 32 y /\ word 32 z /\ word 32 w.
Definition state64 (s : Z * Z) : Prop := let '(x, y) := s in word 64 x /\ word 64 y.

(** ** Word-level lemmas *)
Lemma shl32_SHL x n : 0 <= n -> shl32 x n = SHL 32 n x.
Proof. intros. unfold shl32, SHL. rewrite Z.shiftl_mul_pow2; auto. Qed.
Lemma shl64_SHL x n : 0 <= n -> shl64 x n = SHL 64 n x.
Proof. intros. unfold shl64, SHL. rewrite Z.shiftl_mul_pow2; auto. Qed.
Lemma SHL_word w n x : 0 <= w -> word w (SHL w n x).
Proof. apply word_mod. Qed.
Lemma SHR_word w n x : 0 <= n -> word w x -> word w (SHR n x).
Proof.
  intros Hn [H1 H2]. unfold SHR, word. assert (0 < 2 ^ n) by (apply Z.pow_pos_nonneg; lia). split; [apply Z.div_pos; lia|].
  apply Z.le_lt_trans with x; auto. apply Z.div_le_upper_bound; auto. nia.
Qed.
Lemma SHR_bit n x i : 0 <= n -> 0 <= i -> Z.testbit (SHR n x) i = Z.testbit x (i + n).
Proof. intros. unfold SHR. rewrite <- Z.shiftr_div_pow2 by lia. apply Z.shiftr_spec. lia. Qed.
Lemma SHL_bit w n x i : 0 <= n -> 0 <= w -> 0 <= i -> Z.testbit (SHL w n x) i = if (i <? w) && (n <=? i) then Z.testbit x (i - n) else false.
Proof.
  intros. unfold SHL. rewrite <- Z.shiftl_mul_pow2 by lia. destruct (Z.ltb_spec i w).
  - rewrite Z.mod_pow2_bits_low by lia. rewrite Z.shiftl_spec by lia. cbn [andb]. destruct (Z.leb_spec n i); auto.
    apply Z.testbit_neg_r. lia.
  - rewrite Z.mod_pow2_bits_high by lia. auto.
Qed.

(** x ^ (x << n) and x ^ (x >> n) are injective: a difference has no lowest / highest bit *)
Lemma xshl_inj w n x y : 0 < n -> 0 <= w -> word w x -> word w y -> Z.lxor x (SHL w n x) = Z.lxor y (SHL w n y) -> x = y.
Proof.
  intros Hn Hw Hx Hy E. apply Z.bits_inj'. intros i Hi.
  destruct (Z.leb_spec w i) as [Hl|Hl].
  { apply word_bits in Hx as [_ Hx]; auto. apply word_bits in Hy as [_ Hy]; auto. rewrite Hx, Hy; auto. }
  assert (Q: forall k, (Z.to_nat k < Z.to_nat i + 1)%nat -> 0 <= k -> Z.testbit x k = Z.testbit y k); [|apply Q; lia].
  generalize (Z.to_nat i + 1)%nat as m. intros m. 
  assert (Q: forall k, 0 <= k < Z.of_nat m -> Z.testbit x k = Z.testbit y k).
  { induction m as [|m IH]; intros k Hk; [lia|].
    assert (Z.testbit (Z.lxor x (SHL w n x)) k = Z.testbit (Z.lxor y (SHL w n y)) k) as B by congruence.
    rewrite !Z.lxor_spec, !SHL_bit in B by lia.
    destruct ((k <? w) && (n <=? k)) eqn:C; [|rewrite !xorb_false_r in B; auto].
    apply andb_true_iff in C as [C1 C2]. rewrite (IH (k - n)) in B by lia.
    destruct (Z.testbit x k), (Z.testbit y k), (Z.testbit y (k - n)); auto; discriminate. }
  intros k H1 H2. apply Q. lia.
Qed.
Lemma xshr_inj w n x y : 0 < n -> 0 <= w -> word w x -> word w y -> Z.lxor x (SHR n x) = Z.lxor y (SHR n y) -> x = y.
Proof.
  intros Hn Hw Hx Hy E. apply word_bits in Hx as [_ Hx]; auto. apply word_bits in Hy as [_ Hy]; auto.
  assert (Q: forall m k, 0 <= k -> w - Z.of_nat m <= k -> Z.testbit x k = Z.testbit y k).
  { induction m as [|m IH]; intros k H0 Hk; [rewrite Hx, Hy; auto; lia|].
    assert (Z.testbit (Z.lxor x (SHR n x)) k = Z.testbit (Z.lxor y (SHR n y)) k) as B by congruence.
    rewrite !Z.lxor_spec, !SHR_bit in B by lia. rewrite (IH (k + n)) in B by lia.
    destruct (Z.testbit x k), (Z.testbit y k), (Z.testbit y (k + n)); auto; discriminate. }
  apply Z.bits_inj'. intros i Hi. apply (Q (Z.to_nat w)); lia.
Qed.
(** an inverse of x -> x ^ (x << n), x -> x ^ (x >> n) by doubling *)
Lemma SHL_lxor w n x y : 0 <= n -> 0 <= w -> SHL w n (Z.lxor x y) = Z.lxor (SHL w n x) (SHL w n y).
Proof.
  intros Hn Hw. apply Z.bits_inj'. intros i Hi. rewrite Z.lxor_spec, !SHL_bit by lia.
  destruct ((i <? w) && (n <=? i)); auto. apply Z.lxor_spec.
Qed.
Lemma SHR_lxor n x y : 0 <= n -> SHR n (Z.lxor x y) = Z.lxor (SHR n x) (SHR n y).
Proof. intros Hn. apply Z.bits_inj'. intros i Hi. rewrite Z.lxor_spec, !SHR_bit by lia. apply Z.lxor_spec. Qed.
Lemma SHL_SHL w n m x : 0 <= n -> 0 <= m -> 0 <= w -> SHL w n (SHL w m x) = SHL w (n + m) x.
Proof.
  intros Hn Hm Hw. apply Z.bits_inj'. intros i Hi. rewrite (SHL_bit w n), (SHL_bit w (n + m)) by lia.
  destruct (Z.ltb_spec i w); auto. cbn [andb]. destruct (Z.leb_spec n i); [|destruct (Z.leb_spec (n + m) i); auto; lia].
  rewrite SHL_bit by lia. destruct (Z.ltb_spec (i - n) w); [|lia]. cbn [andb]. destruct (Z.leb_spec m (i - n)), (Z.leb_spec (n + m) i); try lia; auto.
  f_equal. lia.
Qed.
Lemma SHR_SHR n m x : 0 <= n -> 0 <= m -> SHR n (SHR m x) = SHR (n + m) x.
Proof. intros Hn Hm. apply Z.bits_inj'. intros i Hi. rewrite (SHR_bit n), (SHR_bit (n + m)), SHR_bit by lia. f_equal. lia. Qed.
Lemma SHL_big w n x : w <= n -> 0 <= w -> SHL w n x = 0.
Proof.
  intros. apply Z.bits_inj'. intros i Hi. rewrite SHL_bit, Z.bits_0 by lia.
  destruct (Z.ltb_spec i w); auto. destruct (Z.leb_spec n i); auto. lia.
Qed.
Lemma SHR_big w n x : w <= n -> 0 <= w -> word w x -> SHR n x = 0.
Proof.
  intros. apply word_bits in H1 as [_ B]; auto. apply Z.bits_inj'. intros i Hi. rewrite SHR_bit, Z.bits_0 by lia. apply B. lia.
Qed.
Fixpoint unshl (k : nat) (w n y : Z) : Z := match k with O => y | S k => unshl k w (2 * n) (Z.lxor y (SHL w n y)) end.
Fixpoint unshr (k : nat) (n y : Z) : Z := match k with O => y | S k => unshr k (2 * n) (Z.lxor y (SHR n y)) end.
Lemma unshl_lin k w : 0 <= w -> forall n y, 0 <= n -> Z.lxor (unshl k w n y) (SHL w n (unshl k w n y)) = unshl k w n (Z.lxor y (SHL w n y)).
Proof.
  intros Hw n y Hn. 
  assert (Q: forall k m z, 0 <= m -> Z.lxor (unshl k w m z) (SHL w n (unshl k w m z)) = unshl k w m (Z.lxor z (SHL w n z))).
  { induction k0 as [|k0 IH]; intros m z Hm; cbn [unshl]; auto. rewrite IH by lia. f_equal.
    rewrite !SHL_lxor, !SHL_SHL by lia. rewrite (Z.add_comm n m). rewrite !Z.lxor_assoc. f_equal. rewrite <- !Z.lxor_assoc. f_equal. apply Z.lxor_comm. }
  apply Q; auto.
Qed.
Lemma unshr_lin k : forall n y, 0 <= n -> Z.lxor (unshr k n y) (SHR n (unshr k n y)) = unshr k n (Z.lxor y (SHR n y)).
Proof.
  intros n y Hn.
  assert (Q: forall k m z, 0 <= m -> Z.lxor (unshr k m z) (SHR n (unshr k m z)) = unshr k m (Z.lxor z (SHR n z))).
  { induction k0 as [|k0 IH]; intros m z Hm; cbn [unshr]; auto. rewrite IH by lia. f_equal.
    rewrite !SHR_lxor, !SHR_SHR by lia. rewrite (Z.add_comm n m). rewrite !Z.lxor_assoc. f_equal. rewrite <- !Z.lxor_assoc. f_equal. apply Z.lxor_comm. }
  apply Q; auto.
Qed.
(** after k doublings the shift is 2^k n *)
Lemma unshl_inv k w : 0 <= w -> forall n y, 0 < n -> w <= n * 2 ^ Z.of_nat k -> word w y -> unshl k w n (Z.lxor y (SHL w n y)) = y.
Proof.
  intros Hw. induction k as [|k IH]; intros n y Hn Hk Hy; cbn [unshl].
  - change (2 ^ Z.of_nat 0) with 1 in Hk. rewrite SHL_big by lia. apply Z.lxor_0_r.
  - replace (Z.lxor (Z.lxor y (SHL w n y)) (SHL w n (Z.lxor y (SHL w n y)))) with (Z.lxor y (SHL w (2 * n) y)).
    + apply IH; auto; [lia|]. rewrite Nat2Z.inj_succ, Z.pow_succ_r in Hk by lia. lia.
    + rewrite SHL_lxor, SHL_SHL by lia. replace (n + n) with (2 * n) by lia. rewrite Z.lxor_assoc. f_equal.
      rewrite <- Z.lxor_assoc, Z.lxor_nilpotent, Z.lxor_0_l. auto.
Qed.
Lemma unshr_inv k w : 0 <= w -> forall n y, 0 < n -> w <= n * 2 ^ Z.of_nat k -> word w y -> unshr k n (Z.lxor y (SHR n y)) = y.
Proof.
  intros Hw. induction k as [|k IH]; intros n y Hn Hk Hy; cbn [unshr].
  - change (2 ^ Z.of_nat 0) with 1 in Hk. rewrite (SHR_big w) by (auto; lia). apply Z.lxor_0_r.
  - replace (Z.lxor (Z.lxor y (SHR n y)) (SHR n (Z.lxor y (SHR n y)))) with (Z.lxor y (SHR (2 * n) y)).
    + apply IH; auto; [lia|]. rewrite Nat2Z.inj_succ, Z.pow_succ_r in Hk by lia. lia.
    + rewrite SHR_lxor, SHR_SHR by lia. replace (n + n) with (2 * n) by lia. rewrite Z.lxor_assoc. f_equal.
      rewrite <- Z.lxor_assoc, Z.lxor_nilpotent, Z.lxor_0_l. auto.
Qed.
Lemma unshl_word k w : 0 <= w -> forall n y, word w y -> word w (unshl k w n y).
Proof. intros Hw. induction k; intros n y Hy; cbn [unshl]; auto. apply IHk. apply word_xor; auto. apply SHL_word; auto. Qed.
Lemma unshr_word k w : 0 <= w -> forall n y, 0 <= n -> word w y -> word w (unshr k n y).
Proof. intros Hw. induction k; intros n y Hn Hy; cbn [unshr]; auto. apply IHk; [lia|]. apply word_xor; auto. apply SHR_word; auto. Qed.
(** surjective *)
Lemma xshl_surj w n y : 0 < n -> 0 <= w -> word w y -> exists x, word w x /\ Z.lxor x (SHL w n x) = y.
Proof.
  intros Hn Hw Hy. exists (unshl (Z.to_nat w) w n y). split; [apply unshl_word; auto|].
  rewrite unshl_lin by lia. apply unshl_inv; auto. rewrite Z2Nat.id by lia.
  assert (w < 2 ^ w) by (apply Z.pow_gt_lin_r; lia). nia.
Qed.
Lemma xshr_surj w n y : 0 < n -> 0 <= w -> word w y -> exists x, word w x /\ Z.lxor x (SHR n x) = y.
Proof.
  intros Hn Hw Hy. exists (unshr (Z.to_nat w) n y). split; [apply unshr_word; auto; lia|].
  rewrite unshr_lin by lia. apply (unshr_inv _ w); auto. rewrite Z2Nat.id by lia.
  assert (w < 2 ^ w) by (apply Z.pow_gt_lin_r; lia). nia.
Qed.
Lemma ROTL_inj w n x y : 0 <= n <= w -> word w x -> word w y -> ROTL w n x = ROTL w n y -> x = y.
Proof.
  intros H Hx Hy E. rewrite !ROTL_ROTR in E. unfold ROTR in E. set (m := w - n) in *.
  pose proof (div_word w m x ltac:(lia) Hx) as D1. pose proof (div_word w m y ltac:(lia) Hy) as D2.
  assert (P: 0 < 2 ^ m) by (apply Z.pow_pos_nonneg; lia). assert (P2: 0 < 2 ^ (w - m)) by (apply Z.pow_pos_nonneg; lia).
  assert (x mod 2 ^ m = y mod 2 ^ m) by nia. assert (x / 2 ^ m = y / 2 ^ m) by nia.
  rewrite (Z.div_mod x (2 ^ m)), (Z.div_mod y (2 ^ m)) by lia. congruence.
Qed.
Lemma ROTL_surj w n y : 0 <= n <= w -> word w y -> exists x, word w x /\ ROTL w n x = y.
Proof.
  intros H Hy. exists (ROTR w n y). split; [apply ROTR_word; auto|]. rewrite ROTL_ROTR. unfold ROTR.
  replace (w - (w - n)) with n by lia.
  pose proof (div_word w n y H Hy) as D.
  assert (P: 0 < 2 ^ n) by (apply Z.pow_pos_nonneg; lia). assert (P2: 0 < 2 ^ (w - n)) by (apply Z.pow_pos_nonneg; lia).
  rewrite (Z.add_comm (y / 2 ^ n)), (Z.mul_comm (y mod 2 ^ n)).
  replace (2 ^ (w - n) * (y mod 2 ^ n) + y / 2 ^ n) with (y / 2 ^ n + (y mod 2 ^ n) * 2 ^ (w - n)) by lia.
  rewrite Z_div_plus_full by lia. rewrite (Z.div_small (y / 2 ^ n)) by lia. rewrite Z_mod_plus_full. rewrite (Z.mod_small (y / 2 ^ n)) by lia.
  pose proof (Z.div_mod y (2 ^ n)). lia.
Qed.

(** ** C39: the generators *)
Lemma iter_S {A} (f : A -> A) n s : Nat.iter (S n) f s = f (Nat.iter n f s).
Proof. reflexivity. Qed.
Definition bijective_on {A} (P : A -> Prop) (f : A -> A) : Prop :=
  (forall s, P s -> P (f s)) /\ (forall s t, P s -> P t -> f s = f t -> s = t) /\ (forall t, P t -> exists s, P s /\ f s = t).
Definition nonzero {A} (P : A -> Prop) (zero : A) (s : A) : Prop := P s /\ s <> zero.

Lemma bij_nonzero {A} (P : A -> Prop) f zero s n : bijective_on P f -> P zero -> f zero = zero -> nonzero P zero s -> nonzero P zero (Nat.iter n f s).
Proof.
  intros (B1 & B2 & _) Pz Ez [Hs Ns]. induction n as [|n [IP IN]]; [split; auto|]. rewrite !iter_S. split; [apply B1; auto|].
  intros E. apply IN. apply B2; auto. rewrite Ez. exact E.
Qed.

Theorem C39_xorshift_bijective : bijective_on state128 xorshift128.
Proof.
  split; [|split].
  - intros [[[x y] z] w] (Hx & Hy & Hz & Hw). cbn [xorshift128 state128]. v4; auto.
    repeat first [apply word_xor; [lia| |] | apply SHR_word; [lia|] | apply SHL_word; lia | assumption].
  - intros [[[x y] z] w] [[[x' y'] z'] w'] (Hx & Hy & Hz & Hw) (Hx' & Hy' & Hz' & Hw'). cbn [xorshift128]. intros E.
    assert (y = y') as <- by congruence. assert (z = z') as <- by congruence. assert (w = w') as <- by congruence.
    match type of E with (_, ?a) = (_, ?b) => assert (a = b) as E2 by congruence end. clear E.
    apply lxor_inj_l in E2. apply (xshr_inj 32) in E2; try lia; try (apply word_xor; auto; try lia; apply SHL_word; lia).
    apply (xshl_inj 32) in E2; auto; try lia. congruence.
  - intros [[[x y] z] w] (Hx & Hy & Hz & Hw).
    destruct (xshr_surj 32 8 (Z.lxor (Z.lxor z (SHR 19 z)) w)) as (t & Ht & Et); try lia.
    { repeat first [apply word_xor; [lia| |] | apply SHR_word; [lia|] | assumption]. }
    destruct (xshl_surj 32 11 t) as (a & Ha & Ea); auto; try lia.
    exists (a, x, y, z). split; [v4; auto|]. cbn [xorshift128]. rewrite Ea, Et. rewrite <- Z.lxor_assoc, Z.lxor_nilpotent, Z.lxor_0_l. auto.
Qed.
Definition seed (x d : Z) : Z := if x =? 0 then d else x.
Lemma xs_step s : let '(u, s') := xs_get32 s in xs_state s' = xorshift128 (xs_state s) /\ u = w_ s'.
Proof.
  unfold xs_get32, xs_state. cbn [xorshift128 x_ y_ z_ w_]. rewrite shl32_SHL by lia.
  unfold SHR. rewrite !Z.shiftr_div_pow2 by lia. auto.
Qed.
Lemma xs_iter n s : xs_state (Nat.iter n (fun s => snd (xs_get32 s)) s) = Nat.iter n xorshift128 (xs_state s).
Proof.
  induction n; auto. rewrite !iter_S. rewrite <- IHn. pose proof (xs_step (Nat.iter n (fun s => snd (xs_get32 s)) s)) as Q.
  destruct (xs_get32 _) as [u s']. destruct Q as [Q _]. exact Q.
Qed.
(** XorShift: from any four uint32_t arguments (zeros select Marsaglia's defaults), after any number of calls, the
    object is in the state given by Marsaglia's recurrence, which is not all zero, and get32 returns the next word *)
Theorem C39_xorshift : forall x y z w n, state128 (x, y, z, w) ->
  let s := Nat.iter n (fun s => snd (xs_get32 s)) (xs_init x y z w) in
  let spec := Nat.iter n xorshift128 (seed x 123456789, seed y 362436069, seed z 521288629, seed w 88675123) in
  xs_state s = spec /\ nonzero state128 (0, 0, 0, 0) (xs_state s) /\
  fst (xs_get32 s) = (let '(_, _, _, v) := xorshift128 spec in v) /\
  fst (get64_of xs_get32 s) = (let '(_, _, a, b) := xorshift128 (xorshift128 spec) in 2 ^ 32 * a + b).
Proof.
  intros x y z w n (Hx & Hy & Hz & Hw) s spec.
  assert (E: xs_state s = spec) by (unfold s, spec; rewrite xs_iter; reflexivity).
  assert (NZ: nonzero state128 (0, 0, 0, 0) spec).
  { unfold spec. apply bij_nonzero; [exact C39_xorshift_bijective|v4; unfold word; lia|reflexivity|].
    assert (S: forall a d, word 32 a -> word 32 d -> word 32 (seed a d)) by (intros a d A D; unfold seed; destruct (a =? 0); auto).
    split; [v4; apply S; auto; unfold word; lia|]. unfold seed. intros Q.
    assert ((if w =? 0 then 88675123 else w) = 0) as Q2 by congruence. destruct (Z.eqb_spec w 0); congruence. }
  split; auto. rewrite E. split; auto.
  pose proof (xs_step s) as S1. unfold get64_of. destruct (xs_get32 s) as [u s1]. destruct S1 as [S1 U1]. rewrite E in S1.
  pose proof (xs_step s1) as S2. destruct (xs_get32 s1) as [u2 s2]. destruct S2 as [S2 U2]. rewrite S1 in S2. cbn [fst].
  pose proof (proj1 C39_xorshift_bijective spec (proj1 NZ)) as W1. pose proof (proj1 C39_xorshift_bijective _ W1) as W2.
  rewrite <- S1, <- S2 in *. unfold xs_state in *. cbn [state128] in W1, W2. split; auto.
  assert (z_ s2 = w_ s1) as Ez. { cbn [xorshift128] in S2. congruence. }
  rewrite Ez. subst u u2. unfold shl64. rewrite shl_mod by lia.
  destruct W1 as (_ & _ & _ & W1). destruct W2 as (_ & _ & _ & W2). rewrite (Z.mod_small (w_ s1)) by exact W1.
  rewrite Z.lor_comm, lor_add; try lia; [exact W2|apply W1].
Qed.
Example C39_xorshift_nonvacuous : state128 (0, 7, 2 ^ 32 - 1, 0) /\ fst (xs_get32 (xs_init 0 0 0 0)) = 3701687786.
Proof. split; [v4; unfold word; lia|reflexivity]. Qed.

Theorem C39_plus_bijective : bijective_on state64 (fun s => fst (xorshift128plus s)) /\ bijective_on state64 (fun s => fst (xoroshiro128plus s)).
Proof.
  split; (split; [|split]).
  - intros [a b] (Ha & Hb). cbn [xorshift128plus fst state64]. split; auto.
    repeat first [apply word_xor; [lia| |] | apply SHR_word; [lia|] | apply SHL_word; lia | assumption].
  - intros [a b] [a' b'] (Ha & Hb) (Ha' & Hb'). cbn [xorshift128plus fst]. intros E. assert (b = b') as <- by congruence.
    match type of E with (_, ?a) = (_, ?b) => assert (a = b) as E2 by congruence end. clear E.
    apply lxor_inj_r in E2. apply (xshr_inj 64) in E2; try lia; try (apply word_xor; auto; try lia; apply SHL_word; lia).
    apply (xshl_inj 64) in E2; auto; try lia. congruence.
  - intros [a b] (Ha & Hb).
    destruct (xshr_surj 64 18 (Z.lxor (Z.lxor a (SHR 5 a)) b)) as (t & Ht & Et); try lia.
    { repeat first [apply word_xor; [lia| |] | apply SHR_word; [lia|] | assumption]. }
    destruct (xshl_surj 64 23 t) as (c & Hc & Ec); auto; try lia.
    exists (c, a). split; [split; auto|]. cbn [xorshift128plus fst]. rewrite Ec, Et. rewrite (Z.lxor_comm _ b), Z.lxor_assoc, Z.lxor_nilpotent, Z.lxor_0_r. auto.
  - intros [a b] (Ha & Hb). cbn [xoroshiro128plus fst state64]. 
    split; repeat first [apply ROTL_word; [lia|] | apply word_xor; [lia| |] | apply SHR_word; [lia|] | apply SHL_word; lia | assumption].
  - intros [a b] [a' b'] (Ha & Hb) (Ha' & Hb'). cbn [xoroshiro128plus fst]. intros E.
    match type of E with (?c, ?a) = (?d, ?b) => assert (a = b) as E2 by congruence; assert (c = d) as E1 by congruence end. clear E.
    apply ROTL_inj in E2; try lia; try (apply word_xor; auto; lia). rewrite <- E2 in E1. apply lxor_inj_r in E1. apply ROTL_inj in E1; auto; try lia. subst a'.
    apply lxor_inj_l in E2. congruence.
  - intros [a b] (Ha & Hb). destruct (ROTL_surj 64 36 b) as (t & Ht & Et); auto; try lia.
    destruct (ROTL_surj 64 55 (Z.lxor a (Z.lxor t (SHL 64 14 t)))) as (c & Hc & Ec); try lia.
    { repeat first [apply word_xor; [lia| |] | apply SHL_word; lia | assumption]. }
    exists (c, Z.lxor c t). split; [split; auto; apply word_xor; auto; lia|]. cbn [xoroshiro128plus fst].
    rewrite <- (Z.lxor_assoc c c t), Z.lxor_nilpotent, Z.lxor_0_l. rewrite Et, Ec.
    rewrite (Z.lxor_assoc a), Z.lxor_nilpotent, Z.lxor_0_r. auto.
Qed.
Lemma xo_rotl_ok x k : 0 <= k <= 64 -> word 64 x -> xo_rotl x k = ROTL 64 k x.
Proof. exact (rotate_ok x k). Qed.
Lemma xp_step s : xp_get64 s = (snd (xorshift128plus (xp_state s)), let '(a, b) := fst (xorshift128plus (xp_state s)) in XP a b).
Proof.
  unfold xp_get64, xp_state. cbn [xorshift128plus fst snd]. cbv zeta. rewrite shl64_SHL by lia. unfold SHR. rewrite !Z.shiftr_div_pow2 by lia.
  set (t := Z.lxor (s0_ s) (SHL 64 23 (s0_ s))).
  assert (Z.lxor (Z.lxor (Z.lxor t (s1_ s)) (t / 2 ^ 18)) (s1_ s / 2 ^ 5) = Z.lxor (Z.lxor t (t / 2 ^ 18)) (Z.lxor (s1_ s) (s1_ s / 2 ^ 5))) as ->.
  { rewrite !Z.lxor_assoc. f_equal. rewrite <- !Z.lxor_assoc. f_equal. apply Z.lxor_comm. }
  unfold add64. f_equal. f_equal. lia.
Qed.
Lemma xo_step s : state64 (xp_state s) -> xo_get64 s = (snd (xoroshiro128plus (xp_state s)), let '(a, b) := fst (xoroshiro128plus (xp_state s)) in XP a b).
Proof.
  intros [H0 H1]. unfold xo_get64, xp_state. cbn [xoroshiro128plus fst snd]. cbv zeta. 
  rewrite (Z.lxor_comm (s1_ s)). assert (word 64 (Z.lxor (s0_ s) (s1_ s))) by (apply word_xor; auto; lia).
  rewrite !xo_rotl_ok, shl64_SHL by (auto; lia). rewrite Z.lxor_assoc. auto.
Qed.
(** XorShift128Plus and Xoroshiro128Plus: from any seed, after any number of calls, state and output follow the
    published recurrence; a nonzero seed never leads to the zero state *)
Theorem C39_plus : forall s0 s1 n, state64 (s0, s1) ->
  (let s := Nat.iter n (fun s => snd (xp_get64 s)) (XP s0 s1) in
   let spec := Nat.iter n (fun s => fst (xorshift128plus s)) (s0, s1) in
   xp_state s = spec /\ fst (xp_get64 s) = snd (xorshift128plus spec) /\ fst (low32_of xp_get64 s) = snd (xorshift128plus spec) mod 2 ^ 32 /\
   ((s0, s1) <> (0, 0) -> nonzero state64 (0, 0) (xp_state s))) /\
  (let s := Nat.iter n (fun s => snd (xo_get64 s)) (XP s0 s1) in
   let spec := Nat.iter n (fun s => fst (xoroshiro128plus s)) (s0, s1) in
   xp_state s = spec /\ fst (xo_get64 s) = snd (xoroshiro128plus spec) /\ fst (low32_of xo_get64 s) = snd (xoroshiro128plus spec) mod 2 ^ 32 /\
   ((s0, s1) <> (0, 0) -> nonzero state64 (0, 0) (xp_state s))).
Proof.
  intros s0 s1 n Hs. destruct C39_plus_bijective as [B1 B2]. split; cbv zeta.
  - assert (E: xp_state (Nat.iter n (fun s => snd (xp_get64 s)) (XP s0 s1)) = Nat.iter n (fun s => fst (xorshift128plus s)) (s0, s1)).
    { induction n; auto. rewrite !iter_S. rewrite <- IHn. rewrite xp_step. cbn [snd]. destruct (fst _) as [a b]. reflexivity. }
    split; auto. rewrite <- E. unfold low32_of. rewrite xp_step. cbn [fst]. split; auto. split; auto.
    intros N. rewrite E. apply bij_nonzero; auto; [split; unfold word; lia|]. split; auto.
  - assert (E: xp_state (Nat.iter n (fun s => snd (xo_get64 s)) (XP s0 s1)) = Nat.iter n (fun s => fst (xoroshiro128plus s)) (s0, s1)
       /\ state64 (Nat.iter n (fun s => fst (xoroshiro128plus s)) (s0, s1))).
    { induction n; auto. rewrite !iter_S. destruct IHn as [I1 I2]. split.
      - rewrite <- I1. rewrite xo_step by (rewrite I1; auto). cbn [snd]. destruct (fst _) as [a b]. reflexivity.
      - apply (proj1 B2). exact I2. }
    destruct E as [E SW]. split; auto. rewrite <- E. unfold low32_of. rewrite xo_step by (rewrite E; auto). cbn [fst]. split; auto. split; auto.
    intros N. rewrite E. apply bij_nonzero; auto; [split; unfold word; lia|]. split; auto.
Qed.
Example C39_plus_nonvacuous : state64 (123456789, 987654321) /\ (123456789, 987654321) <> (0, 0) /\
  fst (xp_get64 (XP 123456789 987654321)) <> 0 /\ fst (xo_get64 (XP 1 2)) = 3.
Proof. split; [split; unfold word; lia|]. vm_compute. repeat split; congruence. Qed.
(** a zero seed is accepted and the generator then returns 0 for ever *)
Theorem C39_zero_seed_finding : forall n,
  xp_get64 (Nat.iter n (fun s => snd (xp_get64 s)) (XP 0 0)) = (0, XP 0 0) /\
  xo_get64 (Nat.iter n (fun s => snd (xo_get64 s)) (XP 0 0)) = (0, XP 0 0).
Proof.
  intros n. assert (Q1: xp_get64 (XP 0 0) = (0, XP 0 0)) by reflexivity. assert (Q2: xo_get64 (XP 0 0) = (0, XP 0 0)) by reflexivity.
  assert (Nat.iter n (fun s => snd (xp_get64 s)) (XP 0 0) = XP 0 0) as ->.
  { induction n; auto. rewrite !iter_S. rewrite IHn, Q1. auto. }
  assert (Nat.iter n (fun s => snd (xo_get64 s)) (XP 0 0) = XP 0 0) as ->.
  { induction n; auto. rewrite !iter_S. rewrite IHn, Q2. auto. }
  auto.
Qed.

(** *** Pcg32 *)
Lemma pcg_rotr_ok intel x r : word 32 x -> 0 <= r < 32 -> pcg_rotr intel x r = ROTR 32 r x.
Proof.
  intros Hx Hr. destruct intel; cbn [pcg_rotr].
  - rewrite (Z.mod_small r) by lia. unfold ROTR.
    assert (P: 0 < 2 ^ r) by (apply Z.pow_pos_nonneg; lia).
    rewrite (Z.div_mod x (2 ^ r)) at 2 by lia.
    replace (x / 2 ^ r + (2 ^ r * (x / 2 ^ r) + x mod 2 ^ r) * 2 ^ (32 - r)) with ((x / 2 ^ r + (x mod 2 ^ r) * 2 ^ (32 - r)) + (x / 2 ^ r) * (2 ^ r * 2 ^ (32 - r))) by ring.
    replace (2 ^ r * 2 ^ (32 - r)) with (2 ^ 32) by (rewrite <- Z.pow_add_r by lia; f_equal; lia).
    rewrite Z_mod_plus_full. apply Z.mod_small. apply (ROTR_word 32 r x); auto; lia.
  - change 31 with (Z.ones 5). rewrite Z.land_ones by lia. 
    rewrite <- Zmod_div_mod; [|lia|lia|exists (2 ^ 27); reflexivity].
    destruct (Z.eq_dec r 0) as [->|N].
    + change (- 0 mod 2 ^ 5) with 0. unfold shl32. rewrite Z.shiftl_0_r, Z.shiftr_0_r. rewrite Z.mod_small by exact Hx. rewrite Z.lor_diag.
      unfold ROTR. change (2 ^ 0) with 1. rewrite Z.div_1_r, Z.mod_1_r. lia.
    + replace (- r mod 2 ^ 5) with (32 - r). 2:{ apply (Z.mod_unique _ _ (-1)); lia. }
      apply (rotr_ok 32 r x); auto; lia.
Qed.
Theorem C39_pcg : forall intel s, 0 <= s < 2 ^ 64 -> pcg_get32 intel s = (pcg_out s, pcg_next s).
Proof.
  intros intel s Hs. unfold pcg_get32, pcg_out, pcg_next. cbv zeta.
  rewrite (Z.mul_comm s). f_equal.
  rewrite !Z.shiftr_div_pow2 by lia.
  assert (D: 0 <= s / 2 ^ 59 < 2 ^ (64 - 59)) by (apply div_word; [lia|exact Hs]). change (2 ^ (64 - 59)) with 32 in D.
  rewrite (Z.mod_small (s / 2 ^ 59)) by lia. rewrite pcg_rotr_ok; [|apply word_mod; lia|exact D].
  unfold SHR. rewrite (Z.lxor_comm s). auto.
Qed.
Theorem C39_pcg_bijective : bijective_on (word 64) pcg_next.
Proof.
  split; [|split].
  - intros s _. apply word_mod. lia.
  - intros s t Hs Ht E. unfold pcg_next in E.
    assert (Q: forall u, word 64 u -> (13877824140714322085 * ((6364136223846793005 * u + 0x6d) mod 2 ^ 64 - 0x6d)) mod 2 ^ 64 = u).
    { intros u Hu. rewrite Z.mul_sub_distr_l. rewrite <- Zminus_mod_idemp_l, Zmult_mod_idemp_r, Zminus_mod_idemp_l.
      replace (13877824140714322085 * (6364136223846793005 * u + 109) - 13877824140714322085 * 109) with (u + (4787856489426250814 * u) * 2 ^ 64) by lia.
      rewrite Z_mod_plus_full. apply Z.mod_small. exact Hu. }
    rewrite <- (Q s), <- (Q t) by auto. rewrite E. auto.
  - intros t Ht. exists ((13877824140714322085 * (t - 0x6d)) mod 2 ^ 64). split; [apply word_mod; lia|].
    unfold pcg_next. rewrite <- Zplus_mod_idemp_l, Zmult_mod_idemp_r, Zplus_mod_idemp_l.
    replace (6364136223846793005 * (13877824140714322085 * (t - 109)) + 109) with (t + (4787856489426250814 * (t - 109)) * 2 ^ 64) by lia.
    rewrite Z_mod_plus_full. apply Z.mod_small. exact Ht.
Qed.

(** ** C62: the state of Pcg32 runs through all 2^64 values with period exactly 2^64 *)
Lemma iter_add {A} (f : A -> A) n m s : Nat.iter (n + m) f s = Nat.iter n f (Nat.iter m f s).
Proof. induction n; auto. cbn [Nat.add]. rewrite !iter_S, IHn. auto. Qed.
Section Lcg.
Variable a c : Z.
Hypothesis Ha : a mod 4 = 1.
Hypothesis Hc : c mod 2 = 1.
Definition lcg (x : Z) : Z := a * x + c.
(** 2^k steps are x -> A x + C with A = 1 mod 4 and C = 2^k * odd, A = 1 mod 2^(k+2) *)
Lemma lcg_pow k : exists A C e, A = 1 + 4 * 2 ^ Z.of_nat k * e /\ (exists d, C = 2 ^ Z.of_nat k * (2 * d + 1)) /\
  forall x, Nat.iter (2 ^ k) lcg x = A * x + C.
Proof using Ha Hc.
  induction k as [|k (A & C & e & HA & (d & HC) & E)].
  - exists a, c, (a / 4). change (2 ^ Z.of_nat 0) with 1. split; [pose proof (Z.div_mod a 4); lia|]. split; [exists (c / 2); pose proof (Z.div_mod c 2); lia|]. reflexivity.
  - exists (A * A), (C * (A + 1)), (e + 2 * 2 ^ Z.of_nat k * e * e). rewrite Nat2Z.inj_succ, Z.pow_succ_r by lia.
    set (p := 2 ^ Z.of_nat k) in *. split; [subst A; ring|]. split.
    + exists (d + 2 * d * p * e + p * e). subst A C. ring.
    + intros x. replace (2 ^ S k)%nat with (2 ^ k + 2 ^ k)%nat by (cbn [Nat.pow]; lia). rewrite iter_add, !E. ring.
Qed.
(** 2^k steps add 2^k modulo 2^(k+1) *)
Lemma lcg_jump k x : (Nat.iter (2 ^ k) lcg x) mod 2 ^ Z.of_nat (S k) = (x + 2 ^ Z.of_nat k) mod 2 ^ Z.of_nat (S k).
Proof using Ha Hc.
  destruct (lcg_pow k) as (A & C & e & HA & (d & HC) & E). rewrite E, Nat2Z.inj_succ, Z.pow_succ_r by lia.
  set (p := 2 ^ Z.of_nat k) in *. subst A C.
  replace ((1 + 4 * p * e) * x + p * (2 * d + 1)) with ((x + p) + (2 * e * x + d) * (2 * p)) by ring. apply Z_mod_plus_full.
Qed.
Lemma lcg_cong m x y : x mod m = y mod m -> forall n, (Nat.iter n lcg x) mod m = (Nat.iter n lcg y) mod m.
Proof using.
  clear Ha Hc. intros E. induction n; auto. rewrite !iter_S. unfold lcg at 1 3.
  rewrite <- (Zplus_mod_idemp_l (a * Nat.iter n lcg x)), <- (Zplus_mod_idemp_l (a * Nat.iter n lcg y)).
  rewrite <- (Zmult_mod_idemp_r (Nat.iter n lcg x)), <- (Zmult_mod_idemp_r (Nat.iter n lcg y)). rewrite IHn. auto.
Qed.
Lemma mod_pow2_le x y k j : (j <= k)%nat -> x mod 2 ^ Z.of_nat k = y mod 2 ^ Z.of_nat k -> x mod 2 ^ Z.of_nat j = y mod 2 ^ Z.of_nat j.
Proof using.
  clear Ha Hc. intros H E. rewrite (Zmod_div_mod (2 ^ Z.of_nat j) (2 ^ Z.of_nat k) x), (Zmod_div_mod (2 ^ Z.of_nat j) (2 ^ Z.of_nat k) y); try (apply Z.pow_pos_nonneg; lia).
  - rewrite E. auto.
  - exists (2 ^ (Z.of_nat k - Z.of_nat j)). rewrite <- Z.pow_add_r by lia. f_equal. lia.
  - exists (2 ^ (Z.of_nat k - Z.of_nat j)). rewrite <- Z.pow_add_r by lia. f_equal. lia.
Qed.
(** every residue is reached *)
Lemma lcg_reach k x y : exists n, (n < 2 ^ k)%nat /\ (Nat.iter n lcg x) mod 2 ^ Z.of_nat k = y mod 2 ^ Z.of_nat k.
Proof using Ha Hc.
  induction k as [|k (n & Hn & E)].
  - exists O. split; [cbn; lia|]. change (2 ^ Z.of_nat 0) with 1. rewrite !Z.mod_1_r. auto.
  - assert (P: 0 < 2 ^ Z.of_nat k) by (apply Z.pow_pos_nonneg; lia).
    pose proof (lcg_jump k (Nat.iter n lcg x)) as J. rewrite <- iter_add in J.
    rewrite !Nat2Z.inj_succ, !Z.pow_succ_r in * by lia. set (p := 2 ^ Z.of_nat k) in *. set (u := Nat.iter n lcg x) in *.
    assert (D: exists q, u = y + p * q). { exists (u / p - y / p). pose proof (Z.div_mod u p). pose proof (Z.div_mod y p). lia. }
    destruct D as [q D]. destruct (Z.Even_or_Odd q) as [[h Hh]|[h Hh]].
    + exists n. split; [cbn [Nat.pow]; lia|]. fold u. rewrite D, Hh. replace (y + p * (2 * h)) with (y + h * (2 * p)) by ring. apply Z_mod_plus_full.
    + exists (2 ^ k + n)%nat. split; [cbn [Nat.pow]; lia|]. rewrite J, D, Hh.
      replace (y + p * (2 * h + 1) + p) with (y + (h + 1) * (2 * p)) by ring. apply Z_mod_plus_full.
Qed.
(** 2^j (2 m + 1) steps move every residue modulo 2^(j+1) by 2^j *)
Lemma lcg_odd j x m : (Nat.iter (m * 2 ^ j) lcg x) mod 2 ^ Z.of_nat (S j) = (x + Z.of_nat m * 2 ^ Z.of_nat j) mod 2 ^ Z.of_nat (S j).
Proof using Ha Hc.
  induction m as [|m IH]; [cbn [Nat.mul]; f_equal; cbn; lia|]. cbn [Nat.mul]. rewrite iter_add.
  rewrite lcg_jump. rewrite <- Zplus_mod_idemp_l, IH, Zplus_mod_idemp_l. f_equal. lia.
Qed.
Lemma lcg_period k x n : (Nat.iter n lcg x) mod 2 ^ Z.of_nat k = x mod 2 ^ Z.of_nat k -> exists q, n = (q * 2 ^ k)%nat.
Proof using Ha Hc.
  induction k as [|k IH]; intros E; [exists n; cbn; lia|].
  destruct IH as [q Hq]; [apply (mod_pow2_le _ _ (S k)); [lia|exact E]|]. subst n. rewrite lcg_odd in E.
  destruct (Nat.Even_or_Odd q) as [[h Hh]|[h Hh]]; [exists h; cbn [Nat.pow]; lia|]. exfalso.
  assert (P: 0 < 2 ^ Z.of_nat k) by (apply Z.pow_pos_nonneg; lia).
  rewrite Nat2Z.inj_succ, Z.pow_succ_r in E by lia. set (p := 2 ^ Z.of_nat k) in *.
  replace (x + Z.of_nat q * p) with ((x + p) + Z.of_nat h * (2 * p)) in E by (subst q; rewrite Nat2Z.inj_add, Nat2Z.inj_mul; ring).
  rewrite Z_mod_plus_full in E. pose proof (Z.div_mod x (2 * p) ltac:(lia)) as D1. pose proof (Z.div_mod (x + p) (2 * p) ltac:(lia)) as D2. rewrite E in D2.
  clearbody p. clear - P D1 D2. revert D1 D2. generalize ((x + p) / (2 * p)) (x / (2 * p)) (x mod (2 * p)). intros u v r D1 D2.
  assert (p * (1 - 2 * (u - v)) = 0) as Q by lia. apply Z.mul_eq_0 in Q. lia.
Qed.
End Lcg.
Lemma pcg_lcg n s : word 64 s -> Nat.iter n pcg_next s = (Nat.iter n (lcg 6364136223846793005 109) s) mod 2 ^ 64.
Proof.
  intros Hs. induction n; [symmetry; apply Z.mod_small; exact Hs|]. rewrite !iter_S, IHn. unfold pcg_next, lcg at 2.
  rewrite <- Zplus_mod_idemp_l, Zmult_mod_idemp_r, Zplus_mod_idemp_l. auto.
Qed.
Lemma pcg_iter intel n s : word 64 s -> Nat.iter n (fun s => snd (pcg_get32 intel s)) s = Nat.iter n pcg_next s /\ word 64 (Nat.iter n pcg_next s).
Proof.
  intros Hs. induction n; [auto|]. rewrite !iter_S. destruct IHn as [-> W]. rewrite C39_pcg by exact W. split; auto. apply word_mod. lia.
Qed.
(** calling get32 n times from state s comes back to s exactly when 2^64 divides n, and every state is met *)
Theorem C62_pcg_full_period : forall intel s, 0 <= s < 2 ^ 64 ->
  let state n := Nat.iter n (fun s => snd (pcg_get32 intel s)) s in
  (forall n, state n = s <-> exists q, Z.of_nat n = q * 2 ^ 64) /\
  (forall t, 0 <= t < 2 ^ 64 -> exists n, Z.of_nat n < 2 ^ 64 /\ state n = t).
Proof.
  intros intel s Hs state.
  assert (E: forall n, state n = (Nat.iter n (lcg 6364136223846793005 109) s) mod 2 ^ Z.of_nat 64).
  { intros n. unfold state. destruct (pcg_iter intel n s Hs) as [-> _]. apply pcg_lcg. exact Hs. }
  assert (P: Z.of_nat (2 ^ 64) = 2 ^ 64) by (rewrite Nat2Z.inj_pow; reflexivity).
  assert (HA: 6364136223846793005 mod 4 = 1) by reflexivity. assert (HC: 109 mod 2 = 1) by reflexivity.
  split.
  - intros n. rewrite E. split.
    + intros H. destruct (lcg_period _ _ HA HC 64 s n) as [q Hq].
      { rewrite H. symmetry. apply Z.mod_small. exact Hs. }
      exists (Z.of_nat q). rewrite Hq, Nat2Z.inj_mul, P. auto.
    + intros [q Hq].
      assert (n = (Z.to_nat q * 2 ^ 64)%nat) as ->. { apply Nat2Z.inj. rewrite Nat2Z.inj_mul, P. rewrite Z2Nat.id; lia. }
      clear - HA HC Hs. generalize (Z.to_nat q) as m. intros m.
      pose proof (mod_pow2_le _ _ 65 64 ltac:(lia) (lcg_odd _ _ HA HC 64 s m)) as Q. rewrite Q. change (Z.of_nat 64) with 64. rewrite Z_mod_plus_full. apply Z.mod_small. exact Hs.
  - intros t Ht. destruct (lcg_reach _ _ HA HC 64 s t) as (n & Hn & R). exists n. split; [lia|].
    rewrite E, R. apply Z.mod_small. exact Ht.
Qed.
Example C62_nonvacuous : 0 <= 0x185706b82c2e03f8 < 2 ^ 64 /\ snd (pcg_get32 true 0x185706b82c2e03f8) <> 0x185706b82c2e03f8.
Proof. split; [lia|]. vm_compute. congruence. Qed.

(** ** C39: reading bytes is reading consecutive words *)
(** the first m outputs of a generator and the state after them *)
Fixpoint outputs {S} (f : S -> Z * S) (m : nat) (g : S) : list Z * S :=
  match m with O => ([], g) | Datatypes.S m => let '(u, g) := f g in let '(l, g) := outputs f m g in (u :: l, g) end.
(** the k bytes of a word in memory *)
Definition mem_bytes (little : bool) (k : nat) (u : Z) : list Z :=
  let le := map (fun i => u / 256 ^ Z.of_nat i mod 256) (seq 0 k) in if little then le else rev le.
Lemma to_le_map k : forall u, to_le k u = map (fun i => u / 256 ^ Z.of_nat i mod 256) (seq 0 k).
Proof.
  induction k as [|k IH]; intros u; auto. cbn [to_le seq map]. change (256 ^ Z.of_nat 0) with 1. rewrite Z.div_1_r. f_equal.
  rewrite IH. rewrite <- seq_shift, map_map. apply map_ext. intros i. rewrite Z.div_div by (try apply Z.pow_pos_nonneg; lia).
  rewrite Nat2Z.inj_succ, Z.pow_succ_r by lia. auto.
Qed.
Lemma word_bytes_ok little k u : word_bytes little k u = mem_bytes little k u.
Proof. unfold word_bytes, mem_bytes. rewrite to_le_map. auto. Qed.
Lemma word_bytes_len little k u : length (word_bytes little k u) = k.
Proof. unfold word_bytes. destruct little; rewrite ?rev_length; apply to_le_length. Qed.

Lemma copy_bytes_ok cnt : forall done a1 a2 P M T, length a1 = cnt -> length M = cnt ->
  copy_bytes cnt (zlen done) (done ++ a1 ++ a2) (P ++ done ++ M ++ T) (zlen P) = Ok (P ++ done ++ a1 ++ T).
Proof.
  induction cnt as [|c IH]; intros done a1 a2 P M T La LM.
  - destruct a1, M; try discriminate. reflexivity.
  - destruct a1 as [|x a1], M as [|y M]; try discriminate. cbn [copy_bytes app].
    rewrite rd_app_exact. cbn [bind].
    rewrite wr_ok by (rewrite !zlen_app, zlen_cons; pose proof (zlen_nonneg P); pose proof (zlen_nonneg done); pose proof (zlen_nonneg (M ++ T)); lia).
    cbn [bind]. replace (Z.to_nat (zlen P + zlen done)) with (length (P ++ done)) by (rewrite app_length; unfold zlen; lia).
    rewrite app_assoc, upd_app_exact. rewrite <- app_assoc.
    specialize (IH (done ++ [x]) a1 a2 P M T ltac:(cbn [length] in La; lia) ltac:(cbn [length] in LM; lia)).
    rewrite zlen_app in IH. change (zlen [x]) with 1 in IH. rewrite <- !app_assoc in IH. exact IH.
Qed.
Lemma copy_bytes_ok0 a1 a2 P M T : length a1 = length M ->
  copy_bytes (length a1) 0 (a1 ++ a2) (P ++ M ++ T) (zlen P) = Ok (P ++ a1 ++ T).
Proof. intros L. apply (copy_bytes_ok (length a1) [] a1 a2 P M T); auto. Qed.

Section Read.
Context {S : Type} (f : S -> Z * S) (little : bool) (k : nat) (Hk : (0 < k)%nat).
Lemma outputs_S m g : outputs f (Datatypes.S m) g = let '(u, g1) := f g in let '(l, g2) := outputs f m g1 in (u :: l, g2).
Proof using. clear Hk. reflexivity. Qed.
Lemma outputs_len m : forall g, length (fst (outputs f m g)) = m.
Proof using. clear Hk. induction m; intros g; auto. rewrite outputs_S. destruct (f g) as [u g1]. specialize (IHm g1). destruct (outputs f m g1). cbn [fst length] in *. auto. Qed.
Lemma flat_len l : length (flat_map (mem_bytes little k) l) = (k * length l)%nat.
Proof using. clear Hk f. induction l; cbn [flat_map length]; [lia|]. rewrite app_length, IHl, <- word_bytes_ok, word_bytes_len. lia. Qed.

Lemma read_while_ok m : forall fuel g P M R T, length M = (k * m)%nat -> (length R < k)%nat -> (m < fuel)%nat ->
  read_while f little k fuel g (P ++ M ++ R ++ T) (zlen P) (zlen M + zlen R) =
  Ok (snd (outputs f m g), P ++ flat_map (mem_bytes little k) (fst (outputs f m g)) ++ R ++ T, zlen P + zlen M, zlen R).
Proof using Hk.
  induction m as [|m IH]; intros fuel g P M R T LM LR Hf; (destruct fuel as [|fu]; [lia|]); cbn [read_while].
  - destruct M; [|cbn [length] in LM; lia]. change (zlen (@nil Z)) with 0. destruct (Z.leb_spec (Z.of_nat k) (0 + zlen R)) as [H|H]; [unfold zlen in H; lia|].
    cbn [outputs fst snd flat_map app]. do 2 f_equal. f_equal. lia.
  - destruct (Z.leb_spec (Z.of_nat k) (zlen M + zlen R)) as [H|H]; [|unfold zlen in H; lia].
    rewrite outputs_S. destruct (f g) as [u g1].
    rewrite <- (firstn_skipn k M). set (M1 := firstn k M). set (M2 := skipn k M).
    assert (L1: length M1 = k) by (unfold M1; rewrite firstn_length; lia).
    assert (L2: length M2 = (k * m)%nat) by (unfold M2; rewrite skipn_length; lia).
    pose proof (copy_bytes_ok0 (word_bytes little k u) [] P M1 (M2 ++ R ++ T)) as C. rewrite app_nil_r, word_bytes_len in C.
    rewrite <- app_assoc. rewrite C by auto. cbn [bind]. clear C.
    specialize (IH fu g1 (P ++ word_bytes little k u) M2 R T L2 LR ltac:(lia)).
    rewrite zlen_app in IH. replace (zlen (word_bytes little k u)) with (Z.of_nat k) in IH by (unfold zlen; rewrite word_bytes_len; auto).
    replace (zlen (M1 ++ M2) + zlen R - Z.of_nat k) with (zlen M2 + zlen R) by (rewrite zlen_app; unfold zlen; lia).
    rewrite <- app_assoc in IH. rewrite IH. destruct (outputs f m g1) as [l g2]. cbn [fst snd flat_map].
    rewrite (word_bytes_ok little k u). rewrite <- !app_assoc. do 2 f_equal. f_equal. rewrite zlen_app. unfold zlen. lia.
Qed.
(** number of words needed for n bytes *)
Definition words_for (n : Z) : nat := Z.to_nat ((n + Z.of_nat k - 1) / Z.of_nat k).
Lemma read_local_ok g buf n : 0 <= n <= zlen buf ->
  read_local f little k g buf n =
  Ok (snd (outputs f (words_for n) g),
      firstn (Z.to_nat n) (flat_map (mem_bytes little k) (fst (outputs f (words_for n) g))) ++ skipn (Z.to_nat n) buf).
Proof using Hk.
  intros Hn. set (m := (Z.to_nat n / k)%nat). set (r := (Z.to_nat n mod k)%nat).
  assert (Hr: (r < k)%nat) by (apply Nat.mod_upper_bound; lia).
  assert (En: Z.to_nat n = (k * m + r)%nat) by (apply Nat.div_mod; lia).
  set (M := firstn (k * m) buf). set (R := firstn r (skipn (k * m) buf)). set (T := skipn (Z.to_nat n) buf).
  assert (Lb: (Z.to_nat n <= length buf)%nat) by (unfold zlen in Hn; lia).
  assert (Eb: buf = [] ++ M ++ R ++ T).
  { unfold M, R, T. cbn [app]. rewrite En, (Nat.add_comm (k * m)), <- skipn_skipn, firstn_skipn, firstn_skipn. auto. }
  assert (LM: length M = (k * m)%nat) by (unfold M; rewrite firstn_length; lia).
  assert (LR: length R = r) by (unfold R; rewrite firstn_length, skipn_length; lia).
  unfold read_local. rewrite Eb at 1. replace n with (zlen M + zlen R) at 2 by (unfold zlen; lia).
  change 0 with (zlen (@nil Z)) at 1. rewrite (read_while_ok m); [|auto|lia|nia]. cbn [bind app]. change (zlen (@nil Z)) with 0.
  destruct (Z.ltb_spec 0 (zlen R)) as [H|H].
  - assert (Ew: words_for n = Datatypes.S m).
    { unfold words_for. replace n with (Z.of_nat k * Z.of_nat m + Z.of_nat r) by lia.
      replace (Z.of_nat k * Z.of_nat m + Z.of_nat r + Z.of_nat k - 1) with ((Z.of_nat r - 1) + (Z.of_nat m + 1) * Z.of_nat k) by ring.
      rewrite Z_div_plus_full by lia. rewrite Z.div_small by (unfold zlen in H; lia). lia. }
    rewrite Ew.
    assert (O: forall g, outputs f (Datatypes.S m) g = let '(u, g2) := f (snd (outputs f m g)) in (fst (outputs f m g) ++ [u], g2)).
    { clear. induction m as [|m' IH]; intros g; [cbn [outputs fst snd]; destruct (f g); auto|].
      rewrite outputs_S. destruct (f g) as [u g1] eqn:E. rewrite IH. rewrite (outputs_S m'), E. destruct (outputs f m' g1) as [l g2]. cbn [fst snd]. destruct (f g2); auto. }
    rewrite O. destruct (f (snd (outputs f m g))) as [u g2]. cbn [fst snd].
    rewrite flat_map_app. cbn [flat_map]. rewrite app_nil_r.
    set (F := flat_map (mem_bytes little k) (fst (outputs f m g))).
    assert (LF: length F = (k * m)%nat) by (unfold F; rewrite flat_len, outputs_len; auto).
    replace (0 + zlen M) with (zlen F) by (unfold zlen; lia).
    set (W := word_bytes little k u). assert (LW: length W = k) by apply word_bytes_len.
    pose proof (copy_bytes_ok0 (firstn r W) (skipn r W) F R T) as C. rewrite firstn_skipn in C.
    assert (LfW: length (firstn r W) = r) by (rewrite firstn_length; lia). rewrite LfW in C.
    rewrite to_nat_zlen, LR. rewrite C by auto. cbn [bind]. do 2 f_equal.
    rewrite En. rewrite firstn_app, LF. replace (k * m + r - k * m)%nat with r by lia. rewrite (firstn_all2 F) by lia.
    rewrite <- word_bytes_ok. fold W. rewrite <- app_assoc. auto.
  - assert (Er: r = O) by (unfold zlen in H; lia). assert (R = []) as -> by (apply length_zero_iff_nil; lia).
    assert (Ew: words_for n = m).
    { unfold words_for. replace n with (Z.of_nat k * Z.of_nat m) by lia.
      replace (Z.of_nat k * Z.of_nat m + Z.of_nat k - 1) with ((Z.of_nat k - 1) + Z.of_nat m * Z.of_nat k) by ring.
      rewrite Z_div_plus_full by lia. rewrite Z.div_small by lia. lia. }
    rewrite Ew. cbn [app]. rewrite firstn_all2 by (rewrite flat_len, outputs_len; lia). auto.
Qed.
End Read.

(** read(p, n) of elements of sz bytes: the n*sz bytes of the buffer are the bytes of the next
    ceil(n*sz/word size) outputs in memory order, the rest of the buffer is unchanged *)
Theorem C39_read : forall little sz n buf, 0 <= n -> 0 <= sz -> n * sz <= zlen buf -> n * sz < 2 ^ 64 ->
  let len := Z.to_nat (n * sz) in
  let filled {S} (f : S -> Z * S) (k : nat) (g : S) :=
    let '(l, g') := outputs f (Z.to_nat ((n * sz + Z.of_nat k - 1) / Z.of_nat k)) g in
    Ok (g', firstn len (flat_map (mem_bytes little k) l) ++ skipn len buf) in
  (forall g, xs_read little g sz buf n = filled xs_get32 4%nat g) /\
  (forall g, xp_read little g sz buf n = filled xp_get64 8%nat g) /\
  (forall g, xo_read little g sz buf n = filled xo_get64 8%nat g).
Proof.
  intros little sz n buf Hn Hs Hb Ho len filled. unfold filled, xs_read, xp_read, xo_read. rewrite (Z.mod_small (n * sz)) by nia.
  assert (0 <= n * sz) by nia.
  split; [|split]; intros g; rewrite read_local_ok by lia; unfold words_for; destruct (outputs _ _ _); auto.
Qed.
(** two reads, the first of a whole number of words, give what one read of both lengths gives *)
Theorem C39_read_split : forall S (f : S -> Z * S) little k g buf1 buf2, (0 < k)%nat -> zlen buf1 mod Z.of_nat k = 0 ->
  (let! (g1, a) := read_local f little k g buf1 (zlen buf1) in
   let! (g2, b) := read_local f little k g1 buf2 (zlen buf2) in Ok (g2, a ++ b)) =
  read_local f little k g (buf1 ++ buf2) (zlen (buf1 ++ buf2)).
Proof.
  intros S f little k g buf1 buf2 Hk M. pose proof (zlen_nonneg buf1). pose proof (zlen_nonneg buf2).
  rewrite !read_local_ok by (auto; rewrite ?zlen_app; lia). cbn [bind]. rewrite read_local_ok by (auto; lia). cbn [bind].
  rewrite !to_nat_zlen, !skipn_all, !app_nil_r.
  set (m1 := words_for k (zlen buf1)). set (m2 := words_for k (zlen buf2)).
  assert (W: words_for k (zlen (buf1 ++ buf2)) = (m1 + m2)%nat /\ length buf1 = (k * m1)%nat).
  { unfold m1, m2, words_for. rewrite zlen_app. pose proof (Z.div_mod (zlen buf1) (Z.of_nat k) ltac:(lia)) as D. rewrite M in D.
    set (q := zlen buf1 / Z.of_nat k) in *. assert (0 <= q) by (apply Z.div_pos; lia).
    replace (zlen buf1 + zlen buf2 + Z.of_nat k - 1) with ((zlen buf2 + Z.of_nat k - 1) + q * Z.of_nat k) by lia.
    replace (zlen buf1 + Z.of_nat k - 1) with ((Z.of_nat k - 1) + q * Z.of_nat k) by lia.
    rewrite !Z_div_plus_full by lia. rewrite (Z.div_small (Z.of_nat k - 1)) by lia.
    assert (0 <= (zlen buf2 + Z.of_nat k - 1) / Z.of_nat k) by (apply Z.div_pos; lia).
    split; [rewrite Z.add_comm, Z2Nat.inj_add by lia; auto|]. unfold zlen in D. nia. }
  destruct W as [-> L1].
  assert (O: forall m g, outputs f (m + m2) g = let '(l1, g1) := outputs f m g in let '(l2, g2) := outputs f m2 g1 in (l1 ++ l2, g2)).
  { clear. induction m as [|m IH]; intros g; [cbn [Nat.add outputs]; destruct (outputs f m2 g); auto|]. cbn [Nat.add].
    rewrite !outputs_S. destruct (f g) as [u g1]. rewrite IH. destruct (outputs f m g1) as [l1 g2]. destruct (outputs f m2 g2). auto. }
  rewrite O. destruct (outputs f m1 g) as [l1 g1] eqn:E1. cbn [fst snd]. destruct (outputs f m2 g1) as [l2 g2]. cbn [fst snd].
  f_equal. f_equal. rewrite flat_map_app, app_length.
  assert (LF: length (flat_map (mem_bytes little k) l1) = (k * m1)%nat).
  { rewrite flat_len. pose proof (outputs_len f m1 g) as Q. rewrite E1 in Q. cbn [fst] in Q. rewrite Q. auto. }
  rewrite firstn_app. rewrite (firstn_all2 (flat_map (mem_bytes little k) l1)) by lia. rewrite (firstn_all2 (flat_map (mem_bytes little k) l1)) by lia.
  rewrite LF, L1. f_equal. f_equal. lia.
Qed.
Example C39_read_nonvacuous : xs_read true (xs_init 0 0 0 0) 1 [9; 9; 9; 9; 9; 9] 5 =
  Ok (snd (outputs xs_get32 2 (xs_init 0 0 0 0)), [234; 69; 163; 220; 230; 9]).
Proof. vm_compute. reflexivity. Qed.

(** Pcg32::read: a byte per 32-bit output; the uint32_t and uint64_t overloads store consecutive outputs *)
Theorem C39_pcg_read : forall intel n st buf, (n <= length buf)%nat ->
  (let '(l, st') := outputs (pcg_get32 intel) n st in
   pcg_bytes intel n 0 st buf = Ok (st', map (fun u => u mod 256) l ++ skipn n buf)) /\
  (forall f : Z -> Z * Z, let '(l, st') := outputs f n st in pcg_words f n 0 st buf = Ok (st', l ++ skipn n buf)).
Proof.
  intros intel n st buf L.
  assert (W: forall n M T, length M = n -> forall i x, i = zlen x -> forall (t : Z), wr (x ++ M ++ T) i t = match M with [] => wr (x ++ T) i t | _ :: M' => Ok (x ++ t :: M' ++ T) end).
  { intros n' M T _ i x -> t. destruct M as [|y M]; auto. rewrite wr_ok.
    - cbn [app]. unfold zlen. rewrite Nat2Z.id, upd_app_exact. auto.
    - rewrite zlen_app. cbn [app]. rewrite zlen_cons. pose proof (zlen_nonneg x). pose proof (zlen_nonneg (M ++ T)). lia. }
  split.
  - assert (Q: forall n M T x st, length M = n -> let '(l, st') := outputs (pcg_get32 intel) n st in pcg_bytes intel n (zlen x) st (x ++ M ++ T) = Ok (st', x ++ map (fun u => u mod 256) l ++ T)).
    { induction n0 as [|n0 IH]; intros M T x s LM; [destruct M; [reflexivity|discriminate]|]. rewrite outputs_S. cbn [pcg_bytes].
      destruct (pcg_get32 intel s) as [u s1]. destruct M as [|y M]; [discriminate|]. rewrite (W (S n0) (y :: M) T LM _ x eq_refl). cbn [bind].
      specialize (IH M T (x ++ [u mod 256]) s1 ltac:(cbn [length] in LM; lia)). destruct (outputs (pcg_get32 intel) n0 s1) as [l s2].
      rewrite zlen_app in IH. change (zlen [u mod 256]) with 1 in IH. rewrite <- !app_assoc in IH. exact IH. }
    specialize (Q n (firstn n buf) (skipn n buf) [] st). rewrite firstn_length in Q. specialize (Q ltac:(lia)). cbn [app] in Q.
    rewrite firstn_skipn in Q. exact Q.
  - intros f.
    assert (Q: forall n M T x st, length M = n -> let '(l, st') := outputs f n st in pcg_words f n (zlen x) st (x ++ M ++ T) = Ok (st', x ++ l ++ T)).
    { induction n0 as [|n0 IH]; intros M T x s LM; [destruct M; [reflexivity|discriminate]|]. rewrite outputs_S. cbn [pcg_words].
      destruct (f s) as [u s1]. destruct M as [|y M]; [discriminate|]. rewrite (W (S n0) (y :: M) T LM _ x eq_refl). cbn [bind].
      specialize (IH M T (x ++ [u]) s1 ltac:(cbn [length] in LM; lia)). destruct (outputs f n0 s1) as [l s2].
      rewrite zlen_app in IH. change (zlen [u]) with 1 in IH. rewrite <- !app_assoc in IH. exact IH. }
    specialize (Q n (firstn n buf) (skipn n buf) [] st). rewrite firstn_length in Q. specialize (Q ltac:(lia)). cbn [app] in Q.
    rewrite firstn_skipn in Q. exact Q.
Qed.

(** ** C63: RandomGenerator::read *)
(** a request below 2^31 bytes never writes outside the buffer; success means that the buffer is filled with
    the device's bytes, and it succeeds when the device delivers them *)
Theorem C63_read : forall data buf, zlen buf < 2 ^ 31 ->
  rg_read true data buf (zlen buf) = Ok (zlen buf <=? zlen data, firstn (length buf) data ++ skipn (length data) buf) /\
  rg_read false data buf (zlen buf) = Ok (false, buf).
Proof.
  intros data buf H. split; [|reflexivity]. unfold rg_read, int_to_size. pose proof (zlen_nonneg buf). pose proof (zlen_nonneg data).
  rewrite (Z.mod_small (zlen buf)) by lia. destruct (Z.ltb_spec (zlen buf) (2 ^ 31)); [|lia].
  assert (E: firstn (Z.to_nat (Z.min (zlen buf) (zlen data))) data = firstn (length buf) data).
  { destruct (Z.leb_spec (zlen buf) (zlen data)); [rewrite Z.min_l, to_nat_zlen by lia; auto|].
    rewrite Z.min_r, to_nat_zlen by lia. rewrite !firstn_all2; auto. unfold zlen in *. lia. }
  cbv zeta. rewrite E. assert (L: zlen (firstn (length buf) data) = Z.min (zlen buf) (zlen data)) by (unfold zlen; rewrite firstn_length; lia).
  rewrite L. destruct (Z.ltb_spec (zlen buf) (Z.min (zlen buf) (zlen data))); [lia|].
  replace (Z.min (zlen buf) (zlen data) =? zlen buf) with (zlen buf <=? zlen data) by lia.
  do 3 f_equal. rewrite firstn_length. destruct (Nat.le_ge_cases (length buf) (length data)).
  - rewrite Nat.min_l by lia. rewrite !skipn_all2; auto.
  - rewrite Nat.min_r by lia. auto.
Qed.
Example C63_nonvacuous : rg_read true [1; 2; 3; 4; 5] [0; 0; 0] 3 = Ok (true, [1; 2; 3]) /\ rg_read true [1; 2] [0; 0; 0] 3 = Ok (false, [1; 2; 0]).
Proof. vm_compute. auto. Qed.
(** from 2^31 bytes the int cast asks the device for almost 2^64 bytes: the buffer overflows; at 2^32 nothing is
    read and a failure is reported *)
Theorem C63_int_cast_finding : forall data buf,
  (2 ^ 31 <= zlen buf < 2 ^ 32 -> zlen buf < zlen data < 2 ^ 63 -> rg_read true data buf (zlen buf) = UB) /\
  (zlen buf = 2 ^ 32 -> rg_read true data buf (zlen buf) = Ok (false, buf)).
Proof.
  intros data buf. unfold rg_read, int_to_size. split.
  - intros H1 H2. rewrite (Z.mod_small (zlen buf)) by lia. destruct (Z.ltb_spec (zlen buf) (2 ^ 31)); [lia|].
    rewrite Z.min_r by lia. rewrite to_nat_zlen, firstn_all. destruct (Z.ltb_spec (zlen buf) (zlen data)); [auto|lia].
  - intros ->. change (2 ^ 32 mod 2 ^ 32) with 0. cbv zeta. change (0 <? 2 ^ 31) with true. cbv iota.
    rewrite Z.min_l by apply zlen_nonneg. change (Z.to_nat 0) with O. rewrite firstn_O. reflexivity.
Qed.

(** ** C40: shuffle *)
Lemma swap_at_0 {A} (P : list A) x L M y T : L = length M ->
  swap_at (P ++ x :: M ++ y :: T) (zlen P) (zlen P + 1 + Z.of_nat L) = Ok (P ++ y :: M ++ x :: T).
Proof.
  intros ->. unfold swap_at. rewrite rd_app_exact. cbn [bind].
  replace (zlen P + 1 + Z.of_nat (length M)) with (zlen (P ++ x :: M)) by (rewrite zlen_app, zlen_cons; unfold zlen; lia).
  change (P ++ x :: M ++ y :: T) with (P ++ (x :: M) ++ y :: T). rewrite (app_assoc P). rewrite rd_app_exact. cbn [bind].
  rewrite <- app_assoc. cbn [app]. rewrite wr_ok by (rewrite zlen_app, zlen_cons; pose proof (zlen_nonneg P); pose proof (zlen_nonneg (M ++ y :: T)); lia).
  rewrite to_nat_zlen, upd_app_exact. cbn [bind]. 
  assert (E: zlen (P ++ x :: M) = zlen (P ++ y :: M)) by (rewrite !zlen_app, !zlen_cons; auto). rewrite E.
  change (P ++ y :: M ++ y :: T) with (P ++ (y :: M) ++ y :: T). rewrite (app_assoc P).
  rewrite wr_ok by (rewrite (zlen_app (P ++ y :: M)), (zlen_cons y T); pose proof (zlen_nonneg (P ++ y :: M)); pose proof (zlen_nonneg T); lia).
  rewrite to_nat_zlen, upd_app_exact, <- app_assoc. auto.
Qed.
Lemma swap_at_same {A} (P : list A) x T : swap_at (P ++ x :: T) (zlen P) (zlen P) = Ok (P ++ x :: T).
Proof.
  unfold swap_at. rewrite rd_app_exact. cbn [bind].
  rewrite wr_ok by (rewrite zlen_app, zlen_cons; pose proof (zlen_nonneg P); pose proof (zlen_nonneg T); lia).
  rewrite to_nat_zlen, upd_app_exact. cbn [bind].
  rewrite wr_ok by (rewrite zlen_app, zlen_cons; pose proof (zlen_nonneg P); pose proof (zlen_nonneg T); lia).
  rewrite to_nat_zlen, upd_app_exact. auto.
Qed.
(** one step on the part from i on: the element at distance r comes to the front, the former front takes its place *)
Definition pick {A} (l : list A) (r : nat) : option (A * list A) :=
  match l, r with
  | [], _ => None
  | x :: t, O => Some (x, t)
  | x :: t, S k => match nth_error t k with Some y => Some (y, upd t k x) | None => None end
  end.
Lemma pick_some {A} (l : list A) r : (r < length l)%nat -> exists y t, pick l r = Some (y, t) /\ Permutation l (y :: t) /\ length l = S (length t) /\ nth_error l r = Some y /\
  (forall P, swap_at (P ++ l) (zlen P) (zlen P + Z.of_nat r) = Ok (P ++ y :: t)).
Proof.
  intros H. destruct l as [|x l]; [cbn [length] in H; lia|]. destruct r as [|k].
  - exists x, l. cbn [pick]. repeat split; auto. intros P. change (Z.of_nat 0) with 0. rewrite Z.add_0_r. apply swap_at_same.
  - cbn [pick]. destruct (nth_error l k) as [y|] eqn:E.
    + apply nth_error_split in E as (M & T & -> & L). exists y, (upd (M ++ y :: T) k x). split; auto.
      rewrite <- L, upd_app_exact. split; [|split; [|split]].
      * transitivity (x :: y :: M ++ T); [constructor; symmetry; apply Permutation_middle|].
        transitivity (y :: x :: M ++ T); [constructor|]. constructor. apply Permutation_middle.
      * cbn [length]. rewrite !app_length. cbn [length]. auto.
      * cbn [nth_error]. rewrite nth_error_app2 by lia. rewrite Nat.sub_diag. auto.
      * intros P. replace (zlen P + Z.of_nat (S (length M))) with (zlen P + 1 + Z.of_nat (length M)) by lia. apply swap_at_0. auto.
    + apply nth_error_None in E. cbn [length] in H. lia.
Qed.
Section Shuffle.
Context {A S : Type} (get64 : S -> Z * S).
Lemma shuffle_loop_step k i n v rg : shuffle_loop get64 (Datatypes.S k) i n v rg =
  (let '(u, rg) := get64 rg in let! v := @swap_at A v i (i + u mod (n - i)) in shuffle_loop get64 k (i + 1) n v rg).
Proof using. reflexivity. Qed.
Lemma shuffle_loop_perm : forall k P l rg, length l = Datatypes.S k -> exists l',
  shuffle_loop get64 k (zlen P) (zlen P + zlen l) (P ++ l) rg = Ok (P ++ l', snd (outputs get64 k rg)) /\ @Permutation A l l'.
Proof using.
  induction k as [|k IH]; intros P l rg L.
  - exists l. split; auto.
  - rewrite shuffle_loop_step, outputs_S. destruct (get64 rg) as [u rg1].
    replace (zlen P + zlen l - zlen P) with (zlen l) by lia.
    assert (M: 0 <= u mod zlen l < zlen l) by (apply Z.mod_pos_bound; unfold zlen; lia).
    destruct (pick_some l (Z.to_nat (u mod zlen l))) as (y & t & _ & Hp & HL & _ & Hs). { unfold zlen in *. lia. }
    specialize (Hs P). rewrite Z2Nat.id in Hs by lia. rewrite Hs. cbn [bind].
    specialize (IH (P ++ [y]) t rg1 ltac:(lia)). destruct IH as (t' & E & Q).
    rewrite zlen_app in E. change (zlen [y]) with 1 in E. rewrite <- !app_assoc in E. cbn [app] in E.
    replace (zlen P + zlen l) with (zlen P + 1 + zlen t) by (unfold zlen; lia). rewrite E. 
    exists (y :: t'). split; [destruct (outputs get64 k rg1); auto|]. rewrite Hp. auto.
Qed.
(** for every content and every generator, no access leaves the array, the result is a permutation, and
    exactly max(n-1, 0) random numbers are drawn *)
Theorem C40_shuffle : forall (v : list A) rg, exists v',
  shuffle get64 v rg = Ok (v', snd (outputs get64 (length v - 1) rg)) /\ Permutation v v'.
Proof using.
  intros v rg. unfold shuffle. destruct (Z.leb_spec (zlen v) 1) as [H|H].
  - exists v. split; auto. replace (length v - 1)%nat with O by (unfold zlen in H; lia). auto.
  - destruct (shuffle_loop_perm (Z.to_nat (zlen v - 1)) [] v rg) as (v' & E & Q). { unfold zlen in *. lia. }
    exists v'. split; auto. cbn [app] in E. change (zlen (@nil A)) with 0 in E. rewrite Z.add_0_l in E. cbv zeta. rewrite E.
    replace (Z.to_nat (zlen v - 1)) with (length v - 1)%nat by (unfold zlen; lia). auto.
Qed.
End Shuffle.
(** a generator that plays back a list (0 after its end) *)
Definition playback (l : list Z) : Z * list Z := match l with [] => (0, []) | u :: r => (u, r) end.
Lemma shuffle_loop_reach {A} : forall k P (l l' : list A), length l = S k -> Permutation l l' -> exists us,
  length us = k /\ Forall (fun u => 0 <= u < zlen l) us /\ shuffle_loop playback k (zlen P) (zlen P + zlen l) (P ++ l) us = Ok (P ++ l', []).
Proof.
  induction k as [|k IH]; intros P l l' L HP.
  - exists []. split; auto. split; auto. destruct l as [|x [|]]; try discriminate. apply Permutation_length_1_inv in HP. subst l'. reflexivity.
  - destruct l' as [|y l']. { apply Permutation_sym, Permutation_nil in HP. subst. discriminate. }
    assert (In y l) as Hy. { apply (Permutation_in y (Permutation_sym HP)). left. auto. }
    apply In_nth_error in Hy as [r Hr]. assert (Lr: (r < length l)%nat) by (apply nth_error_Some; congruence).
    destruct (pick_some l r Lr) as (y' & t & _ & Hp & HL & Hn & Hs). rewrite Hr in Hn. injection Hn as <-.
    assert (Permutation t l') as Ht. { apply (Permutation_cons_inv (a := y)). rewrite <- Hp. auto. }
    destruct (IH (P ++ [y]) t l' ltac:(lia) Ht) as (us & Lu & Fu & E).
    exists (Z.of_nat r :: us). split; [cbn [length]; lia|]. split.
    + constructor; [unfold zlen; lia|]. eapply Forall_impl; [|exact Fu]. cbn beta. intros u Hu. unfold zlen in *. lia.
    + rewrite shuffle_loop_step. cbn [playback]. replace (zlen P + zlen l - zlen P) with (zlen l) by lia.
      rewrite Z.mod_small by (unfold zlen; lia). rewrite Hs. cbn [bind].
      rewrite zlen_app in E. change (zlen [y]) with 1 in E. rewrite <- !app_assoc in E. cbn [app] in E.
      replace (zlen P + zlen l) with (zlen P + 1 + zlen t) by (unfold zlen; lia). exact E.
Qed.
(** every arrangement can come out *)
Theorem C40_all_arrangements : forall A (v v' : list A), Permutation v v' -> exists us,
  Forall (fun u => 0 <= u < Z.max 1 (zlen v)) us /\ shuffle playback v us = Ok (v', []).
Proof.
  intros A v v' HP. unfold shuffle. destruct (Z.leb_spec (zlen v) 1) as [H|H].
  - exists []. split; auto. destruct v as [|x [|y v]].
    + apply Permutation_nil in HP. subst. auto.
    + apply Permutation_length_1_inv in HP. subst. auto.
    + exfalso. rewrite !zlen_cons in H. pose proof (zlen_nonneg v). lia.
  - destruct (shuffle_loop_reach (Z.to_nat (zlen v - 1)) [] v v') as (us & _ & F & E); auto. { unfold zlen in *. lia. }
    exists us. split; [eapply Forall_impl; [|exact F]; cbn beta; intros; lia|]. exact E.
Qed.
Lemma shuffle_loop_inj {A} : forall k P (l : list A) us us' r, length l = S k -> NoDup l ->
  length us = k -> length us' = k ->
  shuffle_loop playback k (zlen P) (zlen P + zlen l) (P ++ l) us = Ok r -> shuffle_loop playback k (zlen P) (zlen P + zlen l) (P ++ l) us' = Ok r ->
  forall j, (j < k)%nat -> nth j us 0 mod (zlen l - Z.of_nat j) = nth j us' 0 mod (zlen l - Z.of_nat j).
Proof.
  induction k as [|k IH]; intros P l us us' r L ND Lu Lu' E E' j Hj; [lia|].
  destruct us as [|u us]; [discriminate|]. destruct us' as [|u' us']; [discriminate|]. cbn [length] in Lu, Lu'.
  rewrite shuffle_loop_step in E, E'. cbn [playback] in E, E'. replace (zlen P + zlen l - zlen P) with (zlen l) in E, E' by lia.
  assert (M: forall u, 0 <= u mod zlen l < zlen l) by (intros; apply Z.mod_pos_bound; unfold zlen; lia).
  destruct (pick_some l (Z.to_nat (u mod zlen l))) as (y & t & Hk1 & Hp & HL & Hn & Hs). { specialize (M u). unfold zlen in *. lia. }
  destruct (pick_some l (Z.to_nat (u' mod zlen l))) as (y' & t' & Hk2 & Hp' & HL' & Hn' & Hs'). { specialize (M u'). unfold zlen in *. lia. }
  specialize (Hs P). rewrite Z2Nat.id in Hs by apply M. rewrite Hs in E. specialize (Hs' P). rewrite Z2Nat.id in Hs' by apply M. rewrite Hs' in E'. cbn [bind] in E, E'.
  assert (Hr: forall z s w, length s = S k -> shuffle_loop playback k (zlen P + 1) (zlen P + zlen l) (P ++ z :: s) w = Ok r -> length l = S (length s) -> exists s', fst r = P ++ z :: s').
  { intros z s w Ls Ew Lls. destruct (shuffle_loop_perm playback k (P ++ [z]) s w Ls) as (s' & Es & _).
    rewrite zlen_app in Es. change (zlen [z]) with 1 in Es. rewrite <- !app_assoc in Es. cbn [app] in Es.
    replace (zlen P + zlen l) with (zlen P + 1 + zlen s) in Ew by (unfold zlen; lia). rewrite Es in Ew. exists s'. injection Ew as <-. auto. }
  destruct (Hr y t us ltac:(lia) E HL) as [s1 Q1]. destruct (Hr y' t' us' ltac:(lia) E' HL') as [s2 Q2].
  assert (y = y') as <-. { rewrite Q1 in Q2. apply app_inv_head in Q2. congruence. }
  assert (Eu: u mod zlen l = u' mod zlen l).
  { rewrite NoDup_nth_error in ND. apply Z2Nat.inj; try apply M. apply ND; [specialize (M u); unfold zlen in *; lia|congruence]. }
  destruct j as [|j]; [cbn [nth]; rewrite Z.sub_0_r; exact Eu|]. cbn [nth].
  rewrite Eu in Hk1. rewrite Hk1 in Hk2. injection Hk2 as <-.
  replace (zlen l - Z.of_nat (S j)) with (zlen t - Z.of_nat j) by (unfold zlen; lia).
  apply (IH (P ++ [y]) t us us' r); try lia.
  - apply (Permutation_NoDup Hp) in ND. inversion ND; auto.
  - rewrite zlen_app. change (zlen [y]) with 1. rewrite <- app_assoc. cbn [app]. replace (zlen P + 1 + zlen t) with (zlen P + zlen l) by (unfold zlen; lia). exact E.
  - rewrite zlen_app. change (zlen [y]) with 1. rewrite <- app_assoc. cbn [app]. replace (zlen P + 1 + zlen t) with (zlen P + zlen l) by (unfold zlen; lia). exact E'.
Qed.
(** no bias: the arrangement determines the random choices, i.e. each of the n! sequences of choices
    (u_j mod (n-j)) gives a different arrangement of distinct elements *)
Theorem C40_unbiased : forall A (v : list A) us us' r, NoDup v -> length us = (length v - 1)%nat -> length us' = (length v - 1)%nat ->
  shuffle playback v us = Ok r -> shuffle playback v us' = Ok r ->
  forall j, (j < length v - 1)%nat -> nth j us 0 mod (zlen v - Z.of_nat j) = nth j us' 0 mod (zlen v - Z.of_nat j).
Proof.
  intros A v us us' r ND L L' E E' j Hj. unfold shuffle in E, E'. destruct (Z.leb_spec (zlen v) 1) as [H|H]; [unfold zlen in H; lia|].
  replace (Z.to_nat (zlen v - 1)) with (length v - 1)%nat in E, E' by (unfold zlen; lia).
  apply (shuffle_loop_inj (length v - 1) [] v us us' r); auto. lia.
Qed.
Example C40_nonvacuous : shuffle playback [1; 2; 3; 4] [6; 2; 3] = Ok ([3; 4; 2; 1], []) /\ NoDup [1; 2; 3; 4].
Proof. split; [vm_compute; reflexivity|]. repeat constructor; cbn; intuition lia. Qed.

Print Assumptions C39_xorshift_bijective.
Print Assumptions C39_xorshift.
Print Assumptions C39_plus_bijective.
Print Assumptions C39_plus.
Print Assumptions C39_pcg.
Print Assumptions C39_pcg_bijective.
Print Assumptions C39_read.
Print Assumptions C39_read_split.
Print Assumptions C39_pcg_read.
Print Assumptions C39_zero_seed_finding.
Print Assumptions C62_pcg_full_period.
Print Assumptions C63_read.
Print Assumptions C63_int_cast_finding.
Print Assumptions C40_shuffle.
Print Assumptions C40_all_arrangements.
Print Assumptions C40_unbiased.
