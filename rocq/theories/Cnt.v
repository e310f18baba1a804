(** Counting true values of a bit function: a library for the rank/select proofs. *)
Require Import Verif.Common.
Ltac Zify.zify_post_hook ::= idtac.

Fixpoint cntn (f : Z -> bool) (n : nat) : Z :=
  match n with O => 0 | S n' => Z.b2z (f (Z.of_nat n')) + cntn f n' end.
Definition cnt (f : Z -> bool) (n : Z) : Z := cntn f (Z.to_nat n).

Lemma b2z_range b : 0 <= Z.b2z b <= 1.
Proof. destruct b; cbn; lia. Qed.
Lemma cnt_0 f n : n <= 0 -> cnt f n = 0.
Proof. intros. unfold cnt. replace (Z.to_nat n) with O by lia. auto. Qed.
Lemma cnt_S f n : 0 <= n -> cnt f (n + 1) = cnt f n + Z.b2z (f n).
Proof. intros. unfold cnt. replace (Z.to_nat (n + 1)) with (S (Z.to_nat n)) by lia. cbn [cntn]. rewrite Z2Nat.id by lia. lia. Qed.
(** induction on a nonnegative integer *)
Lemma Zind (P : Z -> Prop) : P 0 -> (forall n, 0 <= n -> P n -> P (n + 1)) -> forall n, 0 <= n -> P n.
Proof. intros H0 HS n Hn. apply natlike_ind; [auto| |auto]. intros x Hx IH. replace (Z.succ x) with (x + 1) by lia. auto. Qed.
Lemma cnt_bounds f n : 0 <= n -> 0 <= cnt f n <= n.
Proof. intros Hn. pattern n. apply Zind; [| |auto]. { rewrite cnt_0; lia. } intros. rewrite cnt_S by auto. pose proof (b2z_range (f n0)). lia. Qed.
Lemma cnt_nonneg f n : 0 <= cnt f n.
Proof. destruct (Z_lt_le_dec n 0). - rewrite cnt_0; lia. - apply cnt_bounds. auto. Qed.
Lemma cnt_ext f g n : (forall i, 0 <= i < n -> f i = g i) -> cnt f n = cnt g n.
Proof.
  unfold cnt. intros E. assert (forall k, (k <= Z.to_nat n)%nat -> cntn f k = cntn g k); [|auto].
  induction k; intros; cbn [cntn]; auto. rewrite IHk, E by lia. auto.
Qed.
Lemma cnt_add f n m : 0 <= n -> 0 <= m -> cnt f (n + m) = cnt f n + cnt (fun i => f (n + i)) m.
Proof.
  intros Hn Hm. pattern m. apply Zind; [| |auto].
  - rewrite Z.add_0_r, (cnt_0 _ 0) by lia. lia.
  - intros k Hk IH. rewrite Z.add_assoc, !cnt_S by lia. rewrite IH. lia.
Qed.
Lemma cnt_mono f n m : n <= m -> cnt f n <= cnt f m.
Proof.
  intros H. destruct (Z_lt_le_dec n 0). { rewrite (cnt_0 f n) by lia. apply cnt_nonneg. }
  replace m with (n + (m - n)) by lia. rewrite cnt_add by lia. pose proof (cnt_nonneg (fun i => f (n + i)) (m - n)). lia.
Qed.
Lemma cnt_lt f n m : 0 <= n < m -> f n = true -> cnt f n < cnt f m.
Proof. intros H E. pose proof (cnt_mono f (n + 1) m ltac:(lia)). rewrite cnt_S, E in H0 by lia. cbn in H0. lia. Qed.
Lemma cnt_step f n m : 0 <= n <= m -> cnt f m - cnt f n <= m - n.
Proof. intros H. replace m with (n + (m - n)) at 1 by lia. rewrite cnt_add by lia. pose proof (cnt_bounds (fun i => f (n + i)) (m - n)). lia. Qed.
Lemma cnt_negb f n : 0 <= n -> cnt (fun i => negb (f i)) n = n - cnt f n.
Proof. intros Hn. pattern n. apply Zind; [auto| |auto]. intros k Hk IH. rewrite !cnt_S, IH by auto. destruct (f k); cbn; lia. Qed.
Lemma cnt_false f n : (forall i, 0 <= i < n -> f i = false) -> cnt f n = 0.
Proof. intros H. rewrite (cnt_ext _ (fun _ => false)) by auto. unfold cnt. induction (Z.to_nat n); cbn [cntn]; auto. Qed.
(** the r-th true position (from 1) is unique *)
Definition is_sel (f : Z -> bool) (r p : Z) : Prop := 0 <= p /\ f p = true /\ cnt f p = r - 1.
Lemma is_sel_unique f r p q : is_sel f r p -> is_sel f r q -> p = q.
Proof.
  intros (A & B & C) (A' & B' & C'). destruct (Z.lt_trichotomy p q) as [H|[H|H]]; auto.
  - pose proof (cnt_lt f p q ltac:(lia) B). lia.
  - pose proof (cnt_lt f q p ltac:(lia) B'). lia.
Qed.
Lemma is_sel_shift f r p h : 0 <= h -> is_sel (fun i => f (h + i)) (r - cnt f h) p -> is_sel f r (h + p).
Proof. intros Hh (A & B & C). split; [lia|]. split; auto. rewrite cnt_add by lia. lia. Qed.
Lemma is_sel_ext f g r p n : (forall i, 0 <= i < n -> f i = g i) -> 0 <= p < n -> is_sel f r p -> is_sel g r p.
Proof. intros E Hp (A & B & C). split; auto. split; [rewrite <- E; auto|]. rewrite <- (cnt_ext f g); auto. intros. apply E. lia. Qed.
(** existence *)
Lemma is_sel_exists f n r : 0 <= n -> 1 <= r <= cnt f n -> exists p, is_sel f r p /\ p < n.
Proof.
  intros Hn. pattern n. apply Zind; [| |auto].
  - rewrite cnt_0; lia.
  - intros k Hk IH Hr. rewrite cnt_S in Hr by auto. destruct (Z_le_gt_dec r (cnt f k)).
    + destruct IH as (p & S & L); [lia|]. exists p. split; auto. lia.
    + destruct (f k) eqn:E; cbn in Hr; [|lia]. exists k. split; [|lia]. split; auto. split; auto. lia.
Qed.
