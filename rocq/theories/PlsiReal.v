(** Property C89: with exact real arithmetic the learned vectors stay probability distributions and the likelihood never decreases. *)
From Coq Require Import Reals Lra.
Require Import Verif.Common Verif.PlsiModel Verif.PlsiProps Verif.PlsiUse.
Open Scope R_scope.
Open Scope list_scope.

(** ** Finite sums *)
Fixpoint rsum {X} (f : X -> R) (l : list X) : R := match l with [] => 0 | x :: l => f x + rsum f l end.
Lemma rsum_app {X} (f : X -> R) l1 l2 : rsum f (l1 ++ l2) = rsum f l1 + rsum f l2.
Proof. induction l1 as [|x l IH]; cbn; [lra|]. rewrite IH. lra. Qed.
Lemma rsum_ext {X} (f g : X -> R) l : (forall x, In x l -> f x = g x) -> rsum f l = rsum g l.
Proof. induction l as [|x l IH]; intros H; cbn; auto. rewrite H by (left; auto). rewrite IH; auto. intros; apply H; right; auto. Qed.
Lemma rsum_le {X} (f g : X -> R) l : (forall x, In x l -> f x <= g x) -> rsum f l <= rsum g l.
Proof. induction l as [|x l IH]; intros H; cbn; [lra|]. pose proof (H x (or_introl eq_refl)). assert (rsum f l <= rsum g l) by (apply IH; intros; apply H; right; auto). lra. Qed.
Lemma rsum_plus {X} (f g : X -> R) l : rsum (fun x => f x + g x) l = rsum f l + rsum g l.
Proof. induction l as [|x l IH]; cbn; [lra|]. rewrite IH. lra. Qed.
Lemma rsum_minus {X} (f g : X -> R) l : rsum (fun x => f x - g x) l = rsum f l - rsum g l.
Proof. induction l as [|x l IH]; cbn; [lra|]. rewrite IH. lra. Qed.
Lemma rsum_scal {X} c (f : X -> R) l : rsum (fun x => c * f x) l = c * rsum f l.
Proof. induction l as [|x l IH]; cbn; [lra|]. rewrite IH. lra. Qed.
Lemma rsum_nonneg {X} (f : X -> R) l : (forall x, In x l -> 0 <= f x) -> 0 <= rsum f l.
Proof. intros H. replace 0 with (rsum (fun _ : X => 0) l) by (clear; induction l; cbn; lra). apply rsum_le. auto. Qed.
Lemma rsum_pos {X} (f : X -> R) l : l <> [] -> (forall x, In x l -> 0 < f x) -> 0 < rsum f l.
Proof.
  intros N H. destruct l as [|x l]; [congruence|]. cbn. pose proof (H x (or_introl eq_refl)). assert (0 <= rsum f l) by (apply rsum_nonneg; intros y I; specialize (H y (or_intror I)); lra). lra.
Qed.
Lemma rsum_swap {X Y} (f : X -> Y -> R) l m : rsum (fun x => rsum (f x) m) l = rsum (fun y => rsum (fun x => f x y) l) m.
Proof.
  induction l as [|x l IH]; cbn.
  - clear. induction m; cbn; lra.
  - rewrite IH. rewrite <- rsum_plus. reflexivity.
Qed.
Lemma rsum_const {X} c (l : list X) : rsum (fun _ => c) l = IZR (zlen l) * c.
Proof. induction l as [|x l IH]; [cbn; lra|]. cbn [rsum]. rewrite IH, zlen_cons, plus_IZR. lra. Qed.
(** grouping by a key *)
Lemma rsum_single (f : Z -> R) a ks : NoDup ks -> In a ks -> rsum (fun x => if Z.eqb a x then f x else 0) ks = f a.
Proof.
  induction ks as [|k ks IH]; intros ND I; [destruct I|]. inversion ND as [|? ? NI ND']; subst. cbn. destruct I as [->|I].
  - rewrite Z.eqb_refl. assert (E : rsum (fun x => if Z.eqb a x then f x else 0) ks = 0).
    { transitivity (rsum (fun _ : Z => 0) ks); [|rewrite rsum_const; lra]. apply rsum_ext. intros x Ix. destruct (Z.eqb_spec a x); [subst; contradiction|auto]. }
    lra.
  - destruct (Z.eqb_spec a k); [subst; contradiction|]. rewrite IH by auto. lra.
Qed.
Lemma rsum_filter {X} (p : X -> bool) (f : X -> R) l : rsum f (filter p l) = rsum (fun x => if p x then f x else 0) l.
Proof. induction l as [|x l IH]; cbn; auto. destruct (p x); cbn; rewrite IH; lra. Qed.
Lemma rsum_group {X} (g : X -> Z) (h : Z -> R) (a : X -> R) l ks : NoDup ks -> (forall x, In x l -> In (g x) ks) ->
  rsum (fun x => a x * h (g x)) l = rsum (fun k => rsum a (filter (fun x => Z.eqb (g x) k) l) * h k) ks.
Proof.
  intros ND. induction l as [|x l IH]; intros H; cbn [rsum filter].
  - symmetry. transitivity (rsum (fun _ : Z => 0) ks); [apply rsum_ext; intros; cbn; lra|rewrite rsum_const; lra].
  - rewrite IH by (intros; apply H; right; auto). rewrite <- (rsum_single (fun k => a x * h k) (g x) ks ND (H x (or_introl eq_refl))). rewrite <- rsum_plus. apply rsum_ext. intros k _.
    destruct (Z.eqb (g x) k); cbn [rsum]; lra.
Qed.

(** ** The inequality of EM *)
Lemma ln_bound x : 0 < x -> ln x <= x - 1.
Proof. intros H. pose proof (exp_ineq1_le (ln x)) as E. rewrite exp_ln in E by auto. lra. Qed.
Lemma ln_div a b : 0 < a -> 0 < b -> ln (a / b) = ln a - ln b.
Proof. intros Ha Hb. unfold Rdiv. rewrite ln_mult by (auto; apply Rinv_0_lt_compat; auto). rewrite ln_Rinv by auto. lra. Qed.
(** Gibbs: the relative frequencies of the keys explain the weighted data at least as well as any f with sum <= 1 *)
Lemma gibbs {X} (g : X -> Z) (a : X -> R) (f : Z -> R) l ks : NoDup ks -> (forall x, In x l -> In (g x) ks) -> (forall x, In x l -> 0 < a x) ->
  (forall x, In x l -> 0 < f (g x)) -> (forall k, In k ks -> 0 <= f k) -> rsum f ks <= 1 ->
  0 <= rsum (fun x => a x * (ln (rsum a (filter (fun y => Z.eqb (g y) (g x)) l) / rsum a l) - ln (f (g x)))) l.
Proof.
  intros ND HK HA HF HF0 HS. assert (D : l = [] \/ l <> []) by (destruct l; [left; auto|right; discriminate]). destruct D as [-> | NE]; [cbn; lra|]. set (A k := rsum a (filter (fun y => Z.eqb (g y) k) l)). set (N := rsum a l).
  assert (HN : 0 < N) by (apply rsum_pos; auto).
  assert (HAg : forall x, In x l -> 0 < A (g x)).
  { intros x I. unfold A. apply rsum_pos; [|intros y Iy; apply filter_In in Iy; apply HA; tauto]. intros E. assert (In x (filter (fun y => Z.eqb (g y) (g x)) l)) as Q by (apply filter_In; split; auto; apply Z.eqb_refl). rewrite E in Q. destruct Q. }
  assert (L : rsum (fun x => a x * (1 - f (g x) * N / A (g x))) l <= rsum (fun x => a x * (ln (A (g x) / N) - ln (f (g x)))) l).
  { apply rsum_le. intros x I. specialize (HA x I). specialize (HF x I). specialize (HAg x I). apply Rmult_le_compat_l; [lra|].
    assert (P : 0 < f (g x) * N / A (g x)) by (apply Rdiv_lt_0_compat; [apply Rmult_lt_0_compat; auto|auto]).
    pose proof (ln_bound _ P) as B. rewrite ln_div, ln_mult in B by (auto; apply Rmult_lt_0_compat; auto). rewrite ln_div by auto. lra. }
  eapply Rle_trans; [|exact L].
  assert (E : rsum (fun x => a x * (1 - f (g x) * N / A (g x))) l = N - rsum (fun x => a x * (f (g x) * N / A (g x))) l).
  { unfold N at 2. rewrite <- rsum_minus. apply rsum_ext. intros x I. lra. }
  rewrite E. rewrite (rsum_group g (fun k => f k * N / A k) a l ks ND HK).
  assert (Q : rsum (fun k => rsum a (filter (fun x => Z.eqb (g x) k) l) * (f k * N / A k)) ks <= rsum (fun k => N * f k) ks).
  { apply rsum_le. intros k I. fold (A k). specialize (HF0 k I). destruct (Req_dec (A k) 0) as [Z0|NZ].
    - rewrite Z0. rewrite Rmult_0_l. apply Rmult_le_pos; lra.
    - replace (A k * (f k * N / A k)) with (N * f k) by (field; auto). lra. }
  rewrite rsum_scal in Q. assert (N * rsum f ks <= N * 1) by (apply Rmult_le_compat_l; lra). lra.
Qed.

Section EM.
Variables (ks us is : list Z) (obs : list (Z * Z)).
Hypotheses (NDk : NoDup ks) (NDu : NoDup us) (NDi : NoDup is) (Ku : forall o, In o obs -> In (snd o) us) (Ki : forall o, In o obs -> In (fst o) is) (NE : obs <> []) (NK : ks <> []).
(** distributions that give every observation a positive probability *)
Record good (z : Z -> R) (u v : Z -> Z -> R) : Prop := {
  g_z : forall k, In k ks -> 0 < z k; g_zs : rsum z ks = 1;
  g_u : forall k x, In k ks -> In x us -> 0 <= u k x; g_us : forall k, In k ks -> rsum (u k) us = 1;
  g_v : forall k y, In k ks -> In y is -> 0 <= v k y; g_vs : forall k, In k ks -> rsum (v k) is = 1;
  g_o : forall k o, In k ks -> In o obs -> 0 < u k (snd o) /\ 0 < v k (fst o) }.
Section Step.
Variable (w : Z -> Z * Z -> R).   (* the posterior of class k given o *)
Hypothesis (Hw : forall k o, In k ks -> In o obs -> 0 < w k o).
Hypothesis (Hw1 : forall o, In o obs -> rsum (fun k => w k o) ks = 1).
Let N k := rsum (w k) obs.
Let n := IZR (zlen obs).
Variables (z' : Z -> R) (u' v' : Z -> Z -> R).
Hypotheses (Ez : forall k, In k ks -> z' k = N k / n) (Eu : forall k x, In k ks -> In x us -> u' k x = rsum (w k) (filter (fun o => Z.eqb (snd o) x) obs) / N k)
  (Ev : forall k y, In k ks -> In y is -> v' k y = rsum (w k) (filter (fun o => Z.eqb (fst o) y) obs) / N k).
Lemma N_pos k : In k ks -> 0 < N k.
Proof. intros I. apply rsum_pos; auto. Qed.
Lemma N_sum : rsum N ks = n.
Proof. unfold N. rewrite rsum_swap. rewrite (rsum_ext _ (fun _ => 1)) by auto. rewrite rsum_const. unfold n. lra. Qed.
Lemma n_pos : 0 < n.
Proof. unfold n. apply IZR_lt. destruct obs; [congruence|]. rewrite zlen_cons. pose proof (zlen_nonneg l). lia. Qed.
Lemma group_sum (g : Z * Z -> Z) keys k : In k ks -> NoDup keys -> (forall o, In o obs -> In (g o) keys) -> rsum (fun x => rsum (w k) (filter (fun o => Z.eqb (g o) x) obs) / N k) keys = 1.
Proof.
  intros I ND H. pose proof (N_pos k I). unfold Rdiv. rewrite (rsum_ext _ (fun x => / N k * (rsum (w k) (filter (fun o => Z.eqb (g o) x) obs) * 1))) by (intros; lra). rewrite rsum_scal.
  rewrite <- (rsum_group g (fun _ => 1) (w k) obs keys ND H). rewrite (rsum_ext _ (w k)) by (intros; lra). fold (N k). field. lra.
Qed.
Lemma filter_pos (g : Z * Z -> Z) k o : In k ks -> In o obs -> 0 < rsum (w k) (filter (fun o' => Z.eqb (g o') (g o)) obs).
Proof.
  intros I J. apply rsum_pos; [|intros y Iy; apply filter_In in Iy; apply Hw; tauto]. intros E. assert (In o (filter (fun y => Z.eqb (g y) (g o)) obs)) as Q by (apply filter_In; split; auto; apply Z.eqb_refl). rewrite E in Q. destruct Q.
Qed.
Lemma filter_nonneg (g : Z * Z -> Z) k x : In k ks -> 0 <= rsum (w k) (filter (fun o' => Z.eqb (g o') x) obs).
Proof. intros I. apply rsum_nonneg. intros y Iy. apply filter_In in Iy. left. apply Hw; tauto. Qed.
Lemma step_good : good z' u' v'.
Proof.
  constructor.
  - intros k I. rewrite Ez by auto. apply Rdiv_lt_0_compat; [apply N_pos; auto|apply n_pos].
  - rewrite (rsum_ext _ (fun k => / n * N k)) by (intros; rewrite Ez by auto; unfold Rdiv; lra). rewrite rsum_scal, N_sum. pose proof n_pos. field. lra.
  - intros k x I J. rewrite Eu by auto. apply Rmult_le_pos; [apply filter_nonneg; auto|]. left. apply Rinv_0_lt_compat, N_pos; auto.
  - intros k I. rewrite (rsum_ext _ (fun x => rsum (w k) (filter (fun o => Z.eqb (snd o) x) obs) / N k)) by (intros; apply Eu; auto). apply group_sum; auto.
  - intros k x I J. rewrite Ev by auto. apply Rmult_le_pos; [apply filter_nonneg; auto|]. left. apply Rinv_0_lt_compat, N_pos; auto.
  - intros k I. rewrite (rsum_ext _ (fun x => rsum (w k) (filter (fun o => Z.eqb (fst o) x) obs) / N k)) by (intros; apply Ev; auto). apply group_sum; auto.
  - intros k o I J. rewrite Eu, Ev by auto. split; (apply Rdiv_lt_0_compat; [|apply N_pos; auto]); [apply (filter_pos snd)|apply (filter_pos fst)]; auto.
Qed.
End Step.
(** q_k(o) = p(z=k) p(user|z=k) p(item|z=k) *)
Definition q (z : Z -> R) (u v : Z -> Z -> R) (k : Z) (o : Z * Z) : R := z k * u k (snd o) * v k (fst o).
Definition S (z : Z -> R) (u v : Z -> Z -> R) (o : Z * Z) : R := rsum (fun k => q z u v k o) ks.
Lemma q_pos z u v k o : good z u v -> In k ks -> In o obs -> 0 < q z u v k o.
Proof. intros G I J. unfold q. destruct (g_o _ _ _ G k o I J). pose proof (g_z _ _ _ G k I). repeat apply Rmult_lt_0_compat; auto. Qed.
Lemma S_pos z u v o : good z u v -> In o obs -> 0 < S z u v o.
Proof. intros G J. apply rsum_pos; auto. intros k I. apply q_pos; auto. Qed.
Theorem em_monotone z u v z' u' v' : good z u v ->
  let w k o := q z u v k o / S z u v o in let N k := rsum (w k) obs in let n := IZR (zlen obs) in
  (forall k, In k ks -> z' k = N k / n) -> (forall k x, In k ks -> In x us -> u' k x = rsum (w k) (filter (fun o => Z.eqb (snd o) x) obs) / N k) ->
  (forall k y, In k ks -> In y is -> v' k y = rsum (w k) (filter (fun o => Z.eqb (fst o) y) obs) / N k) ->
  rsum (fun o => ln (S z u v o)) obs <= rsum (fun o => ln (S z' u' v' o)) obs.
Proof.
  intros G w N n Ez Eu Ev.
  assert (Hw : forall k o, In k ks -> In o obs -> 0 < w k o) by (intros k o I J; unfold w; apply Rdiv_lt_0_compat; [apply q_pos; auto|apply S_pos; auto]).
  assert (Hw1 : forall o, In o obs -> rsum (fun k => w k o) ks = 1).
  { intros o J. unfold w. pose proof (S_pos z u v o G J). rewrite (rsum_ext _ (fun k => / S z u v o * q z u v k o)) by (intros; unfold Rdiv; lra). rewrite rsum_scal. change (rsum (fun k => q z u v k o) ks) with (S z u v o). rewrite Rmult_comm. apply Rinv_r. lra. }
  pose proof (step_good w Hw Hw1 z' u' v' Ez Eu Ev) as G'.
  (* each observation *)
  assert (O : forall o, In o obs -> rsum (fun k => w k o * (ln (q z' u' v' k o) - ln (q z u v k o))) ks <= ln (S z' u' v' o) - ln (S z u v o)).
  { intros o J. pose proof (S_pos _ _ _ o G J) as P. pose proof (S_pos _ _ _ o G' J) as P'.
    assert (B : rsum (fun k => w k o * (ln (q z' u' v' k o) - ln (q z u v k o) + ln (S z u v o) - ln (S z' u' v' o))) ks <= rsum (fun k => q z' u' v' k o / S z' u' v' o - w k o) ks).
    { apply rsum_le. intros k I. pose proof (q_pos _ _ _ k o G I J) as Q. pose proof (q_pos _ _ _ k o G' I J) as Q'. pose proof (Hw k o I J) as W.
      assert (T : 0 < (q z' u' v' k o / q z u v k o) * (S z u v o / S z' u' v' o)) by (apply Rmult_lt_0_compat; apply Rdiv_lt_0_compat; auto).
      pose proof (ln_bound _ T) as LB. rewrite ln_mult, !ln_div in LB by (auto; apply Rdiv_lt_0_compat; auto).
      replace (q z' u' v' k o / S z' u' v' o - w k o) with (w k o * ((q z' u' v' k o / q z u v k o) * (S z u v o / S z' u' v' o) - 1)) by (unfold w; field; lra).
      apply Rmult_le_compat_l; [lra|]. lra. }
    assert (R0 : rsum (fun k => q z' u' v' k o / S z' u' v' o - w k o) ks = 0).
    { rewrite rsum_minus, Hw1 by auto. rewrite (rsum_ext _ (fun k => / S z' u' v' o * q z' u' v' k o)) by (intros; unfold Rdiv; lra). rewrite rsum_scal. change (rsum (fun k => q z' u' v' k o) ks) with (S z' u' v' o). rewrite Rmult_comm, Rinv_r; lra. }
    rewrite R0 in B.
    assert (B2 : rsum (fun k => w k o * (ln (q z' u' v' k o) - ln (q z u v k o) + ln (S z u v o) - ln (S z' u' v' o))) ks = rsum (fun k => w k o * (ln (q z' u' v' k o) - ln (q z u v k o))) ks + (ln (S z u v o) - ln (S z' u' v' o)) * rsum (fun k => w k o) ks).
    { rewrite <- rsum_scal, <- rsum_plus. apply rsum_ext. intros; lra. }
    rewrite B2, Hw1 in B by auto. lra. }
  assert (T : rsum (fun o => rsum (fun k => w k o * (ln (q z' u' v' k o) - ln (q z u v k o))) ks) obs <= rsum (fun o => ln (S z' u' v' o)) obs - rsum (fun o => ln (S z u v o)) obs).
  { rewrite <- rsum_minus. apply rsum_le. auto. }
  assert (Z3 : 0 <= rsum (fun o => rsum (fun k => w k o * (ln (q z' u' v' k o) - ln (q z u v k o))) ks) obs); [|lra]. clear T O.
  rewrite (rsum_ext _ (fun o => rsum (fun k => w k o * (ln (z' k) - ln (z k)) + w k o * (ln (u' k (snd o)) - ln (u k (snd o))) + w k o * (ln (v' k (fst o)) - ln (v k (fst o)))) ks)).
  2:{ intros o J. apply rsum_ext. intros k I. unfold q. destruct (g_o _ _ _ G k o I J). destruct (g_o _ _ _ G' k o I J). pose proof (g_z _ _ _ G k I). pose proof (g_z _ _ _ G' k I).
      rewrite !ln_mult by (repeat apply Rmult_lt_0_compat; auto). lra. }
  rewrite (rsum_swap (fun o k => w k o * (ln (z' k) - ln (z k)) + w k o * (ln (u' k (snd o)) - ln (u k (snd o))) + w k o * (ln (v' k (fst o)) - ln (v k (fst o))))).
  rewrite (rsum_ext _ (fun k => N k * (ln (N k / n) - ln (z k)) + (rsum (fun o => w k o * (ln (rsum (w k) (filter (fun o' => Z.eqb (snd o') (snd o)) obs) / N k) - ln (u k (snd o)))) obs + rsum (fun o => w k o * (ln (rsum (w k) (filter (fun o' => Z.eqb (fst o') (fst o)) obs) / N k) - ln (v k (fst o)))) obs))).
  2:{ intros k I. rewrite !rsum_plus. rewrite Rplus_assoc. f_equal; [|f_equal].
      - rewrite Ez by auto. unfold N at 2. rewrite (Rmult_comm (rsum (w k) obs)), <- rsum_scal. apply rsum_ext. intros; lra.
      - apply rsum_ext. intros o J. rewrite Eu by auto. auto.
      - apply rsum_ext. intros o J. rewrite Ev by auto. auto. }
  rewrite rsum_plus. apply Rplus_le_le_0_compat.
  - assert (HN : forall k, In k ks -> 0 < N k) by (intros; apply (N_pos w Hw); auto).
    assert (NS : rsum N ks = n) by (apply (N_sum w Hw1)).
    pose proof (gibbs (fun k => k) N z ks ks NDk (fun _ I => I) HN (g_z _ _ _ G) (fun k I => Rlt_le _ _ (g_z _ _ _ G k I)) (Req_le _ _ (g_zs _ _ _ G))) as GB. rewrite NS in GB.
    erewrite rsum_ext; [exact GB|]. intros k I. cbv beta. do 4 f_equal. rewrite rsum_filter. rewrite (rsum_ext _ (fun x => if Z.eqb k x then N x else 0)); [symmetry; apply rsum_single; auto|]. intros x _. rewrite Z.eqb_sym. auto.
  - apply rsum_nonneg. intros k I. apply Rplus_le_le_0_compat.
    + apply (gibbs snd (w k) (u k) obs us); auto; [intros o J; apply (g_o _ _ _ G); auto|intros x J; apply (g_u _ _ _ G); auto|apply Req_le, (g_us _ _ _ G); auto].
    + apply (gibbs fst (w k) (v k) obs is); auto; [intros o J; apply (g_o _ _ _ G); auto|intros x J; apply (g_v _ _ _ G); auto|apply Req_le, (g_vs _ _ _ G); auto].
Qed.
End EM.

(** ** Specification *)
(** the learned vectors are probability distributions *)
Definition distributions (p : @plsi R) (users items : list Z) : Prop :=
  let K := upto (zlen (zv p)) in let U := upto (zlen users) in let I := upto (zlen items) in
  rsum (pz IZR p) K = 1 /\ (forall k, In k K -> 0 < pz IZR p k) /\
  (forall k, In k K -> rsum (pu IZR p k) U = 1 /\ forall u, In u U -> 0 <= pu IZR p k u) /\
  (forall k, In k K -> rsum (pi IZR p k) I = 1 /\ forall i, In i I -> 0 <= pi IZR p k i).
(** the probability of an observation (item, user) and the log-likelihood of the data *)
Definition likelihood_of (p : @plsi R) (o : Z * Z) : R := rsum (fun k => pz IZR p k * pu IZR p k (snd o) * pi IZR p k (fst o)) (upto (zlen (zv p))).
Definition log_likelihood (p : @plsi R) (obs : list (Z * Z)) : R := rsum (fun o => ln (likelihood_of p o)) obs.

Section Exact.
(** exact arithmetic: division where the divisor is not 0, log of a positive number, pow of a positive number; nothing is assumed elsewhere *)
Variables (dv pw : R -> R -> R) (lg ex : R -> R) (gtb leb : R -> R -> bool) (rnd : nat -> R).
Hypothesis dv_ok : forall a b, b <> 0 -> dv a b = a / b.
Hypothesis lg_ok : forall a, 0 < a -> lg a = ln a.
Hypothesis pw_pos : forall a b, 0 < a -> 0 < pw a b.
Hypothesis pw_1 : forall a, 0 < a -> pw a 1 = a.
Hypothesis rnd_pos : forall n, 0 < rnd n.    (* C83: getDouble of UniformRandomGenerator(0.25, 0.75) is at least 0.25 *)

Lemma fsum_rsum {X} (f : X -> R) l : fsum Rplus IZR f l = rsum f l.
Proof.
  unfold fsum. assert (G : forall a, fold_left (fun s x => s + f x) l a = a + rsum f l) by (induction l as [|x l IH]; intros a; cbn; [lra|rewrite IH; lra]). rewrite G. lra.
Qed.
Lemma upto_nonempty n : (0 < n)%Z -> upto n <> [].
Proof. intros H E. assert (I : In 0%Z (upto n)) by (apply in_upto; lia). rewrite E in I. destruct I. Qed.

Section State.
Variables (lines : list (Z * list Z)) (K : Z) (ll : list (list Z)).
Hypotheses (Sm : small K ll) (K1 : (1 <= K)%Z) (NE : obs_from 0 ll <> []).
Notation obs := (obs_from 0 ll).
Notation ks := (upto K).
Notation us := (upto (zlen (seen_users lines))).
Notation is := (upto (zlen (seen_items lines))).
Notation rdy := (@ready R lines K ll).
Definition fine (p : @plsi R) : Prop := rdy p /\ good ks us is obs (pz IZR p) (pu IZR p) (pi IZR p).

Lemma obs_user p o : rdy p -> In o obs -> In (snd o) us.
Proof. intros (RU & _ & (_ & _ & _ & _ & DO) & _) I. destruct o as [i u]. cbn [snd]. apply in_upto. rewrite <- RU. eapply DO; eauto. Qed.
Lemma obs_item p o : rdy p -> In o obs -> In (fst o) is.
Proof. intros (_ & RI & (_ & _ & _ & DL & _) & _) I. destruct o as [i u]. cbn [fst]. apply in_upto. rewrite <- RI, <- DL. apply obs_item_range in I. lia. Qed.
Lemma index_users p : rdy p -> zlen (users p) = zlen (seen_users lines) /\ zlen (items p) = zlen (seen_items lines) /\ zlen (zv p) = K.
Proof. intros (RU & RI & (DU & DI & _) & (S1 & _)). rewrite (indexed_len _ _ DU), (indexed_len _ _ DI), RU, RI. auto. Qed.

Lemma started_fine p : rdy p -> started Rplus dv IZR rnd p K -> fine p.
Proof.
  intros Rd St. split; auto. destruct (index_users p Rd) as (LU & LI & LK). unfold started in St. rewrite LU, LI in St. cbv zeta in St.
  set (M := zlen (seen_users lines)) in *. set (N := zlen (seen_items lines)) in *.
  assert (O : exists o, In o obs) by (destruct obs as [|o r]; [congruence|exists o; left; auto]). destruct O as (o & O).
  assert (HM : (0 < M)%Z) by (pose proof (obs_user p o Rd O) as Q; apply in_upto in Q; lia).
  assert (HN : (0 < N)%Z) by (pose proof (obs_item p o Rd O) as Q; apply in_upto in Q; lia).
  assert (PK : 0 < IZR K) by (apply IZR_lt; lia). assert (PM : 0 < IZR M) by (apply IZR_lt; lia).
  assert (Zk : forall k, In k ks -> pz IZR p k = / IZR K) by (intros k I; apply in_upto in I; destruct (St k I) as (E & _); rewrite E, dv_ok by lra; unfold Rdiv; lra).
  assert (Uk : forall k u, In k ks -> In u (upto M) -> pu IZR p k u = / IZR M) by (intros k u I J; apply in_upto in I; apply in_upto in J; destruct (St k I) as (_ & E & _); rewrite E, dv_ok by (auto; lra); unfold Rdiv; lra).
  set (T k := rsum (fun j => rnd (Z.to_nat (k * N + j))) (upto N)).
  assert (PT : forall k, 0 < T k) by (intros k; apply rsum_pos; [apply upto_nonempty; lia|auto]).
  assert (Vk : forall k i, In k ks -> In i (upto N) -> pi IZR p k i = rnd (Z.to_nat (k * N + i)) / T k).
  { intros k i I J. apply in_upto in I. apply in_upto in J. destruct (St k I) as (_ & _ & E). rewrite E by auto. rewrite fsum_rsum. fold (T k). apply dv_ok. specialize (PT k). lra. }
  constructor.
  - intros k I. rewrite Zk by auto. apply Rinv_0_lt_compat; auto.
  - rewrite (rsum_ext _ (fun _ => / IZR K)) by auto. rewrite rsum_const, upto_len by lia. apply Rinv_r. lra.
  - intros k u I J. rewrite Uk by auto. left. apply Rinv_0_lt_compat; auto.
  - intros k I. rewrite (rsum_ext _ (fun _ => / IZR M)) by auto. rewrite rsum_const, upto_len by lia. apply Rinv_r. lra.
  - intros k i I J. rewrite Vk by auto. left. apply Rdiv_lt_0_compat; auto.
  - intros k I. rewrite (rsum_ext _ (fun i => / T k * rnd (Z.to_nat (k * N + i)))) by (intros; rewrite Vk by auto; unfold Rdiv; lra). rewrite rsum_scal. fold (T k). specialize (PT k). field. lra.
  - intros k o' I J. pose proof (obs_user p o' Rd J) as JU. pose proof (obs_item p o' Rd J) as JI. rewrite Uk, Vk by auto. split; [apply Rinv_0_lt_compat; auto|apply Rdiv_lt_0_compat; auto].
Qed.

(** one step from a good state, for any temperature *)
Lemma em_fine p q' beta : fine p -> rdy q' -> em_update Rplus Rmult dv pw IZR p q' beta obs ->
  fine q' /\ (forall o, In o obs -> 0 < total Rplus Rmult pw IZR p beta o) /\
  (beta = 1 -> rsum (fun o => ln (S ks (pz IZR p) (pu IZR p) (pi IZR p) o)) obs <= rsum (fun o => ln (S ks (pz IZR q') (pu IZR q') (pi IZR q') o)) obs).
Proof.
  intros (Rd & G) Rd' EM. destruct (index_users p Rd) as (LU & LI & LK).
  pose proof (NoDup_upto K) as NDk. pose proof (NoDup_upto (zlen (seen_users lines))) as NDu. pose proof (NoDup_upto (zlen (seen_items lines))) as NDi.
  pose proof (fun o => obs_user p o Rd) as Ku. pose proof (fun o => obs_item p o Rd) as Ki. assert (NK : ks <> []) by (apply upto_nonempty; lia).
  assert (QP : forall k o, In k ks -> In o obs -> 0 < q (pz IZR p) (pu IZR p) (pi IZR p) k o) by (intros; eapply q_pos; eauto).
  assert (WP : forall k o, In k ks -> In o obs -> 0 < weight Rmult pw IZR p beta o k) by (intros k o I J; apply pw_pos; apply QP; auto).
  assert (TE : forall o, total Rplus Rmult pw IZR p beta o = rsum (weight Rmult pw IZR p beta o) ks) by (intros o; unfold total; rewrite LK; apply fsum_rsum).
  assert (TP : forall o, In o obs -> 0 < total Rplus Rmult pw IZR p beta o) by (intros o J; rewrite TE; apply rsum_pos; auto).
  set (w k o := weight Rmult pw IZR p beta o k / total Rplus Rmult pw IZR p beta o).
  assert (PW : forall k o, In o obs -> post Rplus Rmult dv pw IZR p beta k o = w k o) by (intros k o J; unfold post, w; apply dv_ok; specialize (TP o J); lra).
  assert (Hw : forall k o, In k ks -> In o obs -> 0 < w k o) by (intros k o I J; apply Rdiv_lt_0_compat; auto).
  assert (Hw1 : forall o, In o obs -> rsum (fun k => w k o) ks = 1).
  { intros o J. specialize (TP o J). unfold w. rewrite (rsum_ext _ (fun k => / total Rplus Rmult pw IZR p beta o * weight Rmult pw IZR p beta o k)) by (intros; unfold Rdiv; lra).
    rewrite rsum_scal. change (rsum (fun k => weight Rmult pw IZR p beta o k) ks) with (rsum (weight Rmult pw IZR p beta o) ks). rewrite <- TE. field. lra. }
  assert (FS : forall k pr, fsum Rplus IZR (post Rplus Rmult dv pw IZR p beta k) (filter pr obs) = rsum (w k) (filter pr obs)).
  { intros k pr. rewrite fsum_rsum. apply rsum_ext. intros o I. apply filter_In in I. apply PW. tauto. }
  assert (FS0 : forall k, fsum Rplus IZR (post Rplus Rmult dv pw IZR p beta k) obs = rsum (w k) obs) by (intros k; rewrite fsum_rsum; apply rsum_ext; intros o I; apply PW; auto).
  assert (NP : forall k, In k ks -> 0 < rsum (w k) obs) by (intros; apply rsum_pos; auto).
  assert (nP : 0 < IZR (zlen obs)) by (apply IZR_lt; destruct obs as [|o r]; [congruence|rewrite zlen_cons; pose proof (zlen_nonneg r); lia]).
  assert (Ez : forall k, In k ks -> pz IZR q' k = rsum (w k) obs / IZR (zlen obs)).
  { intros k I. apply in_upto in I. destruct (EM k) as (E & _); [lia|]. rewrite E, FS0. apply dv_ok. lra. }
  assert (Eu : forall k x, In k ks -> In x us -> pu IZR q' k x = rsum (w k) (filter (fun o => Z.eqb (snd o) x) obs) / rsum (w k) obs).
  { intros k x I J. pose proof (NP k I). apply in_upto in I. apply in_upto in J. destruct (EM k) as (_ & E & _); [lia|]. rewrite E, FS, FS0 by lia. apply dv_ok. lra. }
  assert (Ev : forall k y, In k ks -> In y is -> pi IZR q' k y = rsum (w k) (filter (fun o => Z.eqb (fst o) y) obs) / rsum (w k) obs).
  { intros k x I J. pose proof (NP k I). apply in_upto in I. apply in_upto in J. destruct (EM k) as (_ & _ & E); [lia|]. rewrite E, FS, FS0 by lia. apply dv_ok. lra. }
  split; [|split; [exact TP|]].
  - split; [exact Rd'|]. apply (step_good ks us is obs NDu NDi Ku Ki NE w Hw Hw1); auto.
  - intros ->. assert (WQ : forall k o, In k ks -> In o obs -> weight Rmult pw IZR p 1 o k = q (pz IZR p) (pu IZR p) (pi IZR p) k o) by (intros k o I J; unfold weight; apply pw_1; apply QP; auto).
    assert (TS : forall o, In o obs -> total Rplus Rmult pw IZR p 1 o = S ks (pz IZR p) (pu IZR p) (pi IZR p) o) by (intros o J; rewrite TE; apply rsum_ext; auto).
    assert (WW : forall k o, In k ks -> In o obs -> w k o = q (pz IZR p) (pu IZR p) (pi IZR p) k o / S ks (pz IZR p) (pu IZR p) (pi IZR p) o) by (intros k o I J; unfold w; rewrite WQ, TS; auto).
    assert (WS : forall k pr, In k ks -> rsum (w k) (filter pr obs) = rsum ((fun k o => q (pz IZR p) (pu IZR p) (pi IZR p) k o / S ks (pz IZR p) (pu IZR p) (pi IZR p) o) k) (filter pr obs)) by (intros k pr I; apply rsum_ext; intros o J; apply filter_In in J; apply WW; tauto).
    assert (WS0 : forall k, In k ks -> rsum (w k) obs = rsum ((fun k o => q (pz IZR p) (pu IZR p) (pi IZR p) k o / S ks (pz IZR p) (pu IZR p) (pi IZR p) o) k) obs) by (intros k I; apply rsum_ext; intros o J; apply WW; tauto).
    apply (em_monotone ks us is obs NDk NDu NDi Ku Ki NE NK _ _ _ (pz IZR q') (pu IZR q') (pi IZR q') G); cbv zeta.
    + intros k I. rewrite Ez, WS0 by auto. auto.
    + intros k x I J. rewrite Eu, WS, WS0 by auto. auto.
    + intros k x I J. rewrite Ev, WS, WS0 by auto. auto.
Qed.
Lemma fine_dist p : fine p -> distributions p (seen_users lines) (seen_items lines).
Proof.
  intros (Rd & G). destruct (index_users p Rd) as (LU & LI & LK). unfold distributions. rewrite LK. destruct G. split; [auto|]. split; [auto|]. split; intros k I; split; auto.
Qed.

Notation rcall := (call Rplus Rmult dv pw Ropp lg ex IZR gtb leb).
Notation rcalls := (calls Rplus Rmult dv pw Ropp lg ex IZR gtb leb).
Definition is_query (o : @op R) : Prop := match o with Step _ => False | _ => True end.
Lemma same_fine p q' : fine p -> rdy q' -> zv q' = zv p -> user_z q' = user_z p -> item_z q' = item_z p -> fine q'.
Proof. intros (_ & G) Rd E1 E2 E3. split; auto. unfold pz, pu, pi in *. rewrite E1, E2, E3. exact G. Qed.
Lemma call_fine p o : fine p -> about lines o -> exists x q', rcall p o = Ok (x, q') /\ fine q' /\ shows Rplus Rmult dv pw Ropp lg ex IZR gtb leb ll p o x q' /\
  (is_query o -> zv q' = zv p /\ user_z q' = user_z p /\ item_z q' = item_z p).
Proof.
  intros Fp A. pose proof Fp as (Rd & _).
  destruct (call_ok Rplus Rmult dv pw Ropp lg ex IZR gtb leb rnd lines K ll p o Sm Rd A) as (x & q' & E & Rd' & Sw). exists x, q'. split; [exact E|].
  assert (Q : is_query o -> zv q' = zv p /\ user_z q' = user_z p /\ item_z q' = item_z p).
  { destruct o as [beta|user n|item ty n|]; cbn [is_query shows] in *; [intros []|destruct Sw as (-> & _); auto|destruct Sw as (-> & _); auto|destruct Sw as (_ & Sw); auto]. }
  split; [|auto]. destruct o as [beta|user n|item ty n|].
  - cbn [shows] in Sw. destruct Sw as (_ & EM). exact (proj1 (em_fine p q' beta Fp Rd' EM)).
  - destruct Q as (Q1 & Q2 & Q3); [exact I|]. eapply same_fine; eauto.
  - destruct Q as (Q1 & Q2 & Q3); [exact I|]. eapply same_fine; eauto.
  - destruct Q as (Q1 & Q2 & Q3); [exact I|]. eapply same_fine; eauto.
Qed.
Lemma calls_fine ops : forall p, fine p -> Forall (about lines) ops -> exists xs q', rcalls p ops = Ok (xs, q') /\ length xs = length ops /\ fine q' /\
  (Forall is_query ops -> zv q' = zv p /\ user_z q' = user_z p /\ item_z q' = item_z p).
Proof.
  induction ops as [|o ops IH]; intros p Fp A; cbn [calls]; [exists [], p; auto 10|]. inversion A as [|? ? A1 A2]; subst.
  destruct (call_fine p o Fp A1) as (x & p1 & -> & F1 & _ & Q1). cbn [bind]. destruct (IH p1 F1 A2) as (xs & p2 & -> & L & F2 & Q2). cbn [bind]. exists (x :: xs), p2.
  split; [auto|]. split; [cbn; congruence|]. split; [auto|]. intros Q. inversion Q; subst. destruct Q1 as (<- & <- & <-); auto.
Qed.
(** a step at temperature 1 shows the log-likelihood of the state before it, which the state after it does not lower *)
Lemma step_1 p : fine p -> exists q', rcall p (Step 1) = Ok (Likelihood (log_likelihood p obs), q') /\ fine q' /\ log_likelihood p obs <= log_likelihood q' obs.
Proof.
  intros Fp. pose proof Fp as (Rd & G). destruct (call_fine p (Step 1) Fp I) as (x & q' & E & Fq & Sw & _). cbn [shows] in Sw. destruct Sw as (-> & EM). exists q'.
  destruct (em_fine p q' 1 Fp (proj1 Fq) EM) as (_ & TP & MO). specialize (MO eq_refl).
  destruct (index_users p Rd) as (_ & _ & LK). destruct (index_users q' (proj1 Fq)) as (_ & _ & LK').
  assert (L1 : log_likelihood p obs = rsum (fun o => ln (S ks (pz IZR p) (pu IZR p) (pi IZR p) o)) obs) by (unfold log_likelihood, likelihood_of; rewrite LK; reflexivity).
  assert (L2 : log_likelihood q' obs = rsum (fun o => ln (S ks (pz IZR q') (pu IZR q') (pi IZR q') o)) obs) by (unfold log_likelihood, likelihood_of; rewrite LK'; reflexivity).
  split; [|split; [auto|rewrite L1, L2; exact MO]]. rewrite E, fsum_rsum. f_equal. f_equal. f_equal. apply rsum_ext. intros o J. rewrite lg_ok by auto. f_equal.
  unfold total, likelihood_of. rewrite fsum_rsum, LK. apply rsum_ext. intros k Ik. unfold weight. apply pw_1.
  eapply (q_pos ks us is obs); eauto.
Qed.
End State.

Notation run := (session Rplus Rmult dv pw Ropp lg ex IZR gtb leb rnd).
Lemma calls_app a : forall b p, calls Rplus Rmult dv pw Ropp lg ex IZR gtb leb p (a ++ b) =
  (let! (x, q') := calls Rplus Rmult dv pw Ropp lg ex IZR gtb leb p a in let! (y, r) := calls Rplus Rmult dv pw Ropp lg ex IZR gtb leb q' b in Ok (x ++ y, r)).
Proof.
  induction a as [|o a IH]; intros b p; cbn [app calls bind].
  - destruct (calls _ _ _ _ _ _ _ _ _ _ p b) as [[y r]| | |]; reflexivity.
  - destruct (call _ _ _ _ _ _ _ _ _ _ p o) as [[x q']| | |]; cbn [bind]; auto. rewrite IH. destruct (calls _ _ _ _ _ _ _ _ _ _ q' a) as [[y r]| | |]; cbn [bind]; auto.
    destruct (calls _ _ _ _ _ _ _ _ _ _ r b) as [[w r']| | |]; reflexivity.
Qed.
Lemma obs_ne lines ll : user_places lines ll -> used lines <> [] -> obs_from 0 ll <> [].
Proof.
  intros (_ & _ & P) N E. destruct (used lines) as [|[item l] r] eqn:U; [congruence|].
  assert (I : In (item, l) (used lines)) by (rewrite U; left; auto). apply filter_In in I. destruct I as (I & Z). cbn [snd] in Z. destruct l as [|u l]; [discriminate|].
  assert (A1 : In item (seen_items lines)) by (eapply seen_items_in; eauto; discriminate). assert (A2 : In u (seen_users lines)) by (eapply seen_users_in; eauto; left; auto).
  apply index_in in A1. apply index_in in A2. destruct A1 as (i & A1), A2 as (w & A2). assert (X : In (i, w) (obs_from 0 ll)) by (apply P; exists item, u, (u :: l); split; [auto|split; [left; auto|auto]]).
  rewrite E in X. destruct X.
Qed.
(** data with one line for each item, at least one of them with a user, and K classes, within the counters of the code *)
Definition proper (lines : list (Z * list Z)) (K : Z) : Prop :=
  NoDup (map fst (used lines)) /\ used lines <> [] /\ (zlen (concat (map snd lines)) < 2 ^ 30 - 1)%Z /\ (1 <= K < 2 ^ 31)%Z.
Lemma session_fine lines K : proper lines K -> exists ll p, user_places lines ll /\ small K ll /\ obs_from 0 ll <> [] /\ fine lines K ll p /\
  forall ops, run lines K ops = calls Rplus Rmult dv pw Ropp lg ex IZR gtb leb p ops.
Proof.
  intros (ND & NE & Hn & HK). destruct (C88_history Rplus Rmult dv pw Ropp lg ex IZR gtb leb rnd lines K [] ND Hn ltac:(lia) ltac:(constructor)) as (ll & p' & xs & q' & UP & St & Rd & _ & _). clear p' xs q' St Rd.
  unfold session. pose proof (@C88_load R lines ltac:(lia)) as L. destruct (load lines) as [p0| | |]; [|contradiction|contradiction|contradiction]. clear ll UP.
  destruct L as (ll & L1 & L2 & L3 & L4 & (U1 & U2 & U3) & L5). cbn [bind].
  destruct (C88_start Rplus Rmult dv pw Ropp lg ex IZR gtb leb rnd p0 ll K L4 U1 U2 U3 ltac:(lia)) as (p & -> & St & D & Sh & E1 & E2). cbn [bind].
  assert (Sm : small K ll) by (unfold small; lia). pose proof (obs_ne lines ll L3 NE) as NO. exists ll, p. split; [auto|]. split; [auto|]. split; [auto|]. split; [|auto].
  apply started_fine; auto; try lia. unfold ready. rewrite E1, E2. auto.
Qed.

(** ** C89: after any calls, what was learned is probability distributions *)
Theorem C89_probabilities lines K ops : proper lines K -> Forall (about lines) ops ->
  exists xs p, run lines K ops = Ok (xs, p) /\ zlen (zv p) = K /\ distributions p (seen_users lines) (seen_items lines).
Proof.
  intros P A. destruct (session_fine lines K P) as (ll & p & UP & Sm & NO & Fp & E). destruct P as (_ & _ & _ & HK). assert (K1 : (1 <= K)%Z) by lia.
  destruct (calls_fine lines K ll Sm K1 NO ops p Fp A) as (xs & q' & E2 & _ & Fq & _). exists xs, q'. rewrite E, E2. split; auto. split; [apply (index_users lines K ll q' (proj1 Fq))|]. eapply fine_dist; eauto.
Qed.
(** ** C89: a step with beta = 1 returns the log-likelihood of the data under the state it starts from, and the next one, with any queries between, never returns less *)
Theorem C89_likelihood lines K ops queries : proper lines K -> Forall (about lines) ops -> Forall (about lines) queries -> Forall is_query queries ->
  exists ll xs a p ys b p' q', user_places lines ll /\ length xs = length ops /\ length ys = length queries /\
    run lines K ops = Ok (xs, p) /\ a = log_likelihood p (obs_from 0 ll) /\
    run lines K (ops ++ Step 1 :: queries) = Ok (xs ++ Likelihood a :: ys, p') /\ b = log_likelihood p' (obs_from 0 ll) /\
    run lines K (ops ++ Step 1 :: queries ++ [Step 1]) = Ok (xs ++ Likelihood a :: ys ++ [Likelihood b], q') /\ a <= b.
Proof.
  intros P A B Q. destruct (session_fine lines K P) as (ll & p0 & UP & Sm & NO & Fp & E). destruct P as (_ & _ & _ & HK). assert (K1 : (1 <= K)%Z) by lia.
  destruct (calls_fine lines K ll Sm K1 NO ops p0 Fp A) as (xs & p & E1 & L1 & Fp1 & _).
  destruct (step_1 lines K ll Sm K1 NO p Fp1) as (p1 & E2 & Fp2 & MO).
  destruct (calls_fine lines K ll Sm K1 NO queries p1 Fp2 B) as (ys & p2 & E3 & L2 & Fp3 & SAME). destruct (SAME Q) as (S1 & S2 & S3).
  destruct (step_1 lines K ll Sm K1 NO p2 Fp3) as (p3 & E4 & Fp4 & _).
  assert (LL : log_likelihood p2 (obs_from 0 ll) = log_likelihood p1 (obs_from 0 ll)) by (unfold log_likelihood, likelihood_of, pz, pu, pi; rewrite S1, S2, S3; reflexivity).
  exists ll, xs, (log_likelihood p (obs_from 0 ll)), p, ys, (log_likelihood p2 (obs_from 0 ll)), p2, p3. rewrite !E, !calls_app, E1. cbn [bind]. cbn [calls]. rewrite E2. cbn [bind]. rewrite calls_app, E3. cbn [bind calls]. rewrite E4. cbn [bind].
  split; [auto|]. split; [auto|]. split; [auto|]. split; [auto|]. split; [auto|]. split; [auto|]. split; [auto|]. split; [auto|]. rewrite LL. exact MO.
Qed.
End Exact.

(** the hypotheses on the arithmetic are met by the real numbers themselves, and [proper] by two items and three users *)
Example C89_probabilities_example : exists xs p, session Rplus Rmult Rdiv Rpower Ropp ln exp IZR (fun a b => if Rgt_dec a b then true else false) (fun a b => if Rle_dec a b then true else false) (fun _ => 1 / 2)
    [(7, [10; 11]); (8, [11; 12])]%Z 2 [Step (1 / 2); Perplexity; Step 1] = Ok (xs, p) /\ zlen (zv p) = 2%Z /\ distributions p [10; 11; 12]%Z [7; 8]%Z.
Proof.
  apply (C89_probabilities Rdiv Rpower ln exp (fun a b => if Rgt_dec a b then true else false) (fun a b => if Rle_dec a b then true else false) (fun _ => 1 / 2)) with (lines := [(7, [10; 11]); (8, [11; 12])]%Z); auto.
  - intros. unfold Rpower. apply exp_pos.
  - intros. apply Rpower_1. auto.
  - intros. lra.
  - split; [|split; [|split]]; [repeat constructor; cbn; intuition lia|discriminate|reflexivity|lia].
  - repeat constructor.
Qed.
Print Assumptions C89_probabilities.
Print Assumptions C89_likelihood.
Print Assumptions C89_probabilities_example.
