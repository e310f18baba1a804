(** C53: parallel_for, include/cybozu/parallel.hpp *)
Require Import Verif.Common Verif.ParallelModel.
From Coq Require Import Sorting.Permutation.
Ltac Zify.zify_post_hook ::= idtac.

(** ** Specification *)
Definition calls (tr : list ev) : list Z := flat_map (fun e => match e with Start i _ => [i] | _ => [] end) tr.
Definition ended (tr : list ev) : list Z := flat_map (fun e => match e with End i _ _ => [i] | _ => [] end) tr.
Definition finished (s : sys) : Prop := match s_main s with MReturn | MThrow _ _ | MBeginError => True | _ => False end.
Definition upto (n : Z) : list Z := map Z.of_nat (seq 0 (Z.to_nat n)).
(** thread t works on bound t .. bound (t+1) - 1 *)
Definition bound (n T t : Z) : Z := t * (n / T) + Z.min t (n mod T).
Definition workers (n threadNum : Z) : Z := Z.min threadNum n.

Section Par.
Variables (w n threadNum : Z) (body : Z -> Z -> outcome -> Prop).
Hypothesis Hw : 1 <= w.
Hypothesis Hn : 0 < n < 2 ^ w.
Hypothesis Ht : 0 < threadNum < 2 ^ w.
Let T := workers n threadNum.
Let q := n / T.
Let r := n mod T.
Notation bd := (bound n T).

Lemma T_pos : 0 < T <= n. Proof. unfold T, workers. lia. Qed.
Lemma qr : n = T * q + r /\ 0 <= r < T /\ 0 <= q.
Proof.
  pose proof T_pos. unfold q, r. pose proof (Z.div_mod n T ltac:(lia)). pose proof (Z.mod_pos_bound n T ltac:(lia)).
  pose proof (Z.div_pos n T ltac:(lia) ltac:(lia)). lia.
Qed.
Lemma bd_0 : bd 0 = 0. Proof. pose proof qr. unfold bound. fold q r. lia. Qed.
Lemma bd_T : bd T = n. Proof. pose proof qr. unfold bound. fold q r. lia. Qed.
Lemma bd_step : forall t, 0 <= t -> bd (t + 1) = bd t + q + (if t <? r then 1 else 0).
Proof. intros t H. pose proof qr. unfold bound. fold q r. destruct (Z.ltb_spec t r); nia. Qed.
Lemma bd_mono : forall a b, 0 <= a -> a <= b -> bd a <= bd b.
Proof. intros a b Ha H. pose proof qr. unfold bound. fold q r. nia. Qed.
Lemma bd_nonneg : forall a, 0 <= a -> 0 <= bd a.
Proof. intros a H. rewrite <- bd_0. apply bd_mono; lia. Qed.

Lemma split_spec : forall cnt i, 0 <= i -> i + Z.of_nat cnt = T ->
  length (split w cnt i (bd i) q r) = cnt /\
  forall k, (k < cnt)%nat -> nth_error (split w cnt i (bd i) q r) k =
    Some (mk_thr (bd (i + Z.of_nat k)) (bd (i + Z.of_nat k + 1)) (i + Z.of_nat k) TNew [] false).
Proof.
  intros cnt. induction cnt as [|cnt IH]; intros i Hi E; cbn [split]; [split; [auto|intros; lia]|].
  pose proof (bd_step i Hi) as Bs. pose proof (bd_mono (i + 1) T ltac:(lia) ltac:(lia)) as Bm. rewrite bd_T in Bm.
  pose proof (bd_nonneg i Hi) as B0. pose proof qr as (_ & _ & Hq).
  assert (En: (if i <? r then wrapN w (wrapN w (bd i + q) + 1) else wrapN w (bd i + q)) = bd (i + 1)).
  { unfold wrapN. destruct (Z.ltb_spec i r); rewrite (Z.mod_small (bd i + q)) by lia; rewrite ?Z.mod_small by lia; lia. }
  rewrite En. destruct (IH (i + 1) ltac:(lia) ltac:(lia)) as [I1 I2]. split; [cbn [length]; lia|].
  intros k Hk. destruct k as [|k]; cbn [nth_error].
  - replace (i + Z.of_nat 0) with i by lia. auto.
  - rewrite I2 by lia. replace (i + 1 + Z.of_nat k) with (i + Z.of_nat (S k)) by lia. auto.
Qed.

(** ** Invariant *)
Definition cur (t : thr) : Z := match t_st t with TNew => t_lo t | TAt i => i | TIn i => i + 1 | TDone c => c end.
Definition static (k : nat) (t : thr) : Prop :=
  t_lo t = bd (Z.of_nat k) /\ t_hi t = bd (Z.of_nat k + 1) /\ t_idx t = Z.of_nat k /\ t_dead t = false.
Definition local (t : thr) (tr : list ev) : Prop :=
  let k := t_idx t in
  t_lo t <= cur t <= t_hi t /\
  (forall i, t_lo t <= i < cur t <-> In (Start i k) tr) /\
  (forall i o, In (End i k o) tr -> t_lo t <= i < cur t /\ t_st t <> TIn i /\ body i k o /\ (o <> RTrue -> t_st t = TDone (i + 1))) /\
  (forall i, t_lo t <= i < cur t -> t_st t <> TIn i -> exists o, In (End i k o) tr) /\
  (forall c, t_st t = TDone c -> c = t_hi t \/ exists o, o <> RTrue /\ In (End (c - 1) k o) tr) /\
  (forall i m, In (End i k (RThrow m)) tr -> t_err t = m) /\
  (t_err t <> [] -> exists i, In (End i k (RThrow (t_err t))) tr) /\
  (forall i, t_st t = TIn i -> t_lo t <= i).
Definition tid (e : ev) := match e with Start _ t => t | End _ t _ => t end.
Definition isDone (t : thr) := match t_st t with TDone _ => True | _ => False end.
Definition minv (m : mstat) (l : list thr) : Prop :=
  match m with
  | MBegin k => (k <= length l)%nat /\ forall j t, nth_error l j = Some t -> (j < k)%nat <-> t_st t <> TNew
  | MJoin k => (k <= length l)%nat /\ forall j t, nth_error l j = Some t -> t_st t <> TNew /\ ((j < k)%nat -> isDone t)
  | MCheck k => (k <= length l)%nat /\ forall j t, nth_error l j = Some t -> isDone t /\ ((j < k)%nat -> t_err t = [])
  | MReturn => forall j t, nth_error l j = Some t -> isDone t /\ t_err t = []
  | MThrow k e => e <> [] /\ (exists t, nth_error l k = Some t /\ t_err t = e) /\
      forall j t, nth_error l j = Some t -> isDone t /\ ((j < k)%nat -> t_err t = [])
  | _ => False
  end.
Definition inv (s : sys) : Prop :=
  Z.of_nat (length (s_thr s)) = T /\
  (forall k t, nth_error (s_thr s) k = Some t -> static k t /\ local t (s_tr s)) /\
  (forall e, In e (s_tr s) -> 0 <= tid e < T) /\
  NoDup (calls (s_tr s)) /\ NoDup (ended (s_tr s)) /\ minv (s_main s) (s_thr s) /\ s_ub s = false.

Lemma in_calls : forall i tr, In i (calls tr) <-> exists t, In (Start i t) tr.
Proof.
  intros i tr. unfold calls. rewrite in_flat_map. split.
  - intros ([j t|j t o] & H & I); cbn in I; [|tauto]. destruct I as [->|[]]. eauto.
  - intros (t & H). exists (Start i t). split; [auto|left; auto].
Qed.
Lemma in_ended : forall i tr, In i (ended tr) <-> exists t o, In (End i t o) tr.
Proof.
  intros i tr. unfold ended. rewrite in_flat_map. split.
  - intros ([j t|j t o] & H & I); cbn in I; [tauto|]. destruct I as [->|[]]. eauto.
  - intros (t & o & H). exists (End i t o). split; [auto|left; auto].
Qed.
Lemma local_other : forall t tr es, local t tr -> (forall e, In e es -> tid e <> t_idx t) -> local t (tr ++ es).
Proof.
  intros t tr es (A1 & A2 & A3 & A4 & A5 & A6 & A7 & A8) H.
  assert (S: forall i, In (Start i (t_idx t)) (tr ++ es) <-> In (Start i (t_idx t)) tr).
  { intros i. rewrite in_app_iff. split; [|auto]. intros [|Q]; auto. apply H in Q. cbn in Q. congruence. }
  assert (S2: forall i o, In (End i (t_idx t) o) (tr ++ es) <-> In (End i (t_idx t) o) tr).
  { intros i o. rewrite in_app_iff. split; [|auto]. intros [|Q]; auto. apply H in Q. cbn in Q. congruence. }
  unfold local. cbv zeta. split; auto. split; [intros; rewrite S; auto|]. split; [intros; apply A3, S2; auto|].
  split; [intros i Hi Hs; destruct (A4 i Hi Hs) as [o Ho]; exists o; apply S2; auto|].
  split; [intros c Hc; destruct (A5 c Hc) as [|(o & Ho & Hin)]; [auto|right; exists o; rewrite S2; auto]|].
  split; [intros i m Q; apply S2 in Q; eauto|].
  split; [intros Q; destruct (A7 Q) as [i Hi]; exists i; apply S2; auto|auto].
Qed.

(** a worker's step keeps its own invariant *)
Lemma local_step : forall k t tr es t', (Z.of_nat k < T) -> static k t -> local t tr -> tstep w body t es t' ->
  local t' (tr ++ es) /\ static k t' /\ (forall e, In e es -> tid e = t_idx t) /\ t_st t <> TNew /\ t_st t' <> TNew /\ ~ isDone t /\
  (es = [] \/ (exists i, es = [Start i (t_idx t)] /\ ~ In (Start i (t_idx t)) tr /\ t_lo t <= i < t_hi t) \/
   (exists i o, es = [End i (t_idx t) o] /\ (forall o', ~ In (End i (t_idx t) o') tr) /\ t_lo t <= i < t_hi t)).
Proof.
  intros k t tr es t' Hk (S1 & S2 & S3 & S4) (A1 & A2 & A3 & A4 & A5 & A6 & A7 & A8) St.
  pose proof (bd_mono (Z.of_nat k + 1) T ltac:(lia) ltac:(lia)) as Bn. rewrite bd_T in Bn.
  pose proof (bd_nonneg (Z.of_nat k) ltac:(lia)) as B0.
  assert (St': static k t'). { destruct St; unfold static, set_st, set_err; cbn; auto. }
  inversion St as [t0 i E L | t0 i E L | t0 i E B | t0 i E B | t0 i m E B]; subst t0 es t'; unfold cur in *; rewrite E in *.
  - (* call *)
    assert (NS: ~ In (Start i (t_idx t)) tr) by (rewrite <- A2; lia).
    split; [|split; [exact St'|split; [intros e [<-|[]]; auto|split; [congruence|split; [cbn; congruence|split; [unfold isDone; rewrite E; tauto|]]]]]].
    2: { right. left. exists i. split; auto. split; auto. lia. }
    unfold local, cur, set_st. cbn [t_lo t_hi t_idx t_st t_err]. split; [lia|].
    split. { intros j. rewrite in_app_iff, <- A2. cbn. split.
      - intros Hj. destruct (Z.eq_dec j i); [right; left; congruence|left; lia].
      - intros [|[Q|[]]]; [lia|]. assert (j = i) by congruence. lia. }
    split. { intros j o Q. apply in_app_iff in Q as [Q|[Q|[]]]; [|discriminate]. destruct (A3 j o Q) as (C1 & C2 & C3 & C4).
      split; [lia|]. split; [intros X; assert (j = i) by congruence; lia|]. split; auto. intros X. specialize (C4 X). congruence. }
    split. { intros j Hj Hne. destruct (A4 j) as [o Ho]; [assert (j <> i) by congruence; lia|congruence|]. exists o. apply in_app_iff. auto. }
    split; [congruence|]. split. { intros j m Q. apply in_app_iff in Q as [Q|[Q|[]]]; [eauto|discriminate]. }
    split. { intros Q. destruct (A7 Q) as [j Hj]. exists j. apply in_app_iff. auto. }
    intros j Q. assert (j = i) by congruence. lia.
  - (* exit *)
    split; [|split; [exact St'|split; [intros e []|split; [congruence|split; [cbn; congruence|split; [unfold isDone; rewrite E; tauto|auto]]]]]].
    rewrite app_nil_r. unfold local, cur, set_st. cbn [t_lo t_hi t_idx t_st t_err]. split; [lia|]. split; [auto|].
    split. { intros j o Q. destruct (A3 j o Q) as (C1 & C2 & C3 & C4). split; auto. split; [congruence|]. split; auto.
      intros X. specialize (C4 X). congruence. }
    split. { intros j Hj _. apply A4; [auto|congruence]. }
    split. { intros c Hc. left. assert (c = i) by congruence. lia. }
    split; [auto|]. split; [auto|]. congruence.
  - (* true *)
    pose proof (A8 i eq_refl) as Li.
    assert (W: wrapN w (i + 1) = i + 1) by (unfold wrapN; apply Z.mod_small; lia).
    assert (NE: forall o', ~ In (End i (t_idx t) o') tr) by (intros o' Q; destruct (A3 i o' Q) as (_ & C2 & _); congruence).
    split; [|split; [exact St'|split; [intros e [<-|[]]; auto|split; [congruence|split; [cbn; congruence|split; [unfold isDone; rewrite E; tauto|]]]]]].
    2: { right. right. exists i, RTrue. split; auto. split; auto. lia. }
    unfold local, cur, set_st. cbn [t_lo t_hi t_idx t_st t_err]. rewrite W. split; [lia|].
    split. { intros j. rewrite in_app_iff, <- A2. cbn. split; [tauto|]. intros [|[Q|[]]]; [lia|discriminate]. }
    split. { intros j o Q. apply in_app_iff in Q as [Q|[Q|[]]].
      - destruct (A3 j o Q) as (C1 & C2 & C3 & C4). split; [lia|]. split; [congruence|]. split; auto. intros X. specialize (C4 X). congruence.
      - assert (j = i) by congruence. assert (o = RTrue) by congruence. subst. split; [lia|]. split; [congruence|]. split; [auto|congruence]. }
    split. { intros j Hj _. destruct (Z.eq_dec j i) as [->|D]; [exists RTrue; apply in_app_iff; right; left; auto|].
      destruct (A4 j Hj) as [o Ho]; [congruence|]. exists o. apply in_app_iff. auto. }
    split; [congruence|]. split. { intros j m Q. apply in_app_iff in Q as [Q|[Q|[]]]; [eauto|congruence]. }
    split. { intros Q. destruct (A7 Q) as [j Hj]. exists j. apply in_app_iff. auto. }
    congruence.
  - (* false *)
    pose proof (A8 i eq_refl) as Li.
    assert (NE: forall o', ~ In (End i (t_idx t) o') tr) by (intros o' Q; destruct (A3 i o' Q) as (_ & C2 & _); congruence).
    split; [|split; [exact St'|split; [intros e [<-|[]]; auto|split; [congruence|split; [cbn; congruence|split; [unfold isDone; rewrite E; tauto|]]]]]].
    2: { right. right. exists i, RFalse. split; auto. split; auto. lia. }
    unfold local, cur, set_st. cbn [t_lo t_hi t_idx t_st t_err]. split; [lia|].
    split. { intros j. rewrite in_app_iff, <- A2. cbn. split; [tauto|]. intros [|[Q|[]]]; [lia|discriminate]. }
    split. { intros j o Q. apply in_app_iff in Q as [Q|[Q|[]]].
      - destruct (A3 j o Q) as (C1 & C2 & C3 & C4). split; [lia|]. split; [congruence|]. split; auto. intros X. specialize (C4 X). congruence.
      - assert (j = i) by congruence. assert (o = RFalse) by congruence. subst. split; [lia|]. split; [congruence|]. split; auto. }
    split. { intros j Hj _. destruct (Z.eq_dec j i) as [->|D]; [exists RFalse; apply in_app_iff; right; left; auto|].
      destruct (A4 j Hj) as [o Ho]; [congruence|]. exists o. apply in_app_iff. auto. }
    split. { intros c Hc. right. exists RFalse. split; [congruence|]. apply in_app_iff. right. left. f_equal. assert (c = i + 1) by congruence. lia. }
    split. { intros j m Q. apply in_app_iff in Q as [Q|[Q|[]]]; [eauto|congruence]. }
    split. { intros Q. destruct (A7 Q) as [j Hj]. exists j. apply in_app_iff. auto. }
    congruence.
  - (* throw *)
    pose proof (A8 i eq_refl) as Li.
    assert (NE: forall o', ~ In (End i (t_idx t) o') tr) by (intros o' Q; destruct (A3 i o' Q) as (_ & C2 & _); congruence).
    assert (NT: forall j o, In (End j (t_idx t) o) tr -> o = RTrue).
    { intros j o Q. destruct (A3 j o Q) as (_ & _ & _ & C4). destruct o; auto; exfalso; assert (TIn i = TDone (j + 1)) by (apply C4; congruence); congruence. }
    split; [|split; [exact St'|split; [intros e [<-|[]]; auto|split; [congruence|split; [cbn; congruence|split; [unfold isDone; rewrite E; tauto|]]]]]].
    2: { right. right. exists i, (RThrow m). split; auto. split; auto. lia. }
    unfold local, cur, set_err, set_st. cbn [t_lo t_hi t_idx t_st t_err]. split; [lia|].
    split. { intros j. rewrite in_app_iff, <- A2. cbn. split; [tauto|]. intros [|[Q|[]]]; [lia|discriminate]. }
    split. { intros j o Q. apply in_app_iff in Q as [Q|[Q|[]]].
      - destruct (A3 j o Q) as (C1 & C2 & C3 & C4). split; [lia|]. split; [congruence|]. split; auto. intros X. specialize (C4 X). congruence.
      - assert (j = i) by congruence. assert (o = RThrow m) by congruence. subst. split; [lia|]. split; [congruence|]. split; auto. }
    split. { intros j Hj _. destruct (Z.eq_dec j i) as [->|D]; [exists (RThrow m); apply in_app_iff; right; left; auto|].
      destruct (A4 j Hj) as [o Ho]; [congruence|]. exists o. apply in_app_iff. auto. }
    split. { intros c Hc. right. exists (RThrow m). split; [congruence|]. apply in_app_iff. right. left. f_equal. assert (c = i + 1) by congruence. lia. }
    split. { intros j m' Q. apply in_app_iff in Q as [Q|[Q|[]]]; [apply NT in Q; discriminate|congruence]. }
    split. { intros Q. exists i. apply in_app_iff. right. left. auto. }
    congruence.
Qed.

Lemma nth_upd : forall {A} (l : list A) k x j y, nth_error (upd l k x) j = Some y ->
  (j = k /\ y = x) \/ (j <> k /\ nth_error l j = Some y).
Proof.
  intros A l k x j y H. destruct (Nat.eq_dec j k) as [->|D].
  - left. split; auto. assert (k < length (upd l k x))%nat by (apply nth_error_Some; congruence). rewrite upd_length in H0.
    rewrite nth_error_upd_eq in H by auto. congruence.
  - right. split; auto. rewrite nth_error_upd_ne in H; auto.
Qed.
Lemma nth_bound : forall s k t, Z.of_nat (length (s_thr s)) = T -> nth_error (s_thr s) k = Some t -> Z.of_nat k < T.
Proof. intros s k t L H. assert (k < length (s_thr s))%nat by (apply nth_error_Some; congruence). lia. Qed.
(** ranges of different workers are disjoint *)
Lemma disjoint : forall j k i, bd (Z.of_nat j) <= i < bd (Z.of_nat j + 1) -> bd (Z.of_nat k) <= i < bd (Z.of_nat k + 1) -> j = k.
Proof.
  intros j k i Hj Hk. destruct (Nat.lt_trichotomy j k) as [H|[H|H]]; auto; exfalso.
  - pose proof (bd_mono (Z.of_nat j + 1) (Z.of_nat k) ltac:(lia) ltac:(lia)). lia.
  - pose proof (bd_mono (Z.of_nat k + 1) (Z.of_nat j) ltac:(lia) ltac:(lia)). lia.
Qed.

Lemma start_here : forall s k t i c, (forall k t, nth_error (s_thr s) k = Some t -> static k t /\ local t (s_tr s)) ->
  (forall e, In e (s_tr s) -> 0 <= tid e < T) -> Z.of_nat (length (s_thr s)) = T ->
  nth_error (s_thr s) k = Some t -> t_lo t <= i < t_hi t -> In (Start i c) (s_tr s) -> c = t_idx t.
Proof.
  intros s k t i c Hl Ht0 L Hk Hi Q. pose proof (Ht0 _ Q) as Qc. cbn in Qc.
  destruct (nth_error (s_thr s) (Z.to_nat c)) as [tc|] eqn:Ec; [|apply nth_error_None in Ec; lia].
  destruct (Hl _ _ Ec) as [(C1 & C2 & C3 & _) (D1 & D2 & _)]. destruct (Hl _ _ Hk) as [(K1 & K2 & K3 & _) _].
  replace c with (t_idx tc) in Q by lia. apply D2 in Q.
  assert (Z.to_nat c = k); [|lia]. apply (disjoint _ _ i); lia.
Qed.

Section Steps.
Variable beginOk : nat -> bool.
Hypothesis Hb : forall k, beginOk k = true.

Lemma local_start : forall t tr, t_st t = TNew -> local t tr -> local (set_st t (TAt (t_lo t))) tr.
Proof.
  intros t tr E (A1 & A2 & A3 & A4 & A5 & A6 & A7 & A8). unfold local, cur, set_st in *. rewrite E in *. cbn [t_lo t_hi t_idx t_st t_err].
  split; [auto|]. split; [auto|]. split.
  { intros i o Q. destruct (A3 i o Q) as (C1 & _). lia. }
  split; [intros; lia|]. split; [congruence|]. split; [auto|]. split; [auto|congruence].
Qed.

Lemma inv_step : forall s s', inv s -> step w body beginOk s s' -> inv s'.
Proof.
  intros s s' (L & Hl & He & N1 & N2 & M & U) St. destruct St as [s k t E Hk B|s k t E Hk B|s k E Hk|s k t E Hk J|s k E Hk|s k t E Hk Er|s k t E Hk Er|s k E Hk|s k t E Hk|s k t E Hk J|s E|s k t es t' Hk TS];
    try rewrite E in M; cbn [minv] in M.
  - destruct M as [M1 M2].
    assert (Et: t_st t = TNew). { specialize (M2 k t Hk). destruct (t_st t); auto; exfalso; assert (k < k)%nat by (apply M2; congruence); lia. }
    split; [|split; [|split; [|split; [|split; [|split]]]]]; cbn [s_thr s_tr s_ub s_main]; auto.
    + rewrite upd_length. auto.
    + intros j x H. apply nth_upd in H as [[-> ->]|[_ H]]; [|auto]. destruct (Hl _ _ Hk) as [S0 L0]. split; [exact S0|apply local_start; auto].
    + cbn [minv]. rewrite upd_length. split; [assert (k < length (s_thr s))%nat by (apply nth_error_Some; congruence); lia|].
      intros j x H. apply nth_upd in H as [[-> ->]|[D H]].
      * cbn. split; [congruence|lia].
      * rewrite <- (M2 j x H). lia.
  - rewrite Hb in B. discriminate.
  - destruct M as [M1 M2]. apply nth_error_None in Hk. split; [|split; [|split; [|split; [|split; [|split]]]]]; cbn [s_thr s_tr s_ub s_main]; auto.
    cbn [minv]. split; [lia|]. intros j t H. split; [|lia]. apply (M2 j t H). assert (j < length (s_thr s))%nat by (apply nth_error_Some; congruence). lia.
  - destruct M as [M1 M2]. split; [|split; [|split; [|split; [|split; [|split]]]]]; cbn [s_thr s_tr s_ub s_main]; auto.
    cbn [minv]. split; [assert (k < length (s_thr s))%nat by (apply nth_error_Some; congruence); lia|].
    intros j x H. destruct (M2 j x H) as [X1 X2]. split; auto. intros Hj. destruct (Nat.eq_dec j k) as [->|]; [|apply X2; lia].
    assert (x = t) by congruence. subst x. unfold joinable in J. unfold isDone. destruct (t_st t); auto.
  - destruct M as [M1 M2]. apply nth_error_None in Hk. split; [|split; [|split; [|split; [|split; [|split]]]]]; cbn [s_thr s_tr s_ub s_main]; auto.
    cbn [minv]. split; [lia|]. intros j t H. split; [|lia]. apply (M2 j t H). assert (j < length (s_thr s))%nat by (apply nth_error_Some; congruence). lia.
  - destruct M as [M1 M2]. split; [|split; [|split; [|split; [|split; [|split]]]]]; cbn [s_thr s_tr s_ub s_main]; auto.
    cbn [minv]. split; [assert (k < length (s_thr s))%nat by (apply nth_error_Some; congruence); lia|].
    intros j x H. destruct (M2 j x H) as [X1 X2]. split; auto. intros Hj. destruct (Nat.eq_dec j k) as [->|]; [|apply X2; lia]. congruence.
  - destruct M as [M1 M2]. split; [|split; [|split; [|split; [|split; [|split]]]]]; cbn [s_thr s_tr s_ub s_main]; auto.
    cbn [minv]. split; auto. split; [eauto|auto].
  - destruct M as [M1 M2]. apply nth_error_None in Hk. split; [|split; [|split; [|split; [|split; [|split]]]]]; cbn [s_thr s_tr s_ub s_main]; auto.
    cbn [minv]. intros j t H. destruct (M2 j t H) as [X1 X2]. split; auto. apply X2. assert (j < length (s_thr s))%nat by (apply nth_error_Some; congruence). lia.
  - tauto.
  - tauto.
  - tauto.
  - destruct (Hl _ _ Hk) as [S0 L0]. pose proof (nth_bound s k t L Hk) as Bk.
    destruct (local_step k t (s_tr s) es t' Bk S0 L0 TS) as (L1 & S1 & Te & NN & NN' & ND & Ev).
    assert (Ik: t_idx t = Z.of_nat k) by apply S0.
    assert (Lo: t_lo t = bd (Z.of_nat k) /\ t_hi t = bd (Z.of_nat k + 1)) by (split; apply S0).
    split; [|split; [|split; [|split; [|split; [|split]]]]]; cbn [s_thr s_tr s_ub s_main].
    + rewrite upd_length. auto.
    + intros j x H. apply nth_upd in H as [[-> ->]|[D H]]; [auto|]. destruct (Hl _ _ H) as [Sx Lx]. split; auto.
      apply local_other; auto. intros e Ee. rewrite (Te e Ee), Ik. destruct Sx as (_ & _ & -> & _). lia.
    + intros e Ee. apply in_app_iff in Ee as [Ee|Ee]; auto. rewrite (Te e Ee). lia.
    + unfold calls. rewrite flat_map_app. fold (calls (s_tr s)). destruct Ev as [->|[(i & -> & NS & Ri)|(i & o & -> & _)]]; cbn [flat_map app]; rewrite ?app_nil_r; auto.
      apply (Permutation_NoDup (Permutation_cons_append _ _)). constructor; auto. rewrite in_calls. intros [c Q].
      assert (c = t_idx t) by (eapply start_here; eauto). subst c. auto.
    + unfold ended. rewrite flat_map_app. fold (ended (s_tr s)). destruct Ev as [->|[(i & -> & NS & Ri)|(i & o & -> & NE & Ri)]]; cbn [flat_map app]; rewrite ?app_nil_r; auto.
      apply (Permutation_NoDup (Permutation_cons_append _ _)). constructor; auto. rewrite in_ended. intros (c & o' & Q).
      assert (c = t_idx t). { pose proof (He _ Q) as Qc. cbn in Qc.
        destruct (nth_error (s_thr s) (Z.to_nat c)) as [tc|] eqn:Ec; [|apply nth_error_None in Ec; lia].
        destruct (Hl _ _ Ec) as [(C1 & C2 & C3 & _) (D1 & D2 & D3 & _)].
        eapply (start_here s k t i c); eauto. replace c with (t_idx tc) in Q |- * by lia. apply D2. apply D3 in Q. tauto. }
      subst c. apply (NE o'). auto.
    + destruct (s_main s) as [m|m|m|m h| |m e|] eqn:Em; cbn [minv] in M |- *; try tauto; rewrite ?upd_length.
      * destruct M as [M1 M2]. split; auto. intros j x H. apply nth_upd in H as [[-> ->]|[D H]]; [|auto]. rewrite (M2 k t Hk). tauto.
      * destruct M as [M1 M2]. split; auto. intros j x H. apply nth_upd in H as [[-> ->]|[D H]]; [|auto]. split; auto. intros Hj. destruct (M2 k t Hk) as [_ X]. elim ND. auto.
      * destruct M as [M1 M2]. exfalso. apply ND. apply (M2 k t Hk).
      * exfalso. apply ND. apply (M k t Hk).
      * exfalso. apply ND. destruct M as (_ & _ & M). apply (M k t Hk).
    + rewrite U. destruct S0 as (_ & _ & _ & ->). auto.
Qed.

(** what a call of parallel_for(target, n, threadNum) can reach *)
Definition reach (s : sys) : Prop := exists s0, parallel_for w n threadNum = ERun s0 /\ steps w body beginOk s0 s.

Lemma inv_init : exists s0, parallel_for w n threadNum = ERun s0 /\ inv s0.
Proof.
  unfold parallel_for. destruct (Z.eqb_spec n 0); [lia|]. destruct (Z.eqb_spec threadNum 0); [lia|].
  assert (ET: (if threadNum >? n then n else threadNum) = T) by (unfold T, workers; destruct (Z.gtb_spec threadNum n); lia).
  rewrite ET. eexists. split; [reflexivity|]. pose proof T_pos. pose proof qr as (Q1 & Q2 & Q3).
  assert (W1: wrapN w (n / T) = q). { fold q. unfold wrapN. apply Z.mod_small. nia. }
  assert (W2: wrapN w (n mod T) = r). { fold r. unfold wrapN. apply Z.mod_small. lia. }
  rewrite W1, W2. destruct (split_spec (Z.to_nat T) 0 ltac:(lia) ltac:(lia)) as [S1 S2]. rewrite bd_0 in S1, S2.
  split; [|split; [|split; [|split; [|split; [|split]]]]]; cbn [s_thr s_tr s_ub s_main].
  - rewrite S1. lia.
  - intros k t Hk. assert (k < Z.to_nat T)%nat by (rewrite <- S1; apply nth_error_Some; congruence).
    rewrite S2 in Hk by auto. assert (E: t = mk_thr (bd (0 + Z.of_nat k)) (bd (0 + Z.of_nat k + 1)) (0 + Z.of_nat k) TNew [] false) by congruence.
    rewrite E. rewrite !Z.add_0_l. split; [repeat split|].
    unfold local, cur. cbn [t_lo t_hi t_idx t_st t_err]. pose proof (bd_mono (Z.of_nat k) (Z.of_nat k + 1) ltac:(lia) ltac:(lia)).
    split; [lia|]. split; [intros; split; [lia|intros []]|]. split; [intros ? ? []|]. split; [intros; lia|]. split; [congruence|]. split; [intros ? ? []|]. split; [congruence|congruence].
  - intros e [].
  - constructor.
  - constructor.
  - cbn [minv]. split; [lia|]. intros j t Hj. assert (j < Z.to_nat T)%nat by (rewrite <- S1; apply nth_error_Some; congruence).
    rewrite S2 in Hj by auto. assert (E: t_st t = TNew) by (injection Hj as <-; auto). rewrite E. split; [lia|congruence].
  - auto.
Qed.
Lemma inv_reach : forall s, reach s -> inv s.
Proof.
  intros s (s0 & E & R). destruct inv_init as (s1 & E1 & I). assert (s1 = s0) by congruence. subst s1.
  clear E E1. induction R as [|a b c R IH St]; [auto|]. apply (inv_step b c); auto.
Qed.

(** ** C53 *)
(** at every moment of every execution no index has been given to the body twice, every index is in range and every thread
    number is below the number of threads *)
Theorem C53_at_most_once : forall s, reach s ->
  s_ub s = false /\ NoDup (calls (s_tr s)) /\ forall i t, In (Start i t) (s_tr s) -> 0 <= i < n /\ 0 <= t < workers n threadNum.
Proof.
  intros s R. destruct (inv_reach s R) as (L & Hl & He & N1 & N2 & M & U). split; auto. split; auto.
  intros i t Q. pose proof (He _ Q) as Qt. cbn in Qt. fold T. split; [|auto].
  destruct (nth_error (s_thr s) (Z.to_nat t)) as [tt|] eqn:Et; [|apply nth_error_None in Et; lia].
  destruct (Hl _ _ Et) as [(C1 & C2 & C3 & _) (D1 & D2 & _)]. replace t with (t_idx tt) in Q by lia. apply D2 in Q.
  pose proof (bd_nonneg (Z.of_nat (Z.to_nat t)) ltac:(lia)). pose proof (bd_mono (Z.of_nat (Z.to_nat t) + 1) T ltac:(lia) ltac:(lia)). rewrite bd_T in *. lia.
Qed.

Lemma bd_cover : forall m i, 0 <= i < bd (Z.of_nat m) -> exists k, (k < m)%nat /\ bd (Z.of_nat k) <= i < bd (Z.of_nat k + 1).
Proof.
  intros m. induction m as [|m IH]; intros i H.
  - change (Z.of_nat 0) with 0 in H. rewrite bd_0 in H. lia.
  - destruct (Z.lt_ge_cases i (bd (Z.of_nat m))) as [X|X].
    + destruct (IH i ltac:(lia)) as (k & Hk & B). exists k. split; [lia|auto].
    + exists m. split; [lia|]. replace (Z.of_nat m + 1) with (Z.of_nat (S m)) by lia. lia.
Qed.

Lemma finished_done : forall s, inv s -> finished s -> forall k t, nth_error (s_thr s) k = Some t -> isDone t.
Proof.
  intros s (L & Hl & He & N1 & N2 & M & U) F k t Hk. unfold finished in F. destruct (s_main s); cbn [minv] in M; try tauto.
  - apply (M k t Hk).
  - destruct M as (_ & _ & M). apply (M k t Hk).
Qed.

(** when parallel_for is over, every call has ended, and an index was not called only because an earlier call on the same
    worker's range returned false or threw *)
Theorem C53_stops : forall s, reach s -> finished s ->
  (forall i t, In (Start i t) (s_tr s) -> exists o, In (End i t o) (s_tr s) /\ body i t o) /\
  forall i, 0 <= i < n -> ~ In i (calls (s_tr s)) ->
    exists j t o, j < i /\ bound n T t <= j /\ i < bound n T (t + 1) /\ In (End j t o) (s_tr s) /\ o <> RTrue.
Proof.
  intros s R F. pose proof (inv_reach s R) as I. pose proof (finished_done s I F) as D. destruct I as (L & Hl & He & N1 & N2 & M & U). split.
  - intros i t Q. pose proof (He _ Q) as Qt. cbn in Qt.
    destruct (nth_error (s_thr s) (Z.to_nat t)) as [tt|] eqn:Et; [|apply nth_error_None in Et; lia].
    destruct (Hl _ _ Et) as [(C1 & C2 & C3 & _) (D1 & D2 & D3 & D4 & _)]. specialize (D _ _ Et).
    replace t with (t_idx tt) in Q |- * by lia. apply D2 in Q.
    destruct (D4 i Q) as [o Ho]; [unfold isDone in D; destruct (t_st tt); congruence || tauto|].
    exists o. split; auto. apply D3 in Ho. tauto.
  - intros i Hi Ni. assert (Hc: 0 <= i < bd (Z.of_nat (Z.to_nat T))). { pose proof T_pos. rewrite Z2Nat.id by lia. rewrite bd_T. auto. }
    destruct (bd_cover _ i Hc) as (k & Hk & B). pose proof T_pos.
    destruct (nth_error (s_thr s) k) as [t|] eqn:Et; [|apply nth_error_None in Et; lia].
    destruct (Hl _ _ Et) as [(C1 & C2 & C3 & _) (D1 & D2 & D3 & D4 & D5 & _)]. specialize (D _ _ Et).
    unfold isDone in D. destruct (t_st t) as [| | |c] eqn:Es; try tauto.
    assert (Lc: ~ t_lo t <= i < cur t). { intros X. apply D2 in X. apply Ni. apply in_calls. eauto. }
    assert (Ec: cur t = c) by (unfold cur; rewrite Es; auto). rewrite Ec in *.
    destruct (D5 c eq_refl) as [|(o & Ho & Q)]; [lia|].
    exists (c - 1), (Z.of_nat k), o. rewrite C3 in Q. pose proof (D3 (c - 1) o) as D3'. rewrite C3 in D3'. specialize (D3' Q). split; [lia|]. split; [lia|]. split; [lia|]. auto.
Qed.

(** if no call stops or throws, every index is called exactly once and parallel_for returns normally *)
Theorem C53_exactly_once : forall s, (forall i t o, body i t o -> o = RTrue) -> reach s -> finished s ->
  s_main s = MReturn /\ Permutation (calls (s_tr s)) (upto n) /\ Permutation (ended (s_tr s)) (upto n).
Proof.
  intros s Hbody R F. destruct (C53_stops s R F) as [X1 X2]. pose proof (inv_reach s R) as I. pose proof (finished_done s I F) as D.
  destruct (C53_at_most_once s R) as (_ & _ & Rng).
  destruct I as (L & Hl & He & N1 & N2 & M & U).
  assert (Up: forall i, In i (upto n) <-> 0 <= i < n).
  { intros i. unfold upto. rewrite in_map_iff. split; [intros (x & <- & Hx); apply in_seq in Hx; lia|].
    intros H. exists (Z.to_nat i). split; [lia|]. apply in_seq. lia. }
  assert (Nu: NoDup (upto n)). { unfold upto. apply FinFun.Injective_map_NoDup; [intros a b H; lia|apply seq_NoDup]. }
  assert (NT: forall i t o, In (End i t o) (s_tr s) -> o = RTrue).
  { intros i t o Q. pose proof (He _ Q) as Qt. cbn in Qt. destruct (nth_error (s_thr s) (Z.to_nat t)) as [tt|] eqn:Et; [|apply nth_error_None in Et; lia].
    destruct (Hl _ _ Et) as [(C1 & C2 & C3 & _) (D1 & D2 & D3 & _)]. replace t with (t_idx tt) in Q by lia. apply D3 in Q. destruct Q as (_ & _ & Q & _). eauto. }
  assert (Ca: forall i, In i (calls (s_tr s)) <-> 0 <= i < n).
  { intros i. split; [intros Q; apply in_calls in Q as [t Q]; apply (Rng i t Q)|].
    intros Hi. destruct (in_dec Z.eq_dec i (calls (s_tr s))) as [|Ni]; auto. destruct (X2 i Hi Ni) as (j & t & o & _ & _ & _ & Q & No).
    elim No. eauto. }
  split; [|split].
  - unfold finished in F. destruct (s_main s) as [| | | | |k e|] eqn:Em; cbn [minv] in M; try tauto.
    exfalso. destruct M as (Ne & (t & Hk & Er) & _). destruct (Hl _ _ Hk) as [_ (_ & _ & _ & _ & _ & _ & D7 & _)].
    rewrite Er in D7. destruct (D7 Ne) as [i Q]. apply NT in Q. discriminate.
  - apply NoDup_Permutation; auto. intros i. rewrite Up. auto.
  - apply NoDup_Permutation; auto. intros i. rewrite Up, <- Ca. split.
    + intros Q. apply in_ended in Q as (t & o & Q). pose proof (He _ Q) as Qt. cbn in Qt. destruct (nth_error (s_thr s) (Z.to_nat t)) as [tt|] eqn:Et; [|apply nth_error_None in Et; lia].
      destruct (Hl _ _ Et) as [(C1 & C2 & C3 & _) (D1 & D2 & D3 & _)]. replace t with (t_idx tt) in Q by lia. apply D3 in Q. apply in_calls. exists (t_idx tt). apply D2. tauto.
    + intros Q. apply in_calls in Q as [t Q]. destruct (X1 i t Q) as (o & Ho & _). apply in_ended. eauto.
Qed.

(** the exception reported is the one with a nonempty what() thrown on the lowest-numbered worker *)
Theorem C53_error : forall s, reach s -> finished s ->
  (s_main s = MReturn <-> (forall i t m, In (End i t (RThrow m)) (s_tr s) -> m = [])) /\
  forall k m, s_main s = MThrow k m -> m <> [] /\ (exists i, In (End i (Z.of_nat k) (RThrow m)) (s_tr s)) /\
    forall i t m', In (End i t (RThrow m')) (s_tr s) -> m' <> [] -> Z.of_nat k <= t.
Proof.
  intros s R F. pose proof (inv_reach s R) as I. pose proof (finished_done s I F) as D. destruct I as (L & Hl & He & N1 & N2 & M & U).
  assert (Err: forall i t m, In (End i t (RThrow m)) (s_tr s) -> exists tt, 0 <= t /\ nth_error (s_thr s) (Z.to_nat t) = Some tt /\ t_err tt = m).
  { intros i t m Q. pose proof (He _ Q) as Qt. cbn in Qt. destruct (nth_error (s_thr s) (Z.to_nat t)) as [tt|] eqn:Et; [|apply nth_error_None in Et; lia].
    exists tt. destruct (Hl _ _ Et) as [(C1 & C2 & C3 & _) (_ & _ & _ & _ & _ & D6 & _)]. split; [lia|]. split; auto. apply (D6 i). replace (t_idx tt) with t by lia. auto. }
  assert (Thr: forall k m, s_main s = MThrow k m -> m <> [] /\ (exists i, In (End i (Z.of_nat k) (RThrow m)) (s_tr s)) /\
    forall i t m', In (End i t (RThrow m')) (s_tr s) -> m' <> [] -> Z.of_nat k <= t).
  { intros k m Em. rewrite Em in M. cbn [minv] in M. destruct M as (Ne & (t & Hk & Er) & M). split; auto. split.
    - destruct (Hl _ _ Hk) as [(C1 & C2 & C3 & _) (_ & _ & _ & _ & _ & _ & D7 & _)]. rewrite Er, C3 in D7. auto.
    - intros i t' m' Q Ne'. destruct (Err i t' m' Q) as (tt & P0 & Et & Ee). destruct (M _ _ Et) as [_ X].
      destruct (Z.lt_ge_cases t' (Z.of_nat k)); [|auto]. elim Ne'. rewrite <- Ee. apply X. lia. }
  split; [|auto]. split.
  - intros Em i t m Q. rewrite Em in M. cbn [minv] in M. destruct (Err i t m Q) as (tt & P0 & Et & Ee). destruct (M _ _ Et) as [_ X]. congruence.
  - intros Q. unfold finished in F. destruct (s_main s) as [| | | | |k e|] eqn:Em; cbn [minv] in M; try tauto.
    destruct (Thr k e eq_refl) as (Ne & (i & Qi) & _). elim Ne. eauto.
Qed.

(** ** Termination: every step decreases a measure, and an unfinished execution can go on *)
Definition tm (t : thr) : Z := match t_st t with TNew => 2 * (t_hi t - t_lo t) + 3 | TAt i => 2 * (t_hi t - i) + 2 | TIn i => 2 * (t_hi t - i) + 1 | TDone _ => 0 end.
Definition mm (l : Z) (m : mstat) : Z :=
  match m with MBegin k => 3 * l + 10 - Z.of_nat k | MJoin k => 2 * l + 5 - Z.of_nat k | MCheck k => l + 2 - Z.of_nat k | _ => 0 end.
Definition measure (s : sys) : Z := mm (zlen (s_thr s)) (s_main s) + fold_right (fun t a => tm t + a) 0 (s_thr s).

Lemma sum_upd : forall (l : list thr) k t x, nth_error l k = Some t ->
  fold_right (fun t a => tm t + a) 0 (upd l k x) = fold_right (fun t a => tm t + a) 0 l - tm t + tm x.
Proof.
  intros l. induction l as [|y l IH]; intros k t x H; [destruct k; discriminate|]. destruct k as [|k]; cbn [upd fold_right nth_error] in *.
  - assert (y = t) by congruence. subst. lia.
  - rewrite (IH k t x H). lia.
Qed.
Lemma tm_nonneg : forall s, inv s -> forall k t, nth_error (s_thr s) k = Some t -> 0 <= tm t.
Proof.
  intros s (L & Hl & _) k t Hk. destruct (Hl _ _ Hk) as [_ (A1 & _ & _ & _ & _ & _ & _ & A8)]. unfold tm, cur in *. destruct (t_st t); lia.
Qed.
Theorem C53_terminates : forall s, reach s ->
  0 <= measure s /\ (forall s', step w body beginOk s s' -> measure s' < measure s) /\
  ((forall i t, exists o, body i t o) -> ~ finished s -> exists s', step w body beginOk s s').
Proof.
  intros s R. pose proof (inv_reach s R) as I. pose proof (tm_nonneg s I) as Tn. destruct I as (L & Hl & He & N1 & N2 & M & U). split; [|split].
  - unfold measure. assert (0 <= fold_right (fun t a => tm t + a) 0 (s_thr s)).
    { clear - Tn. induction (s_thr s) as [|x l IH]; cbn [fold_right]; [lia|]. pose proof (Tn 0%nat x eq_refl).
      assert (0 <= fold_right (fun t a => tm t + a) 0 l) by (apply IH; intros k t Hk; apply (Tn (S k) t); auto). lia. }
    assert (0 <= mm (zlen (s_thr s)) (s_main s)). { unfold mm, zlen. destruct (s_main s); cbn [minv] in M; try lia; destruct M; lia. }
    lia.
  - intros s' St. destruct St as [s k t E Hk B|s k t E Hk B|s k E Hk|s k t E Hk J|s k E Hk|s k t E Hk Er|s k t E Hk Er|s k E Hk|s k t E Hk|s k t E Hk J|s E|s k t es t' Hk TS];
      unfold measure; cbn [s_main s_thr]; try rewrite E in *; cbn [minv mm] in *; try tauto; try (rewrite Hb in B; discriminate);
      try (destruct M as [M1 M2]; unfold zlen; lia).
    + destruct M as [M1 M2]. rewrite (sum_upd _ k t) by auto. unfold zlen. rewrite upd_length.
      assert (Et: t_st t = TNew). { specialize (M2 k t Hk). destruct (t_st t); auto; exfalso; assert (k < k)%nat by (apply M2; congruence); lia. }
      unfold tm. rewrite Et. cbn [t_st t_hi t_lo set_st]. lia.
    + rewrite (sum_upd _ k t) by auto. unfold zlen. rewrite upd_length. enough (tm t' < tm t) by lia.
      destruct (Hl _ _ Hk) as [S0 L0]. pose proof (nth_bound s k t L Hk) as Bk.
      pose proof (bd_mono (Z.of_nat k + 1) T ltac:(lia) ltac:(lia)) as Bn. rewrite bd_T in Bn. pose proof (bd_nonneg (Z.of_nat k) ltac:(lia)) as B0.
      destruct S0 as (S1 & S2 & _). destruct L0 as (A1 & _ & _ & _ & _ & _ & _ & A8). unfold cur in A1.
      inversion TS as [t0 i Ei Li | t0 i Ei Li | t0 i Ei Bi | t0 i Ei Bi | t0 i m Ei Bi]; subst t0 es t'; unfold tm; rewrite Ei in *; cbn [t_st t_hi t_lo set_st set_err]; try lia; pose proof (A8 i eq_refl); try lia.
      assert (W: wrapN w (i + 1) = i + 1) by (unfold wrapN; apply Z.mod_small; lia). rewrite W. lia.
  - intros Hex NF. unfold finished in NF. destruct (s_main s) as [k|k|k|k h| |k e|] eqn:Em; cbn [minv] in M; try tauto.
    + destruct (nth_error (s_thr s) k) as [t|] eqn:Ek; [eexists; eapply s_begin; eauto|eexists; eapply s_begun; eauto].
    + destruct (nth_error (s_thr s) k) as [t|] eqn:Ek; [|eexists; eapply s_joined; eauto].
      destruct (t_st t) as [|i|i|c] eqn:Es.
      * eexists. eapply s_join; eauto. unfold joinable. rewrite Es. exact Logic.I.
      * destruct (Z.lt_ge_cases i (t_hi t)); eexists; eapply s_thread; eauto; [eapply t_call; eauto|eapply t_exit; eauto].
      * destruct (Hex i (t_idx t)) as [o Ho]. destruct o; eexists; eapply s_thread; eauto; [eapply t_true; eauto|eapply t_false; eauto|eapply t_throw; eauto].
      * eexists. eapply s_join; eauto. unfold joinable. rewrite Es. exact Logic.I.
    + destruct (nth_error (s_thr s) k) as [t|] eqn:Ek; [|eexists; eapply s_checked; eauto].
      destruct (t_err t) eqn:Ee; eexists; [eapply s_check; eauto|eapply s_check_err; eauto; congruence].
Qed.
End Steps.
End Par.

(** n = 0 does nothing, threadNum = 0 throws *)
Theorem C53_edge : forall w n threadNum, (n = 0 -> parallel_for w n threadNum = EReturn) /\ (n <> 0 -> threadNum = 0 -> parallel_for w n threadNum = EThrow).
Proof. intros w n t. split; [intros ->; auto|]. intros Hn ->. unfold parallel_for. destruct (Z.eqb_spec n 0); [lia|auto]. Qed.

Lemma steps_trans_one : forall w body ok a b c, steps w body ok a b -> step w body ok b c -> steps w body ok a c.
Proof. intros. eapply steps_cons; eauto. Qed.
(** every execution can be completed *)
Theorem C53_completes : forall w n threadNum body, 1 <= w -> 0 < n < 2 ^ w -> 0 < threadNum < 2 ^ w -> (forall i t, exists o, body i t o) ->
  forall s, reach w n threadNum body (fun _ => true) s -> exists s', steps w body (fun _ => true) s s' /\ reach w n threadNum body (fun _ => true) s' /\ finished s'.
Proof.
  intros w n threadNum body Hw Hn Ht Hex s R.
  remember (Z.to_nat (measure s)) as m eqn:Em. revert s R Em. induction m as [m IH] using lt_wf_ind. intros s R Em.
  destruct (C53_terminates w n threadNum body Hw Hn Ht (fun _ => true) ltac:(auto) s R) as (P0 & P1 & P2).
  assert (Dec: finished s \/ ~ finished s) by (unfold finished; destruct (s_main s); auto).
  destruct Dec as [F|NF]; [exists s; split; [constructor|auto]|].
  destruct (P2 Hex NF) as [s1 St]. pose proof (P1 _ St) as Lt.
  assert (R1: reach w n threadNum body (fun _ => true) s1). { destruct R as (s0 & E & R). exists s0. split; auto. eapply steps_cons; eauto. }
  destruct (C53_terminates w n threadNum body Hw Hn Ht (fun _ => true) ltac:(auto) s1 R1) as (P0' & _ & _).
  destruct (IH (Z.to_nat (measure s1)) ltac:(lia) s1 R1 eq_refl) as (s' & S' & R' & F'). exists s'. split; [|auto].
  clear - St S'. induction S' as [|a b c X Y Z0]; [eapply steps_cons; [constructor|eauto]|]. eapply steps_cons; [apply Y; auto|auto].
Qed.

Lemma reach_init : forall w n threadNum body ok, 0 < n -> 0 < threadNum -> exists s, reach w n threadNum body ok s.
Proof.
  intros w n threadNum body ok Hn Ht. unfold reach, parallel_for. destruct (Z.eqb_spec n 0); [lia|]. destruct (Z.eqb_spec threadNum 0); [lia|].
  eexists. eexists. split; [reflexivity|constructor].
Qed.

(** ten indices on four workers *)
Example C53_nonvacuous : exists s, reach 32 10 4 (fun _ _ o => o = RTrue) (fun _ => true) s /\ finished s /\
  Permutation (calls (s_tr s)) [0; 1; 2; 3; 4; 5; 6; 7; 8; 9] /\ map (bound 10 4) [0; 1; 2; 3; 4] = [0; 3; 6; 8; 10].
Proof.
  destruct (reach_init 32 10 4 (fun _ _ o => o = RTrue) (fun _ => true) ltac:(lia) ltac:(lia)) as [s0 R0].
  destruct (C53_completes 32 10 4 (fun _ _ o => o = RTrue) ltac:(lia) ltac:(lia) ltac:(lia) ltac:(eauto) s0 R0) as (s & _ & R & F).
  exists s. split; auto. split; auto. split; [|reflexivity].
  destruct (C53_exactly_once 32 10 4 (fun _ _ o => o = RTrue) ltac:(lia) ltac:(lia) ltac:(lia) (fun _ => true) ltac:(auto) s ltac:(auto) R F) as (_ & P & _).
  exact P.
Qed.

(** finding: an exception whose what() is empty is swallowed *)
Theorem C53_empty_what_finding : exists s, reach 32 1 1 (fun _ _ o => o = RThrow []) (fun _ => true) s /\ s_main s = MReturn /\ In (End 0 0 (RThrow [])) (s_tr s).
Proof.
  set (body := fun (_ _ : Z) o => o = RThrow []).
  destruct (reach_init 32 1 1 body (fun _ => true) ltac:(lia) ltac:(lia)) as [s0 R0].
  destruct (C53_completes 32 1 1 body ltac:(lia) ltac:(lia) ltac:(lia) ltac:(unfold body; eauto) s0 R0) as (s & _ & R & F).
  exists s. split; auto.
  destruct (C53_stops 32 1 1 body ltac:(lia) ltac:(lia) ltac:(lia) (fun _ => true) ltac:(auto) s R F) as [X1 X2].
  destruct (C53_at_most_once 32 1 1 body ltac:(lia) ltac:(lia) ltac:(lia) (fun _ => true) ltac:(auto) s R) as (_ & _ & Rng).
  destruct (C53_error 32 1 1 body ltac:(lia) ltac:(lia) ltac:(lia) (fun _ => true) ltac:(auto) s R F) as [E1 _].
  pose proof (inv_reach 32 1 1 body ltac:(lia) ltac:(lia) ltac:(lia) (fun _ => true) ltac:(auto) s R) as (L & Hl & He & _).
  split.
  - apply E1. intros i t m Q. pose proof (He _ Q) as Qt. cbn [tid] in Qt. destruct (nth_error (s_thr s) (Z.to_nat t)) as [tt|] eqn:Et; [|apply nth_error_None in Et; lia].
    destruct (Hl _ _ Et) as [(C1 & C2 & C3 & _) (D1 & D2 & D3 & _)]. replace t with (t_idx tt) in Q by lia. apply D3 in Q. destruct Q as (_ & _ & Q & _).
    unfold body in Q. congruence.
  - destruct (in_dec Z.eq_dec 0 (calls (s_tr s))) as [Q|Q].
    + apply (in_calls 32 1 1 body ltac:(lia) ltac:(lia)) in Q as [t Q]. destruct (X1 0 t Q) as (o & Ho & B). unfold body in B. subst o.
      destruct (Rng 0 t Q) as [_ Bt]. unfold workers in Bt. replace t with 0 in Ho by lia. auto.
    + destruct (X2 0 ltac:(lia) Q) as (j & t & o & J1 & J2 & J3 & Q' & _). exfalso.
      pose proof (He _ Q') as Bt. cbn [tid] in Bt. unfold workers in *. change (Z.min 1 1) with 1 in *.
      unfold bound in J2. change (1 / 1) with 1 in J2. change (1 mod 1) with 0 in J2. lia.
Qed.

(** finding: when beginThread fails for a later worker, the exception destroys the Thread objects while earlier workers still run
    (~ThreadBase joins only after the derived part and err_ are gone) *)
Theorem C53_begin_fail_finding : forall body, exists s, reach 32 2 2 body (fun k => Nat.eqb k 0) s /\ s_ub s = true.
Proof.
  intros body. eexists. split.
  - eexists. split; [reflexivity|].
    eapply steps_cons; [eapply steps_cons; [eapply steps_cons; [eapply steps_cons; [eapply steps_cons; [eapply steps_cons; [apply steps_refl|]|]|]|]|]|].
    + eapply s_begin; reflexivity.
    + eapply s_begin_fail; reflexivity.
    + eapply s_destroy; reflexivity.
    + eapply s_destroy_join; [reflexivity|reflexivity|exact I].
    + eapply s_destroy; reflexivity.
    + eapply (s_thread _ _ _ _ 0%nat); [reflexivity|]. eapply t_call; [reflexivity|]. vm_compute. reflexivity.
  - reflexivity.
Qed.

Print Assumptions C53_at_most_once.
Print Assumptions C53_stops.
Print Assumptions C53_exactly_once.
Print Assumptions C53_error.
Print Assumptions C53_terminates.
Print Assumptions C53_completes.
Print Assumptions C53_edge.
Print Assumptions C53_empty_what_finding.
Print Assumptions C53_begin_fail_finding.
