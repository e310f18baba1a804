(** The stages of suffixsort on the arrays, and suffixsort itself. *)
Require Import Verif.Common Verif.Cnt Verif.FmCore Verif.SaisModel Verif.SaisType Verif.SaisInduce Verif.SaisRefine Verif.SaisKeys Verif.SaisStage.
From Coq Require Import Permutation.
Ltac Zify.zify_post_hook ::= idtac.

Lemma with_buckets_ok {X} alloc mem n fs k body (R : list Z -> X -> Prop) : 0 <= n -> 0 <= fs -> 1 <= k -> zlen mem = n + fs ->
  (forall alias SA, zlen SA = n -> (forall t, 0 <= t < n -> at_ SA t = at_ mem t) -> exists SA' C' B' x, body alias SA = Ok (SA', C', B', x) /\ zlen SA' = n /\ zlen C' = k /\ zlen B' = k /\ R SA' x) ->
  (exists mem' x, with_buckets alloc mem n fs k body = Ok (mem', x) /\ zlen mem' = n + fs /\ R (firstn (Z.to_nat n) mem') x) \/
  (with_buckets alloc mem n fs k body = Exn /\ alloc = false).
Proof.
  intros Hn Hfs Hk L H. unfold with_buckets. set (Y := skipn (Z.to_nat n) mem). assert (zlen Y = fs) as LX by (unfold Y; rewrite zlen_skipn; lia).
  assert (forall SA' Y : list Z, zlen SA' = n -> firstn (Z.to_nat n) (SA' ++ Y) = SA') as F. { intros SA' Y' E. replace (Z.to_nat n) with (length SA') by (unfold zlen in E; lia). apply firstn_app_exact. }
  assert (forall a, exists SA' C' B' x, body a (firstn (Z.to_nat n) mem) = Ok (SA', C', B', x) /\ zlen SA' = n /\ zlen C' = k /\ zlen B' = k /\ R SA' x) as H'. { intros a. apply H; [apply zlen_firstn; lia|]. intros t Ht. apply at_firstn. auto. }
  destruct (Z.ltb_spec fs k).
  - destruct alloc; [left|right; auto]. destruct (H' true) as (SA' & C' & B' & x & -> & L1 & L2 & L3 & HR). cbn [bind]. do 2 eexists. split; [reflexivity|]. rewrite F by auto. rewrite zlen_app. split; [lia|auto].
  - left. destruct (Z.leb_spec k (fs - k)).
    + destruct (H' false) as (SA' & C' & B' & x & -> & L1 & L2 & L3 & HR). cbn [bind]. do 2 eexists. split; [reflexivity|]. rewrite F by auto. rewrite !zlen_app, zlen_skipn by lia. split; [lia|auto].
    + destruct (H' true) as (SA' & C' & B' & x & -> & L1 & L2 & L3 & HR). cbn [bind]. do 2 eexists. split; [reflexivity|]. rewrite F by auto. rewrite !zlen_app, zlen_skipn by lia. split; [lia|auto].
Qed.

Section Lms.
Variables (T : list Z) (k : Z).
Notation n := (zlen T).
Notation t_ := (at_ T).
Hypothesis Hn : 1 <= n.
Hypothesis HT : forall p, 0 <= p < n -> 0 <= t_ p < k.
Set Default Proof Using "Hn HT".
Notation isS := (isS T).
Notation lms := (lms T).
Notation bs := (bs T).
Notation P := (at_ (lmsl T)).
Notation m := (zlen (lmsl T)).
Notation len := (len T).
Notation Pn := (Pn T).
Notation h p := (Z.shiftr p 1).

(** the array lists the positions in a given order *)
Definition listed (le : Z -> Z -> Prop) (SA : list Z) : Prop :=
  (forall t, 0 <= t < n -> 0 <= at_ SA t < n) /\ (forall p, 0 <= p < n -> exists t, 0 <= t < n /\ at_ SA t = p) /\ (forall t u, 0 <= t < u -> u < n -> le (at_ SA t) (at_ SA u)).
(** the first m cells list the leftmost S-type positions in a given order *)
Definition lms_listed (le : Z -> Z -> Prop) (SA : list Z) : Prop :=
  (forall x, 0 <= x < m -> lms (at_ SA x) = true) /\ (forall p, lms p = true -> exists x, 0 <= x < m /\ at_ SA x = p) /\
  (forall x y, 0 <= x < m -> 0 <= y < m -> at_ SA x = at_ SA y -> x = y) /\ (forall x y, 0 <= x < y -> y < m -> le (at_ SA x) (at_ SA y)).

Lemma P_inj x y : 0 <= x < m -> 0 <= y < m -> P x = P y -> x = y.
Proof. intros Hx Hy E. destruct (Z.lt_trichotomy x y) as [L|[L|L]]; auto; [pose proof (P_mono T k Hn HT x y ltac:(lia) ltac:(lia))|pose proof (P_mono T k Hn HT y x ltac:(lia) ltac:(lia))]; lia. Qed.
Lemma m_nonneg : 0 <= m.
Proof. apply zlen_nonneg. Qed.

(** ** stage 1 *)
Lemma stage1_ok alias SA : zlen SA = n -> exists SA' C' B', stage1 alias T SA k = Ok (SA', C', B', tt) /\ zlen SA' = n /\ zlen C' = k /\ zlen B' = k /\ listed (le1 T) SA'.
Proof.
  intros LS. unfold stage1. destruct (getCounts_ok T k Hn HT) as (C & -> & HC). cbn [bind]. destruct (getBuckets_ok T k Hn HT C true HC) as [LB AB]. set (B := getBuckets C true) in *.
  destruct (zero_ok (length T) 0 SA) as (SA0 & -> & L0 & A0); [lia|unfold zlen in *; lia|]. cbn [bind]. rewrite (lms_scan_ok T k Hn HT).
  destruct (fold_rev_idx (put_lms T) (lmsl T) (fun i st => let (SA, B) := st in zlen SA = n /\ zlen B = k /\ exists O Bp, InvP T k P m i O Bp /\ (forall t, 0 <= t < n -> at_ SA t = O t) /\ (forall c, 0 <= c < k -> at_ B c = Bp c))) with (st := (SA0, B)) as ((SA1 & B1) & -> & V).
  - intros i (SA1, B1) Hi (L1 & LB1 & O & Bp & V & A1 & AB1).
    destruct (put_lms_ok T k Hn HT P m (P_lms T k Hn HT) P_inj i SA1 B1 O Bp Hi V L1 LB1 AB1) as (SA2 & B2 & E & L2 & LB2 & AB2 & A2). exists (SA2, B2). split; auto. split; auto. split; auto.
    eexists. eexists. split; [apply (stepP T k Hn HT P m (P_lms T k Hn HT) P_inj i O Bp Hi V)|]. split; auto. intros t Ht. rewrite A2 by lia. unfold put. rewrite A1 by auto. auto.
  - split; [lia|]. split; auto. exists (at_ SA0), (fun c => bs (c + 1)). split; [apply (initP T k Hn HT P m (P_lms T k Hn HT) P_inj)|split; auto]. intros t Ht. rewrite A0 by lia. destruct (Z.leb_spec 0 t), (Z.ltb_spec t (0 + Z.of_nat (length T))); auto; unfold zlen in Ht; lia.
  - cbn [bind]. destruct V as (L1 & LB1 & O & Bp & V & A1 & AB1).
    destruct (endP T k Hn HT P m (P_lms T k Hn HT) P_inj O Bp SA1 (le0 T) (P_onto T k Hn HT) V A1) as (N1 & N2 & N3).
    { intros x y Hx Hy E. unfold le0, kb. rewrite !(P_lms T k Hn HT) by lia. unfold ch. rewrite E. pose proof (P_lms T k Hn HT x ltac:(lia)) as Mx. pose proof (P_lms T k Hn HT y ltac:(lia)) as My. apply (lms_range T k Hn HT) in Mx, My. destruct Mx as (_ & -> & _), My as (_ & -> & _). apply lex_irrefl. }
    destruct (induceSA_ok T k Hn HT alias SA1 C (le0 T) (le1 T) L1 N1 N2 HC (inducible_key T k Hn HT) N3) as (SA' & C' & B' & E & R). exists SA', C', B'. split; [rewrite E; reflexivity|]. exact R.
Qed.

(** ** compaction *)
Lemma skip_eq_ok p : 0 <= p < n -> forall f j, n - j < Z.of_nat f -> p < j <= n -> t_ (j - 1) = t_ p -> isS p = isS (j - 1) ->
  exists j', skip_eq f T n j (t_ p) = Ok j' /\ p < j' <= n /\ isS p = (j' <? n) && (t_ p <? t_ j').
Proof.
  intros Hp. induction f as [|f IH]; intros j Hf Hj E1 E2; [lia|]. cbn [skip_eq]. destruct (Z.ltb_spec j n).
  - rewrite rd_at by lia. cbn [bind]. pose proof (isS_step T k Hn HT (j - 1) ltac:(lia)) as St. replace (j - 1 + 1) with j in St by lia. destruct (Z.eqb_spec (t_ p) (t_ j)) as [E|Ne].
    + apply IH; try lia. { replace (j + 1 - 1) with j by lia. auto. } replace (j + 1 - 1) with j by lia. rewrite E2, St, E1, E, Z.ltb_irrefl, Z.eqb_refl. auto.
    + exists j. split; auto. split; auto. rewrite E2, St, E1. destruct (Z.eqb_spec (t_ p) (t_ j)) as [EE|_]; [lia|]. cbn [andb]. rewrite orb_false_r. destruct (Z.ltb_spec j n); [auto|lia].
  - exists j. split; auto. split; auto. destruct (Z.ltb_spec j n); [lia|]. rewrite E2. replace j with n by lia. apply (isS_last T k Hn HT).
Qed.
Lemma lms_test_ok p : 0 <= p < n -> lms_test T p = Ok (lms p).
Proof.
  intros Hp. unfold lms_test, SaisType.lms. destruct (Z.ltb_spec 0 p); [|auto]. rewrite !rd_at by lia. cbn [bind andb]. destruct (Z.ltb_spec (t_ p) (t_ (p - 1))).
  - destruct (skip_eq_ok p Hp (S (length T)) (p + 1)) as (j & -> & Hj & ->); try (unfold zlen in *; lia); [f_equal; lia|f_equal; lia|]. cbn [bind].
    assert (isS (p - 1) = false) as ->. { destruct (isS (p - 1)) eqn:E; auto. apply (S_le T k Hn HT) in E; [|lia]. replace (p - 1 + 1) with p in E by lia. lia. }
    destruct (Z.ltb_spec j n); [rewrite rd_at by lia; cbn [bind negb andb]|]; rewrite ?andb_true_r; auto.
  - destruct (isS p) eqn:E; auto. destruct (isS (p - 1)) eqn:E'; auto. exfalso. pose proof (LS_gt T k Hn HT (p - 1)) as G. replace (p - 1 + 1) with p in G by lia. specialize (G ltac:(lia) E' E). lia.
Qed.
Lemma compact_ok mem0 : n <= zlen mem0 -> (forall t, 0 <= t < n -> 0 <= at_ mem0 t < n) -> forall f i mem, Z.of_nat i + Z.of_nat f = n -> zlen mem = zlen mem0 -> (forall t, Z.of_nat i <= t -> at_ mem t = at_ mem0 t) ->
  (forall x, 0 <= x < zlen (filter lms (firstn i mem0)) -> at_ mem x = at_ (filter lms (firstn i mem0)) x) ->
  let ql := filter lms (firstn (length T) mem0) in
  exists mem', compact f T mem (Z.of_nat i) (zlen (filter lms (firstn i mem0))) = Ok (mem', zlen ql) /\ zlen mem' = zlen mem0 /\ (forall x, 0 <= x < zlen ql -> at_ mem' x = at_ ql x).
Proof.
  intros L0 R0. induction f as [|f IH]; intros i mem Hif L A1 A2 ql.
  - assert (i = length T) as -> by (unfold zlen in Hif; lia). exists mem. cbn [compact]. auto.
  - cbn [compact]. rewrite rd_at by lia. cbn [bind]. rewrite A1 by lia. rewrite lms_test_ok by (apply R0; lia). cbn [bind].
    assert (firstn (S i) mem0 = firstn i mem0 ++ [at_ mem0 (Z.of_nat i)]) as F by (apply firstn_S_at; unfold zlen in *; lia).
    assert (zlen (filter lms (firstn i mem0)) <= Z.of_nat i) as Le. { unfold zlen. assert (forall (g : Z -> bool) l, (length (filter g l) <= length l)%nat) as X. { intros g l. induction l as [|x l IHl]; cbn; auto. destruct (g x); cbn; lia. } specialize (X lms (firstn i mem0)). rewrite firstn_length in X. lia. }
    specialize (IH (S i)). rewrite F, filter_app in IH. cbn [filter] in IH. replace (Z.of_nat (S i)) with (Z.of_nat i + 1) in IH by lia. set (l := filter lms (firstn i mem0)) in *. pose proof (zlen_nonneg l). destruct (lms (at_ mem0 (Z.of_nat i))).
    + destruct (wr_at mem (zlen l) (at_ mem0 (Z.of_nat i))) as (mem1 & -> & L1 & A3); [lia|]. cbn [bind]. rewrite zlen_app in IH. change (zlen [at_ mem0 (Z.of_nat i)]) with 1 in IH. apply IH; try lia.
      * intros t Ht. rewrite A3 by lia. destruct (Z.eqb_spec t (zlen l)); [lia|apply A1; lia].
      * intros x Hx. rewrite A3 by lia. destruct (Z.eqb_spec x (zlen l)) as [-> |]; [rewrite at_app2 by lia; rewrite Z.sub_diag; auto|]. rewrite at_app1 by lia. apply A2. lia.
    + rewrite app_nil_r in IH. apply IH; auto; try lia; intros t Ht; apply A1; lia.
Qed.
Lemma compacted mem0 : n <= zlen mem0 -> listed (le1 T) (firstn (Z.to_nat n) mem0) -> exists mem', compact (length T) T mem0 0 0 = Ok (mem', m) /\ zlen mem' = zlen mem0 /\ lms_listed (le1 T) mem'.
Proof.
  intros L0 (R & Onto & Le). assert (Z.to_nat n = length T) as En by (unfold zlen; lia). rewrite En in *. set (sa := firstn (length T) mem0) in *.
  assert (zlen sa = n) as Ls. { unfold sa. rewrite <- En. apply zlen_firstn. lia. }
  assert (forall t, 0 <= t < n -> at_ sa t = at_ mem0 t) as As. { intros t Ht. unfold sa. rewrite <- En. apply at_firstn. auto. }
  destruct (onto_inj (at_ sa) n ltac:(lia) Onto) as [_ Inj].
  destruct (compact_ok mem0 L0) with (f := length T) (i := O) (mem := mem0) as (mem' & E & L' & A); auto. { intros t Ht. rewrite <- As by auto. apply R. auto. } { intros x Hx. unfold zlen in Hx. cbn in Hx. lia. }
  change (Z.of_nat 0) with 0 in E. change (zlen (filter lms (firstn 0 mem0))) with 0 in E. fold sa in E, A. set (ql := filter lms sa) in *.
  assert (forall x, 0 <= x < zlen ql -> In (at_ ql x) sa /\ lms (at_ ql x) = true) as Q1. { intros x Hx. apply filter_In. apply at_In. auto. }
  assert (forall p, lms p = true -> exists x, 0 <= x < zlen ql /\ at_ ql x = p) as Q2. { intros p Mp. apply (in_at T k Hn HT). apply filter_In. split; auto. apply (lms_range T k Hn HT) in Mp. destruct (Onto p ltac:(lia)) as (t & Ht & <-). apply at_In. lia. }
  assert (forall x y, 0 <= x < y -> y < zlen ql -> at_ ql x <> at_ ql y) as Q3. { intros x y Hx Hy F. destruct (filter_idx lms sa x y Hx Hy) as (a & b & Hab & Hb & Ea & Eb). fold ql in Ea, Eb. assert (a = b) by (apply Inj; try lia; congruence). lia. }
  assert (forall x y, 0 <= x < zlen ql -> 0 <= y < zlen ql -> at_ ql x = at_ ql y -> x = y) as Q4. { intros x y Hx Hy F. destruct (Z.lt_trichotomy x y) as [G|[G|G]]; auto; exfalso; [apply (Q3 x y)|apply (Q3 y x)]; auto; lia. }
  assert (zlen ql = m) as Em.
  { pose proof (zlen_nonneg ql). pose proof m_nonneg.
    assert (zlen ql - 0 <= cnt lms n). { apply (inj_cnt (at_ ql)); auto; try lia. intros t Ht. destruct (Q1 t Ht) as [_ M1]. split; auto. apply (lms_range T k Hn HT) in M1. lia. }
    assert (m - 0 <= cnt lms n). { apply (inj_cnt P); auto; try lia; [|apply P_inj]. intros t Ht. pose proof (P_lms T k Hn HT t Ht) as M1. split; auto. apply (lms_range T k Hn HT) in M1. lia. }
    assert (cnt lms n <= zlen ql - 0). { apply (onto_cnt (at_ ql)); auto; try lia. }
    assert (cnt lms n <= m - 0). { apply (onto_cnt P); try lia. intros p _ Mp. apply (P_onto T k Hn HT p Mp). } lia. }
  rewrite Em in *. exists mem'. split; auto. split; auto. split; [|split; [|split]].
  - intros x Hx. rewrite A by auto. apply Q1. auto.
  - intros p Mp. destruct (Q2 p Mp) as (x & Hx & <-). exists x. split; auto.
  - intros x y Hx Hy. rewrite !A by auto. apply Q4; auto.
  - intros x y Hx Hy. rewrite !A by lia. destruct (filter_idx lms sa x y Hx) as (a & b & Hab & Hb & Ea & Eb); [fold ql; lia|]. fold ql in Ea, Eb. rewrite <- Ea, <- Eb. apply Le; auto. lia.
Qed.

(** ** lengths and names *)
Lemma h_inj p q : lms p = true -> lms q = true -> h p = h q -> p = q.
Proof.
  intros Mp Mq E. cbn beta in E. pose proof (half_spec p). pose proof (half_spec q). destruct (Z.lt_trichotomy p q) as [L|[L|L]]; auto; [pose proof (lms_gap T k Hn HT p q Mp Mq L)|pose proof (lms_gap T k Hn HT q p Mq Mp L)]; lia.
Qed.
Lemma h_range p : lms p = true -> 0 <= h p < h n.
Proof. intros Mp. cbn beta. apply (lms_range T k Hn HT) in Mp. pose proof (half_spec p). pose proof (half_spec n). lia. Qed.
Lemma nm_fits : m + h n <= n.
Proof. cbn beta. pose proof (m_half T k Hn HT). pose proof (half_spec n). lia. Qed.
Lemma put_len_ok mem : n <= zlen mem -> exists mem', (exists j, lms_scan (put_len m) T (mem, n) = Ok (mem', j)) /\ zlen mem' = zlen mem /\
  (forall p, lms p = true -> at_ mem' (m + h p) = len p) /\ (forall t, 0 <= t -> (forall p, lms p = true -> t <> m + h p) -> at_ mem' t = at_ mem t).
Proof.
  intros L. rewrite (lms_scan_ok T k Hn HT). pose proof m_nonneg. pose proof nm_fits.
  destruct (fold_rev_idx (put_len m) (lmsl T) (fun i st => let (mem', j) := st in j = Pn i /\ zlen mem' = zlen mem /\ (forall x, i <= x < m -> at_ mem' (m + h (P x)) = len (P x)) /\ (forall t, 0 <= t -> (forall p, lms p = true -> t <> m + h p) -> at_ mem' t = at_ mem t))) with (st := (mem, n)) as ((mem' & j) & E & V).
  - intros i (mem1, j) Hi (-> & L1 & A1 & A2). unfold put_len. pose proof (P_lms T k Hn HT i Hi) as Mi. pose proof (h_range _ Mi) as Hr. cbn beta in Hr. destruct (wr_at mem1 (m + Z.shiftr (P i) 1) (Pn (i + 1) - P i)) as (mem2 & -> & L2 & A3); [lia|]. cbn [bind]. eexists. split; [reflexivity|]. cbn beta.
    split; [unfold SaisKeys.Pn; destruct (Z.ltb_spec i m); [auto|lia]|]. split; [lia|]. split.
    + intros x Hx. pose proof (P_lms T k Hn HT x ltac:(lia)) as Mx. pose proof (h_range _ Mx) as Hrx. cbn beta in *. rewrite A3 by lia. destruct (Z.eqb_spec (m + Z.shiftr (P x) 1) (m + Z.shiftr (P i) 1)) as [E|Ne].
      * assert (P x = P i) as -> by (apply h_inj; auto; cbn beta; lia). unfold SaisKeys.len. rewrite (nxt_P T k Hn HT) by auto. auto.
      * apply A1. assert (x <> i) by congruence. lia.
    + intros t Ht Nt. rewrite A3 by auto. destruct (Z.eqb_spec t (m + Z.shiftr (P i) 1)) as [E|]; [exfalso; apply (Nt (P i)); auto|auto].
  - split; [unfold SaisKeys.Pn; rewrite Z.ltb_irrefl; auto|]. split; auto. split; auto. intros. lia.
  - exists mem'. destruct V as (_ & V1 & V2 & V3). split; [exists j; auto|]. split; auto. split; auto. intros p Mp. destruct (P_onto T k Hn HT p Mp) as (x & Hx & <-). apply V2. auto.
Qed.
Lemma same_run_ok p q : 0 <= p -> 0 <= q -> forall f j L, L - j < Z.of_nat f -> 0 <= j <= L -> p + L <= n -> q + L <= n -> exists b, same_run f T p q j L = Ok b /\ (b = true <-> forall i, j <= i < L -> t_ (p + i) = t_ (q + i)).
Proof.
  intros Hp Hq. induction f as [|f IH]; intros j L Hf Hj H1 H2; [lia|]. cbn [same_run]. destruct (Z.ltb_spec j L).
  - rewrite !rd_at by lia. cbn [bind]. destruct (Z.eqb_spec (t_ (p + j)) (t_ (q + j))) as [E|Ne].
    + destruct (IH (j + 1) L) as (b & -> & Hb); try lia. exists b. split; auto. rewrite Hb. split; intros G i Hi; [|apply G; lia]. destruct (Z.eq_dec i j) as [-> |]; auto. apply G. lia.
    + eexists. split; [reflexivity|]. split; [intros E; lia|]. intros G. exfalso. apply Ne, G. lia.
  - eexists. split; [reflexivity|]. split; [intros; lia|]. intros _. lia.
Qed.

Section Naming.
Variable q : Z -> Z.
Hypothesis q_lms : forall x, 0 <= x < m -> lms (q x) = true.
Hypothesis q_inj : forall x y, 0 <= x < m -> 0 <= y < m -> q x = q y -> x = y.
Hypothesis q_le : forall x y, 0 <= x < y -> y < m -> le1 T (q x) (q y).
Set Default Proof Using "Hn HT q_lms q_inj q_le".
Record InvN (i name qq qlen : Z) (nm : Z -> Z) : Prop := {
  n_name : 0 <= name <= i;
  n_q : (i = 0 /\ name = 0 /\ qq = n /\ qlen = 0) \/ (0 < i /\ nm (i - 1) = name /\ lms qq = true /\ qlen = len qq /\ same T (q (i - 1)) qq);
  n_rng : forall x, 0 <= x < i -> 1 <= nm x <= name /\ nm x <= x + 1 /\ name - nm x <= i - 1 - x;
  n_ord : forall x y, 0 <= x < y -> y < i -> nm x <= nm y /\ (nm x = nm y -> same T (q x) (q y)) /\ (nm x < nm y -> lex_lt (key T (q x)) (key T (q y)))
}.
Lemma lmsr p : lms p = true -> 0 <= p < n.
Proof. intros M. apply (lms_range T k Hn HT) in M. lia. Qed.
Lemma len_range p : lms p = true -> 1 <= len p <= n - p.
Proof. intros M. pose proof (lmsr p M). destruct (nxt_spec T k Hn HT (Z.to_nat n) p) as (A & _); try lia. unfold SaisKeys.len. lia. Qed.
Lemma lex_le_trans a b c : lex_lt a b -> ~ lex_lt c b -> lex_lt a c.
Proof. intros H1 H2. destruct (lex_trich b c) as [-> |[H|H]]; auto; [apply lex_trans with b; auto|contradiction]. Qed.
(** the step, given the outcome of the comparison *)
Lemma stepN i name qq qlen nm b : 0 <= i < m -> InvN i name qq qlen nm -> (b = true <-> 0 < i /\ same T (q i) qq) ->
  let name' := if b then name else name + 1 in InvN (i + 1) name' (if b then qq else q i) (if b then qlen else len (q i)) (put nm i name').
Proof.
  intros Hi V Hb name'. pose proof (n_name _ _ _ _ _ V) as Vn.
  assert (forall x, 0 <= x < i -> nm x < name -> lex_lt (key T (q x)) (key T (q i))) as Lt.
  { intros x Hx Hlt. destruct (n_q _ _ _ _ _ V) as [(A & _)|(Pos & Enm & _)]; [lia|]. assert (x <> i - 1) by (intros ->; lia). destruct (n_ord _ _ _ _ _ V x (i - 1)) as (_ & _ & G); try lia.
    apply lex_le_trans with (key T (q (i - 1))); [apply G; lia|]. apply q_le; lia. }
  constructor.
  - unfold name'. destruct b; lia.
  - right. split; [lia|]. replace (i + 1 - 1) with i by lia. rewrite put_eq. split; auto. destruct b.
    + destruct (n_q _ _ _ _ _ V) as [(A & _)|(Pos & Enm & Mq & El & Sq)]; [destruct Hb as [Hb _]; specialize (Hb eq_refl); lia|]. split; auto. split; auto. apply Hb. auto.
    + split; [apply q_lms; auto|]. split; auto. apply (same_refl T k Hn HT).
  - intros x Hx. destruct (Z.eq_dec x i) as [-> |Nx].
    + rewrite put_eq. unfold name'. destruct b; try lia. destruct (n_q _ _ _ _ _ V) as [(A & _)|(Pos & Enm & _)]; [destruct Hb as [Hb _]; specialize (Hb eq_refl); lia|]. pose proof (n_rng _ _ _ _ _ V (i - 1) ltac:(lia)). lia.
    + rewrite put_ne by auto. pose proof (n_rng _ _ _ _ _ V x ltac:(lia)). unfold name'. destruct b; lia.
  - intros x y Hx Hy. rewrite (put_ne nm i name' x) by lia. destruct (Z.eq_dec y i) as [-> |Ny]; [|rewrite put_ne by auto; apply (n_ord _ _ _ _ _ V); lia]. rewrite put_eq.
    pose proof (n_rng _ _ _ _ _ V x ltac:(lia)) as Rx. unfold name'. split; [destruct b; lia|].
    assert (nm x = name -> same T (q x) qq) as SQ. { intros E. destruct (n_q _ _ _ _ _ V) as [(A & _)|(Pos & Enm & Mq & El & Sq)]; [lia|]. destruct (Z.eq_dec x (i - 1)) as [-> |]; auto. destruct (n_ord _ _ _ _ _ V x (i - 1)) as (_ & G & _); try lia. apply (same_trans T k Hn HT) with (q (i - 1)); auto. apply G. lia. }
    destruct b.
    + split; [|apply Lt; lia]. intros E. apply (same_trans T k Hn HT) with qq; auto. apply (same_sym T k Hn HT). apply Hb. auto.
    + split; [lia|]. intros _. destruct (Z.eq_dec (nm x) name) as [E|]; [|apply Lt; lia]. destruct (lex_trich (key T (q x)) (key T (q i))) as [F|[F|F]]; auto; exfalso.
      * assert (false = true); [|discriminate]. apply Hb. split; [lia|]. apply (same_trans T k Hn HT) with (q x); auto. apply (same_sym T k Hn HT). pose proof (lmsr _ (q_lms x ltac:(lia))). pose proof (lmsr _ (q_lms i ltac:(lia))). apply (key_eq_same T k Hn HT (Z.to_nat n)); auto. lia.
      * apply (q_le x i); auto; lia.
Qed.
Lemma naming_ok : forall f i mem name qq qlen nm, i + Z.of_nat f = m -> 0 <= i -> InvN i name qq qlen nm -> n <= zlen mem -> (forall x, 0 <= x < m -> at_ mem x = q x) ->
  (forall x, i <= x < m -> at_ mem (m + h (q x)) = len (q x)) -> (forall x, 0 <= x < i -> at_ mem (m + h (q x)) = nm x) ->
  exists mem' N nm', naming f T mem m i name qq qlen = Ok (mem', N) /\ zlen mem' = zlen mem /\ (exists qq' ql', InvN m N qq' ql' nm') /\ (forall x, 0 <= x < m -> at_ mem' (m + h (q x)) = nm' x) /\
    (forall t, 0 <= t -> (forall x, 0 <= x < m -> t <> m + h (q x)) -> at_ mem' t = at_ mem t).
Proof.
  induction f as [|f IH]; intros i mem name qq qlen nm Hf Hi V L A1 A2 A3.
  - assert (i = m) as -> by lia. exists mem, name, nm. cbn [naming]. split; auto. split; auto. split; [eauto|]. split; auto.
  - cbn [naming]. pose proof nm_fits as NF. pose proof m_nonneg. assert (0 <= i < m) as Him by lia. pose proof (q_lms i Him) as Mi. pose proof (h_range _ Mi) as Hr. cbn beta in *. pose proof (len_range _ Mi) as Lr. pose proof (lmsr _ Mi).
    rewrite rd_at by lia. cbn [bind]. rewrite A1 by lia. rewrite rd_at by lia. cbn [bind]. rewrite A2 by lia.
    assert (exists b, (if len (q i) =? qlen then same_run (S (length T)) T (q i) qq 0 (len (q i)) else Ok false) = Ok b /\ (b = true <-> 0 < i /\ same T (q i) qq)) as (b & -> & Hb).
    { destruct (Z.eqb_spec (len (q i)) qlen) as [E|Ne].
      - destruct (n_q _ _ _ _ _ V) as [(A & B & C & D)|(Pos & Enm & Mq & El & Sq)]; [lia|]. pose proof (lmsr _ Mq). pose proof (len_range _ Mq). destruct (same_run_ok (q i) qq ltac:(lia) ltac:(lia) (S (length T)) 0 (len (q i))) as (b & -> & Hb); try (unfold zlen in *; lia). exists b. split; auto. rewrite Hb. unfold same. split; [intros G; split; auto; split; [lia|auto]|]. intros (_ & _ & G). auto.
      - exists false. split; auto. split; [discriminate|]. intros (Pos & E & _). destruct (n_q _ _ _ _ _ V) as [(A & _)|(_ & Enm & Mq & El & Sq)]; lia. }
    cbn [bind]. pose proof (stepN i name qq qlen nm b Him V Hb) as V'. cbv zeta in V'. set (name' := if b then name else name + 1) in *.
    destruct (wr_at mem (m + Z.shiftr (q i) 1) name') as (mem1 & -> & L1 & A4); [lia|]. cbn [bind].
    assert (forall x, 0 <= x < m -> x <> i -> at_ mem1 (m + Z.shiftr (q x) 1) = at_ mem (m + Z.shiftr (q x) 1)) as A5.
    { intros x Hx Nx. pose proof (h_range _ (q_lms x Hx)) as Hrx. cbn beta in Hrx. rewrite A4 by lia. destruct (Z.eqb_spec (m + Z.shiftr (q x) 1) (m + Z.shiftr (q i) 1)) as [E|]; auto. exfalso. apply Nx, q_inj; auto. apply h_inj; auto. cbn beta. lia. }
    destruct (IH (i + 1) mem1 name' (if b then qq else q i) (if b then qlen else len (q i)) (put nm i name')) as (mem' & N & nm' & E & L' & V2 & B1 & B2); try lia; auto.
    + intros x Hx. rewrite A4 by lia. destruct (Z.eqb_spec x (m + Z.shiftr (q i) 1)); [lia|]. apply A1. auto.
    + intros x Hx. rewrite A5 by lia. apply A2. lia.
    + intros x Hx. destruct (Z.eq_dec x i) as [-> |Nx]; [rewrite put_eq, A4 by lia; rewrite Z.eqb_refl; auto|]. rewrite put_ne by auto. rewrite A5 by lia. apply A3. lia.
    + exists mem', N, nm'. split; auto. split; [lia|]. split; auto. split; auto. intros t Ht Nt. rewrite B2 by auto. rewrite A4 by auto. destruct (Z.eqb_spec t (m + Z.shiftr (q i) 1)) as [F|]; auto. exfalso. apply (Nt i); auto.
Qed.
Lemma named N qq ql nm x y : InvN m N qq ql nm -> 0 <= x < m -> 0 <= y < m -> (nm x < nm y -> suf_lt T (q x) (q y)) /\ (nm x = nm y -> same T (q x) (q y)) /\ 1 <= nm x <= N.
Proof.
  intros V Hx Hy. split; [|split; [|apply (n_rng _ _ _ _ _ V x Hx)]].
  - intros Lt. pose proof (lmsr _ (q_lms x Hx)). pose proof (lmsr _ (q_lms y Hy)). apply (key_lt_suf T k Hn HT (Z.to_nat n)); auto; try lia. destruct (Z.lt_trichotomy x y) as [L|[L|L]].
    + apply (n_ord _ _ _ _ _ V); auto; lia.
    + subst. lia.
    + destruct (n_ord _ _ _ _ _ V y x); lia.
  - intros E. destruct (Z.lt_trichotomy x y) as [L|[L|L]].
    + apply (n_ord _ _ _ _ _ V); auto; lia.
    + subst. apply (same_refl T k Hn HT).
    + apply (same_sym T k Hn HT). apply (n_ord _ _ _ _ _ V); auto; lia.
Qed.
Lemma named_all N qq ql nm : InvN m N qq ql nm -> m <= N -> forall x y, 0 <= x < y -> y < m -> suf_lt T (q x) (q y).
Proof.
  intros V HN x y Hx Hy. destruct (named N qq ql nm x y V ltac:(lia) ltac:(lia)) as (G & _). apply G. pose proof (n_name _ _ _ _ _ V). pose proof (n_rng _ _ _ _ _ V x ltac:(lia)). pose proof (n_rng _ _ _ _ _ V y ltac:(lia)). lia.
Qed.
End Naming.
End Lms.
