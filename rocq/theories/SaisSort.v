(** The recursion of suffixsort: it leaves the suffix array in the first n cells. *)
Require Import Verif.Common Verif.Cnt Verif.FmCore Verif.SaisModel Verif.SaisType Verif.SaisInduce Verif.SaisRefine Verif.SaisKeys Verif.SaisStage Verif.SaisLms.
From Coq Require Import Permutation.
Ltac Zify.zify_post_hook ::= idtac.

Section Sort.
Variables (T : list Z) (k : Z).
Notation n := (zlen T).
Notation t_ := (at_ T).
Hypothesis Hn : 1 <= n.
Hypothesis HT : forall p, 0 <= p < n -> 0 <= t_ p < k.
Set Default Proof Using "Hn HT".
Notation isS := (isS T).
Notation lms := (lms T).
Notation bs := (bs T).
Notation P := (at_ (lmsl T)).
Notation m := (zlen (lmsl T)).
Notation h p := (Z.shiftr p 1).

Lemma h_mono x y : 0 <= x < y -> y < m -> h (P x) < h (P y).
Proof. intros Hx Hy. pose proof (P_gap T k Hn HT x y Hx Hy). pose proof (half_spec (P x)). pose proof (half_spec (P y)). lia. Qed.
Lemma h_last x : 0 <= x < m -> h (P x) <= h n - m + x.
Proof. intros Hx. pose proof (P_last T k Hn HT x Hx). pose proof (half_spec (P x)). pose proof (half_spec n). lia. Qed.
Lemma gather_ok W fs : 0 <= fs -> (forall x, 0 <= x < m -> W (h (P x)) <> 0) -> (forall y, 0 <= y < h n -> W y <> 0 -> exists x, 0 <= x < m /\ y = h (P x)) ->
  forall f j mem, zlen mem = n + fs -> Z.of_nat f <= h n -> -1 <= j < m -> (forall x, 0 <= x < m -> (h (P x) < Z.of_nat f <-> x <= j)) -> (forall y, 0 <= y < Z.of_nat f -> at_ mem (m + y) = W y) ->
  exists mem', gather f mem m (n + fs - m) j = Ok mem' /\ zlen mem' = n + fs /\ (forall x, 0 <= x <= j -> at_ mem' (n + fs - m + x) = W (h (P x)) - 1) /\ (forall x, j < x < m -> at_ mem' (n + fs - m + x) = at_ mem (n + fs - m + x)).
Proof.
  intros Hfs W1 W2. pose proof (nm_fits T k Hn HT) as NF. pose proof (m_half T k Hn HT) as MH. pose proof (m_nonneg T k Hn HT). induction f as [|f IH]; intros j mem L Hf Hj Hx A.
  - exists mem. cbn [gather]. split; auto. split; auto. split; auto. intros x Hx'. exfalso. destruct (Hx x ltac:(lia)) as [_ G]. pose proof (h_range T k Hn HT _ (P_lms T k Hn HT x ltac:(lia))). specialize (G ltac:(lia)). lia.
  - cbn [gather]. set (g := Z.of_nat f) in *. assert (Z.of_nat (S f) = g + 1) as Eg by lia. rewrite Eg in *. rewrite rd_at by lia. cbn [bind]. rewrite A by lia. destruct (Z.eqb_spec (W g) 0) as [E|Ne]; cbn [negb].
    + apply IH; try assumption; [lia| |intros y Hy; apply A; lia]. intros x Hx'. rewrite <- Hx by auto. assert (h (P x) <> g); [|lia]. intros F. apply (W1 x Hx'). rewrite F. auto.
    + destruct (W2 g ltac:(lia) Ne) as (x0 & Hx0 & E0). assert (x0 <= j) as J1 by (apply Hx; auto; lia). assert (x0 = j) as ->. { destruct (Z.eq_dec x0 j) as [|Nj]; auto. pose proof (h_mono x0 j ltac:(lia) ltac:(lia)). destruct (Hx j ltac:(lia)) as [_ G]. specialize (G ltac:(lia)). lia. }
      pose proof (h_last j Hx0). pose proof (half_spec n).
      destruct (wr_at mem (n + fs - m + j) (W g - 1)) as (mem1 & -> & L1 & A1); [lia|]. cbn [bind]. destruct (IH (j - 1) mem1) as (mem' & E' & L' & B1 & B2); try lia.
      * intros x Hx'. destruct (Z.lt_trichotomy x j) as [G|[G|G]].
        -- pose proof (h_mono x j ltac:(lia) ltac:(lia)). lia.
        -- subst x. lia.
        -- pose proof (h_mono j x ltac:(lia) ltac:(lia)). lia.
      * intros y Hy. rewrite A1 by lia. destruct (Z.eqb_spec (m + y) (n + fs - m + j)); [lia|]. apply A. lia.
      * exists mem'. split; auto. split; auto. split.
        -- intros x Hx'. destruct (Z.eq_dec x j) as [-> |]; [|apply B1; lia]. rewrite B2 by lia. rewrite A1 by lia. rewrite Z.eqb_refl. congruence.
        -- intros x Hx'. rewrite B2 by lia. rewrite A1 by lia. destruct (Z.eqb_spec (n + fs - m + x) (n + fs - m + j)); [lia|auto].
Qed.
Lemma put_ra_ok ra mem : 0 <= ra -> zlen mem = ra + m -> exists mem', (exists j, lms_scan (put_ra ra) T (mem, m - 1) = Ok (mem', j)) /\ zlen mem' = zlen mem /\ (forall x, 0 <= x < m -> at_ mem' (ra + x) = P x) /\ (forall t, 0 <= t < ra -> at_ mem' t = at_ mem t).
Proof.
  intros Hra L. rewrite (lms_scan_ok T k Hn HT).
  destruct (fold_rev_idx (put_ra ra) (lmsl T) (fun i st => let (mem', j) := st in j = i - 1 /\ zlen mem' = zlen mem /\ (forall x, i <= x < m -> at_ mem' (ra + x) = P x) /\ (forall t, 0 <= t < ra -> at_ mem' t = at_ mem t))) with (st := (mem, m - 1)) as ((mem' & j) & E & V).
  - intros i (mem1, j) Hi (-> & L1 & A1 & A2). unfold put_ra. replace (i + 1 - 1) with i by lia. destruct (wr_at mem1 (ra + i) (P i)) as (mem2 & -> & L2 & A3); [lia|]. cbn [bind]. eexists. split; [reflexivity|]. cbn beta. split; auto. split; [lia|]. split.
    + intros x Hx. rewrite A3 by lia. destruct (Z.eqb_spec (ra + x) (ra + i)); [f_equal; lia|]. apply A1. lia.
    + intros t Ht. rewrite A3 by lia. destruct (Z.eqb_spec t (ra + i)); [lia|auto].
  - split; auto. split; auto. split; auto. intros. lia.
  - exists mem'. destruct V as (_ & V1 & V2 & V3). split; [exists j; auto|]. auto.
Qed.
Lemma translate_ok ra (s : Z -> Z) : m <= ra -> (forall t, 0 <= t < m -> 0 <= s t < m) -> forall f i mem, i + Z.of_nat f = m -> 0 <= i -> zlen mem = ra + m -> (forall t, i <= t < m -> at_ mem t = s t) -> (forall x, 0 <= x < m -> at_ mem (ra + x) = P x) -> (forall t, 0 <= t < i -> at_ mem t = P (s t)) ->
  exists mem', translate f mem ra i = Ok mem' /\ zlen mem' = ra + m /\ forall t, 0 <= t < m -> at_ mem' t = P (s t).
Proof.
  intros Hra Hs. induction f as [|f IH]; intros i mem Hf Hi L A1 A2 A3.
  - exists mem. split; auto. split; auto. intros t Ht. apply A3. lia.
  - cbn [translate]. rewrite rd_at by lia. cbn [bind]. rewrite A1 by lia. pose proof (Hs i ltac:(lia)). rewrite rd_at by lia. cbn [bind]. rewrite A2 by lia. destruct (wr_at mem i (P (s i))) as (mem1 & -> & L1 & A4); [lia|]. cbn [bind]. apply IH; try lia.
    + intros t Ht. rewrite A4 by lia. destruct (Z.eqb_spec t i); [lia|]. apply A1. lia.
    + intros x Hx. rewrite A4 by lia. destruct (Z.eqb_spec (ra + x) i); [lia|]. apply A2. auto.
    + intros t Ht. rewrite A4 by lia. destruct (Z.eqb_spec t i) as [-> |]; auto. apply A3. lia.
Qed.

(** ** stages 1 and 2 *)
Lemma suf_listed mem : (forall x, 0 <= x < m -> lms (at_ mem x) = true) -> (forall p, lms p = true -> exists x, 0 <= x < m /\ at_ mem x = p) -> (forall x y, 0 <= x < y -> y < m -> suf_lt T (at_ mem x) (at_ mem y)) -> lms_listed T (suf_lt T) mem.
Proof.
  intros H1 H2 H3. split; auto. split; auto. split; auto. intros x y Hx Hy E. destruct (Z.lt_trichotomy x y) as [L|[L|L]]; auto; exfalso; [pose proof (H3 x y ltac:(lia) ltac:(lia)) as G|pose proof (H3 y x ltac:(lia) ltac:(lia)) as G]; rewrite E in G; apply lex_irrefl in G; auto.
Qed.
Lemma sort_lms_ok rec alloc mem fs (A : Prop) : 0 <= fs -> zlen mem = n + fs ->
  (forall RT mem' fs' k', 1 <= zlen RT < n -> (forall p, 0 <= p < zlen RT -> 0 <= at_ RT p < k') -> 0 <= fs' -> zlen mem' = zlen RT + fs' ->
    (exists low, rec RT mem' fs' k' = Ok (low, 0) /\ zlen low = zlen RT + fs' /\ listed RT (suf_lt RT) (firstn (Z.to_nat (zlen RT)) low)) \/ (rec RT mem' fs' k' = Exn /\ A)) ->
  (exists mem', sort_lms rec alloc T mem fs k = Ok (mem', m) /\ zlen mem' = n + fs /\ lms_listed T (suf_lt T) mem') \/ (sort_lms rec alloc T mem fs k = Exn /\ (alloc = false \/ A)).
Proof.
  intros Hfs L Rec. assert (1 <= k) as Hk by (pose proof (HT 0 ltac:(lia)); lia). pose proof (nm_fits T k Hn HT) as NF. pose proof (m_half T k Hn HT) as MH. pose proof (m_nonneg T k Hn HT) as MN. pose proof (half_spec n) as HN. unfold sort_lms.
  destruct (with_buckets_ok alloc mem n fs k (fun alias SA => stage1 alias T SA k) (fun SA _ => listed T (le1 T) SA) ltac:(lia) Hfs Hk L) as [(mem1 & x1 & -> & L1 & Li1)|[-> F]]; [intros alias SA LS _; destruct (stage1_ok T k Hn HT alias SA LS) as (S1 & S2 & S3 & S4); exists S1, S2, S3, tt; exact S4| |right; cbn [bind]; auto]. cbn [bind].
  destruct (compacted T k Hn HT mem1 ltac:(lia) Li1) as (mem2 & -> & L2 & Q1 & Q2 & Q3 & Q4). cbn [bind].
  destruct (zero_ok (Z.to_nat (h n)) m mem2) as (mem3 & -> & L3 & A3); [lia|lia|]. cbn [bind]. rewrite Z2Nat.id in A3 by lia.
  destruct (put_len_ok T k Hn HT mem3) as (mem4 & (j4 & ->) & L4 & A4 & B4); [lia|]. cbn [bind].
  set (q := at_ mem2) in *.
  assert (forall x, 0 <= x < m -> at_ mem4 x = q x) as A4q. { intros x Hx. rewrite B4; [|lia|intros p Mp; pose proof (h_range T k Hn HT p Mp); lia]. rewrite A3 by lia. destruct (Z.leb_spec m x); [lia|]. auto. }
  destruct (naming_ok T k Hn HT q Q1 Q3 Q4 (Z.to_nat m) 0 mem4 0 n 0 (fun _ => 0)) as (mem5 & N & nm & -> & L5 & (qq & ql & V) & A5 & B5); try lia; auto.
  { constructor; [lia|auto| |]; intros; lia. }
  cbn [bind].
  assert (forall x, 0 <= x < m -> at_ mem5 x = q x) as A5q. { intros x Hx. rewrite B5; [apply A4q; auto|lia|]. intros y Hy. pose proof (h_range T k Hn HT _ (Q1 y Hy)). lia. }
  destruct (Z.ltb_spec N m) as [Lt|Ge].
  2:{ left. exists mem5. split; auto. split; [lia|]. apply suf_listed.
      - intros x Hx. rewrite A5q by auto. apply Q1. auto.
      - intros p Mp. destruct (Q2 p Mp) as (x & Hx & <-). exists x. split; auto.
      - intros x y Hx Hy. rewrite !A5q by lia. apply (named_all T k Hn HT q Q1 Q3 Q4 N qq ql nm V Ge); auto. }
  set (W := fun y => at_ mem5 (m + y)).
  assert (forall x, 0 <= x < m -> exists z, 0 <= z < m /\ q z = P x /\ W (h (P x)) = nm z) as WP. { intros x Hx. destruct (Q2 (P x) (P_lms T k Hn HT x Hx)) as (z & Hz & Ez). exists z. split; auto. split; auto. unfold W. rewrite <- Ez. apply A5. auto. }
  destruct (gather_ok W fs Hfs) with (f := Z.to_nat (h n)) (j := m - 1) (mem := mem5) as (mem6 & -> & L6 & A6 & _); try lia.
  { intros x Hx. destruct (WP x Hx) as (z & Hz & Ez & ->). destruct (named T k Hn HT q Q1 Q3 Q4 N qq ql nm z z V Hz Hz) as (_ & _ & R). lia. }
  { intros y Hy Ny. unfold W in Ny. assert (~ forall x, 0 <= x < m -> y <> h (P x)) as NN.
    { intros G. apply Ny. rewrite B5; [|lia|]. 2:{ intros x Hx E. destruct (P_onto T k Hn HT _ (Q1 x Hx)) as (z & Hz & Ez). apply (G z Hz). rewrite Ez. lia. }
      rewrite B4; [|lia|]. 2:{ intros p Mp E. destruct (P_onto T k Hn HT p Mp) as (z & Hz & <-). apply (G z Hz). lia. }
      rewrite A3 by lia. destruct (Z.leb_spec m (m + y)); [|lia]. destruct (Z.ltb_spec (m + y) (m + h n)); [auto|lia]. }
    destruct (existsb (fun p => y =? h p) (lmsl T)) eqn:Ex.
    - apply existsb_exists in Ex. destruct Ex as (p & Ip & Ep). apply (in_at T k Hn HT) in Ip. destruct Ip as (x & Hx & <-). exists x. split; auto. lia.
    - exfalso. apply NN. intros x Hx E. assert (existsb (fun p => y =? h p) (lmsl T) = true); [|congruence]. apply existsb_exists. exists (P x). split; [apply at_In; auto|lia]. }
  { intros x Hx. pose proof (h_range T k Hn HT _ (P_lms T k Hn HT x Hx)). lia. }
  { intros y Hy. reflexivity. }
  cbn [bind]. set (ra := n + fs - m) in *. set (RA := skipn (Z.to_nat ra) mem6). assert (zlen RA = m) as LRA by (unfold RA; rewrite zlen_skipn; lia).
  assert (forall x, 0 <= x < m -> at_ RA x = W (h (P x)) - 1) as ARA. { intros x Hx. unfold RA. rewrite at_skipn by lia. apply A6. lia. }
  assert (zlen (firstn (Z.to_nat ra) mem6) = ra) as Llow by (apply zlen_firstn; lia).
  pose proof (n_name _ _ _ _ _ _ _ V) as VN.
  destruct (Rec RA (firstn (Z.to_nat ra) mem6) (fs + n - m * 2) N) as [(low & -> & Ll & Li)|[-> F]]; try lia.
  { intros p Hp. rewrite ARA by lia. destruct (WP p ltac:(lia)) as (z & Hz & _ & ->). destruct (named T k Hn HT q Q1 Q3 Q4 N qq ql nm z z V Hz Hz) as (_ & _ & R). lia. }
  2:{ right. cbn [bind]. auto. }
  cbn [bind Z.eqb negb]. left. unfold listed in Li. rewrite LRA in Ll, Li. destruct Li as (I1 & I2 & I3). set (s := at_ (firstn (Z.to_nat m) low)) in *.
  assert (zlen low = ra) as Ll' by lia. clear L L1 Li1 L2 L3 A3 L4 A4 B4 A4q L5 A5 B5 A5q A6 L6 Llow VN Rec.
  destruct (put_ra_ok ra (low ++ RA)) as (mem7 & (j7 & ->) & L7 & A7 & B7); [lia|rewrite zlen_app; lia|]. cbn [bind]. rewrite zlen_app in L7.
  assert (m <= ra) as X1 by lia. pose proof (translate_ok ra s X1 I1 (Z.to_nat m) 0 mem7) as X3.
  destruct X3 as (mem8 & X4 & L8 & A8); [clear - MN; lia|clear; lia|clear - L7 Ll' LRA; lia| |exact A7|clear; intros; lia|].
  { intros t Ht. rewrite B7 by lia. rewrite at_app1 by lia. unfold s. rewrite at_firstn by lia. reflexivity. }
  rewrite X4. cbn [bind]. exists mem8. split; [reflexivity|]. split; [lia|]. apply suf_listed.
  - intros x Hx. rewrite A8 by auto. apply (P_lms T k Hn HT). apply I1. auto.
  - intros p Mp. destruct (P_onto T k Hn HT p Mp) as (y & Hy & <-). destruct (I2 y Hy) as (x & Hx & Ex). exists x. split; auto. rewrite A8 by auto. congruence.
  - intros x y Hx Hy. rewrite !A8 by lia. pose proof (I1 x ltac:(lia)). pose proof (I1 y ltac:(lia)). apply (reduced_order T k Hn HT RA LRA) with (f := Z.to_nat m); try lia; [| |apply I3; lia].
    + intros a b Ha Hb. rewrite !ARA by auto. destruct (WP a Ha) as (z & Hz & Ez & ->). destruct (WP b Hb) as (w & Hw & Ew & ->). rewrite <- Ez, <- Ew. intros G. apply (named T k Hn HT q Q1 Q3 Q4 N qq ql nm z w V Hz Hw). lia.
    + intros a b Ha Hb. rewrite !ARA by auto. destruct (WP a Ha) as (z & Hz & Ez & ->). destruct (WP b Hb) as (w & Hw & Ew & ->). rewrite <- Ez, <- Ew. intros G. apply (named T k Hn HT q Q1 Q3 Q4 N qq ql nm z w V Hz Hw). lia.
Qed.

(** ** stage 3 *)
Section Spread.
Variable q : Z -> Z.
Hypothesis q_lms : forall x, 0 <= x < m -> lms (q x) = true.
Hypothesis q_inj : forall x y, 0 <= x < m -> 0 <= y < m -> q x = q y -> x = y.
Hypothesis q_mono : forall x y, 0 <= x < y -> y < m -> t_ (q x) <= t_ (q y).
Set Default Proof Using "Hn HT q_lms q_inj q_mono".
Lemma spread_ok : forall i SA B O Bp, Z.of_nat i <= m -> zlen SA = n -> zlen B = k -> InvP T k q m (Z.of_nat i) O Bp -> (forall c, 0 <= c < k -> at_ B c = Bp c) ->
  (forall t, 0 <= t < Z.of_nat i -> at_ SA t = q t /\ O t = 0) -> (forall t, Z.of_nat i <= t < n -> at_ SA t = O t) ->
  exists SA' B' O' Bp', spread i T SA B = Ok (SA', B') /\ zlen SA' = n /\ zlen B' = k /\ InvP T k q m 0 O' Bp' /\ (forall t, 0 <= t < n -> at_ SA' t = O' t).
Proof.
  pose proof (m_half T k Hn HT) as MH. induction i as [|i IH]; intros SA B O Bp Hi LS LB V AB A1 A2.
  - exists SA, B, O, Bp. cbn [spread]. split; auto.
  - cbn [spread]. set (x := Z.of_nat i) in *. assert (Z.of_nat (S i) = x + 1) as Ex by lia. rewrite Ex in *. assert (0 <= x < m) as Hx by lia. rewrite rd_at by lia. cbn [bind]. destruct (wr_at SA x 0) as (SA1 & -> & L1 & A3); [lia|]. cbn [bind]. destruct (A1 x ltac:(lia)) as [-> Ox].
    destruct (put_lms_ok T k Hn HT q m q_lms q_inj x SA1 B O Bp Hx V ltac:(lia) LB AB) as (SA2 & B2 & -> & L2 & LB2 & AB2 & A4). cbn [bind].
    pose proof (aheadP T k Hn HT q m q_lms q_inj x O Bp Hx V q_mono) as Ah. destruct (stepP T k Hn HT q m q_lms q_inj x O Bp Hx V) as [_ V']. cbv zeta in V'. set (c := t_ (q x)) in *.
    apply (IH SA2 B2 _ _ ltac:(lia) L2 LB2 V'); auto.
    + intros t Ht. rewrite A4 by lia. destruct (Z.eqb_spec t (Bp c - 1)); [lia|]. rewrite A3 by lia. destruct (Z.eqb_spec t x); [lia|]. rewrite put_ne by auto. apply A1. lia.
    + intros t Ht. rewrite A4 by lia. unfold put. destruct (Z.eqb_spec t (Bp c - 1)); auto. rewrite A3 by lia. destruct (Z.eqb_spec t x) as [-> |]; auto. apply A2. lia.
Qed.
End Spread.
Set Default Proof Using "Hn HT".
(** the arrays handed to the last induction *)
Lemma stage3_pre SA C : zlen SA = n -> lms_listed T (suf_lt T) SA -> counts_ok T k C -> exists SA' B', (let! SA := zero (length T - Z.to_nat m) m SA in spread (Z.to_nat m) T SA (getBuckets C true)) = Ok (SA', B') /\
  zlen SA' = n /\ zlen B' = k /\ (forall t, 0 <= t < n -> 0 <= at_ SA' t) /\ lms_init T (slots SA') /\ lms_sorted T SA' (suf_lt T).
Proof.
  intros LS (Q1 & Q2 & Q3 & Q4) HC. pose proof (m_half T k Hn HT) as MH. pose proof (m_nonneg T k Hn HT) as MN. destruct (getBuckets_ok T k Hn HT C true HC) as [LB AB]. set (B := getBuckets C true) in *. set (q := at_ SA) in *.
  destruct (zero_ok (length T - Z.to_nat m) m SA) as (SA0 & -> & L0 & A0); [lia|unfold zlen in *; lia|]. cbn [bind].
  assert (m + Z.of_nat (length T - Z.to_nat m) = n) as En by (unfold zlen in *; lia). rewrite En in A0.
  assert (forall x y, 0 <= x < y -> y < m -> t_ (q x) <= t_ (q y)) as Mono.
  { intros x y Hx Hy. pose proof (Q4 x y Hx Hy) as G. pose proof (Q1 x ltac:(lia)) as Mx. pose proof (Q1 y ltac:(lia)) as My. apply (lms_range T k Hn HT) in Mx, My. unfold suf_lt in G. rewrite (suffix_at T (q x)), (suffix_at T (q y)) in G by lia. destruct G as [G|[G _]]; lia. }
  destruct (spread_ok q Q1 Q3 Mono (Z.to_nat m) SA0 B (fun _ => 0) (fun c => bs (c + 1))) as (SA1 & B1 & O & Bp & -> & L1 & LB1 & V & A1); try lia; auto.
  - rewrite Z2Nat.id by lia. apply (initP T k Hn HT q m Q1 Q3). auto.
  - intros t Ht. split; auto. rewrite A0 by lia. destruct (Z.leb_spec m t); [lia|]. auto.
  - intros t Ht. rewrite A0 by lia. destruct (Z.leb_spec m t), (Z.ltb_spec t n); auto; lia.
  - exists SA1, B1. split; auto. split; auto. split; auto. apply (endP T k Hn HT q m Q1 Q3 O Bp SA1 (suf_lt T) Q2 V A1). intros x y Hx Hy _. apply Q4; auto.
Qed.
Lemma stage3_ok {X} (induce : bool -> list Z -> list Z -> list Z -> Z -> res (list Z * list Z * list Z * X)) (R : list Z -> X -> Prop) alias SA : zlen SA = n -> lms_listed T (suf_lt T) SA ->
  (forall (SA C : list Z), zlen SA = n -> (forall t, 0 <= t < n -> 0 <= at_ SA t) -> lms_init T (slots SA) -> counts_ok T k C -> lms_sorted T SA (suf_lt T) ->
    exists SA' C' B' x, induce alias T SA C k = Ok (SA', C', B', x) /\ zlen SA' = n /\ zlen C' = k /\ zlen B' = k /\ R SA' x) ->
  exists SA' C' B' x, stage3 induce alias T SA m k = Ok (SA', C', B', x) /\ zlen SA' = n /\ zlen C' = k /\ zlen B' = k /\ R SA' x.
Proof.
  intros LS LL Ind. unfold stage3. destruct (getCounts_ok T k Hn HT) as (C & -> & HC). cbn [bind]. destruct (stage3_pre SA C LS LL HC) as (SA1 & B1 & E & L1 & LB1 & N1 & N2 & N3).
  destruct (zero (length T - Z.to_nat m) m SA) as [SA0| | |]; try discriminate. cbn [bind] in *. rewrite E. cbn [bind]. apply Ind; auto.
Qed.
End Sort.
Unset Default Proof Using.

Definition induce0 (a : bool) (T SA C : list Z) (k : Z) : res (list Z * list Z * list Z * Z) := let! (SA, C, B) := induceSA a T SA C k in Ok (SA, C, B, 0).
(** suffixsort, given what the last induction yields *)
Lemma suffixsort_gen f alloc d (isbwt : bool) (R : list Z -> Z -> Prop) T mem fs k : 1 <= zlen T -> (forall p, 0 <= p < zlen T -> 0 <= at_ T p < k) -> 0 <= fs -> zlen mem = zlen T + fs ->
  (forall RT mem' fs' k', 1 <= zlen RT < zlen T -> (forall p, 0 <= p < zlen RT -> 0 <= at_ RT p < k') -> 0 <= fs' -> zlen mem' = zlen RT + fs' ->
    (exists low, suffixsort f alloc (S d) false RT mem' fs' k' = Ok (low, 0) /\ zlen low = zlen RT + fs' /\ listed RT (suf_lt RT) (firstn (Z.to_nat (zlen RT)) low)) \/ (suffixsort f alloc (S d) false RT mem' fs' k' = Exn /\ exists d' s, alloc d' s = false)) ->
  (forall (alias : bool) SA C, zlen SA = zlen T -> (forall t, 0 <= t < zlen T -> 0 <= at_ SA t) -> lms_init T (slots SA) -> counts_ok T k C -> lms_sorted T SA (suf_lt T) ->
    exists SA' C' B' x, (if isbwt then computeBWT else induce0) alias T SA C k = Ok (SA', C', B', x) /\ zlen SA' = zlen T /\ zlen C' = k /\ zlen B' = k /\ R SA' x) ->
  (exists mem' x, suffixsort (S f) alloc d isbwt T mem fs k = Ok (mem', x) /\ zlen mem' = zlen T + fs /\ R (firstn (Z.to_nat (zlen T)) mem') x) \/
  (suffixsort (S f) alloc d isbwt T mem fs k = Exn /\ exists d' s, alloc d' s = false).
Proof.
  intros Hn HT Hfs L Rec Ind. cbn [suffixsort]. assert (1 <= k) as Hk by (pose proof (HT 0 ltac:(lia)); lia).
  destruct (sort_lms_ok T k Hn HT (fun (T mem : list Z) (fs k : Z) => suffixsort f alloc (S d) false T mem fs k) (alloc d false) mem fs (exists d' s, alloc d' s = false) Hfs L) as [(mem1 & -> & L1 & LL)|[-> [F|F]]].
  - exact Rec.
  - cbn [bind]. fold induce0. destruct (with_buckets_ok (alloc d true) mem1 (zlen T) fs k (fun alias SA => stage3 (if isbwt then computeBWT else induce0) alias T SA (zlen (lmsl T)) k) R ltac:(lia) Hfs Hk L1) as [G|[G F]].
    + intros alias SA LS AS. apply (stage3_ok T k Hn HT _ R alias SA LS); [|apply Ind]. pose proof (m_half T k Hn HT). destruct LL as (Q1 & Q2 & Q3 & Q4). split; [|split; [|split]].
      * intros x Hx. rewrite AS by lia. auto.
      * intros p Mp. destruct (Q2 p Mp) as (x & Hx & E). exists x. split; auto. rewrite AS by lia. auto.
      * intros x y Hx Hy. rewrite !AS by lia. auto.
      * intros x y Hx Hy. rewrite !AS by lia. auto.
    + left. exact G.
    + right. split; auto. eauto.
  - right. cbn [bind]. split; eauto.
  - right. cbn [bind]. split; auto.
Qed.
Lemma suffixsort_ok : forall fuel alloc d T mem fs k, zlen T <= Z.of_nat fuel -> 1 <= zlen T -> (forall p, 0 <= p < zlen T -> 0 <= at_ T p < k) -> 0 <= fs -> zlen mem = zlen T + fs ->
  (exists mem', suffixsort fuel alloc d false T mem fs k = Ok (mem', 0) /\ zlen mem' = zlen T + fs /\ listed T (suf_lt T) (firstn (Z.to_nat (zlen T)) mem')) \/
  (suffixsort fuel alloc d false T mem fs k = Exn /\ exists d' s, alloc d' s = false).
Proof.
  induction fuel as [|f IH]; intros alloc d T mem fs k Hf Hn HT Hfs L; [lia|].
  destruct (suffixsort_gen f alloc d false (fun SA x => x = 0 /\ listed T (suf_lt T) SA) T mem fs k Hn HT Hfs L) as [(mem' & x & E & L' & -> & Li)|G]; auto.
  - intros RT mem' fs' k' H1 H2 H3 H4. apply IH; auto; lia.
  - intros alias SA C L1 N1 N2 HC N3. cbn beta iota. unfold induce0.
    destruct (induceSA_ok T k Hn HT alias SA C (suf_lt T) (suf_lt T) L1 N1 N2 HC (inducible_suffix T k Hn HT) N3) as (SA' & C' & B' & E' & R1 & R2 & R3 & R4). exists SA', C', B', 0. rewrite E'. cbn [bind]. split; [reflexivity|]. split; auto.
  - left. exists mem'. auto.
Qed.
Lemma listed_sa T sa : zlen sa = zlen T -> listed T (suf_lt T) sa -> is_suffix_array T sa.
Proof.
  intros L (R & Onto & Le). split; [|exact Le]. destruct (onto_inj (at_ sa) (zlen T) (zlen_nonneg T) Onto) as [_ Inj].
  assert (NoDup (map Z.of_nat (seq 0 (length T)))) as ND. { apply NoDup_map_in; [|apply seq_NoDup]. intros x y _ _. lia. }
  apply NoDup_Permutation; auto.
  - apply NoDup_nth with (d := 0). intros i j Hi Hj E. assert (Z.of_nat i = Z.of_nat j); [|lia]. apply Inj; unfold zlen in *; try lia. unfold at_. rewrite !Nat2Z.id. auto.
  - intros x. split.
    + intros I1. apply (In_nth _ _ 0) in I1. destruct I1 as (i & Hi & E). pose proof (R (Z.of_nat i)) as Ri. unfold at_ in Ri. rewrite Nat2Z.id, E in Ri. specialize (Ri ltac:(unfold zlen in *; lia)). apply in_map_iff. exists (Z.to_nat x). split; [lia|]. apply in_seq. unfold zlen in *. lia.
    + intros I1. apply in_map_iff in I1. destruct I1 as (i & <- & Hi). apply in_seq in Hi. destruct (Onto (Z.of_nat i)) as (t & Ht & <-); [unfold zlen; lia|]. apply at_In. lia.
Qed.
