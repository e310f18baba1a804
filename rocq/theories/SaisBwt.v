(** computeBWT follows the same slot arrays as induceSA, but leaves in each slot the symbol before the position. *)
Require Import Verif.Common Verif.Cnt Verif.FmCore Verif.SaisModel Verif.SaisType Verif.SaisInduce Verif.SaisRefine.
Ltac Zify.zify_post_hook ::= idtac.

Section Bwt.
Variables (T : list Z) (k : Z).
Notation n := (zlen T).
Notation t_ := (at_ T).
Hypothesis Hn : 1 <= n.
Hypothesis HT : forall p, 0 <= p < n -> 0 <= t_ p < k.
Set Default Proof Using "Hn HT".
Notation isS := (isS T).
Notation lms := (lms T).
Notation bs := (bs T).
Notation lc := (lc T).
Notation sc := (sc T).
Notation InvL := (InvL T k).
Notation InvS := (InvS T k).
Notation predS := (predS T).
Notation encL := (encL T).
Notation ptrs := (ptrs k).

(** a slot after the scan of the L phase (an empty slot holds 0), and before that of the S phase *)
Definition encB (o : Z) : Z := if o <=? 0 then 0 else if predS o then o else Z.lnot (t_ (o - 1)).
(** a slot at the end *)
Definition outB (o : Z) : Z := if o <=? 0 then 0 else t_ (o - 1).
Definition repLb (i : Z) (SA : list Z) (O : Z -> Z) : Prop := zlen SA = n /\ forall t, 0 <= t < n -> at_ SA t = if t <? i then encB (O t) else encL (O t).
Definition repSb (i : Z) (SA : list Z) (O : Z -> Z) : Prop := zlen SA = n /\ forall t, 0 <= t < n -> O t <> -1 -> at_ SA t = if t <? i then encB (O t) else outB (O t).
Definition pidx_ok (i pidx : Z) (O : Z -> Z) : Prop := (pidx = -1 /\ forall t, i <= t < n -> O t <> 0) \/ (i <= pidx < n /\ O pidx = 0).

Lemma slot_ge O0 i O Bp t : lms_init T O0 -> InvL O0 i O Bp -> 0 <= t < n -> -1 <= O t < n.
Proof.
  intros Z0 V Ht. destruct (Z.eq_dec (O t) (-1)) as [E|E]; [lia|]. destruct (slotL T k Hn HT O0 Z0 i O Bp t V Ht E) as [(A & _)|(A & _)]; [lia|]. apply (lms_range T k Hn HT) in A. lia.
Qed.

Lemma loopL_bwt_ok O0 : lms_init T O0 -> forall fuel i SA B c1 b O Bp, i + Z.of_nat fuel = n -> 0 <= i -> InvL O0 i O Bp -> repLb i SA O -> ptrs B c1 b Bp ->
  exists SA' B' O' Bp', loopL_bwt fuel T i SA B c1 b = Ok (SA', B') /\ InvL O0 n O' Bp' /\ repLb n SA' O' /\ zlen B' = k.
Proof.
  intros Z0. induction fuel as [|f IH]; intros i SA B c1 b O Bp Hf Hi V [LS R] P.
  - exists SA, B, O, Bp. assert (i = n) as -> by lia. cbn [loopL_bwt]. split; auto. split; auto. split; [split; auto|]. apply P.
  - cbn [loopL_bwt]. rewrite rd_at by lia. cbn [bind].
    pose proof (R i ltac:(lia)) as Ri. destruct (Z.ltb_spec i i); [lia|]. pose proof (slot_ge O0 i O Bp i Z0 V ltac:(lia)) as Ro.
    destruct (Z.ltb_spec 0 (at_ SA i)) as [Po|No].
    + rewrite Ri in *. assert (encL (O i) = O i /\ 0 < O i /\ isS (O i - 1) = false) as (E & Po' & Lp).
      { unfold SaisRefine.encL, SaisRefine.predS in *. destruct (Z.eqb_spec (O i) (-1)); [lia|]. destruct (Z.ltb_spec 0 (O i)) as [Q|Q]; cbn [andb] in *.
        - destruct (isS (O i - 1)); [rewrite lnot_neg in Po; lia|]. auto.
        - lia. }
      rewrite E. destruct (stepL T k Hn HT O0 Z0 i O Bp V ltac:(lia) Po' Lp) as (Hp & Hb & V1). set (p := O i - 1) in *. rewrite rd_at by lia. cbn [bind].
      destruct (wr_at SA i (Z.lnot (t_ p))) as (SA1 & -> & L1 & A1); [lia|]. cbn [bind].
      destruct (switch_ok T k Hn HT B c1 b (t_ p) Bp P) as (B' & -> & P'); [apply HT; lia|]. cbn [bind].
      pose proof (bucket_in T k Hn HT (t_ p)). destruct (putL_ok T k Hn HT SA1 (Bp (t_ p)) p) as (SA2 & -> & L2 & A2); auto; try lia. cbn [bind].
      apply (IH (i + 1) SA2 B' (t_ p) (Bp (t_ p) + 1) (put O (Bp (t_ p)) p) (put Bp (t_ p) (Bp (t_ p) + 1))); auto; try lia; [|eapply ptrs_step; eauto].
      split; [lia|]. intros t Ht. rewrite A2 by lia. unfold put. destruct (Z.eqb_spec t (Bp (t_ p))) as [-> |]; [destruct (Z.ltb_spec (Bp (t_ p)) (i + 1)); [lia|auto]|].
      rewrite A1 by lia. destruct (Z.eqb_spec t i) as [-> |].
      * destruct (Z.ltb_spec i (i + 1)); [|lia]. unfold encB, SaisRefine.predS. destruct (Z.leb_spec (O i) 0); [lia|]. destruct (Z.ltb_spec 0 (O i)); [|lia]. fold p. rewrite Lp. auto.
      * rewrite R by auto. destruct (Z.ltb_spec t i), (Z.ltb_spec t (i + 1)); auto; lia.
    + assert (InvL O0 (i + 1) O Bp) as V1. { apply (skipL T k Hn HT); auto; [lia|]. intros [Po Lp]. rewrite Ri in No. unfold SaisRefine.encL, SaisRefine.predS in No. destruct (Z.eqb_spec (O i) (-1)); [lia|]. rewrite Lp, andb_false_r in No. lia. }
      destruct (Z.eqb_spec (at_ SA i) 0) as [E0|N0]; cbn [negb].
      * apply (IH (i + 1) SA B c1 b O Bp); auto; try lia. split; auto. intros t Ht. rewrite R by auto. destruct (Z.ltb_spec t i), (Z.ltb_spec t (i + 1)); auto; try lia. assert (t = i) as -> by lia. rewrite <- Ri, E0. rewrite Ri in E0. unfold encB. unfold SaisRefine.encL in E0.
        destruct (Z.leb_spec (O i) 0); auto. destruct (Z.eqb_spec (O i) (-1)); [lia|]. destruct (predS (O i)); [rewrite lnot_neg in E0|]; lia.
      * destruct (wr_at SA i (Z.lnot (at_ SA i))) as (SA1 & -> & L1 & A1); [lia|]. cbn [bind]. apply (IH (i + 1) SA1 B c1 b O Bp); auto; try lia. split; [lia|]. intros t Ht. rewrite A1 by lia. destruct (Z.eqb_spec t i) as [-> |].
        -- destruct (Z.ltb_spec i (i + 1)); [|lia]. rewrite Ri in *. unfold encB, SaisRefine.encL in *. destruct (Z.eqb_spec (O i) (-1)) as [E|E]; [lia|]. destruct (predS (O i)) eqn:Ep; [|lia]. destruct (Z.leb_spec (O i) 0); [unfold SaisRefine.predS in Ep; destruct (Z.ltb_spec 0 (O i)); [lia|discriminate]|]. apply Z.lnot_involutive.
        -- rewrite R by auto. destruct (Z.ltb_spec t i), (Z.ltb_spec t (i + 1)); auto; lia.
Qed.

Lemma filledS OL i O Bp : placedL T k OL -> InvS OL (i + 1) O Bp -> 0 <= i < n -> O i <> -1.
Proof.
  intros ZL V Hi E. destruct (slot_bucket T k Hn HT i Hi) as (c & Hc & Hb). pose proof (bs_next T k Hn HT c) as BN. pose proof (s_rng _ _ _ _ _ _ V c Hc) as R. pose proof (bucket_in T k Hn HT c) as BI.
  assert (bs c + lc c <= i) as G1. { destruct (Z_lt_le_dec i (bs c + lc c)) as [L|]; auto. exfalso. rewrite (s_L _ _ _ _ _ _ V c i) in E by (auto; lia). destruct ZL as (_ & Z2 & _). destruct (Z2 c i Hc ltac:(lia)) as (A & _). lia. }
  assert (i < Bp c) as G2. { destruct (Z_lt_le_dec i (Bp c)) as [|L]; auto. exfalso. destruct (s_S _ _ _ _ _ _ V c i Hc ltac:(lia)) as (A & _). lia. }
  assert (sc c <= bs (c + 1) - Bp c); [|lia]. unfold sc. apply (onto_cnt O); try lia. intros p Hp Fp. apply andb_prop in Fp. destruct Fp as [F1 F2]. apply Z.eqb_eq in F1.
  destruct (completeS T k Hn HT OL ZL (i + 1) O Bp c V ltac:(lia) Hc ltac:(lia) (Z.to_nat n) p) as (t & Ht & Et); auto; try lia. exists t. split; auto.
  destruct (slotS T k Hn HT OL ZL (i + 1) O Bp t V Ht ltac:(lia)) as [_ [[X _]|[_ X]]]; [rewrite Et in X; congruence|]. rewrite Et, F1 in X. auto.
Qed.

Lemma putS_bwt_ok SA b j : 0 < b <= zlen SA -> 0 <= j < n -> isS j = true -> exists SA', putS_bwt T SA b (t_ j) j = Ok (SA', b - 1) /\ zlen SA' = zlen SA /\ forall t, 0 <= t -> at_ SA' t = if t =? b - 1 then encB j else at_ SA t.
Proof.
  intros Hb Hj Lj. unfold putS_bwt. assert ((if 0 <? j then let! y := rd T (j - 1) in Ok (if t_ j <? y then Z.lnot y else j) else Ok j) = Ok (encB j)) as ->.
  { unfold encB, SaisRefine.predS. destruct (Z.ltb_spec 0 j), (Z.leb_spec j 0); try lia; [|f_equal; lia]. rewrite rd_at by lia. cbn [bind andb]. rewrite (predS_S T k Hn HT j) by (auto; lia). destruct (t_ j <? t_ (j - 1)); auto. }
  cbn [bind]. destruct (wr_at SA (b - 1) (encB j)) as (SA' & -> & L & A); [lia|]. cbn [bind]. exists SA'. split; auto.
Qed.
Lemma loopS_bwt_ok OL : placedL T k OL -> forall i SA B c1 b O Bp pidx, Z.of_nat i <= n -> InvS OL (Z.of_nat i) O Bp -> repSb (Z.of_nat i) SA O -> ptrs B c1 b Bp -> pidx_ok (Z.of_nat i) pidx O ->
  exists SA' B' O' Bp' pidx', loopS_bwt i T SA B c1 b pidx = Ok (SA', B', pidx') /\ InvS OL 0 O' Bp' /\ repSb 0 SA' O' /\ zlen B' = k /\ pidx_ok 0 pidx' O'.
Proof.
  intros Z0. induction i as [|f IH]; intros SA B c1 b O Bp pidx Hf V [LS R] P X.
  - exists SA, B, O, Bp, pidx. cbn [loopS_bwt]. split; auto. split; auto. split; [split; auto|]. split; [apply P|auto].
  - cbn [loopS_bwt]. set (i := Z.of_nat f) in *. replace (Z.of_nat (S f)) with (i + 1) in * by lia. rewrite rd_at by lia. cbn [bind].
    pose proof (filledS OL i O Bp Z0 V ltac:(lia)) as Ne. destruct (slotS T k Hn HT OL Z0 (i + 1) O Bp i V ltac:(lia) Ne) as [Ro _].
    pose proof (R i ltac:(lia) Ne) as Ri. destruct (Z.ltb_spec i (i + 1)); [|lia].
    destruct (Z.ltb_spec 0 (at_ SA i)) as [Po|No].
    + assert (at_ SA i = O i /\ 0 < O i /\ isS (O i - 1) = true) as (E & Po' & Lp).
      { rewrite Ri in *. unfold encB, SaisRefine.predS in *. destruct (Z.leb_spec (O i) 0); [lia|]. destruct (Z.ltb_spec 0 (O i)) as [Q|Q]; [|lia]. cbn [andb] in *. destruct (isS (O i - 1)); auto. rewrite lnot_neg in Po. pose proof (HT (O i - 1) ltac:(lia)). lia. }
      rewrite E. destruct (stepS T k Hn HT OL Z0 i O Bp V ltac:(lia) Po' Lp) as (Hp & Hb & V1). set (p := O i - 1) in *. rewrite rd_at by lia. cbn [bind].
      destruct (wr_at SA i (t_ p)) as (SA1 & -> & L1 & A1); [lia|]. cbn [bind].
      destruct (switch_ok T k Hn HT B c1 b (t_ p) Bp P) as (B' & -> & P'); [apply HT; lia|]. cbn [bind].
      pose proof (bucket_in T k Hn HT (t_ p)). destruct (putS_bwt_ok SA1 (Bp (t_ p)) p) as (SA2 & -> & L2 & A2); auto; try lia. cbn [bind].
      apply (IH SA2 B' (t_ p) (Bp (t_ p) - 1) (put O (Bp (t_ p) - 1) p) (put Bp (t_ p) (Bp (t_ p) - 1))); auto; try lia; [|eapply ptrs_step; eauto|].
      * split; [lia|]. intros t Ht. rewrite A2 by lia. unfold put. destruct (Z.eqb_spec t (Bp (t_ p) - 1)) as [-> |].
        -- intros _. destruct (Z.ltb_spec (Bp (t_ p) - 1) i); [auto|lia].
        -- intros Nt. rewrite A1 by lia. destruct (Z.eqb_spec t i) as [-> |].
           ++ destruct (Z.ltb_spec i i); [lia|]. unfold outB. destruct (Z.leb_spec (O i) 0); [lia|]. auto.
           ++ rewrite R by auto. destruct (Z.ltb_spec t (i + 1)), (Z.ltb_spec t i); auto; lia.
      * destruct X as [[-> X]|[X1 X2]].
        -- left. split; auto. intros t Ht. rewrite put_ne by lia. destruct (Z.eq_dec t i) as [-> |]; [lia|]. apply X. lia.
        -- right. split; [lia|]. rewrite put_ne by lia. auto.
    + assert (InvS OL i O Bp) as V1. { apply (skipS T k Hn HT); auto; [lia|]. intros [Po Lp]. rewrite Ri in No. unfold encB, SaisRefine.predS in No. rewrite Lp in No. destruct (Z.leb_spec (O i) 0); [lia|]. destruct (Z.ltb_spec 0 (O i)); [cbn [andb] in No; lia|lia]. }
      destruct (Z.eqb_spec (at_ SA i) 0) as [E0|N0]; cbn [negb].
      * assert (O i = 0) as Oi. { rewrite Ri in E0. unfold encB in E0. destruct (Z.leb_spec (O i) 0); [lia|]. destruct (predS (O i)); [lia|]. rewrite lnot_neg in E0. pose proof (HT (O i - 1) ltac:(lia)). lia. }
        apply (IH SA B c1 b O Bp i); auto; try lia.
        -- split; auto. intros t Ht Nt. rewrite R by auto. destruct (Z.ltb_spec t (i + 1)), (Z.ltb_spec t i); auto; try lia. assert (t = i) as -> by lia. rewrite Oi. reflexivity.
        -- right. split; [lia|auto].
      * destruct (wr_at SA i (Z.lnot (at_ SA i))) as (SA1 & -> & L1 & A1); [lia|]. cbn [bind].
        assert (0 < O i) as Oi. { rewrite Ri in N0. unfold encB in N0. destruct (Z.leb_spec (O i) 0); lia. }
        apply (IH SA1 B c1 b O Bp); auto; try lia.
        -- split; [lia|]. intros t Ht Nt. rewrite A1 by lia. destruct (Z.eqb_spec t i) as [-> |].
           ++ destruct (Z.ltb_spec i i); [lia|]. rewrite Ri in *. unfold encB, outB in *. destruct (Z.leb_spec (O i) 0); [lia|]. destruct (predS (O i)); [lia|]. apply Z.lnot_involutive.
           ++ rewrite R by auto. destruct (Z.ltb_spec t (i + 1)), (Z.ltb_spec t i); auto; lia.
        -- destruct X as [[-> X]|[X1 X2]].
           ++ left. split; auto. intros t Ht. destruct (Z.eq_dec t i) as [-> |]; [lia|]. apply X. lia.
           ++ right. split; [lia|auto].
Qed.

(** The slot array at the end, as for induceSA; the real array holds the symbols before it. *)
Theorem computeBWT_ok alias SA C le0 le1 : zlen SA = n -> (forall t, 0 <= t < n -> 0 <= at_ SA t) -> lms_init T (slots SA) -> counts_ok T k C -> inducible T le0 le1 -> lms_sorted T SA le0 ->
  exists SA' C' B' pidx O, computeBWT alias T SA C k = Ok (SA', C', B', pidx) /\ zlen SA' = n /\ zlen C' = k /\ zlen B' = k /\
    0 <= pidx < n /\ O pidx = 0 /\ (forall t, 0 <= t < n -> t <> pidx -> at_ SA' t = t_ (O t - 1)) /\
    (forall t, 0 <= t < n -> 0 <= O t < n) /\ (forall p, 0 <= p < n -> exists t, 0 <= t < n /\ O t = p) /\
    (forall t u, 0 <= t < u -> u < n -> le1 (O t) (O u)).
Proof.
  intros LS NN Z0 HC (Q1 & Q2 & Q3 & Q4 & Q5 & Q6) Q7. unfold computeBWT. assert (0 <= t_ (n - 1) < k) as Hc by (apply HT; lia).
  destruct (counts_buckets_ok T k Hn HT alias C false HC) as (C1 & -> & HC1). cbn [bind]. destruct (getBuckets_ok T k Hn HT C1 false HC1) as [LB AB]. rewrite rd_at by lia. cbn [bind]. rewrite rd_at by lia. cbn [bind]. rewrite AB by auto.
  pose proof (bucket_in T k Hn HT (t_ (n - 1))) as BI. destruct (initL T k Hn HT (slots SA) Z0) as [Hl V].
  destruct (putL_ok T k Hn HT SA (bs (t_ (n - 1))) (n - 1)) as (SA1 & -> & L1 & A1); try lia; [apply (isS_last T k Hn HT)|]. cbn [bind].
  destruct (loopL_bwt_ok (slots SA) Z0 (length T) 0 SA1 (getBuckets C1 false) (t_ (n - 1)) (bs (t_ (n - 1)) + 1) _ _ ltac:(unfold zlen; lia) ltac:(lia) V) as (SA2 & B2 & O2 & Bp2 & -> & V2 & R2 & L2).
  { split; [lia|]. intros t Ht. destruct (Z.ltb_spec t 0); [lia|]. rewrite A1 by lia. unfold put. destruct (Z.eqb_spec t (bs (t_ (n - 1)))); auto.
    assert (slots SA t = -1 \/ slots SA t <> -1) as [E|E] by lia.
    - rewrite E, Z.eqb_refl. unfold SaisRefine.encL. rewrite Z.eqb_refl. unfold slots in E. destruct (Z.eqb_spec (at_ SA t) 0); auto. specialize (NN t Ht). lia.
    - destruct (Z.eqb_spec (slots SA t) (-1)); [lia|]. destruct Z0 as (_ & Z2 & _). destruct (Z2 t Ht) as [F|[F _]]; [lia|]. apply (lms_range T k Hn HT) in F. destruct F as (F1 & F2 & F3 & _). unfold SaisRefine.encL, SaisRefine.predS. rewrite F3, andb_false_r. destruct (Z.eqb_spec (slots SA t) (-1)); [lia|]. unfold slots in *. destruct (Z.eqb_spec (at_ SA t) 0); [lia|auto]. }
  { split; auto. split; auto. intros c Hcc. unfold put. destruct (Z.eqb_spec c (t_ (n - 1))); auto. rewrite AB by auto. auto. }
  cbn [bind]. destruct (counts_buckets_ok T k Hn HT alias C1 true HC1) as (C3 & -> & HC3). cbn [bind]. destruct (getBuckets_ok T k Hn HT C3 true HC3) as [LB3 AB3]. rewrite rd_at by lia. cbn [bind]. rewrite AB3 by lia. replace (0 + 1) with 1 by lia.
  pose proof (placedL_of T k Hn HT (slots SA) O2 Bp2 Z0 V2) as ZL.
  set (inL := fun t => existsb (fun c => (bs (Z.of_nat c) <=? t) && (t <? bs (Z.of_nat c) + lc (Z.of_nat c))) (seq 0 (Z.to_nat k))).
  assert (forall c t, 0 <= c < k -> bs c <= t < bs c + lc c -> inL t = true) as In1. { intros c t Hcc Ht. unfold inL. apply existsb_exists. exists (Z.to_nat c). rewrite Z2Nat.id by lia. split; [apply in_seq; lia|]. destruct (Z.leb_spec (bs c) t), (Z.ltb_spec t (bs c + lc c)); auto; lia. }
  assert (forall c t, 0 <= c < k -> bs c + lc c <= t < bs (c + 1) -> inL t = false) as In2. { intros c t Hcc Ht. destruct (inL t) eqn:E; auto. unfold inL in E. apply existsb_exists in E. destruct E as (d & Hd & E). apply in_seq in Hd. set (e := Z.of_nat d) in *. assert (0 <= e < k) by lia. clearbody e. pose proof (bucket_in T k Hn HT c). pose proof (bucket_in T k Hn HT e). assert (e = c) as -> by (apply (bucket_unique T k Hn HT _ _ t); lia). lia. }
  clearbody inL.
  assert (InvS O2 n (fun t => if inL t then O2 t else -1) (fun c => bs (c + 1))) as VS. { apply (initS T k Hn HT O2 ZL). - intros c t Hcc Ht. rewrite (In1 c t) by auto. auto. - intros c t Hcc Ht. rewrite (In2 c t) by auto. auto. }
  destruct (loopS_bwt_ok O2 ZL (length T) SA2 (getBuckets C3 true) 0 (bs 1) _ _ (-1) ltac:(unfold zlen; lia) VS) as (SA4 & B4 & O4 & Bp4 & pidx & -> & V4 & R4 & L4 & X4).
  { destruct R2 as [LS2 R2]. split; auto. intros t Ht. specialize (R2 t Ht). fold (zlen T). destruct (Z.ltb_spec t n); [|lia]. destruct (inL t); [auto|lia]. }
  { split; auto. split; [lia|]. intros c Hcc. destruct (Z.eqb_spec c 0) as [-> |]; auto. rewrite AB3 by auto. auto. }
  { left. split; auto. fold (zlen T). lia. }
  cbn [bind]. destruct R4 as [LS4 R4]. destruct (endS T k Hn HT O2 ZL O4 Bp4 V4) as [Su Rg]. exists SA4, C3, B4, pidx, O4.
  split; auto. split; auto. split; [apply HC3|]. split; auto.
  assert (0 <= pidx < n /\ O4 pidx = 0) as [X1 X2]. { destruct X4 as [[_ X]|X]; auto. exfalso. destruct (Su 0 ltac:(lia)) as (t & Ht & E). apply (X t); auto. }
  split; auto. split; auto. split.
  { intros t Ht Nt. pose proof (Rg t Ht) as G. rewrite R4 by lia. destruct (Z.ltb_spec t 0); [lia|]. unfold outB. destruct (Z.leb_spec (O4 t) 0); auto. exfalso. apply Nt. apply (s_inj _ _ _ _ _ _ V4); lia. }
  split; auto. split; auto.
  intros t u Htu Hu. apply (sortedS T k Hn HT O2 ZL O4 Bp4 le1 V4) with (m := Z.to_nat n); auto; try lia.
  - intros p q Hp Hq Lt. apply (Q1 p q); auto.
  - intros p q Hp Hq Eq Lp Sq. apply (Q2 p q); auto.
  - intros c x y Hcc Hx Hy. destruct ZL as (_ & ZL2 & _). destruct (ZL2 c x Hcc ltac:(lia)) as (Ax & Bx & _). destruct (ZL2 c y Hcc ltac:(lia)) as (Ay & By & _). apply Q5; auto. pose proof (bucket_in T k Hn HT c).
    apply (sortedL T k Hn HT (slots SA) Z0 O2 Bp2 le0 V2) with (m := Z.to_nat n); auto; try lia.
    + intros p q Hp Hq Lt. apply (Q1 p q); auto.
    + intros p q Hp Hq Eq Lp Sq. pose proof (lms_range T k Hn HT q Sq) as (_ & S & _). apply (Q2 p q); auto.
    + intros a b Hab Hb Na Nb Eq. unfold slots in *. destruct (Z.eqb_spec (at_ SA a) 0); [lia|]. destruct (Z.eqb_spec (at_ SA b) 0); [lia|]. apply Q7; auto.
Qed.
End Bwt.
Unset Default Proof Using.
