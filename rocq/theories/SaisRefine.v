(** The loops of induceSA on the real array follow the slot arrays of SaisInduce. *)
Require Import Verif.Common Verif.Cnt Verif.FmCore Verif.SaisModel Verif.SaisType Verif.SaisInduce.
Ltac Zify.zify_post_hook ::= idtac.

Lemma lnot_neg j : Z.lnot j = - j - 1.
Proof. unfold Z.lnot. lia. Qed.

Section Refine.
Variables (T : list Z) (k : Z).
Notation n := (zlen T).
Notation t_ := (at_ T).
Hypothesis Hn : 1 <= n.
Hypothesis HT : forall p, 0 <= p < n -> 0 <= t_ p < k.
Set Default Proof Using "Hn HT".
Notation isS := (isS T).
Notation lms := (lms T).
Notation bs := (bs T).
Notation lc := (lc T).
Notation sc := (sc T).
Notation InvL := (InvL T k).
Notation InvS := (InvS T k).

(** how a slot is represented before and after the scan of the L phase *)
Definition predS (o : Z) : bool := (0 <? o) && isS (o - 1).
Definition encL (o : Z) : Z := if o =? -1 then 0 else if predS o then Z.lnot o else o.
Definition encS (o : Z) : Z := if predS o then o else Z.lnot o.
(** the bucket pointers: the current one is cached in b *)
Definition ptrs (B : list Z) (c1 b : Z) (Bp : Z -> Z) : Prop := zlen B = k /\ 0 <= c1 < k /\ forall c, 0 <= c < k -> Bp c = if c =? c1 then b else at_ B c.
Definition repL (i : Z) (SA : list Z) (O : Z -> Z) : Prop := zlen SA = n /\ forall t, 0 <= t < n -> at_ SA t = if t <? i then Z.lnot (encL (O t)) else encL (O t).
Definition repS (i : Z) (SA : list Z) (O : Z -> Z) : Prop := zlen SA = n /\ forall t, 0 <= t < n -> if O t =? -1 then t < i -> at_ SA t < 0 else at_ SA t = if t <? i then encS (O t) else O t.

Lemma switch_ok B c1 b c0 Bp : ptrs B c1 b Bp -> 0 <= c0 < k -> exists B', switch B c1 b c0 = Ok (B', c0, Bp c0) /\ ptrs B' c0 (Bp c0) Bp.
Proof.
  intros (LB & Hc1 & P) Hc0. unfold switch. destruct (Z.eqb_spec c0 c1) as [-> |Ne].
  - exists B. rewrite (P c1) by auto. rewrite Z.eqb_refl. split; auto. split; auto.
  - destruct (wr_at B c1 b) as (B' & -> & L' & A'); [lia|]. cbn [bind]. rewrite rd_at by lia. cbn [bind]. rewrite A' by lia. pose proof (P c0 Hc0) as E. destruct (Z.eqb_spec c0 c1); [lia|]. rewrite <- E. exists B'. split; auto.
    split; [lia|]. split; auto. intros c Hc. destruct (Z.eqb_spec c c0) as [-> |]; auto. rewrite A' by lia. apply P. auto.
Qed.
Lemma ptrs_step B c1 b Bp b' : ptrs B c1 b Bp -> ptrs B c1 b' (put Bp c1 b').
Proof. intros (L & H & P). split; auto. split; auto. intros c Hc. unfold put. destruct (Z.eqb_spec c c1); auto. rewrite (P c Hc). destruct (Z.eqb_spec c c1); [lia|auto]. Qed.
Lemma putL_ok SA b j : 0 <= b < zlen SA -> 0 <= j < n -> isS j = false -> exists SA', putL T SA b (t_ j) j = Ok (SA', b + 1) /\ zlen SA' = zlen SA /\ forall t, 0 <= t -> at_ SA' t = if t =? b then encL j else at_ SA t.
Proof.
  intros Hb Hj Lj. unfold putL. assert ((if 0 <? j then let! x := rd T (j - 1) in Ok (x <? t_ j) else Ok false) = Ok (predS j)) as ->.
  { unfold predS. destruct (Z.ltb_spec 0 j); auto. rewrite rd_at by lia. cbn [bind andb]. rewrite (predS_L T k Hn HT j) by (auto; lia). auto. }
  cbn [bind]. destruct (wr_at SA b (if predS j then Z.lnot j else j)) as (SA' & -> & L & A); auto. cbn [bind]. exists SA'. split; auto. split; auto. intros t Ht. rewrite A by auto. unfold encL. destruct (Z.eqb_spec j (-1)); [lia|]. auto.
Qed.
Lemma putS_ok SA b j : 0 < b <= zlen SA -> 0 <= j < n -> isS j = true -> exists SA', putS T SA b (t_ j) j = Ok (SA', b - 1) /\ zlen SA' = zlen SA /\ forall t, 0 <= t -> at_ SA' t = if t =? b - 1 then encS j else at_ SA t.
Proof.
  intros Hb Hj Lj. unfold putS. assert ((if j =? 0 then Ok true else let! x := rd T (j - 1) in Ok (t_ j <? x)) = Ok (negb (predS j))) as ->.
  { unfold predS. destruct (Z.eqb_spec j 0) as [-> |]; auto. rewrite rd_at by lia. cbn [bind]. rewrite (predS_S T k Hn HT j) by (auto; lia). destruct (Z.ltb_spec 0 j); [|lia]. cbn [andb]. rewrite negb_involutive. auto. }
  cbn [bind]. destruct (wr_at SA (b - 1) (if negb (predS j) then Z.lnot j else j)) as (SA' & -> & L & A); [lia|]. cbn [bind]. exists SA'. split; auto. split; auto. intros t Ht. rewrite A by auto. unfold encS. destruct (predS j); auto.
Qed.

Lemma loopL_ok O0 : lms_init T O0 -> forall fuel i SA B c1 b O Bp, i + Z.of_nat fuel = n -> 0 <= i -> InvL O0 i O Bp -> repL i SA O -> ptrs B c1 b Bp ->
  exists SA' B' O' Bp', loopL fuel T i SA B c1 b = Ok (SA', B') /\ InvL O0 n O' Bp' /\ repL n SA' O' /\ zlen B' = k.
Proof.
  intros Z0. induction fuel as [|f IH]; intros i SA B c1 b O Bp Hf Hi V [LS R] P.
  - exists SA, B, O, Bp. assert (i = n) as -> by lia. cbn [loopL]. split; auto. split; auto. split; [split; auto|]. apply P.
  - cbn [loopL]. rewrite rd_at by lia. cbn [bind]. destruct (wr_at SA i (Z.lnot (at_ SA i))) as (SA1 & -> & L1 & A1); [lia|]. cbn [bind].
    pose proof (R i ltac:(lia)) as Ri. destruct (Z.ltb_spec i i); [lia|].
    assert (repL (i + 1) SA1 O) as R1. { split; [lia|]. intros t Ht. rewrite A1 by lia. destruct (Z.eqb_spec t i) as [-> |]. - rewrite Ri. destruct (Z.ltb_spec i (i + 1)); [auto|lia]. - rewrite R by auto. destruct (Z.ltb_spec t i), (Z.ltb_spec t (i + 1)); auto; lia. }
    destruct (Z.ltb_spec 0 (at_ SA i)) as [Po|No].
    + rewrite Ri in *. assert (encL (O i) = O i /\ 0 < O i /\ isS (O i - 1) = false) as (E & Po' & Lp).
      { unfold encL, predS in *. destruct (Z.eqb_spec (O i) (-1)); [lia|]. destruct (Z.ltb_spec 0 (O i)) as [Q|Q]; cbn [andb] in *.
        - destruct (isS (O i - 1)); [rewrite lnot_neg in Po; lia|]. auto.
        - assert (O i = 0 \/ O i < 0) as [F|F] by lia; lia. }
      rewrite E. destruct (stepL T k Hn HT O0 Z0 i O Bp V ltac:(lia) Po' Lp) as (Hp & Hb & V1). set (p := O i - 1) in *. rewrite rd_at by lia. cbn [bind].
      destruct (switch_ok B c1 b (t_ p) Bp P) as (B' & -> & P'); [apply HT; lia|]. cbn [bind].
      pose proof (bucket_in T k Hn HT (t_ p)). destruct R1 as [L1' R1]. destruct (putL_ok SA1 (Bp (t_ p)) p) as (SA2 & -> & L2 & A2); auto; try lia. cbn [bind].
      apply (IH (i + 1) SA2 B' (t_ p) (Bp (t_ p) + 1) (put O (Bp (t_ p)) p) (put Bp (t_ p) (Bp (t_ p) + 1))); auto; try lia; [|eapply ptrs_step; eauto].
      split; [lia|]. intros t Ht. rewrite A2 by lia. unfold put. destruct (Z.eqb_spec t (Bp (t_ p))) as [-> |]; [|apply R1; auto]. destruct (Z.ltb_spec (Bp (t_ p)) (i + 1)); [lia|auto].
    + apply (IH (i + 1) SA1 B c1 b O Bp); auto; try lia. apply (skipL T k Hn HT); auto; [lia|]. intros [Po Lp]. rewrite Ri in No. unfold encL, predS in No. destruct (Z.eqb_spec (O i) (-1)); [lia|]. rewrite Lp, andb_false_r in No. lia.
Qed.
Lemma loopS_ok OL : placedL T k OL -> forall i SA B c1 b O Bp, Z.of_nat i <= n -> InvS OL (Z.of_nat i) O Bp -> repS (Z.of_nat i) SA O -> ptrs B c1 b Bp ->
  exists SA' B' O' Bp', loopS i T SA B c1 b = Ok (SA', B') /\ InvS OL 0 O' Bp' /\ repS 0 SA' O' /\ zlen B' = k.
Proof.
  intros Z0. induction i as [|f IH]; intros SA B c1 b O Bp Hf V [LS R] P.
  - exists SA, B, O, Bp. cbn [loopS]. split; auto. split; auto. split; [split; auto|]. apply P.
  - cbn [loopS]. set (i := Z.of_nat f) in *. replace (Z.of_nat (S f)) with (i + 1) in * by lia. rewrite rd_at by lia. cbn [bind].
    pose proof (R i ltac:(lia)) as Ri. destruct (Z.ltb_spec i (i + 1)); [|lia].
    destruct (Z.ltb_spec 0 (at_ SA i)) as [Po|No].
    + assert (at_ SA i = O i /\ 0 < O i /\ isS (O i - 1) = true) as (E & Po' & Lp).
      { destruct (Z.eqb_spec (O i) (-1)); [lia|]. rewrite Ri in *. unfold encS, predS in *. destruct (Z.ltb_spec 0 (O i)) as [Q|Q]; cbn [andb] in *.
        - destruct (isS (O i - 1)); auto. rewrite lnot_neg in Po. lia.
        - destruct (slotS T k Hn HT OL Z0 (i + 1) O Bp i V ltac:(lia) ltac:(lia)) as [F _]. rewrite lnot_neg in Po. lia. }
      rewrite E. destruct (stepS T k Hn HT OL Z0 i O Bp V ltac:(lia) Po' Lp) as (Hp & Hb & V1). set (p := O i - 1) in *. rewrite rd_at by lia. cbn [bind].
      destruct (switch_ok B c1 b (t_ p) Bp P) as (B' & -> & P'); [apply HT; lia|]. cbn [bind].
      pose proof (bucket_in T k Hn HT (t_ p)). destruct (putS_ok SA (Bp (t_ p)) p) as (SA2 & -> & L2 & A2); auto; try lia. cbn [bind].
      apply (IH SA2 B' (t_ p) (Bp (t_ p) - 1) (put O (Bp (t_ p) - 1) p) (put Bp (t_ p) (Bp (t_ p) - 1))); auto; try lia; [|eapply ptrs_step; eauto].
      split; [lia|]. intros t Ht. rewrite A2 by lia. unfold put. destruct (Z.eqb_spec t (Bp (t_ p) - 1)) as [-> |].
      * destruct (Z.eqb_spec p (-1)); [lia|]. destruct (Z.ltb_spec (Bp (t_ p) - 1) i); [auto|lia].
      * specialize (R t Ht). destruct (Z.eqb_spec (O t) (-1)); [intros; apply R; lia|]. destruct (Z.ltb_spec t (i + 1)), (Z.ltb_spec t i); auto; try lia. assert (t = i) as -> by lia. congruence.
    + destruct (wr_at SA i (Z.lnot (at_ SA i))) as (SA1 & -> & L1 & A1); [lia|]. cbn [bind].
      apply (IH SA1 B c1 b O Bp); auto; try lia.
      * apply (skipS T k Hn HT); auto; [lia|]. intros [Po Lp]. destruct (Z.eqb_spec (O i) (-1)); [lia|]. rewrite Ri in No. unfold encS, predS in No. rewrite Lp in No. destruct (Z.ltb_spec 0 (O i)); [cbn [andb] in No; lia|lia].
      * split; [lia|]. intros t Ht. specialize (R t Ht). rewrite A1 by lia. destruct (Z.eqb_spec t i) as [-> |Nt].
        -- destruct (Z.eqb_spec (O i) (-1)); [intros; lia|]. destruct (Z.ltb_spec i i); [lia|]. rewrite Ri. destruct (Z.ltb_spec i (i + 1)); [|lia]. rewrite Ri in No. unfold encS in *. destruct (predS (O i)) eqn:E; [unfold predS in E; destruct (Z.ltb_spec 0 (O i)); [lia|discriminate]|]. apply Z.lnot_involutive.
        -- destruct (Z.eqb_spec (O t) (-1)); [intros; apply R; lia|]. rewrite R. destruct (Z.ltb_spec t (i + 1)), (Z.ltb_spec t i); auto; lia.
Qed.

Lemma placedL_of O0 O Bp : lms_init T O0 -> InvL O0 n O Bp -> placedL T k O.
Proof.
  intros Z0 V. pose proof (endL T k Hn HT O0 Z0 O Bp V) as E. split; auto.
  assert (forall c, 0 <= c < k -> Bp c = bs c + lc c) as Full.
  { intros c Hc. pose proof (l_rng _ _ _ _ _ _ V c Hc) as R. destruct (Z.eq_dec (Bp c) (bs c + lc c)); auto. exfalso.
    assert (lc c <= Bp c - bs c); [|lia]. unfold lc. apply (onto_cnt O); try lia. intros p Hp Fp. apply andb_prop in Fp. destruct Fp as [F1 F2]. apply Z.eqb_eq in F1. apply negb_true_iff in F2.
    destruct (E p Hp F2) as (t & Ht & Et). rewrite F1 in Ht. exists t. split; auto. pose proof (bucket_in T k Hn HT c). destruct (Z_lt_le_dec t (Bp c)); [lia|]. rewrite (l_mid _ _ _ _ _ _ V c t) in Et by (auto; lia). lia. }
  split.
  - intros c t Hc Ht. apply (l_L _ _ _ _ _ _ V); auto. rewrite Full by auto. auto.
  - intros t u c d Hc Hd Ht Hu Eq. pose proof (bucket_in T k Hn HT c). pose proof (bucket_in T k Hn HT d). apply (l_inj _ _ _ _ _ _ V); auto; try lia. destruct (l_L _ _ _ _ _ _ V c t Hc) as (A & _); [rewrite Full by auto; auto|]. lia.
Qed.

(** what induceSA needs of the order of the leftmost S-type positions, and what it yields.
    [le0] orders the positions the L phase deals with, [le1] all of them. *)
Definition inducible (le0 le1 : Z -> Z -> Prop) : Prop :=
  (forall p q, 0 <= p < n -> 0 <= q < n -> t_ p < t_ q -> le0 p q /\ le1 p q) /\
  (forall p q, 0 <= p < n -> 0 <= q < n -> t_ p = t_ q -> isS p = false -> isS q = true -> (lms q = true -> le0 p q) /\ le1 p q) /\
  (forall q, 0 <= q < n - 1 -> isS q = false -> t_ (n - 1) = t_ q -> le0 (n - 1) q) /\
  (forall p q, 0 <= p < n - 1 -> 0 <= q < n - 1 -> isS p = false -> isS q = false -> t_ p = t_ q -> le0 (p + 1) (q + 1) -> le0 p q) /\
  (forall p q, 0 <= p < n -> 0 <= q < n -> isS p = false -> isS q = false -> le0 p q -> le1 p q) /\
  (forall p q, 0 <= p < n - 1 -> 0 <= q < n - 1 -> isS p = true -> isS q = true -> t_ p = t_ q -> le1 (p + 1) (q + 1) -> le1 p q).
Definition slots (SA : list Z) : Z -> Z := fun t => if at_ SA t =? 0 then -1 else at_ SA t.
Definition lms_sorted (SA : list Z) (le : Z -> Z -> Prop) : Prop :=
  forall t u, 0 <= t < u -> u < n -> at_ SA t <> 0 -> at_ SA u <> 0 -> t_ (at_ SA t) = t_ (at_ SA u) -> le (at_ SA t) (at_ SA u).

Theorem induceSA_ok alias SA C le0 le1 : zlen SA = n -> (forall t, 0 <= t < n -> 0 <= at_ SA t) -> lms_init T (slots SA) -> counts_ok T k C -> inducible le0 le1 -> lms_sorted SA le0 ->
  exists SA' C' B', induceSA alias T SA C k = Ok (SA', C', B') /\ zlen SA' = n /\ zlen C' = k /\ zlen B' = k /\
    (forall t, 0 <= t < n -> 0 <= at_ SA' t < n) /\ (forall p, 0 <= p < n -> exists t, 0 <= t < n /\ at_ SA' t = p) /\
    (forall t u, 0 <= t < u -> u < n -> le1 (at_ SA' t) (at_ SA' u)).
Proof.
  intros LS NN Z0 HC (Q1 & Q2 & Q3 & Q4 & Q5 & Q6) Q7. unfold induceSA. assert (0 <= t_ (n - 1) < k) as Hc by (apply HT; lia).
  destruct (counts_buckets_ok T k Hn HT alias C false HC) as (C1 & -> & HC1). cbn [bind]. destruct (getBuckets_ok T k Hn HT C1 false HC1) as [LB AB]. rewrite rd_at by lia. cbn [bind]. rewrite rd_at by lia. cbn [bind]. rewrite AB by auto.
  pose proof (bucket_in T k Hn HT (t_ (n - 1))) as BI. destruct (initL T k Hn HT (slots SA) Z0) as [Hl V]. 
  destruct (putL_ok SA (bs (t_ (n - 1))) (n - 1)) as (SA1 & -> & L1 & A1); try lia; [apply (isS_last T k Hn HT)|]. cbn [bind].
  destruct (loopL_ok (slots SA) Z0 (length T) 0 SA1 (getBuckets C1 false) (t_ (n - 1)) (bs (t_ (n - 1)) + 1) _ _ ltac:(unfold zlen; lia) ltac:(lia) V) as (SA2 & B2 & O2 & Bp2 & -> & V2 & R2 & L2).
  { split; [lia|]. intros t Ht. destruct (Z.ltb_spec t 0); [lia|]. rewrite A1 by lia. unfold put. destruct (Z.eqb_spec t (bs (t_ (n - 1)))); auto.
    assert (slots SA t = -1 \/ slots SA t <> -1) as [E|E] by lia.
    - rewrite E, Z.eqb_refl. unfold encL. rewrite Z.eqb_refl. unfold slots in E. destruct (Z.eqb_spec (at_ SA t) 0); auto. specialize (NN t Ht). lia.
    - destruct (Z.eqb_spec (slots SA t) (-1)); [lia|]. destruct Z0 as (_ & Z2 & _). destruct (Z2 t Ht) as [F|[F _]]; [lia|]. apply (lms_range T k Hn HT) in F. destruct F as (F1 & F2 & F3 & _). unfold encL, predS. rewrite F3, andb_false_r. destruct (Z.eqb_spec (slots SA t) (-1)); [lia|]. unfold slots in *. destruct (Z.eqb_spec (at_ SA t) 0); [lia|auto]. }
  { split; auto. split; auto. intros c Hcc. unfold put. destruct (Z.eqb_spec c (t_ (n - 1))); auto. rewrite AB by auto. auto. }
  cbn [bind]. destruct (counts_buckets_ok T k Hn HT alias C1 true HC1) as (C3 & -> & HC3). cbn [bind]. destruct (getBuckets_ok T k Hn HT C3 true HC3) as [LB3 AB3]. rewrite rd_at by lia. cbn [bind]. rewrite AB3 by lia. replace (0 + 1) with 1 by lia.
  pose proof (placedL_of (slots SA) O2 Bp2 Z0 V2) as ZL.
  set (inL := fun t => existsb (fun c => (bs (Z.of_nat c) <=? t) && (t <? bs (Z.of_nat c) + lc (Z.of_nat c))) (seq 0 (Z.to_nat k))).
  assert (forall c t, 0 <= c < k -> bs c <= t < bs c + lc c -> inL t = true) as In1. { intros c t Hcc Ht. unfold inL. apply existsb_exists. exists (Z.to_nat c). rewrite Z2Nat.id by lia. split; [apply in_seq; lia|]. destruct (Z.leb_spec (bs c) t), (Z.ltb_spec t (bs c + lc c)); auto; lia. }
  assert (forall c t, 0 <= c < k -> bs c + lc c <= t < bs (c + 1) -> inL t = false) as In2. { intros c t Hcc Ht. destruct (inL t) eqn:E; auto. unfold inL in E. apply existsb_exists in E. destruct E as (d & Hd & E). apply in_seq in Hd. set (e := Z.of_nat d) in *. assert (0 <= e < k) by lia. clearbody e. pose proof (bucket_in T k Hn HT c). pose proof (bucket_in T k Hn HT e). assert (e = c) as -> by (apply (bucket_unique T k Hn HT _ _ t); lia). lia. }
  clearbody inL.
  assert (InvS O2 n (fun t => if inL t then O2 t else -1) (fun c => bs (c + 1))) as VS. { apply (initS T k Hn HT O2 ZL). - intros c t Hcc Ht. rewrite (In1 c t) by auto. auto. - intros c t Hcc Ht. rewrite (In2 c t) by auto. auto. }
  destruct (loopS_ok O2 ZL (length T) SA2 (getBuckets C3 true) 0 (bs 1) _ _ ltac:(unfold zlen; lia) VS) as (SA4 & B4 & O4 & Bp4 & -> & V4 & R4 & L4).
  { destruct R2 as [LS2 R2]. split; auto. intros t Ht. specialize (R2 t Ht). fold (zlen T). destruct (Z.ltb_spec t n); [|lia]. destruct (slot_bucket T k Hn HT t Ht) as (c & Hcc & Hb). destruct (Z_lt_le_dec t (bs c + lc c)) as [Lt|Lt].
    - rewrite (In1 c t) by (auto; lia). destruct ZL as (_ & ZL2 & _). destruct (ZL2 c t Hcc ltac:(lia)) as (A & _). destruct (Z.eqb_spec (O2 t) (-1)); [lia|]. rewrite R2. unfold encL, encS. destruct (Z.eqb_spec (O2 t) (-1)); [lia|]. destruct (predS (O2 t)); auto. apply Z.lnot_involutive.
    - rewrite (In2 c t) by (auto; lia). rewrite Z.eqb_refl. intros _. rewrite R2. pose proof (l_S _ _ _ _ _ _ V2 c t Hcc ltac:(lia)) as E. destruct Z0 as (_ & Z2 & _). destruct (Z2 t Ht) as [F|[F _]].
      + rewrite E, F. reflexivity.
      + rewrite E. apply (lms_range T k Hn HT) in F. destruct F as (F1 & F2 & F3 & _). unfold encL, predS. rewrite F3, andb_false_r. destruct (Z.eqb_spec (slots SA t) (-1)); [lia|]. rewrite lnot_neg. lia. }
  { split; auto. split; [lia|]. intros c Hcc. destruct (Z.eqb_spec c 0) as [-> |]; auto. rewrite AB3 by auto. auto. }
  cbn [bind]. exists SA4, C3, B4. destruct R4 as [LS4 R4]. destruct (endS T k Hn HT O2 ZL O4 Bp4 V4) as [Su Rg].
  assert (forall t, 0 <= t < n -> at_ SA4 t = O4 t) as EO. { intros t Ht. specialize (R4 t Ht). specialize (Rg t Ht). destruct (Z.eqb_spec (O4 t) (-1)); [lia|]. destruct (Z.ltb_spec t 0); [lia|auto]. }
  split; auto. split; auto. split; [apply HC3|]. split; auto. split; [intros; rewrite EO; auto|]. split; [intros p Hp; destruct (Su p Hp) as (t & Ht & E); exists t; rewrite EO; auto|].
  intros t u Htu Hu. rewrite !EO by lia. apply (sortedS T k Hn HT O2 ZL O4 Bp4 le1 V4) with (m := Z.to_nat n); auto; try lia.
  - intros p q Hp Hq Lt. apply (Q1 p q); auto.
  - intros p q Hp Hq Eq Lp Sq. apply (Q2 p q); auto.
  - intros c x y Hcc Hx Hy. destruct ZL as (_ & ZL2 & _). destruct (ZL2 c x Hcc ltac:(lia)) as (Ax & Bx & _). destruct (ZL2 c y Hcc ltac:(lia)) as (Ay & By & _). apply Q5; auto. pose proof (bucket_in T k Hn HT c).
    apply (sortedL T k Hn HT (slots SA) Z0 O2 Bp2 le0 V2) with (m := Z.to_nat n); auto; try lia.
    + intros p q Hp Hq Lt. apply (Q1 p q); auto.
    + intros p q Hp Hq Eq Lp Sq. pose proof (lms_range T k Hn HT q Sq) as (_ & S & _). apply (Q2 p q); auto.
    + intros a b Hab Hb Na Nb Eq. unfold slots in *. destruct (Z.eqb_spec (at_ SA a) 0); [lia|]. destruct (Z.eqb_spec (at_ SA b) 0); [lia|]. apply Q7; auto.
Qed.
End Refine.
