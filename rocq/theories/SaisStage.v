(** The array stages of suffixsort: collecting, placing, naming and gathering the leftmost S-type positions. *)
Require Import Verif.Common Verif.Cnt Verif.FmCore Verif.SaisModel Verif.SaisType Verif.SaisInduce Verif.SaisRefine Verif.SaisKeys.
Ltac Zify.zify_post_hook ::= idtac.

Fixpoint foldM {A St} (f : A -> St -> res St) (l : list A) (st : St) : res St :=
  match l with [] => Ok st | x :: l' => let! st := f x st in foldM f l' st end.
Lemma half_spec p : 2 * Z.shiftr p 1 <= p < 2 * Z.shiftr p 1 + 2.
Proof. rewrite Z.shiftr_div_pow2 by lia. change (2 ^ 1) with 2. pose proof (Z.div_mod p 2 ltac:(lia)). pose proof (Z.mod_pos_bound p 2 ltac:(lia)). lia. Qed.
Lemma firstn_S_at (l : list Z) i : (i < length l)%nat -> firstn (S i) l = firstn i l ++ [at_ l (Z.of_nat i)].
Proof.
  revert l. induction i as [|i IH]; intros [|x l] H; cbn [length] in H; try lia; auto. change (firstn (S (S i)) (x :: l)) with (x :: firstn (S i) l). change (firstn (S i) (x :: l)) with (x :: firstn i l). rewrite IH by lia. cbn [app]. rewrite at_cons1 by lia. replace (Z.of_nat (S i) - 1) with (Z.of_nat i) by lia. auto.
Qed.
Lemma rev_firstn_S (l : list Z) i : (i < length l)%nat -> rev (firstn (S i) l) = at_ l (Z.of_nat i) :: rev (firstn i l).
Proof. intros H. rewrite firstn_S_at by auto. rewrite rev_app_distr. auto. Qed.
(** a fold over the reversed list as a loop over falling indices *)
Lemma fold_rev_idx {St} (f : Z -> St -> res St) (l : list Z) (Inv : Z -> St -> Prop) :
  (forall i st, 0 <= i < zlen l -> Inv (i + 1) st -> exists st', f (at_ l i) st = Ok st' /\ Inv i st') ->
  forall st, Inv (zlen l) st -> exists st', foldM f (rev l) st = Ok st' /\ Inv 0 st'.
Proof.
  intros Step. assert (forall i st, (i <= length l)%nat -> Inv (Z.of_nat i) st -> exists st', foldM f (rev (firstn i l)) st = Ok st' /\ Inv 0 st') as X.
  { induction i as [|i IH]; intros st Hi V; [exists st; auto|]. rewrite rev_firstn_S by lia. cbn [foldM]. replace (Z.of_nat (S i)) with (Z.of_nat i + 1) in V by lia. destruct (Step (Z.of_nat i) st) as (st' & -> & V'); auto; [unfold zlen; lia|]. cbn [bind]. apply IH; auto. lia. }
  intros st V. destruct (X (length l) st) as (st' & E & V'); auto. rewrite firstn_all in E. eauto.
Qed.
Lemma zero_ok : forall cnt i SA, 0 <= i -> i + Z.of_nat cnt <= zlen SA -> exists SA', zero cnt i SA = Ok SA' /\ zlen SA' = zlen SA /\ forall t, 0 <= t -> at_ SA' t = if (i <=? t) && (t <? i + Z.of_nat cnt) then 0 else at_ SA t.
Proof.
  induction cnt as [|c IH]; intros i SA Hi Hl.
  - exists SA. split; auto. split; auto. intros t Ht. destruct (Z.leb_spec i t), (Z.ltb_spec t (i + Z.of_nat 0)); auto; lia.
  - cbn [zero]. destruct (wr_at SA i 0) as (SA1 & -> & L1 & A1); [lia|]. cbn [bind]. destruct (IH (i + 1) SA1) as (SA' & -> & L' & A'); [lia|lia|]. exists SA'. split; auto. split; [lia|]. intros t Ht. rewrite A', A1 by auto.
    destruct (Z.leb_spec (i + 1) t), (Z.leb_spec i t), (Z.ltb_spec t (i + 1 + Z.of_nat c)), (Z.ltb_spec t (i + Z.of_nat (S c))), (Z.eqb_spec t i); cbn [andb]; auto; lia.
Qed.
Lemma filter_idx (f : Z -> bool) (l : list Z) : forall x y, 0 <= x < y -> y < zlen (filter f l) -> exists a b, 0 <= a < b /\ b < zlen l /\ at_ l a = at_ (filter f l) x /\ at_ l b = at_ (filter f l) y.
Proof.
  induction l as [|z l IH]; intros x y Hx Hy. { unfold zlen in Hy. cbn in Hy. lia. }
  cbn [filter] in *. rewrite zlen_cons. destruct (f z).
  - rewrite zlen_cons in Hy. destruct (Z.eq_dec x 0) as [-> |].
    + assert (In (at_ (filter f l) (y - 1)) l) as I1. { assert (In (at_ (filter f l) (y - 1)) (filter f l)) as I2 by (apply at_In; lia). apply filter_In in I2. tauto. }
      apply (In_nth _ _ 0) in I1. destruct I1 as (b & Hb & E). exists 0, (Z.of_nat b + 1). split; [lia|]. split; [unfold zlen; lia|]. rewrite !at_cons0. rewrite !at_cons1 by lia. split; auto. unfold at_ at 1. rewrite <- E. f_equal. lia.
    + destruct (IH (x - 1) (y - 1)) as (a & b & Hab & Hb & Ea & Eb); try lia. exists (a + 1), (b + 1). split; [lia|]. split; [lia|]. rewrite !at_cons1 by lia. replace (a + 1 - 1) with a by lia. replace (b + 1 - 1) with b by lia. auto.
  - destruct (IH x y) as (a & b & Hab & Hb & Ea & Eb); auto. exists (a + 1), (b + 1). split; [lia|]. split; [lia|]. rewrite !at_cons1 by lia. replace (a + 1 - 1) with a by lia. replace (b + 1 - 1) with b by lia. auto.
Qed.

Section Stage.
Variables (T : list Z) (k : Z).
Notation n := (zlen T).
Notation t_ := (at_ T).
Hypothesis Hn : 1 <= n.
Hypothesis HT : forall p, 0 <= p < n -> 0 <= t_ p < k.
Set Default Proof Using "Hn HT".
Notation isS := (isS T).
Notation lms := (lms T).
Notation bs := (bs T).
Notation lc := (lc T).
Notation sc := (sc T).
Notation P := (at_ (lmsl T)).
Notation m := (zlen (lmsl T)).
Notation len := (len T).
Notation Pn := (Pn T).

(** ** the scan for the leftmost S-type positions *)
Lemma lms_loop_ok {St} (f : Z -> St -> res St) : forall i st, Z.of_nat i <= n - 1 -> lms_loop f T i (Z.b2z (isS (Z.of_nat i))) (t_ (Z.of_nat i)) st = foldM f (rev (lmsn T i)) st.
Proof.
  induction i as [|i IH]; intros st Hi; auto. cbn [lms_loop]. rewrite rd_at by lia. cbn [bind]. rewrite (lmsn_S T k Hn HT). set (p := Z.of_nat i) in *. replace (Z.of_nat (S i)) with (p + 1) in * by lia.
  assert (t_ p <? t_ (p + 1) + Z.b2z (isS (p + 1)) = isS p) as ->. { rewrite (isS_step T k Hn HT p) by lia. destruct (isS (p + 1)); cbn [Z.b2z]; rewrite ?andb_true_r, ?andb_false_r; lia. }
  specialize (IH) as IH'. destruct (isS p) eqn:Sp.
  - rewrite (SS_not_lms T k Hn HT p Sp). rewrite app_nil_r. change 1 with (Z.b2z true). apply IH. lia.
  - destruct (isS (p + 1)) eqn:Sq; cbn [Z.b2z Z.eqb negb].
    + rewrite (lms_succ T k Hn HT p) by (auto; lia). rewrite rev_app_distr. cbn [rev app foldM]. destruct (f (p + 1) st) as [st'| | |]; auto. cbn [bind]. change 0 with (Z.b2z false). apply IH. lia.
    + rewrite (L_not_lms T k Hn HT (p + 1) Sq). rewrite app_nil_r. change 0 with (Z.b2z false). apply IH. lia.
Qed.
Lemma lms_scan_ok {St} (f : Z -> St -> res St) st : lms_scan f T st = foldM f (rev (lmsl T)) st.
Proof.
  unfold lms_scan. rewrite rd_at by lia. cbn [bind]. unfold lmsl. assert (Z.of_nat (length T - 1) = n - 1) as E by (unfold zlen in *; lia).
  rewrite <- (lms_loop_ok f) by lia. rewrite E, (isS_last T k Hn HT). auto.
Qed.

(** ** placing the leftmost S-type positions q(M-1), ..., q(0) at the ends of their buckets *)
Section Place.
Variables (q : Z -> Z) (M : Z).
Hypothesis q_lms : forall x, 0 <= x < M -> lms (q x) = true.
Hypothesis q_inj : forall x y, 0 <= x < M -> 0 <= y < M -> q x = q y -> x = y.
Set Default Proof Using "Hn HT q_lms q_inj".
Record InvP (i : Z) (O Bp : Z -> Z) : Prop := {
  p_rng : forall c, 0 <= c < k -> bs c + lc c <= Bp c <= bs (c + 1);
  p_in : forall c t, 0 <= c < k -> Bp c <= t < bs (c + 1) -> exists x, i <= x < M /\ O t = q x /\ t_ (q x) = c;
  p_out : forall c t, 0 <= c < k -> bs c <= t < Bp c -> O t = 0;
  p_all : forall x, i <= x < M -> exists t, Bp (t_ (q x)) <= t < bs (t_ (q x) + 1) /\ O t = q x;
  p_ord : forall c t u x y, 0 <= c < k -> Bp c <= t < u -> u < bs (c + 1) -> i <= x < M -> i <= y < M -> O t = q x -> O u = q y -> x < y
}.
Lemma qr x : 0 <= x < M -> 0 < q x < n - 1 /\ isS (q x) = true /\ 0 <= t_ (q x) < k.
Proof. intros H. pose proof (lms_range T k Hn HT _ (q_lms x H)) as (A & B & _). split; auto. split; auto. apply HT. lia. Qed.
Lemma stepP i O Bp : 0 <= i < M -> InvP (i + 1) O Bp -> let c := t_ (q i) in bs c + lc c < Bp c /\ InvP i (put O (Bp c - 1) (q i)) (put Bp c (Bp c - 1)).
Proof.
  intros Hi V c. destruct (qr i Hi) as (Rq & Sq & Hc). fold c in Hc. pose proof (bucket_in T k Hn HT c) as BI. pose proof (p_rng _ _ _ V c Hc) as R.
  assert (bs c + lc c < Bp c) as Room.
  { pose proof (bs_next T k Hn HT c) as BN. assert (bs (c + 1) - (Bp c - 1) <= sc c); [|lia]. unfold sc. apply (inj_cnt (put O (Bp c - 1) (q i))); try lia.
    - intros t Ht. unfold put. destruct (Z.eqb_spec t (Bp c - 1)) as [-> |Nt]; [split; [lia|]; fold c; rewrite Z.eqb_refl, Sq; auto|].
      destruct (p_in _ _ _ V c t Hc ltac:(lia)) as (x & Hx & -> & Ex). destruct (qr x ltac:(lia)) as (A & B & _). split; [lia|]. rewrite Ex, B, Z.eqb_refl. auto.
    - assert (forall t u, Bp c <= t < u -> u < bs (c + 1) -> O t = O u -> False) as X. { intros t u Htu Hu E. destruct (p_in _ _ _ V c t Hc ltac:(lia)) as (x & Hx & Ex & _). destruct (p_in _ _ _ V c u Hc ltac:(lia)) as (y & Hy & Ey & _). pose proof (p_ord _ _ _ V c t u x y Hc Htu Hu Hx Hy Ex Ey). assert (x = y) by (apply q_inj; try lia; congruence). lia. }
      assert (forall u, Bp c <= u < bs (c + 1) -> q i <> O u) as Y. { intros u Hu E. destruct (p_in _ _ _ V c u Hc Hu) as (y & Hy & Ey & _). assert (i = y) by (apply q_inj; try lia; congruence). lia. }
      intros t u Ht Hu. unfold put. destruct (Z.eqb_spec t (Bp c - 1)) as [-> |Nt], (Z.eqb_spec u (Bp c - 1)) as [-> |Nu]; auto; intros E.
      + exfalso. apply (Y u); auto. lia.
      + exfalso. apply (Y t); auto. lia.
      + destruct (Z.lt_trichotomy t u) as [L|[L|L]]; auto; exfalso; [apply (X t u)|apply (X u t)]; auto; lia. }
  split; auto.
  assert (forall d t, 0 <= d < k -> bs d <= t < bs (d + 1) -> t = Bp c - 1 -> d = c) as Same. { intros d t Hd Ht ->. apply (bucket_unique T k Hn HT d c (Bp c - 1)); auto. lia. }
  constructor.
  - intros d Hd. unfold put. destruct (Z.eqb_spec d c) as [-> |]; [lia|]. apply (p_rng _ _ _ V); auto.
  - intros d t Hd Ht. pose proof (p_rng _ _ _ V d Hd). pose proof (bucket_in T k Hn HT d). unfold put in Ht. destruct (Z.eq_dec t (Bp c - 1)) as [-> |Nt].
    + exists i. rewrite put_eq. split; [lia|]. split; auto. fold c. symmetry. apply (Same d (Bp c - 1)); auto. destruct (Z.eqb_spec d c) as [-> |]; lia.
    + rewrite put_ne by auto. destruct (p_in _ _ _ V d t Hd) as (x & Hx & E); [destruct (Z.eqb_spec d c) as [-> |]; lia|]. exists x. split; [lia|auto].
  - intros d t Hd Ht. pose proof (p_rng _ _ _ V d Hd). pose proof (bucket_in T k Hn HT d). unfold put in Ht. rewrite put_ne. 2:{ intros ->. destruct (Z.eqb_spec d c) as [-> |Nd]; [lia|]. apply Nd, (Same d (Bp c - 1)); auto. lia. }
    apply (p_out _ _ _ V d); auto. destruct (Z.eqb_spec d c) as [-> |]; lia.
  - intros x Hx. destruct (Z.eq_dec x i) as [-> |].
    + exists (Bp c - 1). fold c. rewrite !put_eq. split; auto. lia.
    + destruct (p_all _ _ _ V x ltac:(lia)) as (t & Ht & E). exists t. destruct (qr x ltac:(lia)) as (_ & _ & Hd). pose proof (p_rng _ _ _ V _ Hd). pose proof (bucket_in T k Hn HT (t_ (q x))). rewrite (put_ne O). 2:{ intros ->. assert (t_ (q x) = c) as E1 by (apply (Same _ (Bp c - 1)); auto; lia). rewrite E1 in Ht. lia. }
      split; auto. unfold put. destruct (Z.eqb_spec (t_ (q x)) c) as [E1|]; [rewrite E1 in Ht |- *; lia|auto].
  - intros d t u x y Hd Htu Hu Hx Hy Ex Ey. pose proof (p_rng _ _ _ V d Hd). pose proof (bucket_in T k Hn HT d).
    assert (Bp d <= u) as Bu. { unfold put in Htu. destruct (Z.eqb_spec d c) as [-> |]; lia. }
    assert (u <> Bp c - 1) as Nu. { intros ->. unfold put in Htu. destruct (Z.eqb_spec d c) as [-> |Nd]; [lia|]. apply Nd, (Same d (Bp c - 1)); auto. lia. }
    rewrite (put_ne O _ _ u) in Ey by auto.
    assert (i + 1 <= y) as Ly. { destruct (Z.eq_dec y i) as [-> |]; [|lia]. exfalso. destruct (p_in _ _ _ V d u Hd ltac:(lia)) as (z & Hz & Ez & _). assert (i = z) by (apply q_inj; try lia; congruence). lia. }
    destruct (Z.eq_dec t (Bp c - 1)) as [-> |Nt].
    + rewrite put_eq in Ex. assert (i = x) as <- by (apply q_inj; auto; lia). lia.
    + rewrite put_ne in Ex by auto. assert (Bp d <= t) as Bt. { unfold put in Htu. destruct (Z.eqb_spec d c) as [-> |]; lia. }
      assert (i + 1 <= x) as Lx. { destruct (Z.eq_dec x i) as [-> |]; [|lia]. exfalso. destruct (p_in _ _ _ V d t Hd ltac:(lia)) as (z & Hz & Ez & _). assert (i = z) by (apply q_inj; try lia; congruence). lia. }
      apply (p_ord _ _ _ V d t u x y); auto; lia.
Qed.
Lemma initP O : (forall t, 0 <= t < n -> O t = 0) -> InvP M O (fun c => bs (c + 1)).
Proof.
  intros H. constructor; intros; try lia.
  - pose proof (bucket_in T k Hn HT c). lia.
  - pose proof (bucket_in T k Hn HT c). apply H. lia.
Qed.
(** if the q are in order of their first symbols, the slot is not below the index *)
Lemma aheadP i O Bp : 0 <= i < M -> InvP (i + 1) O Bp -> (forall x y, 0 <= x < y -> y < M -> t_ (q x) <= t_ (q y)) -> i <= Bp (t_ (q i)) - 1.
Proof.
  intros Hi V Mono. set (c := t_ (q i)). destruct (qr i Hi) as (Rq & Sq & Hc). fold c in Hc. pose proof (bucket_in T k Hn HT c) as BI. pose proof (p_rng _ _ _ V c Hc) as R.
  assert (i + 1 + (bs (c + 1) - Bp c) - 0 <= bs (c + 1)); [|lia]. unfold bs at 2. apply (inj_cnt (fun x => if x <=? i then q x else O (Bp c + x - i - 1))); try lia.
  - intros x Hx. destruct (Z.leb_spec x i).
    + destruct (qr x ltac:(lia)) as (A & _). split; [lia|]. apply Z.ltb_lt. destruct (Z.eq_dec x i) as [-> |]; [fold c; lia|]. pose proof (Mono x i ltac:(lia) ltac:(lia)). fold c in H0. lia.
    + destruct (p_in _ _ _ V c (Bp c + x - i - 1) Hc ltac:(lia)) as (y & Hy & -> & Ey). destruct (qr y ltac:(lia)) as (A & _). split; [lia|]. apply Z.ltb_lt. lia.
  - assert (forall x y, x <= i -> 0 <= x -> i < y < i + 1 + (bs (c + 1) - Bp c) -> q x = O (Bp c + y - i - 1) -> False) as X. { intros x y Hx Hx' Hy E. destruct (p_in _ _ _ V c (Bp c + y - i - 1) Hc ltac:(lia)) as (z & Hz & Ez & _). assert (x = z) by (apply q_inj; try lia; congruence). lia. }
    assert (forall t u, Bp c <= t < u -> u < bs (c + 1) -> O t = O u -> False) as Y. { intros t u Htu Hu E. destruct (p_in _ _ _ V c t Hc ltac:(lia)) as (x & Hx & Ex & _). destruct (p_in _ _ _ V c u Hc ltac:(lia)) as (y & Hy & Ey & _). pose proof (p_ord _ _ _ V c t u x y Hc Htu Hu Hx Hy Ex Ey). assert (x = y) by (apply q_inj; try lia; congruence). lia. }
    intros x y Hx Hy E. destruct (Z.leb_spec x i), (Z.leb_spec y i).
    + apply q_inj; auto; lia.
    + exfalso. apply (X x y); auto; lia.
    + exfalso. apply (X y x); auto; lia.
    + destruct (Z.lt_trichotomy x y) as [L|[L|L]]; auto; exfalso; [apply (Y (Bp c + x - i - 1) (Bp c + y - i - 1))|apply (Y (Bp c + y - i - 1) (Bp c + x - i - 1))]; auto; lia.
Qed.
Lemma endP O Bp SA (le : Z -> Z -> Prop) : (forall p, lms p = true -> exists x, 0 <= x < M /\ q x = p) -> InvP 0 O Bp -> (forall t, 0 <= t < n -> at_ SA t = O t) ->
  (forall x y, 0 <= x < y -> y < M -> t_ (q x) = t_ (q y) -> le (q x) (q y)) ->
  (forall t, 0 <= t < n -> 0 <= at_ SA t) /\ lms_init T (slots SA) /\ lms_sorted T SA le.
Proof.
  intros Onto V E Le.
  assert (forall t, 0 <= t < n -> O t = 0 \/ exists c x, 0 <= c < k /\ Bp c <= t < bs (c + 1) /\ 0 <= x < M /\ O t = q x /\ t_ (q x) = c) as W.
  { intros t Ht. destruct (slot_bucket T k Hn HT t Ht) as (c & Hc & Hb). destruct (Z_lt_le_dec t (Bp c)). { left. apply (p_out _ _ _ V c); auto. lia. } right. destruct (p_in _ _ _ V c t Hc ltac:(lia)) as (x & Hx & Ex & Ec). exists c, x. split; auto. split; [lia|]. auto. }
  split; [|split].
  - intros t Ht. rewrite E by auto. destruct (W t Ht) as [-> |(c & x & _ & _ & Hx & -> & _)]; [lia|]. destruct (qr x Hx). lia.
  - split; [|split].
    + intros p Mp. destruct (Onto p Mp) as (x & Hx & <-). destruct (qr x Hx) as (A & _ & Hc). destruct (p_all _ _ _ V x Hx) as (t & Ht & Et). exists t. pose proof (p_rng _ _ _ V _ Hc). pose proof (bucket_in T k Hn HT (t_ (q x))). split; [lia|]. unfold slots. rewrite E by lia. rewrite Et. destruct (Z.eqb_spec (q x) 0); [lia|auto].
    + intros t Ht. unfold slots. rewrite E by auto. destruct (W t Ht) as [-> |(c & x & Hc & Hb & Hx & -> & Ec)]; [left; auto|]. right. destruct (qr x Hx) as (A & _). destruct (Z.eqb_spec (q x) 0); [lia|]. split; [apply q_lms; auto|]. pose proof (p_rng _ _ _ V c Hc). rewrite Ec. lia.
    + intros t u Ht Hu Eq Ne. unfold slots in *. rewrite E in Eq, Ne by auto. rewrite (E u) in Eq by auto. destruct (W t Ht) as [F|(c & x & Hc & Hb & Hx & Ex & Ec)]; [rewrite F in Ne; cbn in Ne; lia|]. destruct (qr x Hx) as (A & _). rewrite Ex in Eq, Ne. destruct (Z.eqb_spec (q x) 0); [lia|].
      destruct (W u Hu) as [F|(d & y & Hd & Hb' & Hy & Ey & Ed)]; [rewrite F in Eq; cbn in Eq; lia|]. rewrite Ey in Eq. destruct (qr y Hy) as (A' & _). destruct (Z.eqb_spec (q y) 0); [lia|]. assert (x = y) as <- by (apply q_inj; auto). assert (c = d) as <- by congruence.
      destruct (Z.lt_trichotomy t u) as [L|[L|L]]; auto; exfalso; [pose proof (p_ord _ _ _ V c t u x x)|pose proof (p_ord _ _ _ V c u t x x)]; lia.
  - intros t u Htu Hu Nt Nu Eq. rewrite E in * by lia. rewrite (E u) in * by lia. destruct (W t ltac:(lia)) as [F|(c & x & Hc & Hb & Hx & Ex & Ec)]; [lia|]. destruct (W u ltac:(lia)) as [F|(d & y & Hd & Hb' & Hy & Ey & Ed)]; [lia|].
    rewrite Ex, Ey in *. assert (c = d) as <- by congruence. pose proof (p_ord _ _ _ V c t u x y Hc ltac:(lia) ltac:(lia) Hx Hy Ex Ey). apply Le; auto; lia.
Qed.
(** one placement on the arrays *)
Lemma put_lms_ok i SA B O Bp : 0 <= i < M -> InvP (i + 1) O Bp -> zlen SA = n -> zlen B = k -> (forall c, 0 <= c < k -> at_ B c = Bp c) ->
  exists SA' B', put_lms T (q i) (SA, B) = Ok (SA', B') /\ zlen SA' = n /\ zlen B' = k /\ (forall c, 0 <= c < k -> at_ B' c = put Bp (t_ (q i)) (Bp (t_ (q i)) - 1) c) /\
    (forall t, 0 <= t -> at_ SA' t = if t =? Bp (t_ (q i)) - 1 then q i else at_ SA t).
Proof.
  intros Hi V LS LB AB. destruct (stepP i O Bp Hi V) as [Room _]. set (c := t_ (q i)) in *. destruct (qr i Hi) as (Rq & _ & Hc). fold c in Hc. pose proof (bucket_in T k Hn HT c). pose proof (p_rng _ _ _ V c Hc).
  unfold put_lms. rewrite rd_at by lia. cbn [bind]. fold c. rewrite rd_at by lia. cbn [bind]. rewrite AB by auto. destruct (wr_at B c (Bp c - 1)) as (B' & -> & LB' & AB'); [lia|]. cbn [bind]. destruct (wr_at SA (Bp c - 1) (q i)) as (SA' & -> & LS' & AS'); [lia|]. cbn [bind].
  exists SA', B'. split; auto. split; [lia|]. split; [lia|]. split; [|auto]. intros d Hd. rewrite AB' by lia. unfold put. destruct (Z.eqb_spec d c); auto.
Qed.
End Place.
End Stage.
