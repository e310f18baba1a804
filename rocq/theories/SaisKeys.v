(** The two orders that induceSA sorts by: the order of suffixes, and the order of the substrings between
    leftmost S-type positions.  The latter, as names, reduces the former to a shorter text. *)
Require Import Verif.Common Verif.Cnt Verif.FmCore Verif.SaisModel Verif.SaisType Verif.SaisInduce Verif.SaisRefine.
Ltac Zify.zify_post_hook ::= idtac.

Section Keys.
Variables (T : list Z) (k : Z).
Notation n := (zlen T).
Notation t_ := (at_ T).
Hypothesis Hn : 1 <= n.
Hypothesis HT : forall p, 0 <= p < n -> 0 <= t_ p < k.
Set Default Proof Using "Hn HT".
Notation isS := (isS T).
Notation lms := (lms T).

(** ** order of suffixes *)
Definition suf_lt (p q : Z) : Prop := lex_lt (suffix T p) (suffix T q).
Lemma inducible_suffix : inducible T suf_lt suf_lt.
Proof.
  unfold suf_lt. split; [|split; [|split; [|split; [|split]]]].
  - intros p q Hp Hq L. split; apply (lex_first T k Hn HT); auto.
  - intros p q Hp Hq E Lp Sq. split; intros; apply (lex_type T k Hn HT (Z.to_nat n)); auto; lia.
  - intros q Hq Lq E. apply (lex_next T k Hn HT); auto; try lia. rewrite suffix_end by lia. rewrite (suffix_at T (q + 1)) by lia. exact I.
  - intros p q Hp Hq _ _ E H. apply (lex_next T k Hn HT); auto; lia.
  - auto.
  - intros p q Hp Hq _ _ E H. apply (lex_next T k Hn HT); auto; lia.
Qed.

(** ** order of substrings *)
Definition ch (p : Z) : Z := 2 * t_ p + Z.b2z (isS p).
Fixpoint keyn (f : nat) (p : Z) : list Z :=
  match f with
  | O => []
  | S f' => ch p :: (if p + 1 <? n then if lms (p + 1) then [ch (p + 1)] else keyn f' (p + 1) else [])
  end.
Definition key (p : Z) : list Z := keyn (Z.to_nat (n - p)) p.
Definition kb (p : Z) : list Z := if lms p then [ch p] else key p.
Lemma key_step p : 0 <= p < n -> key p = ch p :: (if p + 1 <? n then kb (p + 1) else []).
Proof. intros Hp. unfold key, kb. replace (Z.to_nat (n - p)) with (S (Z.to_nat (n - (p + 1)))) by lia. cbn [keyn]. unfold key. auto. Qed.
Lemma kb_head p : 0 <= p < n -> exists l, kb p = ch p :: l.
Proof. intros. unfold kb. destruct (lms p); [eauto|]. rewrite key_step by auto. eauto. Qed.
Lemma kb_key p : lms p = false -> kb p = key p.
Proof. unfold kb. intros ->. auto. Qed.
Definition le0 (p q : Z) : Prop := ~ lex_lt (kb q) (kb p).
Definition le1 (p q : Z) : Prop := ~ lex_lt (key q) (key p).
Lemma L_not_lms p : isS p = false -> lms p = false.
Proof. intros H. unfold SaisType.lms. rewrite H, andb_false_r. auto. Qed.
Lemma SS_not_lms p : isS p = true -> lms (p + 1) = false.
Proof. intros H. unfold SaisType.lms. replace (p + 1 - 1) with p by lia. rewrite H. apply andb_false_r. Qed.
Lemma inducible_key : inducible T le0 le1.
Proof.
  unfold le0, le1. split; [|split; [|split; [|split; [|split]]]].
  - intros p q Hp Hq L. assert (ch p < ch q) as C. { unfold ch. pose proof (b2z_range (isS p)). pose proof (b2z_range (isS q)). lia. }
    destruct (kb_head p Hp) as (a & ->). destruct (kb_head q Hq) as (b & ->). rewrite !key_step by auto. cbn [lex_lt]. split; intros [H|[H _]]; lia.
  - intros p q Hp Hq E Lp Sq. assert (ch p < ch q) as C. { unfold ch. rewrite Lp, Sq. cbn [Z.b2z]. lia. }
    destruct (kb_head p Hp) as (a & ->). destruct (kb_head q Hq) as (b & ->). rewrite !key_step by auto. cbn [lex_lt]. split; intros; intros [H'|[H' _]]; lia.
  - intros q Hq Lq E. rewrite (kb_key q), (kb_key (n - 1)) by (apply L_not_lms; auto; apply (isS_last T k Hn HT)). rewrite !key_step by lia. replace (n - 1 + 1) with n by lia. destruct (Z.ltb_spec n n); [lia|]. cbn [lex_lt].
    assert (ch q = ch (n - 1)) as ->. { unfold ch. rewrite Lq, (isS_last T k Hn HT), E. auto. } intros [H0|[_ H0]]; [lia|]. destruct (if q + 1 <? n then kb (q + 1) else []); exact H0.
  - intros p q Hp Hq Lp Lq E H. rewrite (kb_key q), (kb_key p) by (apply L_not_lms; auto). rewrite !key_step by lia. destruct (Z.ltb_spec (p + 1) n); [|lia]. destruct (Z.ltb_spec (q + 1) n); [|lia]. cbn [lex_lt].
    assert (ch q = ch p) as ->. { unfold ch. rewrite Lq, Lp, E. auto. } intros [G|[_ G]]; [lia|auto].
  - intros p q Hp Hq Lp Lq H. rewrite <- (kb_key q), <- (kb_key p) by (apply L_not_lms; auto). auto.
  - intros p q Hp Hq Sp Sq E H. rewrite !key_step by lia. destruct (Z.ltb_spec (p + 1) n); [|lia]. destruct (Z.ltb_spec (q + 1) n); [|lia]. cbn [lex_lt]. rewrite !kb_key by (apply SS_not_lms; auto).
    assert (ch q = ch p) as ->. { unfold ch. rewrite Sq, Sp, E. auto. } intros [G|[_ G]]; [lia|auto].
Qed.

(** ** the next leftmost S-type position *)
Fixpoint nxtn (f : nat) (p : Z) : Z := match f with O => n | S f' => if lms (p + 1) then p + 1 else nxtn f' (p + 1) end.
Definition nxt (p : Z) : Z := nxtn (Z.to_nat (n - 1 - p)) p.
Lemma nxt_step p : 0 <= p < n -> nxt p = if p + 1 <? n then if lms (p + 1) then p + 1 else nxt (p + 1) else n.
Proof.
  intros Hp. unfold nxt. destruct (Z.ltb_spec (p + 1) n).
  - replace (Z.to_nat (n - 1 - p)) with (S (Z.to_nat (n - 1 - (p + 1)))) by lia. auto.
  - replace (Z.to_nat (n - 1 - p)) with O by lia. auto.
Qed.
Lemma nxt_spec : forall m p, n - p <= Z.of_nat m -> 0 <= p < n -> p < nxt p <= n /\ (nxt p < n -> lms (nxt p) = true) /\ forall q, p < q < nxt p -> lms q = false.
Proof.
  induction m as [|m IH]; intros p Hm Hp; [lia|]. rewrite nxt_step by auto. destruct (Z.ltb_spec (p + 1) n); [|split; [lia|]; split; intros; lia].
  destruct (lms (p + 1)) eqn:M. { split; [lia|]. split; auto. intros; lia. }
  destruct (IH (p + 1)) as (A & B & C); try lia. split; [lia|]. split; auto. intros q Hq. destruct (Z.eq_dec q (p + 1)) as [-> |]; auto. apply C. lia.
Qed.
Definition len (p : Z) : Z := nxt p - p.
Definition same (p q : Z) : Prop := len p = len q /\ forall j, 0 <= j < len p -> t_ (p + j) = t_ (q + j).
Lemma same_sym p q : same p q -> same q p.
Proof. intros [A B]. split; auto. intros j Hj. symmetry. apply B. lia. Qed.
Lemma same_trans p q r : same p q -> same q r -> same p r.
Proof. intros [A B] [C D]. split; [lia|]. intros j Hj. rewrite B by auto. apply D. lia. Qed.
Lemma same_refl p : same p p.
Proof. split; auto. Qed.
Lemma key_eq_same : forall m p q, n - p <= Z.of_nat m -> 0 <= p < n -> 0 <= q < n -> key p = key q -> same p q.
Proof.
  induction m as [|m IH]; intros p q Hm Hp Hq E; [lia|]. rewrite !key_step in E by auto. injection E as Ec Et.
  assert (t_ p = t_ q /\ isS p = isS q) as [Et0 Es]. { unfold ch in Ec. destruct (isS p), (isS q); cbn [Z.b2z] in Ec; split; auto; lia. }
  unfold same, len. rewrite (nxt_step p), (nxt_step q) by auto. destruct (Z.ltb_spec (p + 1) n), (Z.ltb_spec (q + 1) n).
  - assert ((lms (p + 1) = true /\ lms (q + 1) = true) \/ (lms (p + 1) = false /\ lms (q + 1) = false)) as [[Mp Mq]|[Mp Mq]].
    { assert (forall a b, 0 <= a < n -> 0 <= b < n -> lms a = true -> kb a = kb b -> lms b = true) as X.
      { intros a b Ha Hb Ma Eab. destruct (lms b) eqn:Mb; auto. exfalso. unfold kb in Eab. rewrite Ma, Mb in Eab. rewrite key_step in Eab by auto. injection Eab as Ec' Et'. destruct (Z.ltb_spec (b + 1) n) as [B|B].
        - destruct (kb_head (b + 1) ltac:(lia)) as (l & El). rewrite El in Et'. discriminate.
        - assert (b = n - 1) as -> by lia. apply (lms_range T k Hn HT) in Ma. destruct Ma as (_ & Sa & _). unfold ch in Ec'. rewrite Sa, (isS_last T k Hn HT) in Ec'. cbn [Z.b2z] in Ec'. lia. }
      destruct (lms (p + 1)) eqn:Mp, (lms (q + 1)) eqn:Mq; auto; exfalso.
      - rewrite (X (p + 1) (q + 1)) in Mq; auto; lia.
      - rewrite (X (q + 1) (p + 1)) in Mp; auto; lia. }
    + rewrite Mp, Mq. split; [lia|]. intros j Hj. replace j with 0 by lia. rewrite !Z.add_0_r. auto.
    + rewrite Mp, Mq. rewrite !kb_key in Et by auto. destruct (IH (p + 1) (q + 1)) as [A B]; auto; try lia. unfold len in A, B. split; [lia|]. intros j Hj. destruct (Z.eq_dec j 0) as [-> |]; [rewrite !Z.add_0_r; auto|]. replace (p + j) with (p + 1 + (j - 1)) by lia. replace (q + j) with (q + 1 + (j - 1)) by lia. apply B. lia.
  - exfalso. destruct (kb_head (p + 1) ltac:(lia)) as (l & El). rewrite El in Et. discriminate.
  - exfalso. destruct (kb_head (q + 1) ltac:(lia)) as (l & El). rewrite El in Et. discriminate.
  - split; [lia|]. intros j Hj. replace j with 0 by lia. rewrite !Z.add_0_r. auto.
Qed.
Lemma ch_lt_suf p q : 0 <= p < n -> 0 <= q < n -> ch p < ch q -> suf_lt p q.
Proof.
  intros Hp Hq H. unfold ch in H. destruct (Z_lt_le_dec (t_ p) (t_ q)) as [L|L]; [apply (lex_first T k Hn HT); auto|].
  destruct (isS p) eqn:Sp, (isS q) eqn:Sq; cbn [Z.b2z] in H; try lia. apply (lex_type T k Hn HT (Z.to_nat n)); auto; lia.
Qed.
Lemma ch_eq p q : ch p = ch q -> t_ p = t_ q /\ isS p = isS q.
Proof. unfold ch. destruct (isS p), (isS q); cbn [Z.b2z]; intros; split; auto; lia. Qed.
Lemma key_lt_suf : forall m p q, n - p <= Z.of_nat m -> 0 <= p < n -> 0 <= q < n -> lex_lt (key p) (key q) -> suf_lt p q.
Proof.
  induction m as [|m IH]; intros p q Hm Hp Hq H; [lia|]. rewrite !key_step in H by auto. destruct H as [H|[Ec H]]; [apply ch_lt_suf; auto|].
  destruct (ch_eq p q Ec) as [Et Es]. apply (lex_next T k Hn HT); auto.
  destruct (Z.ltb_spec (p + 1) n) as [A|A], (Z.ltb_spec (q + 1) n) as [B|B].
  - destruct (lms (p + 1)) eqn:Mp, (lms (q + 1)) eqn:Mq; unfold kb in H; rewrite Mp, Mq in H.
    + destruct H as [H|[_ H]]; [apply ch_lt_suf; auto; lia|contradiction H].
    + rewrite key_step in H by lia. destruct H as [H|[E' _]]; [apply ch_lt_suf; auto; lia|]. exfalso. apply ch_eq in E'. destruct E' as [_ E']. apply (lms_range T k Hn HT) in Mp. destruct Mp as (_ & S1 & S0 & _). replace (p + 1 - 1) with p in S0 by lia.
      unfold SaisType.lms in Mq. replace (q + 1 - 1) with q in Mq by lia. rewrite <- E', <- Es, S1, S0 in Mq. destruct (Z.ltb_spec 0 (q + 1)); [discriminate|lia].
    + rewrite key_step in H by lia. destruct H as [H|[E' _]]; [apply ch_lt_suf; auto; lia|]. exfalso. apply ch_eq in E'. destruct E' as [_ E']. apply (lms_range T k Hn HT) in Mq. destruct Mq as (_ & S1 & S0 & _). replace (q + 1 - 1) with q in S0 by lia.
      unfold SaisType.lms in Mp. replace (p + 1 - 1) with p in Mp by lia. rewrite E', Es, S1, S0 in Mp. destruct (Z.ltb_spec 0 (p + 1)); [discriminate|lia].
    + apply IH; auto; lia.
  - exfalso. destruct (kb (p + 1)); exact H.
  - rewrite suffix_end by lia. rewrite suffix_at by lia. exact I.
  - contradiction H.
Qed.
Lemma same_next : forall m p q, n - p <= Z.of_nat m -> 0 <= p < n -> 0 <= q < n -> forall d, 0 <= d -> p + d <= n -> q + d <= n -> (forall j, 0 <= j < d -> t_ (p + j) = t_ (q + j)) -> suf_lt (p + d) (q + d) -> suf_lt p q.
Proof.
  induction m as [|m IH]; intros p q Hm Hp Hq d Hd Hpd Hqd E H; [lia|]. destruct (Z.eq_dec d 0) as [-> |]; [rewrite !Z.add_0_r in H; auto|].
  apply (lex_next T k Hn HT); auto. { specialize (E 0). rewrite !Z.add_0_r in E. apply E. lia. }
  destruct (Z.eq_dec d 1) as [-> |]; auto. apply (IH (p + 1) (q + 1)) with (d := d - 1); try lia.
  - intros j Hj. replace (p + 1 + j) with (p + (j + 1)) by lia. replace (q + 1 + j) with (q + (j + 1)) by lia. apply E. lia.
  - replace (p + 1 + (d - 1)) with (p + d) by lia. replace (q + 1 + (d - 1)) with (q + d) by lia. auto.
Qed.
Lemma same_suf p q : 0 <= p < n -> 0 <= q < n -> same p q -> suf_lt (nxt p) (nxt q) -> suf_lt p q.
Proof.
  intros Hp Hq [E F] H. destruct (nxt_spec (Z.to_nat n) p) as (A & _); try lia. destruct (nxt_spec (Z.to_nat n) q) as (B & _); try lia. unfold len in E, F. apply (same_next (Z.to_nat n) p q) with (d := nxt p - p); try lia; auto.
  replace (p + (nxt p - p)) with (nxt p) by lia. replace (q + (nxt p - p)) with (nxt q) by lia. auto.
Qed.

(** ** the list of the leftmost S-type positions *)
Definition lmsn (i : nat) : list Z := filter lms (map Z.of_nat (seq 1 i)).
Definition lmsl : list Z := lmsn (length T - 1).
Lemma lmsn_S i : lmsn (S i) = lmsn i ++ (if lms (Z.of_nat (S i)) then [Z.of_nat (S i)] else []).
Proof. unfold lmsn. rewrite seq_S, map_app, filter_app. cbn [map filter Nat.add]. change (1 + i)%nat with (S i). destruct (lms (Z.of_nat (S i))); auto. Qed.
Lemma lmsn_in i p : In p (lmsn i) <-> 1 <= p <= Z.of_nat i /\ lms p = true.
Proof.
  unfold lmsn. rewrite filter_In, in_map_iff. split.
  - intros [(x & <- & H) E]. apply in_seq in H. split; [lia|auto].
  - intros [H E]. split; auto. exists (Z.to_nat p). split; [lia|]. apply in_seq. lia.
Qed.
Lemma lmsn_sorted i : forall x y, 0 <= x < y -> y < zlen (lmsn i) -> at_ (lmsn i) x < at_ (lmsn i) y.
Proof.
  induction i as [|i IH]; intros x y Hx Hy. { unfold lmsn in Hy. cbn in Hy. unfold zlen in Hy. cbn in Hy. lia. }
  rewrite lmsn_S in *. rewrite zlen_app in Hy. destruct (lms (Z.of_nat (S i))); [|rewrite app_nil_r; rewrite zlen_nil in Hy; apply IH; lia]. change (zlen [Z.of_nat (S i)]) with 1 in Hy.
  destruct (Z_lt_le_dec y (zlen (lmsn i))). { rewrite !at_app1 by lia. apply IH; lia. }
  rewrite (at_app1 _ _ x) by lia. rewrite (at_app2 _ _ y) by lia. replace (y - zlen (lmsn i)) with 0 by lia. rewrite at_cons0.
  assert (In (at_ (lmsn i) x) (lmsn i)) as I1 by (apply at_In; lia). apply lmsn_in in I1. lia.
Qed.
Notation P := (at_ lmsl).
Notation m := (zlen lmsl).
Lemma P_lms x : 0 <= x < m -> lms (P x) = true.
Proof. intros H. assert (In (P x) lmsl) as I1 by (apply at_In; lia). apply lmsn_in in I1. tauto. Qed.
Lemma P_onto p : lms p = true -> exists x, 0 <= x < m /\ P x = p.
Proof. intros M. apply (in_at T k Hn HT). apply lmsn_in. split; auto. apply (lms_range T k Hn HT) in M. unfold zlen in M. lia. Qed.
Lemma P_mono x y : 0 <= x < y -> y < m -> P x < P y.
Proof. apply lmsn_sorted. Qed.
Lemma P_range x : 0 <= x < m -> 0 < P x < n - 1.
Proof. intros H. apply P_lms in H. apply (lms_range T k Hn HT) in H. tauto. Qed.
Lemma lms_gap p q : lms p = true -> lms q = true -> p < q -> p + 2 <= q.
Proof. intros Mp Mq H. destruct (Z.eq_dec q (p + 1)) as [-> |]; [|lia]. apply (lms_range T k Hn HT) in Mp, Mq. replace (p + 1 - 1) with p in Mq by lia. destruct Mp as (_ & A & _), Mq as (_ & _ & B & _). congruence. Qed.
Lemma P_gap x y : 0 <= x < y -> y < m -> P x + 2 * (y - x) <= P y.
Proof.
  intros Hx Hy. remember (Z.to_nat (y - x)) as d eqn:Ed. revert y Hx Hy Ed. induction d as [|d IH]; intros y Hx Hy Ed; [lia|].
  destruct (Z.eq_dec y (x + 1)) as [-> |]. { pose proof (lms_gap (P x) (P (x + 1)) (P_lms x ltac:(lia)) (P_lms (x + 1) ltac:(lia)) (P_mono x (x + 1) ltac:(lia) ltac:(lia))). lia. }
  specialize (IH (y - 1) ltac:(lia) ltac:(lia) ltac:(lia)). pose proof (lms_gap (P (y - 1)) (P y) (P_lms (y - 1) ltac:(lia)) (P_lms y ltac:(lia)) (P_mono (y - 1) y ltac:(lia) ltac:(lia))). lia.
Qed.
Lemma P_last x : 0 <= x < m -> P x + 2 * (m - 1 - x) <= n - 2.
Proof. intros H. destruct (Z.eq_dec x (m - 1)) as [-> |]; [pose proof (P_range (m - 1) ltac:(lia)); lia|]. pose proof (P_gap x (m - 1) ltac:(lia) ltac:(lia)). pose proof (P_range (m - 1) ltac:(lia)). lia. Qed.
Lemma m_half : 2 * m <= n.
Proof. destruct (Z_lt_le_dec 0 m) as [H|H]; [|lia]. pose proof (P_last 0 ltac:(lia)). pose proof (P_range 0 ltac:(lia)). lia. Qed.
(** the position after the last one is n *)
Definition Pn (x : Z) : Z := if x <? m then P x else n.
Lemma nxt_P x : 0 <= x < m -> nxt (P x) = Pn (x + 1).
Proof.
  intros Hx. pose proof (P_range x Hx). destruct (nxt_spec (Z.to_nat n) (P x)) as (A & B & C); try lia. unfold Pn. destruct (Z.ltb_spec (x + 1) m).
  - pose proof (P_mono x (x + 1) ltac:(lia) ltac:(lia)) as G. destruct (Z.lt_trichotomy (nxt (P x)) (P (x + 1))) as [L|[E|L]]; auto; exfalso.
    + pose proof (P_range (x + 1) ltac:(lia)). destruct (P_onto _ (B ltac:(lia))) as (y & Hy & Ey). rewrite <- Ey in *. destruct (Z_lt_le_dec x y) as [XY|XY].
      * destruct (Z.eq_dec y (x + 1)) as [-> |]; [lia|]. pose proof (P_mono (x + 1) y ltac:(lia) ltac:(lia)). lia.
      * destruct (Z.eq_dec y x) as [-> |]; [lia|]. pose proof (P_mono y x ltac:(lia) ltac:(lia)). lia.
    + pose proof (C (P (x + 1)) ltac:(lia)) as F. rewrite P_lms in F by lia. discriminate.
  - destruct (Z.eq_dec (nxt (P x)) n); auto. exfalso. destruct (P_onto _ (B ltac:(lia))) as (y & Hy & Ey). destruct (Z.eq_dec y x) as [-> |]; [lia|]. pose proof (P_mono y x ltac:(lia) ltac:(lia)). lia.
Qed.

(** ** the reduced text orders the leftmost S-type positions *)
Lemma reduced_order (RT : list Z) : zlen RT = m ->
  (forall x y, 0 <= x < m -> 0 <= y < m -> at_ RT x < at_ RT y -> suf_lt (P x) (P y)) ->
  (forall x y, 0 <= x < m -> 0 <= y < m -> at_ RT x = at_ RT y -> same (P x) (P y)) ->
  forall f x y, m - x <= Z.of_nat f -> 0 <= x < m -> 0 <= y < m -> lex_lt (suffix RT x) (suffix RT y) -> suf_lt (P x) (P y).
Proof.
  intros L N1 N2. induction f as [|f IH]; intros x y Hf Hx Hy H; [lia|]. rewrite (suffix_at RT x), (suffix_at RT y) in H by lia. destruct H as [H|[E H]]; [apply N1; auto|].
  pose proof (P_range x Hx). pose proof (P_range y Hy). apply same_suf; try lia; [apply N2; auto|]. rewrite !nxt_P by auto. unfold Pn. destruct (Z.ltb_spec (x + 1) m), (Z.ltb_spec (y + 1) m).
  - apply IH; auto; lia.
  - rewrite (suffix_end RT (y + 1)) in H by lia. destruct (suffix RT (x + 1)); contradiction H.
  - unfold suf_lt. rewrite suffix_end by lia. pose proof (P_range (y + 1) ltac:(lia)). rewrite suffix_at by lia. exact I.
  - rewrite (suffix_end RT (y + 1)) in H by lia. destruct (suffix RT (x + 1)); contradiction H.
Qed.
End Keys.
