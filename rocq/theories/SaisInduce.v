(** induceSA places every position, and the order of its result is induced from the order of the leftmost S-type positions. *)
Require Import Verif.Common Verif.Cnt Verif.FmCore Verif.SaisModel Verif.SaisType.
Ltac Zify.zify_post_hook ::= idtac.

(** A slot array: O t is the position in slot t, -1 for an empty slot. *)
Definition put (O : Z -> Z) (x v : Z) : Z -> Z := fun t => if t =? x then v else O t.
Lemma put_eq O x v : put O x v x = v.
Proof. unfold put. rewrite Z.eqb_refl. auto. Qed.
Lemma put_ne O x v t : t <> x -> put O x v t = O t.
Proof. intros. unfold put. destruct (Z.eqb_spec t x); [lia|auto]. Qed.


Section Induce.
Variables (T : list Z) (k : Z).
Notation n := (zlen T).
Notation t_ := (at_ T).
Hypothesis Hn : 1 <= n.
Hypothesis HT : forall p, 0 <= p < n -> 0 <= t_ p < k.
Set Default Proof Using "Hn HT".
Notation isS := (isS T).
Notation lms := (lms T).
Notation bs := (bs T).
Notation lc := (lc T).
Notation sc := (sc T).

(** the leftmost S-type positions are in the S parts of their buckets, the other slots are empty *)
Definition lms_init (O0 : Z -> Z) : Prop :=
  (forall p, lms p = true -> exists t, bs (t_ p) + lc (t_ p) <= t < bs (t_ p + 1) /\ O0 t = p) /\
  (forall t, 0 <= t < n -> O0 t = -1 \/ (lms (O0 t) = true /\ bs (t_ (O0 t)) + lc (t_ (O0 t)) <= t < bs (t_ (O0 t) + 1))) /\
  (forall t u, 0 <= t < n -> 0 <= u < n -> O0 t = O0 u -> O0 t <> -1 -> t = u).

Record InvL (O0 : Z -> Z) (i : Z) (O Bp : Z -> Z) : Prop := {
  l_rng : forall c, 0 <= c < k -> bs c <= Bp c <= bs c + lc c;
  l_L : forall c t, 0 <= c < k -> bs c <= t < Bp c -> 0 <= O t < n /\ isS (O t) = false /\ t_ (O t) = c;
  l_mid : forall c t, 0 <= c < k -> Bp c <= t < bs c + lc c -> O t = -1;
  l_S : forall c t, 0 <= c < k -> bs c + lc c <= t < bs (c + 1) -> O t = O0 t;
  l_inj : forall t u, 0 <= t < n -> 0 <= u < n -> O t = O u -> O t <> -1 -> t = u;
  l_last : exists t, 0 <= t < n /\ O t = n - 1;
  l_succ : forall c t, 0 <= c < k -> bs c <= t < Bp c -> O t = n - 1 \/ exists u, 0 <= u < i /\ u < t /\ O u = O t + 1;
  l_done : forall u, 0 <= u < i -> 0 < O u -> isS (O u - 1) = false -> exists t, 0 <= t < n /\ O t = O u - 1;
  l_mono : forall c t t', 0 <= c < k -> bs c <= t < t' -> t' < Bp c -> O t = n - 1 \/ exists u u', 0 <= u < u' /\ u' < i /\ O u = O t + 1 /\ O u' = O t' + 1
}.

Lemma bucket_in c : 0 <= bs c /\ bs c <= bs c + lc c <= bs (c + 1) /\ bs (c + 1) <= n.
Proof. pose proof (bs_range T k Hn HT c). pose proof (bs_range T k Hn HT (c + 1)). pose proof (lc_nonneg T k Hn HT c). pose proof (sc_nonneg T k Hn HT c). pose proof (bs_next T k Hn HT c). lia. Qed.
Lemma lms_pos p : lms p = true -> 0 < p < n - 1 /\ isS p = true /\ isS (p - 1) = false /\ t_ p < t_ (p - 1).
Proof. apply (lms_range T k Hn HT). Qed.

Section LPhase.
Variable O0 : Z -> Z.
Hypothesis Z0 : lms_init O0.

Lemma slotL i O Bp t : InvL O0 i O Bp -> 0 <= t < n -> O t <> -1 ->
  (0 <= O t < n /\ isS (O t) = false /\ bs (t_ (O t)) <= t < Bp (t_ (O t))) \/ (lms (O t) = true /\ O t = O0 t /\ bs (t_ (O t)) + lc (t_ (O t)) <= t < bs (t_ (O t) + 1)).
Proof using Hn HT Z0.
  intros V Ht Ne. destruct (slot_bucket T k Hn HT t Ht) as (c & Hc & Hb). destruct (Z_lt_le_dec t (Bp c)) as [L|L].
  - destruct (l_L _ _ _ _ V c t Hc ltac:(lia)) as (A & B & C). left. rewrite C. split; auto. split; auto. lia.
  - destruct (Z_lt_le_dec t (bs c + lc c)) as [M|M]. { rewrite (l_mid _ _ _ _ V c t) in Ne by (auto; lia). lia. }
    right. pose proof (l_S _ _ _ _ V c t Hc ltac:(lia)) as E. destruct Z0 as (_ & Z2 & _). destruct (Z2 t Ht) as [F|[F G]]; [congruence|]. rewrite <- E in F, G. auto.
Qed.
Lemma completeL i O Bp c : InvL O0 i O Bp -> 0 <= i <= n -> 0 <= c < k -> bs c <= i -> Bp c <= i ->
  forall m p, n - p <= Z.of_nat m -> 0 <= p < n -> isS p = false -> t_ p <= c -> exists t, 0 <= t < n /\ O t = p.
Proof using Hn HT Z0.
  intros V Hi Hc Hs Hb. induction m as [|m IH]; intros p Hm Hp Lp Tp; [lia|].
  destruct (Z.eq_dec p (n - 1)) as [-> |Np]; [apply (l_last _ _ _ _ V)|].
  assert (exists u, 0 <= u < i /\ O u = p + 1) as (u & Hu & E).
  { destruct (isS (p + 1)) eqn:Sp.
    - pose proof (LS_gt T k Hn HT p ltac:(lia) Lp Sp) as G. pose proof (lms_succ T k Hn HT p ltac:(lia) Lp Sp) as M. destruct Z0 as (Z1 & Z2 & _). destruct (Z1 _ M) as (t & Ht & E). exists t.
      pose proof (bs_mono T k Hn HT (t_ (p + 1) + 1) c ltac:(lia)). pose proof (bucket_in (t_ (p + 1))). split; [lia|]. rewrite (l_S _ _ _ _ V (t_ (p + 1))); auto. apply HT. lia.
    - pose proof (L_ge T k Hn HT p ltac:(lia) Lp) as G. destruct (IH (p + 1)) as (t & Ht & E); auto; try lia. exists t. split; auto.
      destruct (slotL i O Bp t V Ht ltac:(lia)) as [(_ & _ & X)|(M & _)]; [|apply lms_pos in M; rewrite E in M; destruct M as (_ & M & _); congruence].
      rewrite E in X. destruct (Z.eq_dec (t_ (p + 1)) c) as [E1|]; [rewrite E1 in X; lia|]. pose proof (bs_mono T k Hn HT (t_ (p + 1) + 1) c ltac:(lia)). pose proof (bucket_in (t_ (p + 1))). pose proof (l_rng _ _ _ _ V (t_ (p + 1)) ltac:(apply HT; lia)). lia. }
  destruct (l_done _ _ _ _ V u Hu) as (t & Ht & Et); try lia; [rewrite E; replace (p + 1 - 1) with p by lia; auto|]. exists t. split; auto. lia.
Qed.
Lemma skipL i O Bp : InvL O0 i O Bp -> 0 <= i < n -> ~ (0 < O i /\ isS (O i - 1) = false) -> InvL O0 (i + 1) O Bp.
Proof using Hn HT.
  intros V Hi N. constructor; try apply V.
  - intros c t Hc Ht. destruct (l_succ _ _ _ _ V c t Hc Ht) as [E|(u & Hu & Lt & E)]; auto. right. exists u. split; [lia|auto].
  - intros u Hu Po Lp. destruct (Z.eq_dec u i) as [-> |]; [exfalso; auto|]. apply (l_done _ _ _ _ V); auto. lia.
  - intros c t t' Hc Ht Ht'. destruct (l_mono _ _ _ _ V c t t' Hc Ht Ht') as [E|(u & u' & Hu & Hu' & E)]; auto. right. exists u, u'. split; auto. split; [lia|auto].
Qed.
Lemma stepL i O Bp : InvL O0 i O Bp -> 0 <= i < n -> 0 < O i -> isS (O i - 1) = false ->
  let p := O i - 1 in let c := t_ p in 0 <= p < n - 1 /\ i < Bp c < bs c + lc c /\ InvL O0 (i + 1) (put O (Bp c) p) (put Bp c (Bp c + 1)).
Proof using Hn HT Z0.
  intros V Hi Po Lp p c.
  assert (0 <= O i < n) as Ro. { destruct (slotL i O Bp i V Hi ltac:(lia)) as [(A & _)|(A & _)]; auto. apply lms_pos in A. lia. }
  assert (0 <= p < n - 1) as Hp by (unfold p; lia).
  assert (0 <= c < k) as Hc by (apply HT; lia).
  assert (forall t, 0 <= t < n -> O t <> p) as Fresh.
  { intros t Ht E. destruct (slotL i O Bp t V Ht ltac:(lia)) as [(_ & _ & X)|(M & _)]; [|apply lms_pos in M; rewrite E in M; destruct M as (_ & M & _); unfold p in M; congruence].
    rewrite E in X. fold c in X. destruct (l_succ _ _ _ _ V c t Hc X) as [F|(u & Hu & _ & F)]; [lia|]. assert (u = i); [|lia]. apply (l_inj _ _ _ _ V); try lia. }
  assert (i < Bp c) as Ahead.
  { destruct (Z_lt_le_dec i (Bp c)); auto. exfalso. destruct (completeL i O Bp c V ltac:(lia) Hc ltac:(pose proof (l_rng _ _ _ _ V c Hc); lia) ltac:(lia) (Z.to_nat n) p) as (t & Ht & E); try lia; auto. }
  assert (Bp c < bs c + lc c) as Room.
  { pose proof (l_rng _ _ _ _ V c Hc) as R. pose proof (bucket_in c) as BI.
    assert (Bp c + 1 - bs c <= lc c); [|lia]. unfold lc. apply (inj_cnt (put O (Bp c) p)); try lia.
    - intros t Ht. unfold put. destruct (Z.eqb_spec t (Bp c)) as [-> |Nt].
      + split; [lia|]. unfold p at 2. rewrite Lp. fold c. rewrite Z.eqb_refl. auto.
      + destruct (l_L _ _ _ _ V c t Hc ltac:(lia)) as (A & B & C). split; auto. rewrite B, C, Z.eqb_refl. auto.
    - assert (Bp c <= n) as Bn by lia. intros t u Ht Hu. unfold put. destruct (Z.eqb_spec t (Bp c)) as [-> |Nt], (Z.eqb_spec u (Bp c)) as [-> |Nu]; auto; intros E.
      + exfalso. apply (Fresh u); [lia|auto].
      + exfalso. apply (Fresh t); [lia|auto].
      + apply (l_inj _ _ _ _ V); auto; try lia. destruct (l_L _ _ _ _ V c t Hc ltac:(lia)) as (A & _). lia. }
  split; auto. split; auto.
  pose proof (bucket_in c) as BI. pose proof (l_rng _ _ _ _ V c Hc) as Rc.
  assert (forall t, 0 <= t < n -> O t <> -1 -> put O (Bp c) p t = O t) as Keep. { intros t Ht Ne. apply put_ne. intros ->. apply Ne. apply (l_mid _ _ _ _ V c); auto. lia. }
  assert (forall t, i + 1 <= t \/ t <= i -> t <> Bp c -> put O (Bp c) p t = O t) as Keep' by (intros; apply put_ne; auto).
  assert (forall d t, 0 <= d < k -> bs d <= t < bs (d + 1) -> t = Bp c -> d = c) as Same. { intros d t Hd Ht ->. apply (bucket_unique T k Hn HT d c (Bp c)); auto. lia. }
  constructor.
  - intros d Hd. unfold put. destruct (Z.eqb_spec d c) as [-> |]; [lia|]. apply (l_rng _ _ _ _ V); auto.
  - intros d t Hd Ht. pose proof (l_rng _ _ _ _ V d Hd) as Rd. pose proof (bucket_in d) as BId. unfold put in Ht. destruct (Z.eqb_spec d c) as [-> |Nd].
    + destruct (Z.eq_dec t (Bp c)) as [-> |]; [rewrite put_eq; split; [lia|auto]|]. rewrite put_ne by auto. apply (l_L _ _ _ _ V); auto. lia.
    + rewrite put_ne; [apply (l_L _ _ _ _ V); auto|]. intros ->. apply Nd, (Same d (Bp c)); auto. lia.
  - intros d t Hd Ht. pose proof (bucket_in d) as BId. pose proof (l_rng _ _ _ _ V d Hd) as Rd. unfold put in Ht. destruct (Z.eqb_spec d c) as [-> |Nd].
    + rewrite put_ne by lia. apply (l_mid _ _ _ _ V c); auto. lia.
    + rewrite put_ne; [apply (l_mid _ _ _ _ V d); auto|]. intros ->. apply Nd, (Same d (Bp c)); auto. lia.
  - intros d t Hd Ht. pose proof (bucket_in d) as BId. rewrite put_ne; [apply (l_S _ _ _ _ V d); auto|]. intros ->. assert (d = c) as -> by (apply (Same d (Bp c)); auto; lia). lia.
  - intros t u Ht Hu. unfold put. destruct (Z.eqb_spec t (Bp c)) as [-> |Nt], (Z.eqb_spec u (Bp c)) as [-> |Nu]; auto; intros E Ne.
    + exfalso. apply (Fresh u); auto.
    + exfalso. apply (Fresh t); auto.
    + apply (l_inj _ _ _ _ V); auto.
  - destruct (l_last _ _ _ _ V) as (t & Ht & E). exists t. split; auto. rewrite Keep; auto. lia.
  - intros d t Hd Ht. pose proof (bucket_in d) as BId. pose proof (l_rng _ _ _ _ V d Hd) as Rd. destruct (Z.eq_dec t (Bp c)) as [-> |Nt].
    + right. exists i. split; [lia|]. split; auto. rewrite Keep' by lia. rewrite put_eq. unfold p. lia.
    + rewrite put_ne by auto. assert (bs d <= t < Bp d) as Ht' by (unfold put in Ht; destruct (Z.eqb_spec d c); subst; lia).
      destruct (l_succ _ _ _ _ V d t Hd Ht') as [E|(u & Hu & Lt & E)]; auto. right. exists u. split; [lia|]. split; auto. rewrite Keep' by lia. auto.
  - intros u Hu Po' Lp'. rewrite Keep' in * by lia. destruct (Z.eq_dec u i) as [-> |].
    + exists (Bp c). split; [lia|]. apply put_eq.
    + destruct (l_done _ _ _ _ V u ltac:(lia) Po' Lp') as (t & Ht & E). exists t. split; auto. rewrite Keep; auto. lia.
  - intros d t t' Hd Ht Ht'. pose proof (bucket_in d) as BId. pose proof (l_rng _ _ _ _ V d Hd) as Rd. destruct (Z.eq_dec t' (Bp c)) as [-> |Nt'].
    + assert (d = c) as -> by (apply (Same d (Bp c)); auto; unfold put in Ht'; destruct (Z.eqb_spec d c); subst; lia). rewrite (put_ne O (Bp c) p t) by lia.
      destruct (l_succ _ _ _ _ V c t Hc ltac:(lia)) as [E|(u & Hu & Lt & E)]; auto. right. exists u, i. split; [lia|]. split; [lia|]. rewrite put_eq. rewrite !Keep' by lia. split; auto. unfold p. lia.
    + assert (t' < Bp d) as Lt' by (unfold put in Ht'; destruct (Z.eqb_spec d c); subst; lia). assert (t <> Bp c) as Nt. { intros ->. assert (d = c) as -> by (apply (Same d (Bp c)); auto; lia). lia. }
      rewrite !put_ne by auto. destruct (l_mono _ _ _ _ V d t t' Hd Ht Lt') as [E|(u & u' & Hu & Hu' & E & E')]; auto. right. exists u, u'. split; auto. split; [lia|]. rewrite !Keep' by lia. auto.
Qed.
Lemma initL : let c := t_ (n - 1) in bs c < bs c + lc c /\ InvL O0 0 (put (fun t => if (O0 t =? -1) then -1 else O0 t) (bs c) (n - 1)) (put bs c (bs c + 1)).
Proof using Hn HT Z0.
  intros c. assert (0 <= c < k) as Hc by (apply HT; lia). pose proof (bucket_in c) as BI. pose proof (isS_last T k Hn HT) as SL.
  assert (1 <= lc c) as L1. { pose proof (cnt_lt (fun p => (t_ p =? c) && negb (isS p)) (n - 1) n ltac:(lia)) as L. cbn beta in L. unfold c at 1 in L. rewrite Z.eqb_refl, SL in L. specialize (L eq_refl). fold c in L. pose proof (cnt_nonneg (fun p => (t_ p =? c) && negb (isS p)) (n - 1)). unfold lc. lia. }
  set (O1 := fun t => if (O0 t =? -1) then -1 else O0 t). assert (forall t, O1 t = O0 t) as E1. { intros t. unfold O1. destruct (Z.eqb_spec (O0 t) (-1)); auto. } clearbody O1.
  destruct Z0 as (Z1 & Z2 & Z3).
  assert (forall d t, 0 <= d < k -> bs d <= t < bs (d + 1) -> t = bs c -> d = c) as Same. { intros d t Hd Ht ->. apply (bucket_unique T k Hn HT d c (bs c)); auto. lia. }
  assert (forall d t, 0 <= d < k -> bs d <= t < bs d + lc d -> O0 t = -1) as Emp.
  { intros d t Hd Ht. pose proof (bucket_in d) as BId. destruct (Z2 t ltac:(lia)) as [E|[M X]]; auto. exfalso. pose proof (bucket_in (t_ (O0 t))). assert (t_ (O0 t) = d) as E by (apply (bucket_unique T k Hn HT _ _ t); lia). rewrite E in X. lia. }
  assert (forall t, 0 <= t < n -> O0 t <> n - 1) as NL. { intros t Ht E. destruct (Z2 t Ht) as [F|[M _]]; [lia|]. apply lms_pos in M. lia. }
  split; [lia|]. constructor.
  - intros d Hd. pose proof (bucket_in d). unfold put. destruct (Z.eqb_spec d c) as [-> |]; lia.
  - intros d t Hd Ht. unfold put in Ht. destruct (Z.eqb_spec d c) as [-> |]; [|lia]. assert (t = bs c) as -> by lia. rewrite put_eq. split; [lia|]. auto.
  - intros d t Hd Ht. pose proof (bucket_in d). unfold put in Ht. destruct (Z.eqb_spec d c) as [-> |Nd].
    + rewrite put_ne by lia. rewrite E1. apply (Emp c); auto. lia.
    + rewrite put_ne; [rewrite E1; apply (Emp d); auto|]. intros ->. apply Nd, (Same d (bs c)); auto. lia.
  - intros d t Hd Ht. pose proof (bucket_in d). rewrite put_ne; [apply E1|]. intros ->. assert (d = c) as -> by (apply (Same d (bs c)); auto; lia). lia.
  - intros t u Ht Hu. unfold put. rewrite !E1. destruct (Z.eqb_spec t (bs c)) as [-> |Nt], (Z.eqb_spec u (bs c)) as [-> |Nu]; auto; intros E Ne.
    + exfalso. apply (NL u); auto.
    + exfalso. apply (NL t); auto.
  - exists (bs c). split; [lia|]. apply put_eq.
  - intros d t Hd Ht. left. unfold put in Ht. destruct (Z.eqb_spec d c) as [-> |]; [|lia]. assert (t = bs c) as -> by lia. apply put_eq.
  - intros u Hu. lia.
  - intros d t t' Hd Ht Ht'. unfold put in Ht'. destruct (Z.eqb_spec d c) as [-> |]; lia.
Qed.

(** at the end every L-type position is placed, and the filled slots are in order *)
Lemma endL O Bp : InvL O0 n O Bp -> forall p, 0 <= p < n -> isS p = false -> exists t, bs (t_ p) <= t < bs (t_ p) + lc (t_ p) /\ O t = p.
Proof using Hn HT Z0.
  intros V p Hp Lp. pose proof (HT p Hp) as Hc. pose proof (bucket_in (t_ p)) as BI. pose proof (l_rng _ _ _ _ V _ Hc) as R.
  destruct (completeL n O Bp (t_ p) V ltac:(lia) Hc ltac:(lia) ltac:(lia) (Z.to_nat n) p) as (t & Ht & E); try lia; auto. exists t. split; auto.
  destruct (slotL n O Bp t V Ht ltac:(lia)) as [(_ & _ & X)|(M & _)]; [rewrite E in X; lia|]. apply lms_pos in M. rewrite E in M. destruct M as (_ & M & _). congruence.
Qed.
Lemma sortedL O Bp (le : Z -> Z -> Prop) : InvL O0 n O Bp ->
  (forall p q, 0 <= p < n -> 0 <= q < n -> t_ p < t_ q -> le p q) ->
  (forall p q, 0 <= p < n -> 0 <= q < n -> t_ p = t_ q -> isS p = false -> lms q = true -> le p q) ->
  (forall q, 0 <= q < n - 1 -> isS q = false -> t_ (n - 1) = t_ q -> le (n - 1) q) ->
  (forall p q, 0 <= p < n - 1 -> 0 <= q < n - 1 -> isS p = false -> isS q = false -> t_ p = t_ q -> le (p + 1) (q + 1) -> le p q) ->
  (forall t u, 0 <= t < u -> u < n -> O0 t <> -1 -> O0 u <> -1 -> t_ (O0 t) = t_ (O0 u) -> le (O0 t) (O0 u)) ->
  forall m t u, u < Z.of_nat m -> 0 <= t < u -> u < n -> O t <> -1 -> O u <> -1 -> le (O t) (O u).
Proof using Hn HT Z0.
  intros V A1 A2 A3 A4 A5. induction m as [|m IH]; intros t u Hm Htu Hu Nt Nu; [lia|].
  assert (forall s, 0 <= s < n -> O s <> -1 -> 0 <= O s < n /\ bs (t_ (O s)) <= s < bs (t_ (O s) + 1)) as W.
  { intros s Hs Ns. destruct (slotL n O Bp s V Hs Ns) as [(A & B & C)|(M & _ & C)].
    - split; auto. pose proof (bucket_in (t_ (O s))). pose proof (l_rng _ _ _ _ V (t_ (O s)) (HT _ A)). lia.
    - apply lms_pos in M. pose proof (bucket_in (t_ (O s))). lia. }
  destruct (W t ltac:(lia) Nt) as [Rt Bt]. destruct (W u ltac:(lia) Nu) as [Ru Bu].
  pose proof (bucket_order T k Hn HT _ _ t u Bt Bu ltac:(lia)) as Le. destruct (Z.eq_dec (t_ (O t)) (t_ (O u))) as [Eq|]; [|apply A1; auto; lia].
  destruct (slotL n O Bp t V ltac:(lia) Nt) as [(_ & Lt & Ct)|(Mt & Et & Ct)], (slotL n O Bp u V ltac:(lia) Nu) as [(_ & Lu & Cu)|(Mu & Eu & Cu)].
  - destruct (l_mono _ _ _ _ V (t_ (O t)) t u (HT _ Rt) ltac:(lia)) as [E|(x & y & Hxy & Hy & Ex & Ey)]; [rewrite Eq; lia| |].
    + assert (O u <> n - 1) as Nl. { intros F. assert (t = u); [|lia]. apply (l_inj _ _ _ _ V); auto; lia. } rewrite E. apply A3; auto; [lia|]. rewrite <- E. auto.
    + assert (O u < n - 1) as Ru'. { destruct (Z.eq_dec (O u) (n - 1)) as [F|]; [|lia]. destruct (W y ltac:(lia) ltac:(lia)). lia. }
      assert (O t < n - 1) as Rt'. { destruct (W x ltac:(lia) ltac:(lia)). lia. }
      apply A4; auto; try lia. rewrite <- Ex, <- Ey. apply IH; try lia.
      destruct (l_succ _ _ _ _ V (t_ (O u)) u (HT _ Ru) Cu) as [F|(z & Hz & Lz & Ez)]; [lia|]. assert (z = y); [|lia]. apply (l_inj _ _ _ _ V); lia.
  - apply A2; auto.
  - exfalso. pose proof (l_rng _ _ _ _ V (t_ (O u)) (HT _ Ru)). rewrite Eq in Ct. lia.
  - rewrite Et, Eu. apply A5; try lia; try congruence. 
Qed.
End LPhase.

(** ** the S phase: OL is the slot array of the L-type positions *)
Definition placedL (OL : Z -> Z) : Prop :=
  (forall p, 0 <= p < n -> isS p = false -> exists t, bs (t_ p) <= t < bs (t_ p) + lc (t_ p) /\ OL t = p) /\
  (forall c t, 0 <= c < k -> bs c <= t < bs c + lc c -> 0 <= OL t < n /\ isS (OL t) = false /\ t_ (OL t) = c) /\
  (forall t u c d, 0 <= c < k -> 0 <= d < k -> bs c <= t < bs c + lc c -> bs d <= u < bs d + lc d -> OL t = OL u -> t = u).
Record InvS (OL : Z -> Z) (i : Z) (O Bp : Z -> Z) : Prop := {
  s_rng : forall c, 0 <= c < k -> bs c + lc c <= Bp c <= bs (c + 1);
  s_S : forall c t, 0 <= c < k -> Bp c <= t < bs (c + 1) -> 0 <= O t < n /\ isS (O t) = true /\ t_ (O t) = c;
  s_mid : forall c t, 0 <= c < k -> bs c + lc c <= t < Bp c -> O t = -1;
  s_L : forall c t, 0 <= c < k -> bs c <= t < bs c + lc c -> O t = OL t;
  s_inj : forall t u, 0 <= t < n -> 0 <= u < n -> O t = O u -> O t <> -1 -> t = u;
  s_succ : forall c t, 0 <= c < k -> Bp c <= t < bs (c + 1) -> exists u, i <= u < n /\ t < u /\ O u = O t + 1;
  s_done : forall u, i <= u < n -> 0 < O u -> isS (O u - 1) = true -> exists t, 0 <= t < n /\ O t = O u - 1;
  s_mono : forall c t t', 0 <= c < k -> Bp c <= t < t' -> t' < bs (c + 1) -> exists u u', i <= u < u' /\ u' < n /\ O u = O t + 1 /\ O u' = O t' + 1
}.

Section SPhase.
Variable OL : Z -> Z.
Hypothesis ZL : placedL OL.

Lemma slotS i O Bp t : InvS OL i O Bp -> 0 <= t < n -> O t <> -1 -> 0 <= O t < n /\
  ((isS (O t) = false /\ bs (t_ (O t)) <= t < bs (t_ (O t)) + lc (t_ (O t))) \/ (isS (O t) = true /\ Bp (t_ (O t)) <= t < bs (t_ (O t) + 1))).
Proof using Hn HT ZL.
  intros V Ht Ne. destruct (slot_bucket T k Hn HT t Ht) as (c & Hc & Hb). destruct ZL as (Z1 & Z2 & _). destruct (Z_lt_le_dec t (bs c + lc c)) as [L|L].
  - pose proof (s_L _ _ _ _ V c t Hc ltac:(lia)) as E. destruct (Z2 c t Hc ltac:(lia)) as (A & B & C). rewrite <- E in A, B, C. split; auto. left. rewrite C. split; auto. lia.
  - destruct (Z_lt_le_dec t (Bp c)) as [M|M]. { rewrite (s_mid _ _ _ _ V c t) in Ne by (auto; lia). lia. }
    destruct (s_S _ _ _ _ V c t Hc ltac:(lia)) as (A & B & C). split; auto. right. rewrite C. split; auto. lia.
Qed.
Lemma completeS i O Bp c : InvS OL i O Bp -> 0 <= i <= n -> 0 <= c < k -> i <= Bp c ->
  forall m p, n - p <= Z.of_nat m -> 0 <= p < n -> isS p = true -> c <= t_ p -> exists t, 0 <= t < n /\ O t = p.
Proof using Hn HT ZL.
  intros V Hi Hc Hb. pose proof (s_rng _ _ _ _ V c Hc) as Rc. induction m as [|m IH]; intros p Hm Hp Sp Tp; [lia|]. pose proof (isS_lt T k Hn HT p ltac:(lia) Sp) as Lp.
  assert (exists u, i <= u < n /\ O u = p + 1) as (u & Hu & E).
  { pose proof (HT (p + 1) ltac:(lia)) as Hd. pose proof (bucket_in (t_ (p + 1))) as BI. destruct (isS (p + 1)) eqn:Sp1.
    - pose proof (S_le T k Hn HT p ltac:(lia) Sp) as G. destruct (IH (p + 1)) as (t & Ht & E); auto; try lia. exists t. split; auto. split; [|lia].
      destruct (slotS i O Bp t V Ht ltac:(lia)) as [_ [(X & _)|(_ & X)]]; [rewrite E in X; congruence|]. rewrite E in X.
      destruct (Z.eq_dec (t_ (p + 1)) c) as [E1|]; [rewrite E1 in X; lia|]. pose proof (bs_mono T k Hn HT (c + 1) (t_ (p + 1)) ltac:(lia)). pose proof (s_rng _ _ _ _ V _ Hd). lia.
    - pose proof (SL_lt T k Hn HT p ltac:(lia) Sp Sp1) as G. destruct ZL as (Z1 & _). destruct (Z1 (p + 1) ltac:(lia) Sp1) as (t & Ht & E). exists t. pose proof (bs_mono T k Hn HT (c + 1) (t_ (p + 1)) ltac:(lia)). split; [lia|]. rewrite (s_L _ _ _ _ V (t_ (p + 1))); auto. }
  destruct (s_done _ _ _ _ V u Hu) as (t & Ht & Et); try lia; [rewrite E; replace (p + 1 - 1) with p by lia; auto|]. exists t. split; auto. lia.
Qed.
Lemma skipS i O Bp : InvS OL (i + 1) O Bp -> 0 <= i < n -> ~ (0 < O i /\ isS (O i - 1) = true) -> InvS OL i O Bp.
Proof using Hn HT.
  intros V Hi N. constructor; try apply V.
  - intros c t Hc Ht. destruct (s_succ _ _ _ _ V c t Hc Ht) as (u & Hu & Lt & E). exists u. split; [lia|auto].
  - intros u Hu Po Lp. destruct (Z.eq_dec u i) as [-> |]; [exfalso; auto|]. apply (s_done _ _ _ _ V); auto. lia.
  - intros c t t' Hc Ht Ht'. destruct (s_mono _ _ _ _ V c t t' Hc Ht Ht') as (u & u' & Hu & Hu' & E). exists u, u'. split; [lia|auto].
Qed.
Lemma stepS i O Bp : InvS OL (i + 1) O Bp -> 0 <= i < n -> 0 < O i -> isS (O i - 1) = true ->
  let p := O i - 1 in let c := t_ p in 0 <= p < n - 1 /\ bs c + lc c < Bp c <= i /\ InvS OL i (put O (Bp c - 1) p) (put Bp c (Bp c - 1)).
Proof using Hn HT ZL.
  intros V Hi Po Lp p c.
  assert (0 <= O i < n) as Ro by (destruct (slotS (i + 1) O Bp i V Hi ltac:(lia)) as (A & _); auto).
  assert (0 <= p < n - 1) as Hp by (unfold p; lia).
  assert (0 <= c < k) as Hc by (apply HT; lia).
  assert (forall t, 0 <= t < n -> O t <> p) as Fresh.
  { intros t Ht E. destruct (slotS (i + 1) O Bp t V Ht ltac:(lia)) as [_ [(X & _)|(_ & X)]]; [rewrite E in X; unfold p in X; congruence|].
    rewrite E in X. fold c in X. destruct (s_succ _ _ _ _ V c t Hc X) as (u & Hu & _ & F). assert (u = i); [|lia]. apply (s_inj _ _ _ _ V); try lia. }
  assert (Bp c <= i) as Ahead.
  { destruct (Z_le_gt_dec (Bp c) i); auto. exfalso. destruct (completeS (i + 1) O Bp c V ltac:(lia) Hc ltac:(lia) (Z.to_nat n) p) as (t & Ht & E); try lia; auto. }
  assert (bs c + lc c < Bp c) as Room.
  { pose proof (s_rng _ _ _ _ V c Hc) as R. pose proof (bucket_in c) as BI. pose proof (bs_next T k Hn HT c) as BN.
    assert (bs (c + 1) - (Bp c - 1) <= sc c); [|lia]. unfold sc. apply (inj_cnt (put O (Bp c - 1) p)); try lia.
    - intros t Ht. unfold put. destruct (Z.eqb_spec t (Bp c - 1)) as [-> |Nt].
      + split; [lia|]. unfold p at 2. rewrite Lp. fold c. rewrite Z.eqb_refl. auto.
      + destruct (s_S _ _ _ _ V c t Hc ltac:(lia)) as (A & B & C). split; auto. rewrite B, C, Z.eqb_refl. auto.
    - intros t u Ht Hu. unfold put. destruct (Z.eqb_spec t (Bp c - 1)) as [-> |Nt], (Z.eqb_spec u (Bp c - 1)) as [-> |Nu]; auto; intros E.
      + exfalso. apply (Fresh u); [lia|auto].
      + exfalso. apply (Fresh t); [lia|auto].
      + apply (s_inj _ _ _ _ V); auto; try lia. destruct (s_S _ _ _ _ V c t Hc ltac:(lia)) as (A & _). lia. }
  split; auto. split; [lia|].
  pose proof (bucket_in c) as BI. pose proof (s_rng _ _ _ _ V c Hc) as Rc.
  assert (forall t, 0 <= t < n -> O t <> -1 -> put O (Bp c - 1) p t = O t) as Keep. { intros t Ht Ne. apply put_ne. intros ->. apply Ne. apply (s_mid _ _ _ _ V c); auto. lia. }
  assert (forall d t, 0 <= d < k -> bs d <= t < bs (d + 1) -> t = Bp c - 1 -> d = c) as Same. { intros d t Hd Ht ->. apply (bucket_unique T k Hn HT d c (Bp c - 1)); auto. lia. }
  constructor.
  - intros d Hd. unfold put. destruct (Z.eqb_spec d c) as [-> |]; [lia|]. apply (s_rng _ _ _ _ V); auto.
  - intros d t Hd Ht. pose proof (s_rng _ _ _ _ V d Hd) as Rd. pose proof (bucket_in d) as BId. unfold put in Ht. destruct (Z.eqb_spec d c) as [-> |Nd].
    + destruct (Z.eq_dec t (Bp c - 1)) as [-> |]; [rewrite put_eq; split; [lia|auto]|]. rewrite put_ne by auto. apply (s_S _ _ _ _ V); auto. lia.
    + rewrite put_ne; [apply (s_S _ _ _ _ V); auto|]. intros ->. apply Nd, (Same d (Bp c - 1)); auto. lia.
  - intros d t Hd Ht. pose proof (bucket_in d) as BId. pose proof (s_rng _ _ _ _ V d Hd) as Rd. unfold put in Ht. destruct (Z.eqb_spec d c) as [-> |Nd].
    + rewrite put_ne by lia. apply (s_mid _ _ _ _ V c); auto. lia.
    + rewrite put_ne; [apply (s_mid _ _ _ _ V d); auto|]. intros ->. apply Nd, (Same d (Bp c - 1)); auto. lia.
  - intros d t Hd Ht. pose proof (bucket_in d) as BId. rewrite put_ne; [apply (s_L _ _ _ _ V d); auto|]. intros ->. assert (d = c) as -> by (apply (Same d (Bp c - 1)); auto; lia). lia.
  - intros t u Ht Hu. unfold put. destruct (Z.eqb_spec t (Bp c - 1)) as [-> |Nt], (Z.eqb_spec u (Bp c - 1)) as [-> |Nu]; auto; intros E Ne.
    + exfalso. apply (Fresh u); auto.
    + exfalso. apply (Fresh t); auto.
    + apply (s_inj _ _ _ _ V); auto.
  - intros d t Hd Ht. pose proof (bucket_in d) as BId. pose proof (s_rng _ _ _ _ V d Hd) as Rd. destruct (Z.eq_dec t (Bp c - 1)) as [-> |Nt].
    + exists i. split; [lia|]. split; [lia|]. rewrite (put_ne O _ _ i) by lia. rewrite put_eq. unfold p. lia.
    + rewrite (put_ne O _ _ t) by auto. assert (Bp d <= t < bs (d + 1)) as Ht' by (unfold put in Ht; destruct (Z.eqb_spec d c); subst; lia).
      destruct (s_succ _ _ _ _ V d t Hd Ht') as (u & Hu & Lt & E). exists u. split; [lia|]. split; auto. rewrite put_ne by lia. auto.
  - intros u Hu Po' Lp'. rewrite put_ne in * by lia. destruct (Z.eq_dec u i) as [-> |].
    + exists (Bp c - 1). split; [lia|]. apply put_eq.
    + destruct (s_done _ _ _ _ V u ltac:(lia) Po' Lp') as (t & Ht & E). exists t. split; auto. rewrite Keep; auto. lia.
  - intros d t t' Hd Ht Ht'. pose proof (bucket_in d) as BId. pose proof (s_rng _ _ _ _ V d Hd) as Rd. destruct (Z.eq_dec t (Bp c - 1)) as [-> |Nt].
    + assert (d = c) as -> by (apply (Same d (Bp c - 1)); auto; unfold put in Ht; destruct (Z.eqb_spec d c); subst; lia). rewrite (put_ne O (Bp c - 1) p t') by lia.
      destruct (s_succ _ _ _ _ V c t' Hc ltac:(lia)) as (u & Hu & Lt & E). exists i, u. split; [lia|]. split; [lia|]. rewrite put_eq. rewrite !put_ne by lia. split; auto. unfold p. lia.
    + assert (Bp d <= t) as Lt' by (unfold put in Ht; destruct (Z.eqb_spec d c); subst; lia). assert (t' <> Bp c - 1) as Nt'. { intros ->. assert (d = c) as -> by (apply (Same d (Bp c - 1)); auto; lia). lia. }
      rewrite (put_ne O _ _ t), (put_ne O _ _ t') by auto. destruct (s_mono _ _ _ _ V d t t' Hd ltac:(lia) Ht') as (u & u' & Hu & Hu' & E & E'). exists u, u'. split; [lia|]. split; [lia|]. rewrite !put_ne by lia. auto.
Qed.
Lemma initS O : (forall c t, 0 <= c < k -> bs c <= t < bs c + lc c -> O t = OL t) -> (forall c t, 0 <= c < k -> bs c + lc c <= t < bs (c + 1) -> O t = -1) -> InvS OL n O (fun c => bs (c + 1)).
Proof using Hn HT ZL.
  intros HL HS. destruct ZL as (Z1 & Z2 & Z3). constructor.
  - intros c Hc. pose proof (bucket_in c). lia.
  - intros. lia.
  - intros c t Hc Ht. apply (HS c); auto.
  - auto.
  - intros t u Ht Hu E Ne. destruct (slot_bucket T k Hn HT t Ht) as (c & Hc & Hb). destruct (slot_bucket T k Hn HT u Hu) as (d & Hd & Hb').
    destruct (Z_lt_le_dec t (bs c + lc c)) as [L|L]; [|rewrite (HS c t) in Ne by (auto; lia); lia]. destruct (Z_lt_le_dec u (bs d + lc d)) as [M|M]; [|rewrite E, (HS d u) in Ne by (auto; lia); lia].
    apply (Z3 t u c d); auto; try lia. rewrite <- (HL c t), <- (HL d u) by (auto; lia). auto.
  - intros. lia.
  - intros. lia.
  - intros. lia.
Qed.
Lemma endS O Bp : InvS OL 0 O Bp -> (forall p, 0 <= p < n -> exists t, 0 <= t < n /\ O t = p) /\ (forall t, 0 <= t < n -> 0 <= O t < n).
Proof using Hn HT ZL.
  intros V. assert (forall p, 0 <= p < n -> exists t, 0 <= t < n /\ O t = p) as Su.
  { intros p Hp. pose proof (HT p Hp) as Hc. pose proof (bucket_in (t_ p)) as BI. destruct (isS p) eqn:Sp.
    - pose proof (s_rng _ _ _ _ V _ Hc). apply (completeS 0 O Bp (t_ p) V ltac:(lia) Hc ltac:(lia) (Z.to_nat n) p); auto; lia.
    - destruct ZL as (Z1 & _). destruct (Z1 p Hp Sp) as (t & Ht & E). exists t. split; [lia|]. rewrite (s_L _ _ _ _ V (t_ p)); auto. }
  split; auto. apply (onto_inj O n); auto. lia.
Qed.
Lemma sortedS O Bp (le : Z -> Z -> Prop) : InvS OL 0 O Bp ->
  (forall p q, 0 <= p < n -> 0 <= q < n -> t_ p < t_ q -> le p q) ->
  (forall p q, 0 <= p < n -> 0 <= q < n -> t_ p = t_ q -> isS p = false -> isS q = true -> le p q) ->
  (forall c t u, 0 <= c < k -> bs c <= t < u -> u < bs c + lc c -> le (OL t) (OL u)) ->
  (forall p q, 0 <= p < n - 1 -> 0 <= q < n - 1 -> isS p = true -> isS q = true -> t_ p = t_ q -> le (p + 1) (q + 1) -> le p q) ->
  forall m t u, n - t <= Z.of_nat m -> 0 <= t < u -> u < n -> le (O t) (O u).
Proof using Hn HT ZL.
  intros V A1 A2 A3 A4. destruct (endS O Bp V) as [_ R]. induction m as [|m IH]; intros t u Hm Htu Hu; [lia|].
  pose proof (R t ltac:(lia)) as Rt. pose proof (R u ltac:(lia)) as Ru.
  destruct (slotS 0 O Bp t V ltac:(lia) ltac:(lia)) as [_ Kt]. destruct (slotS 0 O Bp u V ltac:(lia) ltac:(lia)) as [_ Ku].
  pose proof (bucket_in (t_ (O t))) as BIt. pose proof (bucket_in (t_ (O u))) as BIu. pose proof (s_rng _ _ _ _ V _ (HT _ Rt)) as Bt. pose proof (s_rng _ _ _ _ V _ (HT _ Ru)) as Bu.
  assert (t_ (O t) <= t_ (O u)) as Le. { apply (bucket_order T k Hn HT _ _ t u); [| |lia]; destruct Kt as [[_ Kt]|[_ Kt]], Ku as [[_ Ku]|[_ Ku]]; lia. }
  destruct (Z.eq_dec (t_ (O t)) (t_ (O u))) as [Eq|]; [|apply A1; auto; lia].
  destruct Kt as [[St Kt]|[St Kt]], Ku as [[Su Ku]|[Su Ku]].
  - rewrite (s_L _ _ _ _ V _ t (HT _ Rt)) by lia. rewrite (s_L _ _ _ _ V _ u (HT _ Ru)) by lia. apply (A3 (t_ (O t))); auto; [lia|rewrite Eq; lia].
  - apply A2; auto.
  - rewrite Eq in Kt, Bt. lia.
  - destruct (s_mono _ _ _ _ V (t_ (O t)) t u (HT _ Rt) ltac:(lia)) as (x & y & Hxy & Hy & Ex & Ey); [rewrite Eq; lia|].
    pose proof (R x ltac:(lia)). pose proof (R y ltac:(lia)). apply A4; auto; try lia. rewrite <- Ex, <- Ey. apply IH; try lia.
    destruct (s_succ _ _ _ _ V (t_ (O t)) t (HT _ Rt) ltac:(lia)) as (z & Hz & Lz & Ez). assert (z = x); [|lia]. apply (s_inj _ _ _ _ V); lia.
Qed.
End SPhase.
End Induce.
