(** Types of positions, bucket boundaries, and the order facts about suffixes that induced sorting rests on. *)
Require Import Verif.Common Verif.Cnt Verif.FmCore Verif.SaisModel.
From Coq Require Import Permutation.
Ltac Zify.zify_post_hook ::= idtac.

(** ** lists read by an integer index *)
Lemma rd_at (l : list Z) i : 0 <= i < zlen l -> rd l i = Ok (at_ l i).
Proof. intros. unfold at_. apply rd_nth; auto. Qed.
Lemma zlen_upd {A} (l : list A) n v : zlen (upd l n v) = zlen l.
Proof. unfold zlen. rewrite upd_length. auto. Qed.
Lemma at_upd (l : list Z) i j v : 0 <= i < zlen l -> 0 <= j -> at_ (upd l (Z.to_nat i) v) j = if j =? i then v else at_ l j.
Proof.
  intros Hi Hj. unfold at_. unfold zlen in Hi. destruct (Z.eqb_spec j i) as [-> |N].
  - apply nth_error_nth. apply nth_error_upd_eq. lia.
  - destruct (Nat.lt_ge_cases (Z.to_nat j) (length l)) as [L|L].
    + apply nth_error_nth. rewrite nth_error_upd_ne by lia. apply nth_error_nth'. auto.
    + rewrite !nth_overflow; auto. rewrite upd_length. auto.
Qed.
Lemma wr_at (l : list Z) i v : 0 <= i < zlen l -> exists l', wr l i v = Ok l' /\ zlen l' = zlen l /\ forall j, 0 <= j -> at_ l' j = if j =? i then v else at_ l j.
Proof. intros H. exists (upd l (Z.to_nat i) v). split; [apply wr_ok; auto|]. split; [apply zlen_upd|]. intros j Hj. apply at_upd; auto. Qed.
Lemma at_app1 (a b : list Z) i : 0 <= i < zlen a -> at_ (a ++ b) i = at_ a i.
Proof. intros H. unfold at_. apply app_nth1. unfold zlen in H. lia. Qed.
Lemma at_app2 (a b : list Z) i : zlen a <= i -> at_ (a ++ b) i = at_ b (i - zlen a).
Proof. intros H. unfold at_. rewrite app_nth2; unfold zlen in *; [|lia]. f_equal. lia. Qed.
Lemma at_firstn (l : list Z) n i : 0 <= i < n -> at_ (firstn (Z.to_nat n) l) i = at_ l i.
Proof.
  intros H. unfold at_. destruct (Nat.lt_ge_cases (Z.to_nat i) (length l)) as [L|L].
  - rewrite <- (firstn_skipn (Z.to_nat n) l) at 2. rewrite app_nth1; auto. rewrite firstn_length. lia.
  - rewrite !nth_overflow; auto. rewrite firstn_length. lia.
Qed.
Lemma nth_skipn' {A} (l : list A) n m d : nth m (skipn n l) d = nth (n + m) l d.
Proof. revert l. induction n; intros l; cbn [skipn Nat.add]; auto. destruct l; [destruct m; reflexivity|apply IHn]. Qed.
Lemma at_skipn (l : list Z) n i : 0 <= n -> 0 <= i -> at_ (skipn (Z.to_nat n) l) i = at_ l (n + i).
Proof. intros. unfold at_. rewrite nth_skipn'. f_equal. lia. Qed.
Lemma zlen_firstn (l : list Z) n : 0 <= n <= zlen l -> zlen (firstn (Z.to_nat n) l) = n.
Proof. intros. unfold zlen in *. rewrite firstn_length. lia. Qed.
Lemma zlen_skipn (l : list Z) n : 0 <= n <= zlen l -> zlen (skipn (Z.to_nat n) l) = zlen l - n.
Proof. intros. unfold zlen in *. rewrite skipn_length. lia. Qed.
Lemma at_cons0 x l : at_ (x :: l) 0 = x.
Proof. reflexivity. Qed.
Lemma at_cons1 x l i : 0 < i -> at_ (x :: l) i = at_ l (i - 1).
Proof. intros H. unfold at_. replace (Z.to_nat i) with (S (Z.to_nat (i - 1))) by lia. reflexivity. Qed.
Lemma at_In (l : list Z) i : 0 <= i < zlen l -> In (at_ l i) l.
Proof. intros H. unfold at_. apply nth_In. unfold zlen in H. lia. Qed.
Lemma at_repeat x n i : 0 <= i < Z.of_nat n -> at_ (repeat x n) i = x.
Proof. intros H. unfold at_. revert H. generalize (Z.to_nat i) as j, (Z2Nat.id i). intros j Hj H. assert (j < n)%nat by lia. clear - H0. revert j H0. induction n; intros j H; [lia|]. destruct j; auto. apply IHn. lia. Qed.
Lemma zlen_repeat (x : Z) n : zlen (repeat x n) = Z.of_nat n.
Proof. unfold zlen. rewrite repeat_length. auto. Qed.
Lemma at_ext (a b : list Z) : zlen a = zlen b -> (forall i, 0 <= i < zlen a -> at_ a i = at_ b i) -> a = b.
Proof.
  intros L E. apply nth_ext with (d := 0) (d' := 0); [unfold zlen in L; lia|]. intros m Hm. specialize (E (Z.of_nat m)). unfold at_ in E. rewrite Nat2Z.id in E. apply E. unfold zlen. lia.
Qed.
Lemma suffix_at (v : list Z) p : 0 <= p < zlen v -> suffix v p = at_ v p :: suffix v (p + 1).
Proof.
  intros H. unfold suffix, at_. replace (Z.to_nat (p + 1)) with (S (Z.to_nat p)) by lia. unfold zlen in H.
  assert (Z.to_nat p < length v)%nat as L by lia. clear H. revert L. generalize (Z.to_nat p) as q. clear p. intros q. revert v. induction q; intros [|x v] H; cbn in *; try lia; auto. apply IHq. lia.
Qed.
Lemma suffix_end (v : list Z) p : zlen v <= p -> suffix v p = [].
Proof. intros. unfold suffix. apply skipn_all2. unfold zlen in *. lia. Qed.
Lemma suffix_inj' v p q : 0 <= p <= zlen v -> 0 <= q <= zlen v -> suffix v p = suffix v q -> p = q.
Proof. intros Hp Hq E. apply (f_equal (@length Z)) in E. unfold suffix in E. rewrite !skipn_length in E. unfold zlen in *. lia. Qed.
Lemma lex_trich a : forall b, a = b \/ lex_lt a b \/ lex_lt b a.
Proof.
  induction a as [|x a IH]; intros [|y b]; cbn; auto. destruct (Z.lt_trichotomy x y) as [H|[H|H]]; auto. destruct (IH b) as [-> |[G|G]]; subst; auto.
Qed.
Lemma lex_trans a : forall b c, lex_lt a b -> lex_lt b c -> lex_lt a c.
Proof.
  induction a as [|x a IH]; intros [|y b] [|z c]; cbn; auto; try tauto. intros [H|[-> H]] [G|[-> G]]; auto; try (left; lia). right. split; auto. eapply IH; eauto.
Qed.

(** ** counting *)
Lemma cnt_1 f : cnt f 1 = Z.b2z (f 0).
Proof. change 1 with (0 + 1). rewrite cnt_S, cnt_0 by lia. lia. Qed.
Lemma NoDup_map_in {A B} (f : A -> B) l : (forall x y, In x l -> In y l -> f x = f y -> x = y) -> NoDup l -> NoDup (map f l).
Proof.
  intros Inj. induction 1 as [|x l Hx ND IH]; cbn; constructor.
  - intros H. apply in_map_iff in H. destruct H as (y & E & Hy). apply Inj in E; cbn; auto. subst. auto.
  - apply IH. intros a b Ha Hb. apply Inj; cbn; auto.
Qed.
Lemma inj_cnt (g : Z -> Z) f n a b : 0 <= n -> a <= b -> (forall t, a <= t < b -> 0 <= g t < n /\ f (g t) = true) ->
  (forall t u, a <= t < b -> a <= u < b -> g t = g u -> t = u) -> b - a <= cnt f n.
Proof.
  intros Hn Hab R Inj. set (N := Z.to_nat n). set (l := map Z.of_nat (seq 0 N)).
  assert (zlen l = n) as Ll by (unfold l, zlen, N; rewrite map_length, seq_length; lia).
  assert (cnt f n = zlen (filter f l)) as E. { rewrite <- cnt_filter, Ll. apply cnt_ext. intros i Hi. unfold l. rewrite at_seq; auto. unfold N. lia. }
  set (d := map (fun i => g (a + Z.of_nat i)) (seq 0 (Z.to_nat (b - a)))).
  assert (NoDup d) as ND. { unfold d. apply NoDup_map_in; [|apply seq_NoDup]. intros x y Hx Hy E1. rewrite in_seq in Hx, Hy. apply Inj in E1; lia. }
  assert (length d <= length (filter f l))%nat as L. { apply NoDup_incl_length; auto. intros x Hx. unfold d in Hx. apply in_map_iff in Hx. destruct Hx as (i & <- & Hi). rewrite in_seq in Hi. specialize (R (a + Z.of_nat i) ltac:(lia)). apply filter_In. split; [|apply R]. unfold l. apply in_map_iff. exists (Z.to_nat (g (a + Z.of_nat i))). split; [lia|]. apply in_seq. unfold N. lia. }
  rewrite E. unfold zlen. unfold d in L. rewrite map_length, seq_length in L. lia.
Qed.
Lemma onto_cnt (g : Z -> Z) f n a b : 0 <= n -> a <= b -> (forall p, 0 <= p < n -> f p = true -> exists t, a <= t < b /\ g t = p) -> cnt f n <= b - a.
Proof.
  intros Hn Hab Su. set (N := Z.to_nat n). set (l := map Z.of_nat (seq 0 N)).
  assert (zlen l = n) as Ll by (unfold l, zlen, N; rewrite map_length, seq_length; lia).
  assert (cnt f n = zlen (filter f l)) as E. { rewrite <- cnt_filter, Ll. apply cnt_ext. intros i Hi. unfold l. rewrite at_seq; auto. unfold N. lia. }
  set (d := map (fun i => g (a + Z.of_nat i)) (seq 0 (Z.to_nat (b - a)))).
  assert (NoDup (filter f l)) as ND. { apply NoDup_filter. unfold l. apply NoDup_map_in; [|apply seq_NoDup]. intros x y. lia. }
  assert (length (filter f l) <= length d)%nat as L. { apply NoDup_incl_length; auto. intros x Hx. apply filter_In in Hx. destruct Hx as [Hx Fx]. unfold l in Hx. apply in_map_iff in Hx. destruct Hx as (i & <- & Hi). rewrite in_seq in Hi. destruct (Su (Z.of_nat i)) as (t & Ht & Et); auto; [unfold N in Hi; lia|]. unfold d. apply in_map_iff. exists (Z.to_nat (t - a)). split; [rewrite <- Et; f_equal; lia|]. apply in_seq. lia. }
  rewrite E. unfold zlen. unfold d in L. rewrite map_length, seq_length in L. lia.
Qed.
(** an injection of [0,n) into itself is onto *)
Lemma inj_onto (g : Z -> Z) n : 0 <= n -> (forall t, 0 <= t < n -> 0 <= g t < n) -> (forall t u, 0 <= t < n -> 0 <= u < n -> g t = g u -> t = u) -> forall p, 0 <= p < n -> exists t, 0 <= t < n /\ g t = p.
Proof.
  intros Hn R Inj p Hp. set (N := Z.to_nat n). set (d := map (fun i => g (Z.of_nat i)) (seq 0 N)). set (l := map Z.of_nat (seq 0 N)).
  assert (NoDup d) as ND. { unfold d. apply NoDup_map_in; [|apply seq_NoDup]. intros x y Hx Hy E1. rewrite in_seq in Hx, Hy. apply Inj in E1; unfold N in *; lia. }
  assert (incl l d) as I. { apply NoDup_length_incl; auto. - unfold l, d. rewrite !map_length. lia. - intros x Hx. unfold d in Hx. apply in_map_iff in Hx. destruct Hx as (i & <- & Hi). rewrite in_seq in Hi. specialize (R (Z.of_nat i) ltac:(unfold N in *; lia)). unfold l. apply in_map_iff. exists (Z.to_nat (g (Z.of_nat i))). split; [lia|]. apply in_seq. unfold N. lia. }
  assert (In p l) as Ip. { unfold l. apply in_map_iff. exists (Z.to_nat p). split; [lia|]. apply in_seq. unfold N. lia. }
  apply I in Ip. unfold d in Ip. apply in_map_iff in Ip. destruct Ip as (i & E & Hi). rewrite in_seq in Hi. exists (Z.of_nat i). unfold N in Hi. split; [lia|auto].
Qed.
(** a surjection of [0,n) onto itself is one to one *)
Lemma onto_inj (g : Z -> Z) n : 0 <= n -> (forall p, 0 <= p < n -> exists t, 0 <= t < n /\ g t = p) -> (forall t, 0 <= t < n -> 0 <= g t < n) /\ (forall t u, 0 <= t < n -> 0 <= u < n -> g t = g u -> t = u).
Proof.
  intros Hn Su. set (N := Z.to_nat n). set (d := map (fun i => g (Z.of_nat i)) (seq 0 N)). set (l := map Z.of_nat (seq 0 N)).
  assert (NoDup l) as NDl. { unfold l. apply NoDup_map_in; [|apply seq_NoDup]. intros x y. lia. }
  assert (incl l d) as I. { intros x Hx. unfold l in Hx. apply in_map_iff in Hx. destruct Hx as (i & <- & Hi). rewrite in_seq in Hi. destruct (Su (Z.of_nat i)) as (t & Ht & E); [unfold N in *; lia|]. unfold d. apply in_map_iff. exists (Z.to_nat t). rewrite Z2Nat.id by lia. split; auto. apply in_seq. unfold N. lia. }
  assert (length d = length l) as L by (unfold d, l; rewrite !map_length; auto).
  assert (NoDup d) as NDd. { apply (@NoDup_incl_NoDup Z l d NDl); auto; lia. }
  assert (incl d l) as J. { apply NoDup_length_incl; auto. lia. }
  split.
  - intros t Ht. assert (In (g t) l) as G. { apply J. unfold d. apply in_map_iff. exists (Z.to_nat t). rewrite Z2Nat.id by lia. split; auto. apply in_seq. unfold N. lia. }
    unfold l in G. apply in_map_iff in G. destruct G as (i & <- & Hi). rewrite in_seq in Hi. unfold N in Hi. lia.
  - intros t u Ht Hu E. assert (Z.to_nat t = Z.to_nat u) as X; [|lia]. apply (proj1 (NoDup_nth d 0) NDd).
    + unfold d. rewrite map_length, seq_length. unfold N. lia.
    + unfold d. rewrite map_length, seq_length. unfold N. lia.
    + assert (forall m, (m < N)%nat -> nth m d 0 = g (Z.of_nat m)) as X. { intros m Hm. unfold d. apply nth_error_nth. apply (map_nth_error (fun i => g (Z.of_nat i))). rewrite (nth_error_nth' _ 0%nat) by (rewrite seq_length; auto). rewrite seq_nth by auto. auto. }
      rewrite !X by (unfold N; lia). rewrite !Z2Nat.id by lia. auto.
Qed.

Fixpoint presum (m : nat) (l : list Z) : Z := match m, l with S m', x :: l' => x + presum m' l' | _, _ => 0 end.
Lemma presum_S m : forall l, (m < length l)%nat -> presum (S m) l = presum m l + nth m l 0.
Proof. induction m as [|m IH]; intros [|x l] H; cbn [length] in H; try lia; [cbn; destruct l; cbn; lia|]. cbn [nth]. change (x + presum (S m) l = x + presum m l + nth m l 0). rewrite IH by lia. lia. Qed.

(** ** Types: a position is S-type if its suffix is smaller than the next one *)
Fixpoint styp (l : list Z) : bool :=
  match l with
  | [] => false
  | x :: l' => match l' with [] => false | y :: _ => (x <? y) || ((x =? y) && styp l') end
  end.

Section Types.
Variables (T : list Z) (k : Z).
Notation n := (zlen T).
Notation t_ := (at_ T).
Hypothesis Hn : 1 <= n.
Hypothesis HT : forall p, 0 <= p < n -> 0 <= t_ p < k.

Set Default Proof Using "Hn HT".
Definition isS (p : Z) : bool := styp (suffix T p).
Definition lms (p : Z) : bool := (0 <? p) && isS p && negb (isS (p - 1)).

Lemma isS_last : isS (n - 1) = false.
Proof. unfold isS. rewrite suffix_at by lia. rewrite (suffix_end T (n - 1 + 1)) by lia. reflexivity. Qed.
Lemma isS_end p : n <= p -> isS p = false.
Proof. intros. unfold isS. rewrite suffix_end by auto. reflexivity. Qed.
Lemma isS_step p : 0 <= p < n - 1 -> isS p = (t_ p <? t_ (p + 1)) || ((t_ p =? t_ (p + 1)) && isS (p + 1)).
Proof. intros H. unfold isS. rewrite (suffix_at T p) by lia. rewrite (suffix_at T (p + 1)) by lia. reflexivity. Qed.
Lemma isS_lt p : 0 <= p -> isS p = true -> p < n - 1.
Proof. intros Hp H. destruct (Z_lt_le_dec p (n - 1)); auto. destruct (Z.eq_dec p (n - 1)) as [-> |]; [rewrite isS_last in H; discriminate|]. rewrite isS_end in H by lia. discriminate. Qed.
Lemma S_le p : 0 <= p -> isS p = true -> t_ p <= t_ (p + 1).
Proof. intros Hp H. pose proof (isS_lt p Hp H). rewrite isS_step in H by lia. lia. Qed.
Lemma S_eq p : 0 <= p -> isS p = true -> t_ p = t_ (p + 1) -> isS (p + 1) = true.
Proof. intros Hp H E. pose proof (isS_lt p Hp H). rewrite isS_step in H by lia. rewrite E in H. destruct (Z.ltb_spec (t_ (p + 1)) (t_ (p + 1))); [lia|]. rewrite Z.eqb_refl in H. auto. Qed.
Lemma SL_lt p : 0 <= p -> isS p = true -> isS (p + 1) = false -> t_ p < t_ (p + 1).
Proof. intros Hp H E. pose proof (S_le p Hp H). destruct (Z.eq_dec (t_ p) (t_ (p + 1))); [|lia]. apply S_eq in H; auto. congruence. Qed.
Lemma L_ge p : 0 <= p < n - 1 -> isS p = false -> t_ (p + 1) <= t_ p.
Proof. intros Hp H. rewrite isS_step in H by lia. lia. Qed.
Lemma L_eq p : 0 <= p < n - 1 -> isS p = false -> t_ p = t_ (p + 1) -> isS (p + 1) = false.
Proof. intros Hp H E. rewrite isS_step in H by lia. rewrite E, Z.eqb_refl in H. apply orb_false_iff in H. destruct H as [_ H]. exact H. Qed.
Lemma LS_gt p : 0 <= p < n - 1 -> isS p = false -> isS (p + 1) = true -> t_ (p + 1) < t_ p.
Proof. intros Hp H E. pose proof (L_ge p Hp H). destruct (Z.eq_dec (t_ p) (t_ (p + 1))); [|lia]. apply L_eq in H; auto. congruence. Qed.
Lemma predS_L p : 0 < p < n -> isS p = false -> isS (p - 1) = (t_ (p - 1) <? t_ p).
Proof. intros Hp H. rewrite isS_step by lia. replace (p - 1 + 1) with p by lia. rewrite H. rewrite andb_false_r, orb_false_r. auto. Qed.
Lemma predS_S p : 0 < p < n -> isS p = true -> isS (p - 1) = negb (t_ p <? t_ (p - 1)).
Proof. intros Hp H. rewrite isS_step by lia. replace (p - 1 + 1) with p by lia. rewrite H. lia. Qed.
Lemma lms_range p : lms p = true -> 0 < p < n - 1 /\ isS p = true /\ isS (p - 1) = false /\ t_ p < t_ (p - 1).
Proof.
  unfold lms. intros H. apply andb_prop in H. destruct H as [H1 H2]. apply andb_prop in H1. destruct H1 as [H0 H1]. apply Z.ltb_lt in H0. apply negb_true_iff in H2. pose proof (isS_lt p ltac:(lia) H1).
  assert (t_ (p - 1 + 1) < t_ (p - 1)). { apply LS_gt; try lia; auto. replace (p - 1 + 1) with p by lia. auto. } replace (p - 1 + 1) with p in * by lia. auto.
Qed.
Lemma lms_succ p : 0 <= p < n - 1 -> isS p = false -> isS (p + 1) = true -> lms (p + 1) = true.
Proof. intros Hp H E. unfold lms. replace (p + 1 - 1) with p by lia. rewrite E, H. destruct (Z.ltb_spec 0 (p + 1)); [auto|lia]. Qed.

(** ** order of suffixes *)
Lemma lex_first p q : 0 <= p < n -> 0 <= q < n -> t_ p < t_ q -> lex_lt (suffix T p) (suffix T q).
Proof. intros Hp Hq H. rewrite (suffix_at T p), (suffix_at T q) by lia. cbn. auto. Qed.
Lemma lex_next p q : 0 <= p < n -> 0 <= q < n -> t_ p = t_ q -> lex_lt (suffix T (p + 1)) (suffix T (q + 1)) -> lex_lt (suffix T p) (suffix T q).
Proof. intros Hp Hq H G. rewrite (suffix_at T p), (suffix_at T q) by lia. cbn. auto. Qed.
Lemma lex_type : forall m p q, n - p <= Z.of_nat m -> 0 <= p < n -> 0 <= q < n -> t_ p = t_ q -> isS p = false -> isS q = true -> lex_lt (suffix T p) (suffix T q).
Proof.
  induction m as [|m IH]; intros p q Hm Hp Hq E Lp Sq; [lia|]. apply lex_next; auto. pose proof (isS_lt q ltac:(lia) Sq).
  destruct (Z.eq_dec p (n - 1)) as [-> |Np]. { rewrite suffix_end by lia. rewrite suffix_at by lia. exact I. }
  pose proof (L_ge p ltac:(lia) Lp) as G1. pose proof (S_le q ltac:(lia) Sq) as G2.
  destruct (Z_lt_le_dec (t_ (p + 1)) (t_ (q + 1))) as [L|L]; [apply lex_first; auto; lia|].
  apply IH; try lia.
  - apply L_eq; auto; lia.
  - apply S_eq; auto; lia.
Qed.

(** ** buckets *)
Definition bs (c : Z) : Z := cnt (fun p => t_ p <? c) n.
Definition lc (c : Z) : Z := cnt (fun p => (t_ p =? c) && negb (isS p)) n.
Definition sc (c : Z) : Z := cnt (fun p => (t_ p =? c) && isS p) n.
Lemma bs_0 : bs 0 = 0.
Proof. apply cnt_false. intros i Hi. pose proof (HT i Hi). lia. Qed.
Lemma bs_k : bs k = n.
Proof. unfold bs. rewrite (cnt_ext _ (fun i => negb ((fun _ => false) i))). 2:{ intros i Hi. pose proof (HT i Hi). cbn. lia. } rewrite cnt_negb by lia. rewrite cnt_false by auto. lia. Qed.
Lemma bs_next c : bs (c + 1) = bs c + lc c + sc c.
Proof.
  unfold bs, lc, sc. generalize n as m. intros m. destruct (Z_lt_le_dec m 0). { rewrite !cnt_0 by lia. lia. } pattern m. apply Zind; [rewrite !cnt_0; lia| |auto]. intros i Hi IH. rewrite !cnt_S, IH by auto. destruct (isS i); cbn [negb]; rewrite ?andb_false_r, ?andb_true_r; destruct (Z.ltb_spec (t_ i) (c + 1)), (Z.ltb_spec (t_ i) c), (Z.eqb_spec (t_ i) c); cbn [Z.b2z]; lia.
Qed.
Lemma lc_nonneg c : 0 <= lc c. Proof. apply cnt_nonneg. Qed.
Lemma sc_nonneg c : 0 <= sc c. Proof. apply cnt_nonneg. Qed.
Lemma bs_mono c d : c <= d -> bs c <= bs d.
Proof.
  intros H. unfold bs. generalize n as m. intros m. destruct (Z_lt_le_dec m 0). { rewrite !cnt_0 by lia. lia. } pattern m. apply Zind; [rewrite !cnt_0; lia| |auto]. intros i Hi IH. rewrite !cnt_S by auto. destruct (Z.ltb_spec (t_ i) c), (Z.ltb_spec (t_ i) d); cbn [Z.b2z]; lia.
Qed.
Lemma bs_range c : 0 <= bs c <= n.
Proof. apply cnt_bounds. lia. Qed.
(** every slot lies in one bucket *)
Lemma slot_bucket t : 0 <= t < n -> exists c, 0 <= c < k /\ bs c <= t < bs (c + 1).
Proof.
  intros Ht. assert (1 <= k) as Hk by (pose proof (HT 0 ltac:(lia)); lia).
  assert (forall m, 0 <= m -> m <= k -> t < bs m -> exists c, 0 <= c < m /\ bs c <= t < bs (c + 1)) as X.
  { intros m Hm. pattern m. apply Zind; [| |auto].
    - intros _ H. rewrite bs_0 in H. lia.
    - intros i Hi IH Hik H. destruct (Z_lt_le_dec t (bs i)) as [L|L].
      + destruct IH as (c & Hc & Hb); auto; [lia|]. exists c. split; auto. lia.
      + exists i. split; lia. }
  apply X; try lia. rewrite bs_k. lia.
Qed.
Lemma bucket_order c d t u : bs c <= t < bs (c + 1) -> bs d <= u < bs (d + 1) -> t < u -> c <= d.
Proof. intros Hc Hd H. destruct (Z_le_gt_dec c d); auto. pose proof (bs_mono (d + 1) c ltac:(lia)). lia. Qed.
Lemma bucket_unique c d t : bs c <= t < bs (c + 1) -> bs d <= t < bs (d + 1) -> c = d.
Proof. intros Hc Hd. destruct (Z.lt_trichotomy c d) as [H|[H|H]]; auto; [pose proof (bs_mono (c + 1) d ltac:(lia))|pose proof (bs_mono (d + 1) c ltac:(lia))]; lia. Qed.

(** ** getCounts and getBuckets *)
Lemma count_syms_ok l : forall C, zlen C = k -> Forall (fun c => 0 <= c < k) l ->
  exists C', count_syms l C = Ok C' /\ zlen C' = k /\ forall c, 0 <= c < k -> at_ C' c = at_ C c + cnt (fun i => at_ l i =? c) (zlen l).
Proof.
  induction l as [|x l IH]; intros C HC F.
  - exists C. split; auto. split; auto. intros. rewrite zlen_nil, cnt_0 by lia. lia.
  - pose proof (Forall_inv F) as Hx. cbn beta in Hx. cbn [count_syms]. rewrite rd_at by lia. cbn [bind]. destruct (wr_at C x (at_ C x + 1)) as (C1 & -> & L1 & A1); [lia|]. cbn [bind]. destruct (IH C1) as (C' & E & L & A); [lia|eapply Forall_inv_tail; eauto|]. exists C'. split; auto. split; auto. intros c Hc.
    rewrite A by auto. rewrite A1 by lia. rewrite zlen_cons, cnt_add by (try lia; apply zlen_nonneg). rewrite (cnt_ext (fun i => at_ (x :: l) (1 + i) =? c) (fun i => at_ l i =? c)).
    2:{ intros i Hi. rewrite at_cons1 by lia. do 2 f_equal. lia. }
    rewrite cnt_1, at_cons0. destruct (Z.eqb_spec c x), (Z.eqb_spec x c); subst; cbn [Z.b2z]; lia.
Qed.
Definition counts_ok (C : list Z) : Prop := zlen C = k /\ forall c, 0 <= c < k -> at_ C c = lc c + sc c.
Lemma lcsc c : lc c + sc c = cnt (fun i => t_ i =? c) n.
Proof.
  unfold lc, sc. generalize n as m. intros m. destruct (Z_lt_le_dec m 0). { rewrite !cnt_0 by lia. lia. } pattern m. apply Zind; [rewrite !cnt_0; lia| |auto]. intros i Hi IH. rewrite !cnt_S by auto. rewrite <- IH. destruct (isS i), (t_ i =? c); cbn [Z.b2z negb andb]; lia.
Qed.
Lemma in_at (l : list Z) x : In x l -> exists i, 0 <= i < zlen l /\ at_ l i = x.
Proof. intros H. apply (In_nth _ _ 0) in H. destruct H as (i & Hi & E). exists (Z.of_nat i). unfold at_, zlen. rewrite Nat2Z.id. split; [lia|auto]. Qed.
Lemma T_forall : Forall (fun c => 0 <= c < k) T.
Proof. apply Forall_forall. intros x H. apply in_at in H. destruct H as (i & Hi & <-). apply HT. auto. Qed.
Lemma getCounts_ok : exists C, getCounts T k = Ok C /\ counts_ok C.
Proof.
  assert (1 <= k) as Hk by (pose proof (HT 0 ltac:(lia)); lia).
  unfold getCounts. destruct (count_syms_ok T (repeat 0 (Z.to_nat k))) as (C & E & L & A); [rewrite zlen_repeat; lia|apply T_forall|]. exists C. split; auto. split; auto. intros c Hc. rewrite A, lcsc by auto. rewrite at_repeat by lia. lia.
Qed.
Lemma buckets_ok e C : forall sum, zlen (buckets C sum e) = zlen C /\ forall c, 0 <= c < zlen C -> at_ (buckets C sum e) c = sum + presum (Z.to_nat (if e then c + 1 else c)) C.
Proof.
  induction C as [|x C IH]; intros sum. { split; auto. intros c Hc. rewrite zlen_nil in Hc. lia. }
  cbn [buckets]. destruct (IH (sum + x)) as [L A]. split; [rewrite !zlen_cons; lia|]. intros c Hc. rewrite zlen_cons in Hc. destruct (Z.eq_dec c 0) as [-> |].
  - rewrite at_cons0. destruct e; [change (Z.to_nat (0 + 1)) with 1%nat; destruct C|change (Z.to_nat 0) with O]; cbn [presum]; lia.
  - rewrite at_cons1 by lia. rewrite A by lia. destruct e.
    + replace (Z.to_nat (c + 1)) with (S (Z.to_nat (c - 1 + 1))) by lia. cbn [presum]. lia.
    + destruct (Z.to_nat c) as [|d] eqn:E; [lia|]. replace (Z.to_nat (c - 1)) with d by lia. cbn [presum]. lia.
Qed.
Lemma getBuckets_ok C e : counts_ok C -> zlen (getBuckets C e) = k /\ forall c, 0 <= c < k -> at_ (getBuckets C e) c = if e then bs (c + 1) else bs c.
Proof.
  intros [L A]. unfold getBuckets. destruct (buckets_ok e C 0) as [LB AB]. split; [lia|]. intros c Hc. rewrite AB by lia. rewrite Z.add_0_l.
  assert (forall m, (m <= length C)%nat -> presum m C = bs (Z.of_nat m)) as X; [|rewrite X by (unfold zlen in L; destruct e; lia); destruct e; f_equal; lia].
  induction m as [|m IH]; intros Hm. { change (Z.of_nat 0) with 0. rewrite bs_0. destruct C; auto. }
  rewrite presum_S, IH by lia. replace (Z.of_nat (S m)) with (Z.of_nat m + 1) by lia. rewrite bs_next. specialize (A (Z.of_nat m)). unfold at_ in A. rewrite Nat2Z.id in A. rewrite A by (unfold zlen in L; lia). lia.
Qed.
Lemma counts_buckets_ok alias C e : counts_ok C -> exists C', counts_buckets alias T C k e = Ok (C', getBuckets C' e) /\ counts_ok C'.
Proof. intros H. unfold counts_buckets. destruct alias; [|exists C; auto]. destruct getCounts_ok as (C' & -> & H'). exists C'. auto. Qed.
End Types.
