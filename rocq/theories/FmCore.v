(** Suffix arrays and the backward-search step: the combinatorial part of C31. *)
Require Import Verif.Common Verif.Cnt Verif.WaveletProps.
From Coq Require Import Permutation.
Ltac Zify.zify_post_hook ::= idtac.

(** ** Specification: lexicographic order, suffix arrays, occurrences *)
Fixpoint lex_lt (a b : list Z) : Prop :=
  match a, b with
  | _, [] => False
  | [], _ :: _ => True
  | x :: a, y :: b => x < y \/ (x = y /\ lex_lt a b)
  end.
Definition suffix (v : list Z) (p : Z) : list Z := skipn (Z.to_nat p) v.
Definition at_ (l : list Z) (i : Z) : Z := nth (Z.to_nat i) l 0.
(** sa lists the positions of v in the order of their suffixes *)
Definition is_suffix_array (v sa : list Z) : Prop :=
  Permutation sa (map Z.of_nat (seq 0 (length v))) /\
  forall i j, 0 <= i < j -> j < zlen v -> lex_lt (suffix v (at_ sa i)) (suffix v (at_ sa j)).
Definition occurs (key text : list Z) (p : Z) : Prop := exists pre post, text = pre ++ key ++ post /\ zlen pre = p.

(** ** lexicographic order *)
Lemma lex_irrefl a : ~ lex_lt a a.
Proof. induction a as [|x a IH]; cbn; [auto|]. intros [H|[_ H]]; [lia|auto]. Qed.
Lemma lex_asym a : forall b, lex_lt a b -> ~ lex_lt b a.
Proof. induction a as [|x a IH]; intros [|y b]; cbn; auto. intros [H|[-> H]] [G|[E G]]; try lia. apply (IH b); auto. Qed.
Lemma lex_head x a y b : lex_lt (x :: a) (y :: b) -> x <= y /\ (x = y -> lex_lt a b).
Proof. cbn. intros [H|[-> H]]; split; auto; lia. Qed.

(** ** counting *)
Lemma cnt_filter (f : Z -> bool) l : cnt (fun i => f (at_ l i)) (zlen l) = zlen (filter f l).
Proof.
  induction l as [|x l IH] using rev_ind; [reflexivity|]. rewrite zlen_app. change (zlen [x]) with 1. rewrite cnt_S by apply zlen_nonneg. rewrite filter_app, zlen_app.
  rewrite (cnt_ext _ (fun i => f (at_ l i))). 2:{ intros i Hi. unfold at_. rewrite app_nth1; auto. unfold zlen in Hi. lia. }
  rewrite IH. f_equal. unfold at_. rewrite app_nth2 by (unfold zlen; lia). replace (Z.to_nat (zlen l) - length l)%nat with 0%nat by (unfold zlen; lia). cbn. destruct (f x); reflexivity.
Qed.
Lemma filter_perm (f : Z -> bool) a b : Permutation a b -> zlen (filter f a) = zlen (filter f b).
Proof.
  induction 1 as [|x a b H IH|x y l|a b c H1 IH1 H2 IH2]; auto.
  - cbn. destruct (f x); rewrite ?zlen_cons; lia.
  - cbn. destruct (f x), (f y); rewrite ?zlen_cons; lia.
  - lia.
Qed.
Lemma cnt_filter_n (f : Z -> bool) l n : 0 <= n <= zlen l -> cnt (fun i => f (at_ l i)) n = zlen (filter f (firstn (Z.to_nat n) l)).
Proof.
  intros H. rewrite <- cnt_filter. assert (zlen (firstn (Z.to_nat n) l) = n) as -> by (unfold zlen in *; rewrite firstn_length; lia). apply cnt_ext. intros i Hi. f_equal. unfold at_.
  rewrite <- (firstn_skipn (Z.to_nat n) l) at 1. rewrite app_nth1; auto. rewrite firstn_length. unfold zlen in H. lia.
Qed.
Lemma cnt_down f n : 0 <= n -> (forall i j, 0 <= i < j -> j < n -> f j = true -> f i = true) -> forall j, 0 <= j < n -> f j = (j <? cnt f n).
Proof.
  intros Hn. pattern n. apply Zind; [intros; lia| |auto]. intros k Hk IH D j Hj. rewrite cnt_S by auto. pose proof (cnt_bounds f k Hk) as B. destruct (f k) eqn:E; cbn [Z.b2z].
  - assert (cnt f k = k) as C. { clear - D E Hk. assert (forall i, 0 <= i < k -> f i = true) as A by (intros i Hi; apply (D i k); auto; lia). clear D E. revert A. pattern k. apply Zind; [intros; rewrite cnt_0; lia| |auto]. intros m Hm IHm A. rewrite cnt_S by auto. rewrite IHm by (intros; apply A; lia). rewrite A by lia. cbn. lia. }
    rewrite C. destruct (Z.eq_dec j k) as [-> |]; [rewrite E; symmetry; apply Z.ltb_lt; lia|]. rewrite (D j k) by (auto; lia). symmetry. apply Z.ltb_lt. lia.
  - rewrite Z.add_0_r. destruct (Z.eq_dec j k) as [-> |]; [rewrite E; symmetry; apply Z.ltb_ge; lia|]. apply IH; [|lia]. intros a b Ha Hb. apply D; lia.
Qed.
Lemma cnt_or f g n : 0 <= n -> (forall i, 0 <= i < n -> f i = true -> g i = false) -> cnt (fun i => f i || g i) n = cnt f n + cnt g n.
Proof.
  intros Hn. pattern n. apply Zind; [intros; rewrite !cnt_0; lia| |auto]. intros k Hk IH D. rewrite !cnt_S, IH by (auto; intros; apply D; auto; lia). specialize (D k ltac:(lia)). destruct (f k); cbn [orb Z.b2z]; [rewrite D by auto|]; cbn [Z.b2z]; lia.
Qed.
Lemma cnt_lim f n b : 0 <= b <= n -> cnt (fun i => f i && (i <? b)) n = cnt f b.
Proof.
  intros H. replace n with (b + (n - b)) by lia. rewrite cnt_add by lia. rewrite (cnt_false (fun i => f (b + i) && (b + i <? b))). 2:{ intros i Hi. cbn beta. replace (b + i <? b) with false by (symmetry; apply Z.ltb_ge; lia). apply andb_false_r. }
  rewrite Z.add_0_r. apply cnt_ext. intros i Hi. replace (i <? b) with true by (symmetry; apply Z.ltb_lt; lia). apply andb_true_r.
Qed.

(** ** the text, its suffix array and its BWT *)
Section Core.
Variables (t sa : list Z).
Let v := t ++ [0].
Let n := zlen v.
Hypothesis Ht : Forall (fun x => 1 <= x) t.
Hypothesis Hsa : is_suffix_array v sa.

Lemma n_pos : 1 <= n.
Proof. unfold n, v. rewrite zlen_app. change (zlen [0]) with 1. pose proof (zlen_nonneg t). lia. Qed.
Lemma sa_len : zlen sa = n.
Proof. destruct Hsa as [P _]. unfold zlen. rewrite (Permutation_length P), map_length, seq_length. reflexivity. Qed.
Lemma at_seq i N : 0 <= i < Z.of_nat N -> at_ (map Z.of_nat (seq 0 N)) i = i.
Proof. intros H. unfold at_. change 0 with (Z.of_nat 0) at 1. rewrite map_nth, seq_nth by lia. lia. Qed.
Lemma perm_cnt f : cnt (fun i => f (at_ sa i)) n = cnt f n.
Proof.
  destruct Hsa as [P _]. rewrite <- sa_len, cnt_filter, (filter_perm f _ _ P), <- cnt_filter. assert (zlen (map Z.of_nat (seq 0 (length v))) = n) as -> by (unfold zlen; rewrite map_length, seq_length; reflexivity).
  rewrite sa_len. apply cnt_ext. intros i Hi. rewrite at_seq; auto.
Qed.
Lemma at_in l i : 0 <= i < zlen l -> In (at_ l i) l.
Proof. intros H. unfold at_. apply nth_In. unfold zlen in H. lia. Qed.
Lemma sa_range i : 0 <= i < n -> 0 <= at_ sa i < n.
Proof.
  intros H. destruct Hsa as [P _]. assert (In (at_ sa i) (map Z.of_nat (seq 0 (length v)))) as I by (eapply Permutation_in; [exact P|apply at_in; rewrite sa_len; auto]).
  apply in_map_iff in I. destruct I as (k & <- & I). apply in_seq in I. unfold n, zlen. lia.
Qed.
Lemma sa_surj p : 0 <= p < n -> exists i, 0 <= i < n /\ at_ sa i = p.
Proof.
  intros H. destruct Hsa as [P _]. assert (In p sa) as I. { eapply Permutation_in; [apply Permutation_sym; exact P|]. apply in_map_iff. exists (Z.to_nat p). split; [lia|]. apply in_seq. unfold n, zlen in H. lia. }
  apply (In_nth _ _ 0) in I. destruct I as (k & Hk & E). exists (Z.of_nat k). rewrite <- sa_len. unfold zlen. split; [lia|]. unfold at_. rewrite Nat2Z.id. auto.
Qed.
Lemma sa_inj i j : 0 <= i < n -> 0 <= j < n -> at_ sa i = at_ sa j -> i = j.
Proof.
  intros Hi Hj E. destruct Hsa as [_ O]. destruct (Z.lt_trichotomy i j) as [L|[L|L]]; auto.
  - pose proof (O i j ltac:(lia) ltac:(fold n; lia)) as X. rewrite E in X. destruct (lex_irrefl _ X).
  - pose proof (O j i ltac:(lia) ltac:(fold n; lia)) as X. rewrite E in X. destruct (lex_irrefl _ X).
Qed.
Lemma sa_order i j : 0 <= i < n -> 0 <= j < n -> lex_lt (suffix v (at_ sa i)) (suffix v (at_ sa j)) -> i < j.
Proof.
  intros Hi Hj L. destruct (Z.lt_trichotomy i j) as [A|[A|A]]; auto.
  - subst j. destruct (lex_irrefl _ L).
  - destruct Hsa as [_ O]. pose proof (O j i ltac:(lia) ltac:(fold n; lia)) as X. destruct (lex_asym _ _ L X).
Qed.
Lemma suffix_cons p : 0 <= p < n -> suffix v p = at_ v p :: suffix v (p + 1).
Proof.
  intros H. unfold suffix, at_. replace (Z.to_nat (p + 1)) with (S (Z.to_nat p)) by lia. assert (Z.to_nat p < length v)%nat as L by (unfold n, zlen in H; lia). revert L. generalize (Z.to_nat p) as k. clear. induction v as [|x l IH]; intros [|k] L; cbn in *; try lia; auto. apply IH. lia.
Qed.
Lemma v_last : at_ v (n - 1) = 0.
Proof. unfold at_, n, v. rewrite zlen_app. change (zlen [0]) with 1. replace (Z.to_nat (zlen t + 1 - 1)) with (length t) by (unfold zlen; lia). rewrite app_nth2, Nat.sub_diag by lia. auto. Qed.
Lemma v_text p : 0 <= p < n - 1 -> 1 <= at_ v p.
Proof.
  intros H. unfold n, v in H. rewrite zlen_app in H. change (zlen [0]) with 1 in H. unfold at_, v. rewrite app_nth1 by (unfold zlen in H; lia). rewrite Forall_forall in Ht. apply Ht, nth_In. unfold zlen in H. lia.
Qed.
Lemma v_zero p : 0 <= p < n -> (at_ v p = 0 <-> p = n - 1).
Proof. intros H. split; [|intros ->; apply v_last]. intros E. destruct (Z.eq_dec p (n - 1)); auto. pose proof (v_text p ltac:(lia)). lia. Qed.

(** the Burrows-Wheeler transform *)
Definition prev_char (p : Z) : Z := if 0 <? p then at_ v (p - 1) else at_ v (n - 1).
Definition bwt : list Z := map prev_char sa.
Lemma bwt_len : zlen bwt = n.
Proof. unfold bwt. unfold zlen. rewrite map_length. apply sa_len. Qed.
Lemma bwt_at i : 0 <= i < n -> at_ bwt i = prev_char (at_ sa i).
Proof. intros H. unfold at_ at 1, bwt. rewrite (nth_indep _ 0 (prev_char 0)) by (rewrite map_length; pose proof sa_len as L; unfold zlen in L; lia). rewrite map_nth. reflexivity. Qed.
Lemma occ_cnt c l m : 0 <= m <= zlen l -> occ c (before m l) = cnt (fun i => at_ l i =? c) m.
Proof. intros H. rewrite <- filter_occ. unfold before. rewrite <- cnt_filter_n; auto. Qed.

(** is p one of the first b entries of sa *)
Definition mem (p b : Z) : bool := existsb (Z.eqb p) (firstn (Z.to_nat b) sa).
Lemma mem_sa i b : 0 <= i < n -> 0 <= b <= n -> mem (at_ sa i) b = (i <? b).
Proof.
  intros Hi Hb. unfold mem. pose proof sa_len as L. destruct (i <? b) eqn:E.
  - apply existsb_exists. exists (at_ sa i). split; [|apply Z.eqb_refl]. unfold at_. rewrite <- (firstn_skipn (Z.to_nat b) sa) at 1. rewrite app_nth1; [apply nth_In|]; rewrite firstn_length; unfold zlen in L; apply Z.ltb_lt in E; lia.
  - apply Z.ltb_ge in E. destruct (existsb _ _) eqn:X; auto. apply existsb_exists in X. destruct X as (q & I & Q). apply Z.eqb_eq in Q. subst q. apply (In_nth _ _ 0) in I. destruct I as (k & Hk & E2). rewrite firstn_length in Hk.
    assert (Z.of_nat k = i); [|lia]. apply sa_inj; [lia|lia|]. unfold at_ at 1. rewrite Nat2Z.id. rewrite <- E2. rewrite <- (firstn_skipn (Z.to_nat b) sa) at 1. rewrite app_nth1; auto. rewrite firstn_length. lia.
Qed.
(** suffixes that are below c followed by the b-th suffix *)
Definition below (c b p : Z) : bool := (at_ v p <? c) || ((at_ v p =? c) && mem (p + 1) b).
Lemma below_down c b : 1 <= c -> 0 <= b <= n -> forall i j, 0 <= i < j -> j < n -> below c b (at_ sa j) = true -> below c b (at_ sa i) = true.
Proof.
  intros Hc Hb i j Hij Hj B. destruct Hsa as [_ O]. pose proof (O i j Hij Hj) as L. pose proof (sa_range i ltac:(lia)) as Ri. pose proof (sa_range j ltac:(lia)) as Rj. rewrite (suffix_cons (at_ sa i)), (suffix_cons (at_ sa j)) in L by auto. apply lex_head in L. destruct L as [L1 L2].
  unfold below in *. apply orb_true_iff in B. apply orb_true_iff. destruct (Z_lt_le_dec (at_ v (at_ sa i)) c) as [G|G]; [left; apply Z.ltb_lt; auto|right]. destruct B as [B|B]; [apply Z.ltb_lt in B; lia|]. apply andb_true_iff in B. destruct B as [B1 B2]. apply Z.eqb_eq in B1.
  assert (at_ v (at_ sa i) = c) as Ei by lia. rewrite Ei, Z.eqb_refl. cbn [andb]. specialize (L2 ltac:(lia)).
  assert (forall p, 0 <= p < n -> at_ v p = c -> p + 1 < n) as NL. { intros p Hp E. destruct (Z.eq_dec p (n - 1)) as [-> |]; [rewrite v_last in E; lia|lia]. }
  destruct (sa_surj (at_ sa i + 1)) as (i' & Hi' & Ei'). { pose proof (NL (at_ sa i) Ri Ei). lia. } destruct (sa_surj (at_ sa j + 1)) as (j' & Hj' & Ej'). { pose proof (NL (at_ sa j) Rj B1). lia. }
  rewrite <- Ei', <- Ej' in *. rewrite mem_sa in * by auto. pose proof (sa_order i' j' Hi' Hj' L2). lia.
Qed.
Lemma below_count c b : 1 <= c -> 0 <= b <= n -> cnt (fun i => below c b (at_ sa i)) n = occLt c v + occ c (before b bwt).
Proof.
  intros Hc Hb. pose proof n_pos as NP. rewrite (perm_cnt (below c b)). unfold below. rewrite cnt_or; [|lia|]. 2:{ intros i Hi L. apply Z.ltb_lt in L. replace (at_ v i =? c) with false; auto. symmetry. apply Z.eqb_neq. lia. }
  f_equal; [unfold occLt; rewrite <- cnt_filter; auto|]. rewrite occ_cnt by (rewrite bwt_len; lia).
  replace n with ((n - 1) + 1) by lia. rewrite cnt_S by lia. rewrite v_last. replace (0 =? c) with false by (symmetry; apply Z.eqb_neq; lia). cbn [andb Z.b2z]. rewrite Z.add_0_r.
  set (R' := fun q => (0 <? q) && (at_ v (q - 1) =? c) && mem q b).
  assert (cnt (fun i => (at_ v i =? c) && mem (i + 1) b) (n - 1) = cnt R' n) as ->.
  { replace n with (1 + (n - 1)) at 2 by lia. rewrite cnt_add by lia. assert (cnt R' 1 = 0) as -> by (change 1 with (0 + 1); rewrite cnt_S, cnt_0 by lia; reflexivity). rewrite Z.add_0_l. apply cnt_ext. intros i Hi. unfold R'. replace (0 <? 1 + i) with true by (symmetry; apply Z.ltb_lt; lia). cbn [andb]. f_equal; f_equal; try lia. f_equal. lia. }
  rewrite <- (perm_cnt R'). rewrite (cnt_ext _ (fun i => (at_ bwt i =? c) && (i <? b))). { apply cnt_lim. lia. }
  intros i Hi. unfold R'. rewrite mem_sa by lia. rewrite bwt_at by auto. unfold prev_char. f_equal. destruct (0 <? at_ sa i); auto. rewrite v_last. cbn [andb]. symmetry. apply Z.eqb_neq. lia.
Qed.
(** row j is above the threshold exactly when its suffix is below c followed by the b-th suffix *)
Lemma threshold c b j : 1 <= c -> 0 <= b <= n -> 0 <= j < n -> below c b (at_ sa j) = (j <? occLt c v + occ c (before b bwt)).
Proof. intros Hc Hb Hj. rewrite <- below_count by auto. pose proof n_pos. apply (cnt_down (fun i => below c b (at_ sa i)) n); [lia| |auto]. apply below_down; auto. Qed.
Lemma threshold_bounds c b : 1 <= c -> 0 <= b <= n -> 0 <= occLt c v + occ c (before b bwt) <= n.
Proof. intros Hc Hb. rewrite <- below_count by auto. apply cnt_bounds. pose proof n_pos. lia. Qed.

(** rows whose suffix starts with key *)
Definition starts (key : list Z) (p : Z) : Prop := exists post, suffix v p = key ++ post.
Lemma starts_cons c key p : 1 <= c -> 0 <= p < n -> (starts (c :: key) p <-> at_ v p = c /\ p + 1 < n /\ starts key (p + 1)).
Proof.
  intros Hc Hp. unfold starts. rewrite suffix_cons by auto. split.
  - intros (post & E). cbn [app] in E. injection E as E1 E2. split; auto. split; [|eauto]. destruct (Z.eq_dec p (n - 1)) as [-> |]; [rewrite v_last in E1; lia|lia].
  - intros (E1 & _ & post & E2). exists post. cbn [app]. congruence.
Qed.
Definition rows (key : list Z) (b e : Z) : Prop := 0 <= b /\ b <= e <= n /\ forall i, 0 <= i < n -> (b <= i < e <-> starts key (at_ sa i)).
Lemma rows_nil : rows [] 0 n.
Proof. pose proof n_pos. split; [lia|]. split; [lia|]. intros i Hi. split; [|lia]. intros _. exists (suffix v (at_ sa i)). auto. Qed.
Lemma rows_cons c key b e : 1 <= c -> rows key b e -> rows (c :: key) (occLt c v + occ c (before b bwt)) (occLt c v + occ c (before e bwt)).
Proof.
  intros Hc (B0 & BE & H). pose proof (threshold_bounds c b Hc ltac:(lia)) as T1. pose proof (threshold_bounds c e Hc ltac:(lia)) as T2. split; [lia|]. split.
  { split; [|lia]. rewrite !occ_cnt by (rewrite bwt_len; lia). pose proof (cnt_mono (fun i => at_ bwt i =? c) b e ltac:(lia)). lia. }
  intros j Hj. pose proof (threshold c b j Hc ltac:(lia) Hj) as X1. pose proof (threshold c e j Hc ltac:(lia) Hj) as X2. pose proof (sa_range j Hj) as R. rewrite starts_cons by auto. unfold below in *.
  set (Kb := occLt c v + occ c (before b bwt)) in *. set (Ke := occLt c v + occ c (before e bwt)) in *. split.
  - intros [L1 L2]. replace (j <? Kb) with false in X1 by (symmetry; apply Z.ltb_ge; lia). replace (j <? Ke) with true in X2 by (symmetry; apply Z.ltb_lt; lia). apply orb_false_iff in X1. destruct X1 as [X1 X3]. rewrite X1 in X2. cbn [orb] in X2. apply andb_true_iff in X2. destruct X2 as [X2 X4]. rewrite X2 in X3. cbn [andb] in X3. apply Z.eqb_eq in X2. split; auto.
    assert (at_ sa j + 1 < n) as L. { destruct (Z.eq_dec (at_ sa j) (n - 1)) as [E|]; [rewrite E, v_last in X2; lia|lia]. } split; auto. destruct (sa_surj (at_ sa j + 1) ltac:(lia)) as (i & Hi & Ei). rewrite <- Ei in *. rewrite mem_sa in X3, X4 by lia. apply H; auto. lia.
  - intros (E1 & L & S). destruct (sa_surj (at_ sa j + 1) ltac:(lia)) as (i & Hi & Ei). rewrite <- Ei in *. apply H in S; auto. rewrite E1, Z.ltb_irrefl, Z.eqb_refl, mem_sa in X1, X2 by lia. cbn [orb andb] in *. replace (i <? b) with false in X1 by (symmetry; apply Z.ltb_ge; lia). replace (i <? e) with true in X2 by (symmetry; apply Z.ltb_lt; lia).
    symmetry in X1, X2. apply Z.ltb_ge in X1. apply Z.ltb_lt in X2. lia.
Qed.
(** the last-to-first step *)
Lemma lf i : 0 <= i < n -> 0 < at_ sa i -> let c := at_ bwt i in 1 <= c /\ let j := occLt c v + occ c (before i bwt) in 0 <= j < n /\ at_ sa j = at_ sa i - 1 /\ at_ v (at_ sa i - 1) = c.
Proof.
  intros Hi Hp c. pose proof (sa_range i Hi) as R. assert (c = at_ v (at_ sa i - 1)) as Ec. { unfold c. rewrite bwt_at by auto. unfold prev_char. replace (0 <? at_ sa i) with true by (symmetry; apply Z.ltb_lt; lia). auto. }
  assert (1 <= c) as Hc by (rewrite Ec; apply v_text; lia). split; auto. intros j. destruct (sa_surj (at_ sa i - 1) ltac:(lia)) as (k & Hk & Ek).
  pose proof (threshold c i k Hc ltac:(lia) Hk) as X1. pose proof (threshold c (i + 1) k Hc ltac:(lia) Hk) as X2. rewrite Ek in X1, X2. unfold below in X1, X2. rewrite <- Ec, Z.ltb_irrefl, Z.eqb_refl in X1, X2. cbn [orb andb] in X1, X2. replace (at_ sa i - 1 + 1) with (at_ sa i) in X1, X2 by lia.
  rewrite mem_sa in X1, X2 by lia. rewrite Z.ltb_irrefl in X1. replace (i <? i + 1) with true in X2 by (symmetry; apply Z.ltb_lt; lia).
  assert (occ c (before (i + 1) bwt) = occ c (before i bwt) + 1) as S. { rewrite !occ_cnt by (rewrite bwt_len; lia). rewrite cnt_S by lia. unfold c. rewrite Z.eqb_refl. reflexivity. }
  symmetry in X1, X2. apply Z.ltb_ge in X1. apply Z.ltb_lt in X2. assert (j = k) as -> by (unfold j; lia). auto.
Qed.
Lemma lf0 i : 0 <= i < n -> at_ sa i = 0 -> at_ bwt i = 0 .
Proof. intros Hi E. rewrite bwt_at by auto. unfold prev_char. rewrite E. apply v_last. Qed.
End Core.
