(** Proofs for C31: the queries of an FM-index that represents a text, and init. *)
Require Import Verif.Common Verif.Cnt Verif.FrequencyModel Verif.FrequencyProps Verif.BitVecModel Verif.BitVecProps Verif.SucModel Verif.SucProps Verif.WaveletModel Verif.WaveletProps Verif.FmModel Verif.FmCore.
From Coq Require Import Permutation.
Ltac Zify.zify_post_hook ::= idtac.
Notation occ := WaveletProps.occ.

Lemma rd_at l i : 0 <= i < zlen l -> rd l i = Ok (at_ l i).
Proof. intros H. unfold at_. apply rd_nth. auto. Qed.

(** ** the queries *)
Section Query.
Variables (x64 raw t16 : bool) (m : fmi) (text sa : list Z) (enc dec : Z -> Z) (dom : Z -> Prop) (skip charNum : Z).
Let t := map enc text.
Let v := t ++ [0].
Let n := zlen v.
Hypothesis Htext : forall x, In x text -> dom x.
Hypothesis Henc : forall x, dom x -> 1 <= enc x < charNum /\ dec (enc x) = x.
Hypothesis Hsa : is_suffix_array v sa.
Hypothesis Hn : zlen text < 2 ^ 31 - 1.
Hypothesis Hskip : 0 < skip < 2 ^ 31.
Hypothesis Hchar : charNum <= 2 ^ tbits t16.
Hypothesis Hcf : zlen (m_cf m) = charNum /\ forall c, 0 <= c < charNum -> at_ (m_cf m) c = occLt c v.
Hypothesis Hchar0 : 1 <= charNum.
Variable bl : Z.
Hypothesis Hbl : 0 < bl /\ charNum <= 2 ^ bl.
Hypothesis Hwm : answers_ok x64 false false (bwt t sa) bl (m_wm m).
Hypothesis Hasa : m_asa m = filter (fun p => p mod skip =? 0) sa.
Hypothesis Hget : forall i, 0 <= i < n -> sv_get (m_apos m) i = Ok (at_ sa i mod skip =? 0).
Hypothesis Hrank : forall i, 0 <= i < n -> sv_rank1 x64 false (m_apos m) i = Ok (zlen (filter (fun p => p mod skip =? 0) (firstn (Z.to_nat i) sa))).
Hypothesis Hdec : forall c x, dom x -> c = enc x -> (if raw then Ok c else fq_elem (m_fq m) (c - 1)) = Ok x.

Lemma n_text : n = zlen text + 1.
Proof. unfold n, v, t, zlen. rewrite app_length, map_length. cbn. lia. Qed.
Lemma t_pos : Forall (fun x => 1 <= x) t.
Proof. apply Forall_forall. intros y Hy. apply in_map_iff in Hy. destruct Hy as (x & <- & Hx). apply Henc, Htext, Hx. Qed.
Lemma v_range p : 0 <= p < n -> 0 <= at_ v p < charNum.
Proof.
  intros H. pose proof n_text as N. destruct (Z.eq_dec p (n - 1)) as [-> |]; [unfold n, v; rewrite v_last by auto; lia|]. unfold at_, v. rewrite app_nth1 by (unfold t; rewrite map_length; unfold zlen in N; lia).
  assert (In (nth (Z.to_nat p) t 0) t) as I by (apply nth_In; unfold t; rewrite map_length; unfold zlen in N; lia). apply in_map_iff in I. destruct I as (x & <- & Hx). pose proof (Henc x (Htext x Hx)). lia.
Qed.
Lemma bwt_range i : 0 <= i < n -> 0 <= at_ (bwt t sa) i < charNum.
Proof. intros H. rewrite bwt_at by auto. pose proof (sa_range t sa Hsa i H) as R. fold v n in R. unfold prev_char. fold v n. destruct (0 <? at_ sa i) eqn:E; apply v_range; [apply Z.ltb_lt in E; lia|pose proof n_text; pose proof (zlen_nonneg text); lia]. Qed.
Lemma occLt_small c : 0 <= occLt c v <= n.
Proof. unfold occLt. split; [apply zlen_nonneg|]. apply (filter_zlen_le 0). Qed.

Lemma step_ok i : 0 <= i < n -> exists c j, step_back x64 t16 m i = Ok (c, j) /\ c = at_ (bwt t sa) i /\
  (0 < at_ sa i -> 0 <= j < n /\ at_ sa j = at_ sa i - 1 /\ at_ v (at_ sa i - 1) = c /\ 1 <= c).
Proof.
  intros Hi. pose proof (bwt_range i Hi) as BR. pose proof n_text as NT. pose proof (bwt_len t sa Hsa) as BL. fold v n in BL. destruct Hwm as (_ & _ & G & _). destruct (G (proj1 Hbl) i ltac:(lia)) as [_ G2]. fold (at_ (bwt t sa) i) in G2.
  unfold step_back. rewrite G2. cbn [bind]. rewrite (Z.mod_small (at_ _ _)) by lia. destruct Hcf as [Lc Ac]. rewrite rd_at by lia. rewrite Ac by lia. cbn [bind]. eexists _, _. split; [reflexivity|]. split; auto. intros Hp.
  destruct (lf t sa t_pos Hsa i Hi Hp) as (C1 & J & E1 & E2). fold v n in J, E1, E2. rewrite Z.mod_small; [|pose proof (occLt_small (at_ (bwt t sa) i)); pose proof (occ_nonneg (at_ (bwt t sa) i) (before i (bwt t sa))); lia].
  rewrite (Z.add_comm (occ _ _)). auto.
Qed.

(** ** convertPosition *)
Lemma mod_pred p : 0 <= p -> p mod skip <> 0 -> 0 < p /\ (p - 1) mod skip = p mod skip - 1.
Proof.
  intros H N. assert (0 < p) by (destruct (Z.eq_dec p 0) as [-> |]; [rewrite Z.mod_0_l in N by lia; lia|lia]). split; auto. pose proof (Z.mod_pos_bound p skip ltac:(lia)). symmetry. apply (Z.mod_unique_pos _ _ (p / skip)); [lia|]. pose proof (Z.div_mod p skip ltac:(lia)). lia.
Qed.
Lemma nth_filter i : 0 <= i < n -> at_ sa i mod skip = 0 -> rd (m_asa m) (zlen (filter (fun p => p mod skip =? 0) (firstn (Z.to_nat i) sa))) = Ok (at_ sa i).
Proof.
  intros Hi E. rewrite Hasa. pose proof (sa_len t sa Hsa) as L. fold v n in L. assert (sa = firstn (Z.to_nat i) sa ++ at_ sa i :: skipn (S (Z.to_nat i)) sa) as S.
  { unfold at_. assert (Z.to_nat i < length sa)%nat as X by (unfold zlen in L; lia). revert X. generalize (Z.to_nat i). clear. induction sa as [|x l IH]; intros [|k] X; cbn in *; try lia; auto. f_equal. apply IH. lia. }
  set (k := zlen _). replace (filter (fun p => p mod skip =? 0) sa) with (filter (fun p => p mod skip =? 0) (firstn (Z.to_nat i) sa ++ at_ sa i :: skipn (Datatypes.S (Z.to_nat i)) sa)) by (rewrite <- S; auto). unfold k. clear k. rewrite filter_app. cbn [filter]. rewrite E. change (0 =? 0) with true. cbn match. apply rd_app_exact.
Qed.
Lemma convert_ok : forall f i tt, 0 <= i < n -> 0 <= tt -> tt + at_ sa i < 2 ^ 64 -> (Z.to_nat (at_ sa i mod skip) < f)%nat -> convert x64 t16 f m i tt = Ok (tt + at_ sa i).
Proof.
  induction f as [|f IH]; intros i tt Hi H0 Hs Hf; [lia|]. cbn [convert]. rewrite Hget by auto. cbn [bind]. pose proof (sa_range t sa Hsa i Hi) as R. destruct (at_ sa i mod skip =? 0) eqn:E.
  - apply Z.eqb_eq in E. rewrite Hrank by auto. cbn [bind]. rewrite nth_filter by auto. cbn [bind]. rewrite Z.mod_small by lia. reflexivity.
  - apply Z.eqb_neq in E. destruct (mod_pred (at_ sa i) ltac:(lia) E) as [P M]. destruct (step_ok i Hi) as (c & j & S & _ & J). rewrite S. cbn [bind]. destruct (J P) as (J1 & J2 & _ & _). rewrite IH; [f_equal; lia|auto|lia|lia|]. rewrite J2, M. pose proof (Z.mod_pos_bound (at_ sa i) skip ltac:(lia)). lia.
Qed.
Lemma fm_convert_ok f i : 0 <= i < n -> skip <= Z.of_nat f -> fm_convert x64 t16 f m i = Ok (at_ sa i).
Proof.
  intros Hi Hf. unfold fm_convert. pose proof (sa_range t sa Hsa i Hi) as R. fold v n in R. pose proof n_text. pose proof (Z.mod_pos_bound (at_ sa i) skip ltac:(lia)). rewrite convert_ok; auto; lia.
Qed.

(** ** getPrevString *)
Lemma text_at p : 0 <= p < zlen text -> at_ v p = enc (at_ text p) /\ dom (at_ text p).
Proof.
  intros H. split.
  - unfold at_, v. rewrite app_nth1 by (unfold t; rewrite map_length; unfold zlen in H; lia). unfold t. rewrite (nth_indep _ 0 (enc 0)) by (rewrite map_length; unfold zlen in H; lia). apply map_nth.
  - apply Htext, nth_In. unfold zlen in H. lia.
Qed.
Lemma firstn_at p : 0 <= p < zlen text -> firstn (Z.to_nat (p + 1)) text = firstn (Z.to_nat p) text ++ [at_ text p].
Proof. intros H. change (firstn (Z.to_nat (p + 1)) text) with (before (p + 1) text). rewrite (before_succ text p 0) by auto. reflexivity. Qed.
Definition last_ {A} (k : nat) (l : list A) : list A := skipn (length l - k) l.
Lemma prev_ok : forall len i acc, 0 <= i < n -> fm_prev x64 raw t16 m i len acc = Ok (last_ len (firstn (Z.to_nat (at_ sa i)) text) ++ acc).
Proof.
  induction len as [|k IH]; intros i acc Hi; cbn [fm_prev].
  - unfold last_. rewrite Nat.sub_0_r, skipn_all. reflexivity.
  - pose proof (sa_range t sa Hsa i Hi) as R. fold v n in R. destruct (step_ok i Hi) as (c & j & S & Ec & J). rewrite S. cbn [bind]. pose proof n_text as NT. destruct (Z.eq_dec (at_ sa i) 0) as [E0|E0].
    + rewrite (lf0 t sa Hsa i Hi E0) in Ec. subst c. change (0 =? 0) with true. cbn match. rewrite E0. cbn. unfold last_. cbn. reflexivity.
    + destruct (J ltac:(lia)) as (J1 & J2 & J3 & J4). destruct (c =? 0) eqn:Z0; [apply Z.eqb_eq in Z0; lia|]. destruct (text_at (at_ sa i - 1) ltac:(lia)) as [T1 T2].
      rewrite (Hdec c (at_ text (at_ sa i - 1))) by (auto; congruence). cbn [bind]. rewrite IH by auto. rewrite J2. f_equal. replace (at_ sa i) with (at_ sa i - 1 + 1) at 3 by lia. rewrite firstn_at by lia. set (l := firstn (Z.to_nat (at_ sa i - 1)) text). set (x := at_ text (at_ sa i - 1)).
      unfold last_. rewrite app_length. cbn [length]. replace (length l + 1 - Datatypes.S k)%nat with (length l - k)%nat by lia. rewrite skipn_app. replace (length l - k - length l)%nat with 0%nat by lia. cbn [skipn]. rewrite <- app_assoc. reflexivity.
Qed.

(** ** getRange *)
Lemma search_ok : forall k done b e, Forall (fun c => 1 <= c < charNum) k -> rows t sa done b e ->
  exists b' e', search x64 m k b e = Ok (b', e') /\ ((b' < e' /\ rows t sa (rev k ++ done) b' e') \/ (e' <= b' /\ forall i, 0 <= i < n -> ~ starts t (rev k ++ done) (at_ sa i))).
Proof.
  induction k as [|c k IH]; intros done b e F R; cbn [search rev].
  - exists b, e. split; auto. destruct R as (B0 & BE & R). destruct (Z_lt_le_dec b e); [left; split; auto; split; auto|right; split; auto; intros i Hi X; apply R in X; auto; lia].
  - inversion F as [|? ? F1 F2]; subst. pose proof n_text as NT. destruct (b <? e) eqn:E.
    + destruct Hcf as [Lc Ac]. rewrite rd_at by lia. rewrite Ac by lia. cbn [bind]. pose proof R as (B0 & BE & _). fold v n in BE. destruct Hwm as (_ & _ & _ & _ & G & _). rewrite !G by lia. cbn [bind].
      pose proof (threshold_bounds t sa Hsa c b ltac:(lia) ltac:(fold v; fold n; lia)) as T1. pose proof (threshold_bounds t sa Hsa c e ltac:(lia) ltac:(fold v; fold n; lia)) as T2. fold v n in T1, T2.
      rewrite !Z.mod_small by lia. destruct (IH (c :: done) _ _ F2 (rows_cons t sa Hsa c done b e ltac:(lia) R)) as (b' & e' & S & C). fold v in S. exists b', e'. split; auto. rewrite <- app_assoc. auto.
    + apply Z.ltb_ge in E. exists b, e. split; auto. right. split; auto. destruct R as (_ & _ & R). intros i Hi. rewrite <- app_assoc. cbn [app]. assert (forall q, 0 <= q < n -> ~ starts t (c :: done) q) as N1.
      { intros q Hq X. apply (starts_cons t) in X; auto; [|lia]. destruct X as (_ & Q & X). fold v in Q. fold n in Q. destruct (sa_surj t sa Hsa (q + 1)) as (i' & Hi' & Ei'); [fold v; fold n; lia|]. rewrite <- Ei' in X. apply R in X; auto. lia. }
      assert (forall r q, Forall (fun c => 1 <= c < charNum) r -> 0 <= q < n -> ~ starts t (r ++ c :: done) q) as N2.
      { induction r as [|d r IHr]; intros q Fr Hq; [apply N1; auto|]. inversion Fr; subst. cbn [app]. intros X. apply (starts_cons t) in X; auto; [|lia]. destruct X as (_ & Q & X). eapply IHr; [|split; [|exact Q]|exact X]; auto. lia. }
      apply N2; [apply Forall_rev; auto|]. pose proof (sa_range t sa Hsa i Hi). auto.
Qed.
Lemma starts_occurs key p : Forall dom key -> key <> [] -> 0 <= p < n -> (starts t (map enc key) p <-> occurs key text p).
Proof.
  intros D NE Hp. pose proof n_text as NT. split.
  - intros (post & E). unfold suffix in E. fold v in E. assert (v = firstn (Z.to_nat p) v ++ map enc key ++ post) as Ev by (rewrite <- E, firstn_skipn; auto).
    destruct post as [|z post0 _] using rev_ind.
    { exfalso. rewrite app_nil_r in Ev. destruct key as [|z key0 _] using rev_ind; [congruence|]. rewrite map_app, app_assoc in Ev. cbn [map] in Ev. unfold v in Ev at 1. apply app_inj_tail in Ev. destruct Ev as [_ Ev]. apply Forall_app in D. destruct D as [_ D]. inversion D; subst. pose proof (Henc z ltac:(auto)). lia. }
    rewrite !app_assoc in Ev. unfold v in Ev at 1. apply app_inj_tail in Ev. destruct Ev as [Ev _]. rewrite <- app_assoc in Ev. unfold t in Ev at 1. apply map_eq_app in Ev. destruct Ev as (t1 & t2 & -> & E1 & E2). apply map_eq_app in E2. destruct E2 as (t3 & t4 & -> & E3 & E4).
    assert (t3 = key) as ->. { assert (forall l, Forall dom l -> map dec (map enc l) = l) as DE. { induction 1 as [|x l Hx Hl IHl]; auto. cbn. rewrite IHl, (proj2 (Henc x Hx)). auto. } rewrite <- (DE key D), <- E3. symmetry. apply DE. apply Forall_forall. intros x Hx. apply Htext. apply in_or_app. right. apply in_or_app. auto. }
    exists t1, t4. split; auto. unfold zlen. rewrite <- (map_length enc t1), E1, firstn_length. unfold n, zlen in Hp. lia.
  - intros (pre & post & E & L). exists (map enc post ++ [0]). unfold suffix, t. rewrite E, !map_app, <- !app_assoc. rewrite skipn_app. assert (length (map enc pre) = Z.to_nat p) as X by (rewrite map_length; unfold zlen in L; lia). rewrite skipn_all2 by lia. rewrite X, Nat.sub_diag. reflexivity.
Qed.
Lemma occurs_range key p : occurs key text p -> 0 <= p < n.
Proof. intros (pre & post & E & L). pose proof n_text as NT. assert (zlen text = zlen pre + zlen (key ++ post)) by (rewrite E, zlen_app; auto). pose proof (zlen_nonneg pre). pose proof (zlen_nonneg (key ++ post)). lia. Qed.
(** what getRange does with a key in the alphabet *)
Lemma range_ok key : Forall dom key -> key <> [] -> exists b e, search x64 m (rev (map enc key)) 0 (wm_size (m_wm m)) = Ok (b, e) /\
  ((b < e /\ 0 <= b /\ e <= n /\ forall i, 0 <= i < n -> (b <= i < e <-> occurs key text (at_ sa i))) \/ (e <= b /\ forall p, ~ occurs key text p)).
Proof.
  intros D NE. assert (wm_size (m_wm m) = n) as -> by (destruct Hwm as (S & _); rewrite S; apply (bwt_len t sa Hsa)).
  assert (Forall (fun c => 1 <= c < charNum) (rev (map enc key))) as F. { apply Forall_rev. apply Forall_forall. intros y Hy. apply in_map_iff in Hy. destruct Hy as (x & <- & Hx). rewrite Forall_forall in D. apply Henc, D, Hx. }
  destruct (search_ok _ [] 0 n F (rows_nil t sa)) as (b & e & S & C). rewrite rev_involutive, app_nil_r in C. exists b, e. split; auto. destruct C as [[L (R1 & R2 & R3)]|[L N]]; [left|right].
  - split; auto. split; auto. split; [apply R2|]. intros i Hi. rewrite R3 by auto. apply starts_occurs; auto. apply (sa_range t sa Hsa i Hi).
  - split; auto. intros p O. pose proof (occurs_range _ _ O) as P. destruct (sa_surj t sa Hsa p P) as (i & Hi & Ei). apply (N i Hi). rewrite Ei. apply starts_occurs; auto.
Qed.
End Query.
