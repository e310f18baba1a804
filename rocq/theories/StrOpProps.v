(** Properties C20, C21, C22 (string_operation.hpp). *)
Require Import Verif.Common Verif.SerializerProps Verif.Text Verif.StrOpModel.

(** ** C20 Split *)
Fixpoint join (c : Z) (l : list (list Z)) : list Z :=
  match l with
  | [] => []
  | [x] => x
  | x :: r => x ++ c :: join c r
  end.

Lemma ffo_skip c suf : forall pre i cur, cur = i + zlen pre ->
  find_first_of (pre ++ suf) c i cur = find_first_of suf c cur cur.
Proof.
  induction pre as [|x pre IH]; intros i cur ->.
  - rewrite zlen_nil, Z.add_0_r. auto.
  - cbn [app find_first_of]. rewrite zlen_cons. pose proof (zlen_nonneg pre).
    destruct (i + (1 + zlen pre) <=? i) eqn:E; [lia|]. cbn [andb]. apply IH. lia.
Qed.
Lemma ffo_found c : forall suf i cur, cur <= i ->
  (exists a b, suf = a ++ c :: b /\ ~ In c a /\ find_first_of suf c i cur = Some (i + zlen a)) \/
  (~ In c suf /\ find_first_of suf c i cur = None).
Proof.
  induction suf as [|x suf IH]; intros i cur H.
  - right. auto.
  - cbn [find_first_of]. destruct (cur <=? i) eqn:E; [|lia]. cbn [andb]. destruct (x =? c) eqn:Ex.
    + left. exists [], suf. rewrite zlen_nil, Z.add_0_r. replace x with c by lia. auto.
    + destruct (IH (i + 1) cur ltac:(lia)) as [(a & b & -> & Ha & F)|[N F]].
      * left. exists (x :: a), b. rewrite zlen_cons. rewrite F. repeat split; auto; [intros [->|?]; [lia|auto]|f_equal; lia].
      * right. split; auto. intros [->|?]; [lia|auto].
Qed.

Lemma sub_str_mid pre a post : sub_str (pre ++ a ++ post) (zlen pre) (zlen pre + zlen a) = Ok a.
Proof.
  unfold sub_str. rewrite !zlen_app. pose proof (zlen_nonneg pre). pose proof (zlen_nonneg a). pose proof (zlen_nonneg post).
  match goal with |- context [if ?b then _ else _] => destruct b eqn:E end; [lia|].
  replace (zlen pre + zlen a - zlen pre) with (zlen a) by lia. rewrite !to_nat_zlen, skipn_app_exact, firstn_app_exact. auto.
Qed.
Lemma sub_str_end pre a : sub_str (pre ++ a) (zlen pre) (zlen (pre ++ a)) = Ok a.
Proof. rewrite zlen_app. pose proof (sub_str_mid pre a []) as E. rewrite app_nil_r in E. auto. Qed.

Lemma split_loop_spec c maxNum : 0 <= maxNum < 2 ^ 64 -> forall fuel pre suf k out,
  zlen (pre ++ suf) < 2 ^ 64 - 1 -> 0 <= k <= zlen pre -> (maxNum <> 0 -> k < maxNum) -> (length suf < fuel)%nat ->
  exists front last, split_loop fuel (pre ++ suf) c maxNum k (zlen pre) out = Ok (k + zlen (front ++ [last]), out ++ front ++ [last]) /\
    join c (front ++ [last]) = suf /\ (maxNum <> 0 -> k + zlen (front ++ [last]) <= maxNum) /\
    Forall (fun p => ~ In c p) front /\ (~ In c last \/ k + zlen (front ++ [last]) = maxNum).
Proof.
  intros HM. induction fuel; intros pre suf k out HL Hk Hkm Hf; [lia|]. cbn [split_loop].
  assert (LAST: (~ In c suf \/ k + 1 = maxNum) -> exists front last,
     (let! p := sub_str (pre ++ suf) (zlen pre) (zlen (pre ++ suf)) in Ok (k + 1, out ++ [p])) = Ok (k + zlen (front ++ [last]), out ++ front ++ [last]) /\
    join c (front ++ [last]) = suf /\ (maxNum <> 0 -> k + zlen (front ++ [last]) <= maxNum) /\
    Forall (fun p => ~ In c p) front /\ (~ In c last \/ k + zlen (front ++ [last]) = maxNum)).
  { intros H. exists [], suf. rewrite sub_str_end. cbn [bind app join]. change (zlen [suf]) with 1. repeat split; auto. lia. }
  destruct (k =? (maxNum - 1) mod 2 ^ 64) eqn:EK.
  { apply LAST. right. rewrite zlen_app in HL. pose proof (zlen_nonneg suf).
    destruct (Z.eq_dec maxNum 0) as [-> |N]; [change ((0 - 1) mod 2 ^ 64) with (2 ^ 64 - 1) in EK; lia|].
    rewrite Z.mod_small in EK by lia. lia. }
  rewrite ffo_skip by lia. destruct (ffo_found c suf (zlen pre) (zlen pre) ltac:(lia)) as [(a & b & E & Ha & F)|[N F]]; rewrite F.
  - subst suf. rewrite sub_str_mid. cbn [bind].
    replace (zlen pre + zlen a + 1) with (zlen (pre ++ a ++ [c])) by (rewrite !zlen_app; change (zlen [c]) with 1; lia).
    replace (pre ++ a ++ c :: b) with ((pre ++ a ++ [c]) ++ b) in * by (rewrite <- !app_assoc; auto).
    pose proof (zlen_nonneg a). destruct (IHfuel (pre ++ a ++ [c]) b (k + 1) (out ++ [a])) as (front & last & E1 & E2 & E3 & E4 & E5); auto.
    { rewrite !zlen_app. change (zlen [c]) with 1. lia. }
    { intros N. specialize (Hkm N). rewrite Z.mod_small in EK by lia. lia. }
    { rewrite app_length in Hf. simpl in Hf. lia. }
    exists (a :: front), last. rewrite E1. cbn [app]. rewrite zlen_cons. split; [f_equal; f_equal; [lia|rewrite <- app_assoc; auto]|].
    split; [|split; [|split]].
    + destruct (front ++ [last]) eqn:E; [destruct front; discriminate|]. cbn [join]. cbn [join] in E2. rewrite E2. auto.
    + intros N. specialize (E3 N). lia.
    + constructor; auto.
    + destruct E5; [left; auto|right; lia].
  - apply LAST. auto.
Qed.

(** C20: for every string, separator, limit, previous content of [out] *)
Theorem C20_split : forall out s c maxNum doClear, 0 <= maxNum < 2 ^ 64 -> zlen s < 2 ^ 64 - 1 ->
  exists front last, let pieces := front ++ [last] in
    Split out s c maxNum doClear = Ok (zlen pieces, (if doClear then [] else out) ++ pieces) /\
    join c pieces = s /\ (0 < maxNum -> zlen pieces <= maxNum) /\
    Forall (fun p => ~ In c p) front /\ (~ In c last \/ zlen pieces = maxNum).
Proof.
  intros out s c maxNum doClear HM HL. unfold Split.
  destruct (split_loop_spec c maxNum HM (S (length s)) [] s 0 (if doClear then [] else out)) as (front & last & E1 & E2 & E3 & E4 & E5); cbn; auto; try lia.
  exists front, last. cbv zeta. split; [exact E1|]. repeat split; auto. intros. apply E3. lia.
Qed.
(** without a limit the pieces are determined: joining any separator-free pieces and splitting returns them *)
Lemma join_inj c : forall p q, p <> [] -> q <> [] -> Forall (fun x => ~ In c x) p -> Forall (fun x => ~ In c x) q -> join c p = join c q -> p = q.
Proof.
  assert (CUT: forall x y r1 r2, ~ In c x -> ~ In c y -> x ++ c :: r1 = y ++ c :: r2 -> x = y /\ r1 = r2).
  { induction x as [|a x IH]; intros [|b y] r1 r2 Hx Hy E; simpl in *.
    - injection E; auto.
    - injection E as -> _. tauto.
    - injection E as -> _. tauto.
    - injection E as -> E. destruct (IH y r1 r2) as [-> ->]; auto. }
  assert (NIN: forall x y r, ~ In c x -> x = y ++ c :: r -> False).
  { intros x y r Hx ->. apply Hx. apply in_or_app. right. left. auto. }
  induction p as [|x p IH]; intros q Np Nq Hp Hq E; [congruence|]. destruct q as [|y q]; [congruence|].
  inversion Hp as [|? ? Hx Hp']; inversion Hq as [|? ? Hy Hq']; subst.
  destruct p as [|x' p], q as [|y' q].
  - cbn in E. congruence.
  - exfalso. change (x = y ++ c :: join c (y' :: q)) in E. eauto.
  - exfalso. change (x ++ c :: join c (x' :: p) = y) in E. symmetry in E. eauto.
  - change (x ++ c :: join c (x' :: p) = y ++ c :: join c (y' :: q)) in E. apply CUT in E as [-> E]; auto.
    f_equal. apply IH; auto; congruence.
Qed.
Theorem C20_join_split : forall pieces c, pieces <> [] -> Forall (fun x => ~ In c x) pieces -> zlen (join c pieces) < 2 ^ 64 - 1 ->
  Split [] (join c pieces) c 0 true = Ok (zlen pieces, pieces).
Proof.
  intros pieces c N H HL. destruct (C20_split [] (join c pieces) c 0 true ltac:(lia) HL) as (front & last & E1 & E2 & E3 & E4 & E5).
  cbv zeta in *. rewrite E1. cbn [app]. rewrite zlen_app in E5. change (zlen [last]) with 1 in E5. pose proof (zlen_nonneg front).
  assert (front ++ [last] = pieces) as ->; auto. apply (join_inj c); auto.
  - destruct front; discriminate.
  - apply Forall_app. split; auto. constructor; auto. destruct E5; [auto|lia].
Qed.
Example C20_nonvacuous : Split [] (str "a,,bc,") 44 0 true = Ok (4, [str "a"; []; str "bc"; []])
  /\ Split [str "x"] (str "a,,bc,") 44 2 false = Ok (2, [str "x"; str "a"; str ",bc,"]).
Proof. split; reflexivity. Qed.

(** ** C21 Trim *)
(** t is s without its surrounding characters satisfying sp *)
Definition trimmed (sp : Z -> bool) (s t : list Z) : Prop :=
  exists l r, s = l ++ t ++ r /\ Forall (fun c => sp c = true) l /\ Forall (fun c => sp c = true) r /\
    (forall c u, t = c :: u -> sp c = false) /\ (forall c u, t = u ++ [c] -> sp c = false).

Section T.
Variable sp : Z -> bool.
Lemma skip_spec : forall mid fuel pre post, (length mid <= fuel)%nat ->
  exists l m, mid = l ++ m /\ Forall (fun c => sp c = true) l /\ (forall c u, m = c :: u -> sp c = false) /\
    SkipSpace sp fuel (pre ++ mid ++ post) (zlen pre) (zlen pre + zlen mid) = Ok (zlen pre + zlen l).
Proof.
  induction mid as [|c mid IH]; intros fuel pre post Hf.
  - exists [], []. repeat split; auto; [discriminate|]. rewrite zlen_nil, Z.add_0_r. destruct fuel; cbn [SkipSpace]; destruct (zlen pre <? zlen pre) eqn:E; auto; lia.
  - destruct fuel; [simpl in Hf; lia|]. rewrite zlen_cons. pose proof (zlen_nonneg mid). cbn [SkipSpace].
    destruct (zlen pre <? zlen pre + (1 + zlen mid)) eqn:E; [|lia]. cbn [app]. rewrite rd_app_exact. cbn [bind].
    destruct (sp c) eqn:Es; cbn [negb].
    + destruct (IH fuel (pre ++ [c]) post ltac:(simpl in Hf; lia)) as (l & m & -> & Hl & Hm & R).
      exists (c :: l), m. repeat split; auto. rewrite zlen_app in R. change (zlen [c]) with 1 in R. rewrite <- app_assoc in R. cbn [app] in R.
      replace (zlen pre + (1 + zlen (l ++ m))) with (zlen pre + 1 + zlen (l ++ m)) by lia. rewrite R. f_equal. rewrite zlen_cons. lia.
    + exists [], (c :: mid). repeat split; auto; [intros; congruence|]. rewrite zlen_nil. f_equal. lia.
Qed.
Lemma back_spec : forall mid fuel pre post, (length mid <= fuel)%nat ->
  exists m r, mid = m ++ r /\ Forall (fun c => sp c = true) r /\ (forall c u, m = u ++ [c] -> sp c = false) /\
    TrimBack sp fuel (pre ++ mid ++ post) (zlen pre) (zlen pre + zlen mid) = Ok (zlen pre + zlen m).
Proof.
  induction mid as [|c mid IH] using rev_ind; intros fuel pre post Hf.
  - exists [], []. repeat split; auto; [intros c u E; destruct u; discriminate|]. rewrite zlen_nil, Z.add_0_r. destruct fuel; cbn [TrimBack]; destruct (zlen pre <? zlen pre) eqn:E; auto; lia.
  - rewrite app_length in Hf. simpl in Hf. destruct fuel; [lia|]. rewrite zlen_app. change (zlen [c]) with 1. pose proof (zlen_nonneg mid). cbn [TrimBack].
    destruct (zlen pre <? zlen pre + (zlen mid + 1)) eqn:E; [|lia].
    replace (pre ++ (mid ++ [c]) ++ post) with ((pre ++ mid) ++ c :: post) by (rewrite <- !app_assoc; auto).
    rewrite rd_app_exact' by (rewrite zlen_app; lia). cbn [bind].
    destruct (sp c) eqn:Es; cbn [negb].
    + destruct (IH fuel pre (c :: post) ltac:(lia)) as (m & r & -> & Hr & Hm & R).
      exists m, (r ++ [c]). rewrite app_assoc. repeat split; auto; [apply Forall_app; auto|]. rewrite <- app_assoc. 
      replace (zlen pre + (zlen (m ++ r) + 1) - 1) with (zlen pre + zlen (m ++ r)) by lia. auto.
    + exists (mid ++ [c]), []. rewrite app_nil_r. repeat split; auto; [intros c' u E'; apply app_inj_tail in E' as [_ ->]; auto|]. rewrite zlen_app. auto.
Qed.
Lemma trim_pos s : exists l t r, s = l ++ t ++ r /\ trimmed sp s t /\ GetTrimPosition sp s 0 (zlen s) = Ok (zlen l, zlen l + zlen t).
Proof.
  unfold GetTrimPosition. destruct (skip_spec s (length s) [] [] ltac:(lia)) as (l & m & E & Hl & Hm & R).
  rewrite app_nil_r in R. cbn [app] in R. rewrite zlen_nil in R. cbn [Z.add] in R. rewrite R. cbn [bind].
  destruct (back_spec m (length s) l [] ltac:(rewrite E, app_length; lia)) as (t & r & E2 & Hr & Ht & R2).
  rewrite app_nil_r, <- E in R2. replace (zlen s) with (zlen l + zlen m) by (rewrite E, zlen_app; auto). rewrite R2. cbn [bind].
  exists l, t, r. subst m. split; [auto|]. split; [|auto]. exists l, r. repeat split; auto.
  intros c u ->. eapply Hm. reflexivity.
Qed.

Lemma copy_down_spec : forall M X G R, exists R',
  copy_down (length M) (X ++ G ++ M ++ R) (zlen X) (zlen X + zlen G) = Ok (X ++ M ++ R') .
Proof.
  induction M as [|m M IH]; intros X G R.
  - exists (G ++ R). reflexivity.
  - cbn [length copy_down].
    replace (X ++ G ++ (m :: M) ++ R) with ((X ++ G) ++ m :: M ++ R) by (rewrite <- !app_assoc; auto).
    rewrite rd_app_exact' by (rewrite zlen_app; auto). cbn [bind].
    destruct G as [|g G].
    + rewrite app_nil_r. rewrite wr_ok by (rewrite zlen_app, zlen_cons; pose proof (zlen_nonneg (M ++ R)); pose proof (zlen_nonneg X); lia).
      cbn [bind]. rewrite to_nat_zlen, upd_app_exact. destruct (IH (X ++ [m]) [] R) as (R' & E).
      rewrite zlen_app, zlen_nil in E. change (zlen [m]) with 1 in E. rewrite zlen_nil. cbn [app] in E.
      replace (zlen X + 0 + 1) with (zlen X + 1 + 0) by lia. rewrite <- app_assoc in E. cbn [app] in E. rewrite E. exists R'. rewrite <- app_assoc. auto.
    + replace ((X ++ g :: G) ++ m :: M ++ R) with (X ++ g :: (G ++ m :: M ++ R)) by (rewrite <- !app_assoc; auto).
      rewrite wr_ok by (rewrite zlen_app, zlen_cons; pose proof (zlen_nonneg (G ++ m :: M ++ R)); pose proof (zlen_nonneg X); lia).
      cbn [bind]. rewrite to_nat_zlen, upd_app_exact. destruct (IH (X ++ [m]) (G ++ [m]) R) as (R' & E).
      rewrite !zlen_app in E. change (zlen [m]) with 1 in E. rewrite zlen_cons. rewrite <- !app_assoc in E. cbn [app] in E.
      replace (zlen X + (1 + zlen G) + 1) with (zlen X + 1 + (zlen G + 1)) by lia. exists R'. exact E.
Qed.
End T.

(** C21: both functions compute the trimmed string, for every predicate *)
Theorem C21_trim : forall sp s, zlen s < 2 ^ 64 -> exists t, Trim sp s = Ok t /\ TrimCopy sp s = Ok t /\ trimmed sp s t.
Proof.
  intros sp s HL. unfold Trim, TrimCopy. destruct (zlen s =? 0) eqn:E0.
  - destruct s; [|rewrite zlen_cons in E0; pose proof (zlen_nonneg s); lia]. exists []. repeat split; auto. exists [], []. repeat split; auto; try discriminate. intros c u E; destruct u; discriminate.
  - destruct (trim_pos sp s) as (l & t & r & E & T & G). rewrite G. cbn [bind]. exists t.
    replace (zlen l + zlen t - zlen l) with (zlen t) by lia. pose proof (zlen_nonneg l). pose proof (zlen_nonneg t). pose proof (zlen_nonneg r).
    rewrite Z.mod_small by (rewrite E, !zlen_app in HL; lia). rewrite !to_nat_zlen. split; [|split; auto].
    + destruct (zlen l =? 0) eqn:El; cbn [negb bind].
      * destruct l; [|rewrite zlen_cons in El; pose proof (zlen_nonneg l); lia]. subst s. cbn [app]. rewrite firstn_app_exact. auto.
      * destruct (copy_down_spec sp t [] l r) as (R' & C). cbn [app] in C. rewrite zlen_nil in C. cbn [Z.add] in C. rewrite <- E in C. rewrite C.
        cbn [bind]. rewrite firstn_app_exact. auto.
    + subst s. rewrite skipn_app_exact, firstn_app_exact. auto.
Qed.
(** the trimmed string is unique *)
Theorem C21_unique : forall sp s t1 t2, trimmed sp s t1 -> trimmed sp s t2 -> t1 = t2.
Proof.
  intros sp s t1 t2 (l1 & r1 & E1 & L1 & R1 & H1 & T1) (l2 & r2 & E2 & L2 & R2 & H2 & T2).
  assert (A: forall (a b x y : list Z), a ++ x = b ++ y -> Forall (fun c => sp c = true) a -> Forall (fun c => sp c = true) b ->
     (forall c u, x = c :: u -> sp c = false) -> (forall c u, y = c :: u -> sp c = false) -> x = y).
  { induction a as [|c a IH]; intros [|d b] x y E Ha Hb Hx Hy; simpl in E.
    - auto.
    - subst x. inversion Hb; subst. specialize (Hx d _ eq_refl). congruence.
    - subst y. inversion Ha; subst. specialize (Hy c _ eq_refl). congruence.
    - injection E as -> E. inversion Ha; inversion Hb; subst. eauto. }
  assert (SP: forall (r : list Z), Forall (fun c => sp c = true) r -> forall c, In c r -> sp c = true) by (intros r H c Hc; rewrite Forall_forall in H; auto).
  (* all-space case: both empty *)
  assert (NE: forall (t r l : list Z), (forall c u, t = c :: u -> sp c = false) -> t <> [] -> ~ Forall (fun c => sp c = true) (l ++ t ++ r)).
  { intros t r l H N F. destruct t as [|c t]; [congruence|]. specialize (H c t eq_refl). apply Forall_app in F as [_ F]. inversion F; subst. congruence. }
  destruct t1 as [|c1 t1], t2 as [|c2 t2]; auto.
  - exfalso. apply (NE (c2 :: t2) r2 l2 H2); [congruence|]. rewrite <- E2, E1. apply Forall_app; split; auto.
  - exfalso. apply (NE (c1 :: t1) r1 l1 H1); [congruence|]. rewrite <- E1, E2. apply Forall_app; split; auto.
  - assert (M: (c1 :: t1) ++ r1 = (c2 :: t2) ++ r2).
    { apply (A l1 l2); auto; [congruence| |]; intros c u E; injection E as <- _; eauto. }
    apply (f_equal (@rev Z)) in M. rewrite !rev_app_distr in M.
    rewrite <- (rev_involutive (c1 :: t1)), <- (rev_involutive (c2 :: t2)). f_equal.
    apply (A (rev r1) (rev r2)); auto; try (apply Forall_rev; auto).
    + intros c u E. apply (f_equal (@rev Z)) in E. rewrite rev_involutive in E. simpl in E. eauto.
    + intros c u E. apply (f_equal (@rev Z)) in E. rewrite rev_involutive in E. simpl in E. eauto.
Qed.
Theorem C21_idempotent : forall sp s t, zlen s < 2 ^ 64 -> Trim sp s = Ok t -> Trim sp t = Ok t.
Proof.
  intros sp s t HL H. destruct (C21_trim sp s HL) as (t' & E & _ & T). rewrite H in E. injection E as <-.
  assert (HT: zlen t < 2 ^ 64). { destruct T as (l & r & -> & _). rewrite !zlen_app in HL. pose proof (zlen_nonneg l). pose proof (zlen_nonneg r). lia. }
  destruct (C21_trim sp t HT) as (t2 & E2 & _ & T2). rewrite E2. f_equal. apply (C21_unique sp t); auto.
  destruct T as (l & r & _ & _ & _ & H1 & H2). exists [], []. rewrite app_nil_r. repeat split; auto.
Qed.
(** the space characters *)
Definition unicode_spaces : list Z :=
  [0x9; 0xa; 0xb; 0xc; 0xd; 0x20; 0x85; 0xa0; 0x1680; 0x180e; 0x2000; 0x2001; 0x2002; 0x2003; 0x2004; 0x2005; 0x2006; 0x2007;
   0x2008; 0x2009; 0x200a; 0x2028; 0x2029; 0x202f; 0x205f; 0x3000; 0xfeff].
Theorem C21_IsSpace : forall c, - 2 ^ 31 + 9 <= c < 2 ^ 31 ->
  exists b, IsSpaceW c = Ok b /\ (b = true <-> In c unicode_spaces).
Proof.
  intros c H. unfold IsSpaceW, usub.
  repeat match goal with
  | |- context [?a - ?b <? - 2 ^ 31] => destruct (a - b <? - 2 ^ 31) eqn:?; [lia|]
  end. cbn [bind].
  assert (M: forall k, 0 <= k < 2 ^ 16 -> forall w, 0 <= w < 2 ^ 16 -> ((c - k) mod 2 ^ 32 <=? w) = (k <=? c) && (c <=? k + w)).
  { intros k Hk w Hw. destruct (Z_lt_le_dec c k).
    - replace ((c - k) mod 2 ^ 32) with (c - k + 2 ^ 32); [lia|]. symmetry. rewrite <- (Z_mod_plus_full _ 1). apply Z.mod_small. lia.
    - rewrite Z.mod_small by lia. lia. }
  assert (I: In c unicode_spaces <-> (9 <= c <= 13 \/ c = 0x20 \/ c = 0x85 \/ c = 0xa0 \/ c = 0x1680 \/ c = 0x180e \/ 0x2000 <= c <= 0x200a
     \/ 0x2028 <= c <= 0x2029 \/ c = 0x202f \/ c = 0x205f \/ c = 0x3000 \/ c = 0xfeff)) by (unfold unicode_spaces; cbn [In]; lia).
  setoid_rewrite I. clear I. rewrite M by lia.
  destruct (c <? 5760) eqn:E5.
  2: { destruct (c - 8192 <? - 2 ^ 31) eqn:?; [lia|]. destruct (c - 8232 <? - 2 ^ 31) eqn:?; [lia|]. cbn [bind]. rewrite !M by lia. clear M.
       repeat match goal with |- context [if ?b then _ else _] => destruct b eqn:? end; eexists; (split; [reflexivity|]); split; intros; try lia; congruence. }
  repeat match goal with |- context [if ?b then _ else _] => destruct b eqn:? end; eexists; (split; [reflexivity|]); split; intros; try lia; congruence.
Qed.
Theorem C21_IsSpace_char : forall c, IsSpaceC c = true <-> c = 32 \/ c = 9.
Proof. intros c. unfold IsSpaceC. lia. Qed.
Theorem C21_Strip : forall s, exists t r, Strip s = Ok t /\ s = t ++ r /\ Forall (fun c => c = 10 \/ c = 13) r /\
  (forall c u, t = u ++ [c] -> c <> 10 /\ c <> 13).
Proof.
  intros s. unfold Strip.
  enough (G: forall s post, exists t r, strip_size (length s) (s ++ post) = Ok (length t) /\ s = t ++ r /\ Forall (fun c => c = 10 \/ c = 13) r /\
     (forall c u, t = u ++ [c] -> c <> 10 /\ c <> 13)).
  { destruct (G s []) as (t & r & E1 & E2 & E3 & E4). exists t, r. rewrite app_nil_r in E1. rewrite E1. cbn [bind]. split; auto. subst s. rewrite firstn_app_exact. auto. }
  clear. induction s as [|c s IH] using rev_ind; intros post.
  - exists [], []. repeat split; auto; destruct u; discriminate.
  - rewrite app_length. cbn [length]. rewrite Nat.add_1_r. cbn [strip_size]. rewrite <- app_assoc. cbn [app]. rewrite rd_app_exact' by reflexivity. cbn [bind].
    destruct ((c =? 10) || (c =? 13)) eqn:E.
    + destruct (IH (c :: post)) as (t & r & E1 & -> & E3 & E4). exists t, (r ++ [c]). rewrite E1, app_assoc. repeat split; auto; try (eapply E4; eauto; fail).
      apply Forall_app. split; auto. constructor; auto. lia.
    + exists (s ++ [c]), []. rewrite app_nil_r, app_length. cbn [length]. rewrite Nat.add_1_r. repeat split; auto; apply app_inj_tail in H as [_ ->]; lia.
Qed.
Example C21_nonvacuous : Trim IsSpaceC (str "  a b	 ") = Ok (str "a b") /\ Trim IsSpaceC (str "   ") = Ok [] /\ Strip (str "ab" ++ [13;10;10]) = Ok (str "ab")
  /\ IsSpaceW 0x2028 = Ok true.
Proof. repeat split; reflexivity. Qed.

Lemma Forall2_length {A B} (R : A -> B -> Prop) l1 l2 : Forall2 R l1 l2 -> length l1 = length l2.
Proof. induction 1; cbn; congruence. Qed.
Arguments Forall2_length {A B R l1 l2}.

(** ** C22 case-insensitive comparison *)
(** the same letter up to ASCII case *)
Definition same_letter (a b : Z) : Prop := a = b \/ (65 <= a <= 90 /\ b = a + 32) \/ (65 <= b <= 90 /\ a = b + 32).

Lemma tolower_same a b : tolower a = tolower b <-> same_letter a b.
Proof. unfold tolower, same_letter. destruct (_ && _) eqn:E1, ((65 <=? b) && (b <=? 90)) eqn:E2; lia. Qed.

Lemma case_cmp_spec : forall a b pa pb, zlen pa = zlen pb ->
  case_cmp (zlen pa) (Nat.min (length a) (length b)) (pa ++ a) (pb ++ b) =
  Ok (match lex Z.compare (map tolower (firstn (Nat.min (length a) (length b)) a)) (map tolower (firstn (Nat.min (length a) (length b)) b)) with
      | Eq => None | Lt => Some (-1) | Gt => Some 1 end).
Proof.
  induction a as [|x a IH]; intros [|y b] pa pb HL; try reflexivity.
  cbn [length Nat.min case_cmp firstn map lex]. rewrite rd_app_exact. rewrite HL, rd_app_exact. cbn [bind].
  specialize (IH b (pa ++ [x]) (pb ++ [y])). rewrite !zlen_app in IH. change (zlen [x]) with 1 in IH. change (zlen [y]) with 1 in IH. rewrite <- !app_assoc in IH. cbn [app] in IH.
  destruct (Z.compare_spec (tolower x) (tolower y)).
  - destruct (tolower x <? tolower y) eqn:E1; [lia|]. destruct (tolower y <? tolower x) eqn:E2; [lia|]. rewrite HL in IH. apply IH. lia.
  - destruct (tolower x <? tolower y) eqn:E1; [|lia]. auto.
  - destruct (tolower x <? tolower y) eqn:E1; [lia|]. destruct (tolower y <? tolower x) eqn:E2; [|lia]. auto.
Qed.
Lemma lex_min : forall a b, lex Z.compare a b =
  match lex Z.compare (firstn (Nat.min (length a) (length b)) a) (firstn (Nat.min (length a) (length b)) b) with
  | Eq => Z.compare (zlen a) (zlen b) | c => c end.
Proof.
  induction a as [|x a IH]; intros [|y b]; try reflexivity. cbn [length Nat.min firstn lex]. destruct (x ?= y); auto.
  rewrite IH. rewrite !zlen_cons. destruct (lex _ _ _); auto. destruct (Z.compare_spec (zlen a) (zlen b)), (Z.compare_spec (1 + zlen a) (1 + zlen b)); auto; lia.
Qed.

(** the comparison result, as the sign of the lexicographic order of the lower-cased strings *)
Theorem C22_compare : forall a b, CaseCompare a b =
  Ok (match lex Z.compare (map tolower a) (map tolower b) with Eq => 0 | Lt => -1 | Gt => 1 end).
Proof.
  intros a b. unfold CaseCompare. pose proof (case_cmp_spec a b [] [] eq_refl) as E. cbn [app] in E. change (zlen (@nil Z)) with 0 in E. rewrite E. cbn [bind].
  rewrite (lex_min (map tolower a)), !map_length, !firstn_map. destruct (lex _ _ _); auto.
  unfold zlen. rewrite !map_length. fold (zlen a) (zlen b). destruct (Z.compare_spec (zlen a) (zlen b)).
  - destruct (zlen a <? zlen b) eqn:E1; [lia|]. destruct (zlen b <? zlen a) eqn:E2; [lia|]. auto.
  - destruct (zlen a <? zlen b) eqn:E1; [|lia]. auto.
  - destruct (zlen a <? zlen b) eqn:E1; [lia|]. destruct (zlen b <? zlen a) eqn:E2; [|lia]. auto.
Qed.
Definition cmp_val (a b : list Z) : Z := match CaseCompare a b with Ok v => v | _ => 99 end.
Lemma lex_antisym : forall a b, lex Z.compare b a = CompOpp (lex Z.compare a b).
Proof. induction a as [|x a IH]; intros [|y b]; try reflexivity. cbn [lex]. rewrite (Z.compare_antisym x y). destruct (x ?= y); cbn; auto. Qed.
Lemma map_tolower_eq : forall a b, map tolower a = map tolower b <-> Forall2 same_letter a b.
Proof.
  induction a as [|x a IH]; intros [|y b]; split; intros H; try discriminate; auto; try (inversion H; fail).
  - cbn [map] in H. injection H as H1 H2. constructor; [apply tolower_same; auto|apply IH; auto].
  - inversion H; subst. cbn [map]. f_equal; [apply tolower_same; auto|apply IH; auto].
Qed.
(** a total preorder, with equality up to case as its equivalence *)
Theorem C22_preorder : forall a b c,
  (cmp_val a b = -1 \/ cmp_val a b = 0 \/ cmp_val a b = 1) /\
  cmp_val b a = - cmp_val a b /\
  (cmp_val a b <= 0 -> cmp_val b c <= 0 -> cmp_val a c <= 0) /\
  (cmp_val a b = 0 <-> Forall2 same_letter a b).
Proof.
  intros a b c. unfold cmp_val. rewrite !C22_compare. pose proof (gc_lex _ gc_Z) as G.
  set (A := map tolower a). set (B := map tolower b). set (C := map tolower c).
  split; [destruct (lex _ A B); auto|]. split; [rewrite (lex_antisym A B); destruct (lex _ A B); auto|]. split.
  - intros H1 H2. destruct (lex Z.compare A B) eqn:E1; [| |lia]; (destruct (lex Z.compare B C) eqn:E2; [| |lia]).
    + apply (gc_eq _ G) in E1. rewrite E1, E2. lia.
    + apply (gc_eq _ G) in E1. rewrite E1, E2. lia.
    + apply (gc_eq _ G) in E2. rewrite <- E2, E1. lia.
    + rewrite (gc_trans _ G _ _ _ E1 E2). lia.
  - rewrite <- map_tolower_eq. rewrite <- (gc_eq _ G). fold A B. destruct (lex Z.compare A B); split; intros; auto; try discriminate; lia.
Qed.

Lemma case_eq_spec : forall b a pa pb, zlen pa = zlen pb -> (length b <= length a)%nat ->
  exists r, case_eq (zlen pa) (length b) (pa ++ a) (pb ++ b) = Ok r /\ (r = true <-> Forall2 same_letter (firstn (length b) a) b).
Proof.
  induction b as [|y b IH]; intros [|x a] pa pb HL Hlen; cbn [length] in *; try lia.
  - exists true. repeat split; auto. constructor.
  - exists true. repeat split; auto. constructor.
  - cbn [case_eq firstn]. rewrite rd_app_exact. rewrite HL, rd_app_exact. cbn [bind].
    destruct (tolower x =? tolower y) eqn:E; cbn [negb].
    + destruct (IH a (pa ++ [x]) (pb ++ [y])) as (r & R & Hr); [rewrite !zlen_app; change (zlen [x]) with 1; change (zlen [y]) with 1; lia|lia|].
      rewrite !zlen_app in R. change (zlen [x]) with 1 in R. rewrite <- !app_assoc in R. cbn [app] in R. rewrite HL in R. exists r. split; auto. rewrite Hr.
      split; intros H; [constructor; auto; apply tolower_same; lia|inversion H; auto].
    + exists false. split; auto. split; [discriminate|]. intros H. inversion H; subst. apply tolower_same in H3. lia.
Qed.
Theorem C22_equal : forall a b, exists r, CaseEqual a b = Ok r /\ (r = true <-> Forall2 same_letter a b).
Proof.
  intros a b. unfold CaseEqual. destruct (zlen a =? zlen b) eqn:E; cbn [negb].
  - assert (L: length a = length b) by (unfold zlen in E; lia). destruct (case_eq_spec b a [] [] eq_refl ltac:(lia)) as (r & R & Hr).
    cbn [app] in R. change (zlen (@nil Z)) with 0 in R. rewrite L. exists r. split; auto. rewrite <- L, firstn_all in Hr. auto.
  - exists false. split; auto. split; [discriminate|]. intros H. apply Forall2_length in H. unfold zlen in E. lia.
Qed.
Theorem C22_start_with : forall a b, exists r, CaseEqualStartWith a b = Ok r /\
  (r = true <-> exists p q, a = p ++ q /\ Forall2 same_letter p b).
Proof.
  intros a b. unfold CaseEqualStartWith. destruct (zlen a <? zlen b) eqn:E.
  - exists false. split; auto. split; [discriminate|]. intros (p & q & -> & H). apply Forall2_length in H. rewrite zlen_app in E. pose proof (zlen_nonneg q). unfold zlen in *. lia.
  - destruct (case_eq_spec b a [] [] eq_refl ltac:(unfold zlen in E; lia)) as (r & R & Hr). cbn [app] in R. change (zlen (@nil Z)) with 0 in R.
    exists r. split; auto. rewrite Hr. split.
    + intros H. exists (firstn (length b) a), (skipn (length b) a). rewrite firstn_skipn. auto.
    + intros (p & q & -> & H). rewrite <- (Forall2_length H), firstn_app_exact. auto.
Qed.
(** case conversions *)
Theorem C22_case_conversion : forall s out, 
  ToLower (ToLower s) = ToLower s /\ ToUpper (ToUpper s) = ToUpper s /\ ToLower (ToUpper s) = ToLower s /\
  Forall2 same_letter s (ToLower s) /\ Forall2 same_letter s (ToUpper s) /\
  ToLower2 out s true = out ++ ToLower s /\ Forall (fun c => ~ 65 <= c <= 90) (ToLower s) /\ Forall (fun c => ~ 97 <= c <= 122) (ToUpper s).
Proof.
  intros s out. unfold ToLower, ToUpper, ToLower2, ToUpper2, ChangeCase. cbn [app]. rewrite !map_map.
  assert (M: forall f g : Z -> Z, (forall x, f x = g x) -> map f s = map g s) by (intros; apply map_ext; auto).
  assert (F2: forall f : Z -> Z, (forall x, same_letter x (f x)) -> Forall2 same_letter s (map f s)).
  { intros f H. clear M. induction s; constructor; auto. }
  assert (F: forall (P : Z -> Prop) (f : Z -> Z), (forall x, P (f x)) -> Forall P (map f s)).
  { intros P f H. clear M F2. induction s; constructor; auto. }
  repeat split; [apply M|apply M|apply M|apply F2|apply F2|apply F|apply F]; intros x; unfold same_letter, tolower, toupper;
  repeat match goal with |- context [if ?b then _ else _] => destruct b eqn:? end; lia.
Qed.

(** CaseFind *)
Definition matches_at (s t : list Z) (p : Z) : Prop :=
  exists l m r, s = l ++ m ++ r /\ zlen l = p /\ Forall2 same_letter m t.
Lemma match_at_spec s : forall t m l r pt, zlen pt + zlen l = zlen l + zlen pt -> s = l ++ m ++ r -> length m = length t ->
  forall p, p + zlen pt = zlen l -> exists b, match_at (zlen pt) (length t) s (pt ++ t) p = Ok b /\ (b = true <-> map tolower m = t).
Proof.
  induction t as [|y t IH]; intros [|x m] l r pt _ E HL p Hp; cbn [length] in *; try lia.
  - exists true. repeat split; auto.
  - cbn [match_at]. rewrite Hp. rewrite E. cbn [app]. rewrite rd_app_exact. rewrite rd_app_exact. cbn [bind].
    destruct (tolower x =? y) eqn:Ex; cbn [negb].
    + destruct (IH m (l ++ [x]) r (pt ++ [y]) ltac:(lia)) with (p := p) as (b & B & Hb).
      { rewrite <- app_assoc. auto. } { lia. } { rewrite !zlen_app. change (zlen [x]) with 1. change (zlen [y]) with 1. lia. }
      rewrite zlen_app in B. change (zlen [y]) with 1 in B. rewrite <- app_assoc in B. cbn [app] in B. subst s. cbn [app] in B. exists b. split; auto. rewrite Hb. cbn [map].
      split; [intros ->; f_equal; lia|intros H; injection H; auto].
    + exists false. split; auto. split; [discriminate|]. cbn [map]. intros H. injection H as H1 H2. lia.
Qed.
Lemma tolower_idem x : tolower (tolower x) = tolower x.
Proof. unfold tolower. repeat match goal with |- context [if ?b then _ else _] => destruct b eqn:? end; lia. Qed.
Lemma find_from_spec s t : forall fuel p, 0 <= p -> p + Z.of_nat fuel = zlen s + 1 ->
  exists r, find_from fuel s (ToLower t) p = Ok r /\
    match r with
    | Some q => p <= q /\ matches_at s t q /\ forall q', p <= q' < q -> ~ matches_at s t q'
    | None => forall q', p <= q' -> ~ matches_at s t q'
    end.
Proof.
  assert (LT: zlen (ToLower t) = zlen t). { unfold ToLower, ToLower2, ChangeCase, zlen. cbn [app]. rewrite map_length. auto. }
  assert (TOO: forall q, zlen s < q + zlen t -> ~ matches_at s t q).
  { intros q Hq (l & m & r & -> & Hl & H). apply Forall2_length in H. rewrite !zlen_app in Hq. pose proof (zlen_nonneg r). unfold zlen in *. lia. }
  induction fuel; intros p H0 Hf; cbn [find_from]; rewrite LT; pose proof (zlen_nonneg t).
  - destruct (p + zlen t <=? zlen s) eqn:E; [lia|]. exists None. split; auto. intros q Hq. apply TOO. lia.
  - destruct (p + zlen t <=? zlen s) eqn:E.
    + set (l := firstn (Z.to_nat p) s). set (m := firstn (length t) (skipn (Z.to_nat p) s)). set (r := skipn (length t) (skipn (Z.to_nat p) s)).
      assert (Es: s = l ++ m ++ r) by (unfold l, m, r; rewrite firstn_skipn, firstn_skipn; auto).
      assert (Hl: zlen l = p) by (unfold l; rewrite zlen_firstn_le; unfold zlen in *; lia).
      assert (Hm: length m = length t) by (unfold m; rewrite firstn_length, skipn_length; unfold zlen in *; lia).
      destruct (match_at_spec s (ToLower t) m l r [] ltac:(lia) Es) with (p := p) as (b & B & Hb).
      { unfold ToLower, ToLower2, ChangeCase. cbn [app]. rewrite map_length. auto. } { rewrite zlen_nil. lia. }
      change (zlen (@nil Z)) with 0 in B. cbn [app] in B. rewrite B. cbn [bind].
      assert (MA: b = true <-> matches_at s t p).
      { rewrite Hb. unfold ToLower, ToLower2, ChangeCase. cbn [app]. split.
        - intros Hmt. exists l, m, r. repeat split; auto. apply map_tolower_eq. auto.
        - intros (l' & m' & r' & E' & Hl' & H'). apply map_tolower_eq. 
          assert (l = l'). { unfold l. rewrite E'. assert (Z.to_nat p = length l') as -> by (unfold zlen in Hl'; lia). apply firstn_app_exact. }
          subst l'. rewrite Es in E'. apply app_inv_head in E'. assert (m = m'); [|congruence].
          rewrite <- (firstn_app_exact m r), E'. rewrite Hm, <- (Forall2_length H'). apply firstn_app_exact. }
      destruct b.
      * exists (Some p). split; auto. split; [lia|]. split; [apply MA; auto|]. intros; lia.
      * destruct (IHfuel (p + 1) ltac:(lia) ltac:(lia)) as (r0 & R & HR). exists r0. split; auto.
        assert (NP: ~ matches_at s t p) by (intros C; apply MA in C; discriminate).
        destruct r0 as [q|].
        -- destruct HR as (HR1 & HR2 & HR3). split; [lia|]. split; auto. intros q' Hq'. destruct (Z.eq_dec q' p) as [-> |]; auto. apply HR3. lia.
        -- intros q' Hq'. destruct (Z.eq_dec q' p) as [-> |]; auto. apply HR. lia.
    + exists None. split; auto. intros q Hq. apply TOO. lia.
Qed.
Theorem C22_find : forall s t, exists r, CaseFindPtr s t = Ok r /\
  match r with
  | Some p => 0 <= p /\ matches_at s t p /\ forall q, 0 <= q < p -> ~ matches_at s t q
  | None => forall p, ~ matches_at s t p
  end /\ (s <> [] -> CaseFindStr s t = Ok r).
Proof.
  intros s t. unfold CaseFindPtr, CaseFindStr. destruct (find_from_spec s t (S (length s)) 0 ltac:(lia) ltac:(unfold zlen; lia)) as (r & R & HR).
  exists r. split; auto. split.
  - destruct r; [tauto|]. intros p H. destruct (Z_lt_le_dec p 0); [|eapply HR; eauto]. destruct H as (l0 & m & r & _ & Hp & _). pose proof (zlen_nonneg l0). lia.
  - intros N. destruct (zlen s =? 0) eqn:E; auto. destruct s; [congruence|rewrite zlen_cons in E; pose proof (zlen_nonneg s); lia].
Qed.
Example C22_nonvacuous : CaseFindPtr (str "xxAbCd") (str "aBc") = Ok (Some 2) /\ CaseCompare (str "abc") (str "ABD") = Ok (-1)
  /\ CaseEqual (str "Content-Type") (str "content-type") = Ok true.
Proof. repeat split; reflexivity. Qed.
(** finding: the two overloads disagree on an empty text and an empty target *)
Theorem C22_empty_finding : CaseFindPtr [] [] = Ok (Some 0) /\ CaseFindStr [] [] = Ok None.
Proof. split; reflexivity. Qed.

Print Assumptions C20_split.
Print Assumptions C20_join_split.
Print Assumptions C21_trim.
Print Assumptions C21_IsSpace.
Print Assumptions C22_preorder.
Print Assumptions C22_find.
