(** C59: counting in include/cybozu/nlp/tfidf.hpp *)
Require Import Verif.Common Verif.SerializerModel Verif.StrOpModel Verif.ConfigModel Verif.ConfigProps Verif.SparseModel Verif.SparseProps Verif.FrequencyProps Verif.Text Verif.TfIdfModel.
Require Import Permutation Sorting.Sorted.
Ltac Zify.zify_post_hook ::= idtac.

(** ** Specification *)
Notation word := (list Z).
Definition word_dec : forall a b : word, {a = b} + {a <> b} := list_eq_dec Z.eq_dec.
Definition lowercase (w : word) : word := map (fun c => if (65 <=? c) && (c <=? 90) then c + 32 else c) w.
Definition is_form (w t : word) : bool := if word_dec (lowercase t) w then true else false.
(** how often w occurs in a document, ignoring case; in how many documents; how many different spellings of it a document has *)
Definition occurrences (w : word) (doc : list word) : Z := zlen (filter (is_form w) doc).
Definition contains (w : word) (doc : list word) : bool := existsb (is_form w) doc.
Definition doc_freq (w : word) (docs : list (list word)) : Z := zlen (filter (contains w) docs).
Definition spellings (w : word) (doc : list word) : Z := zlen (nodup word_dec (filter (is_form w) doc)).
Definition sumZ (l : list Z) : Z := fold_right Z.add 0 l.
Definition spelling_freq (w : word) (docs : list (list word)) : Z := sumZ (map (spellings w) docs).
Definition tokens (docs : list (list word)) : Z := sumZ (map zlen docs).

(** ** Tools *)
Lemma filter_le {A} (f : A -> bool) l : zlen (filter f l) <= zlen l.
Proof. induction l as [|x l IH]; [reflexivity|]. cbn [filter]. rewrite zlen_cons. destruct (f x); [rewrite zlen_cons|]; lia. Qed.
Lemma lower_eq : forall w, ToLower2 [] w false = lowercase w.
Proof. intros w. unfold ToLower2, ChangeCase, lowercase. cbn [app]. apply map_ext. intros c. unfold tolower. destruct (_ && _); lia. Qed.
Lemma in_set_iff : forall w s, in_set w s = true <-> In w s.
Proof. intros w s. unfold in_set. rewrite existsb_exists. split; [intros (x & I & E); apply str_eq_iff in E; subst; auto|]. intros I. exists w. split; [auto|apply str_eq_refl]. Qed.
Lemma to_s32 : forall x, 0 <= x < 2 ^ 31 -> to_s 32 x = x.
Proof. intros x H. unfold to_s. change (2 ^ (32 - 1)) with (2 ^ 31). rewrite Z.mod_small; lia. Qed.
Lemma is_form_iff : forall w t, is_form w t = true <-> lowercase t = w.
Proof. intros. unfold is_form. destruct word_dec; split; congruence. Qed.
Lemma contains_iff : forall w doc, contains w doc = true <-> exists t, In t doc /\ lowercase t = w.
Proof. intros. unfold contains. rewrite existsb_exists. split; intros (t & A & B); exists t; split; auto; apply is_form_iff; auto. Qed.
Lemma nodup_snoc : forall (l : list word) x, zlen (nodup word_dec (l ++ [x])) = zlen (nodup word_dec l) + if in_dec word_dec x l then 0 else 1.
Proof.
  intros l x. destruct (in_dec word_dec x l) as [I|I].
  - rewrite Z.add_0_r. unfold zlen. f_equal. apply Permutation_length. apply NoDup_Permutation; try apply NoDup_nodup. intros y. rewrite !nodup_In, in_app_iff. simpl. split; [intros [A|[<-|[]]]; auto|auto].
  - transitivity (zlen (x :: nodup word_dec l)); [|rewrite zlen_cons; lia]. unfold zlen. f_equal. apply Permutation_length. apply NoDup_Permutation.
    + apply NoDup_nodup.
    + constructor; [rewrite nodup_In; auto|apply NoDup_nodup].
    + intros y. simpl. rewrite !nodup_In, in_app_iff. simpl. tauto.
Qed.
Lemma spellings_snoc : forall w doc t, spellings w (doc ++ [t]) = spellings w doc + if is_form w t then (if in_dec word_dec t doc then 0 else 1) else 0.
Proof.
  intros w doc t. unfold spellings. rewrite filter_app. cbn [filter]. destruct (is_form w t) eqn:E; [|rewrite app_nil_r; lia]. rewrite nodup_snoc.
  destruct (in_dec word_dec t (filter (is_form w) doc)) as [I|I], (in_dec word_dec t doc) as [J|J]; auto.
  - apply filter_In in I. tauto.
  - exfalso. apply I. apply filter_In. auto.
Qed.
Lemma occ_snoc : forall w doc t, occurrences w (doc ++ [t]) = occurrences w doc + if is_form w t then 1 else 0.
Proof. intros. unfold occurrences. rewrite filter_app, zlen_app. cbn [filter]. destruct (is_form w t); [rewrite zlen_cons|]; rewrite zlen_nil; lia. Qed.
Lemma contains_snoc : forall w doc t, contains w (doc ++ [t]) = contains w doc || is_form w t.
Proof. intros. unfold contains. rewrite existsb_app. cbn [existsb]. rewrite orb_false_r. reflexivity. Qed.
Lemma spellings_le : forall w doc, 0 <= spellings w doc <= zlen doc.
Proof.
  intros w doc. split; [apply zlen_nonneg|]. unfold spellings. transitivity (zlen (filter (is_form w) doc)); [|apply filter_le].
  unfold zlen. apply inj_le. apply NoDup_incl_length; [apply NoDup_nodup|]. intros x. rewrite nodup_In. auto.
Qed.
Lemma sumZ_app : forall a b, sumZ (a ++ b) = sumZ a + sumZ b.
Proof. intros a b. induction a as [|x a IH]; [reflexivity|]. unfold sumZ in *. cbn [app fold_right]. lia. Qed.
Lemma spelling_freq_le : forall w docs, 0 <= spelling_freq w docs <= tokens docs.
Proof. intros w docs. unfold spelling_freq, tokens. induction docs as [|d docs IH]; [cbn; lia|]. cbn [map sumZ fold_right] in *. pose proof (spellings_le w d). unfold sumZ in *. lia. Qed.
Lemma incr_at_ok : forall l i x, nth_error l (Z.to_nat i) = Some x -> 0 <= i -> x < 2 ^ 31 - 1 -> incr_at l i = Ok (upd l (Z.to_nat i) (x + 1)).
Proof.
  intros l i x E Hi Hx. unfold incr_at. rewrite (proj2 (rd_some l i x)) by auto. cbn [bind]. unfold incr. destruct (Z.ltb_spec x (2 ^ 31 - 1)); [|lia]. cbn [bind]. apply wr_ok.
  assert (Z.to_nat i < length l)%nat by (apply nth_error_Some; congruence). unfold zlen. lia.
Qed.
Lemma nth_upd : forall {A} (l : list A) n m x, (n < length l)%nat -> nth_error (upd l n x) m = if Nat.eqb m n then Some x else nth_error l m.
Proof. intros A l. induction l as [|a l IH]; intros n m x H; [simpl in H; lia|]. destruct n, m; simpl in *; auto. apply IH. lia. Qed.
Lemma nth_snoc : forall {A} (l : list A) x m, nth_error (l ++ [x]) m = if Nat.eqb m (length l) then Some x else nth_error l m.
Proof.
  intros A l x m. destruct (Nat.eqb_spec m (length l)) as [->|N]; [rewrite nth_error_app2, Nat.sub_diag by lia; reflexivity|]. destruct (Nat.lt_ge_cases m (length l)); [apply nth_error_app1; auto|].
  rewrite nth_error_app2 by lia. rewrite (proj2 (nth_error_None l m)) by lia. destruct (m - length l)%nat eqn:E; [lia|]. cbn. destruct n; reflexivity.
Qed.
Lemma vresize_snoc : forall l, vresize (S (length l)) l = l ++ [0].
Proof. intros l. unfold vresize. rewrite firstn_all2 by lia. replace (S (length l) - length l)%nat with 1%nat by lia. reflexivity. Qed.

(** ** Df *)
(** the dictionary: words numbered in order of arrival *)
Definition dict (w2i : list (word * Z)) (i2w : list word) : Prop :=
  msorted w2i /\ NoDup i2w /\ forall w i, mfind w w2i = Some i <-> (0 <= i /\ nth_error i2w (Z.to_nat i) = Some w).
Lemma dict_none : forall w2i i2w w, dict w2i i2w -> mfind w w2i = None -> ~ In w i2w.
Proof. intros w2i i2w w (_ & _ & D) E I. apply In_nth_error in I. destruct I as [n I]. assert (X: mfind w w2i = Some (Z.of_nat n)) by (apply D; rewrite Nat2Z.id; split; [lia|auto]). congruence. Qed.
Lemma dict_add : forall w2i i2w w, dict w2i i2w -> mfind w w2i = None -> dict (minsert w (zlen i2w) w2i) (i2w ++ [w]).
Proof.
  intros w2i i2w w D E. pose proof (dict_none _ _ _ D E) as N. destruct D as (S & ND & D). split; [apply minsert_sorted; auto|]. split.
  - apply NoDup_Add with (a := w) (l := i2w); [rewrite <- (app_nil_r i2w) at 1; apply Add_app|]. auto.
  - intros w' i. rewrite minsert_find, nth_snoc by auto. rewrite E. destruct (str_eq w' w) eqn:Ew.
    + apply str_eq_iff in Ew. subst w'. destruct (Nat.eqb_spec (Z.to_nat i) (length i2w)) as [Ei|Ei]; split.
      * intros H. injection H as <-. split; [apply zlen_nonneg|auto].
      * intros [H _]. f_equal. unfold zlen. lia.
      * intros H. injection H as <-. rewrite to_nat_zlen in Ei. congruence.
      * intros [_ H]. apply nth_error_In in H. contradiction.
    + rewrite D. destruct (Nat.eqb_spec (Z.to_nat i) (length i2w)) as [Ei|Ei]; [|reflexivity]. split.
      * intros [_ H]. rewrite (proj2 (nth_error_None i2w (Z.to_nat i))) in H by lia. discriminate.
      * intros [_ H]. injection H as <-. rewrite str_eq_refl in Ew. discriminate.
Qed.
Lemma dict_same : forall w2i i2w w x i, dict w2i i2w -> mfind w w2i = Some i -> dict (minsert w x w2i) i2w.
Proof.
  intros w2i i2w w x i (S & ND & D) E. split; [apply minsert_sorted; auto|]. split; [auto|]. intros w' j. rewrite minsert_find, E by auto. destruct (str_eq w' w) eqn:Ew; [|apply D].
  apply str_eq_iff in Ew. subst w'. rewrite <- E. apply D.
Qed.
(** the documents so far: complete ones and the current one *)
Definition dfinv (docs : list (list word)) (cur : list word) (d : dft) : Prop :=
  docNum d = zlen docs /\ dict (dw2i d) (di2w d) /\
  (forall w, In w (di2w d) <-> exists t, In t (concat docs ++ cur) /\ lowercase t = w) /\
  length (dfv d) = length (di2w d) /\
  (forall i w, nth_error (di2w d) i = Some w -> nth_error (dfv d) i = Some (spelling_freq w docs + spellings w cur)) /\
  (forall t, In t (dset d) <-> In t cur) /\ dpv d = [].
Lemma dict_len : forall i2w (ts : list word), NoDup i2w -> (forall w, In w i2w -> exists t, In t ts /\ lowercase t = w) -> zlen i2w <= zlen ts.
Proof.
  intros i2w ts N H. transitivity (zlen (map lowercase ts)); [|unfold zlen; rewrite map_length; lia]. unfold zlen. apply inj_le. apply NoDup_incl_length; [auto|].
  intros w I. destruct (H w I) as (t & A & <-). apply in_map. auto.
Qed.
Lemma tokens_concat : forall docs : list (list word), zlen (concat docs) = tokens docs.
Proof. intros docs. unfold tokens. induction docs as [|d docs IH]; [reflexivity|]. cbn [concat map sumZ fold_right]. rewrite zlen_app, IH. unfold sumZ. lia. Qed.
Lemma df_append_ok : forall docs cur d t, dfinv docs cur d -> tokens docs + zlen cur < 2 ^ 31 - 1 -> exists d', df_append d t = Ok d' /\ dfinv docs (cur ++ [t]) d'.
Proof.
  intros docs cur d t (I1 & I2 & I3 & I4 & I5 & I6 & I7) Hn. unfold df_append. rewrite lower_eq.
  assert (Lw: zlen (di2w d) <= tokens docs + zlen cur).
  { rewrite <- tokens_concat, <- zlen_app. apply dict_len; [apply I2|]. intros w. apply I3. }
  rewrite (to_s32 (zlen (di2w d))) by (pose proof (zlen_nonneg (di2w d)); lia).
  set (lw := lowercase t).
  set (v := if match mfind lw (dw2i d) with None => true | Some _ => false end then vresize (length (di2w d ++ [lw])) (dfv d) else dfv d).
  set (id := match mfind lw (dw2i d) with None => zlen (di2w d) | Some i => i end).
  set (iw := if match mfind lw (dw2i d) with None => true | Some _ => false end then di2w d ++ [lw] else di2w d).
  replace (if match mfind lw (dw2i d) with None => true | Some _ => false end then vresize (length iw) (dfv d) else dfv d) with v by (unfold v, iw; destruct (mfind lw (dw2i d)); reflexivity).
  assert (X: dict (minsert lw (zlen (di2w d)) (dw2i d)) iw /\ (forall w, In w iw <-> exists t', In t' (concat docs ++ cur ++ [t]) /\ lowercase t' = w) /\ length v = length iw /\
    0 <= id /\ nth_error iw (Z.to_nat id) = Some lw /\ forall i w, nth_error iw i = Some w -> nth_error v i = Some (spelling_freq w docs + spellings w cur)).
  { unfold v, id, iw. destruct (mfind lw (dw2i d)) as [i|] eqn:E.
    - pose proof (proj1 (proj2 (proj2 I2) lw i) E) as [P Q]. split; [eapply dict_same; eauto|]. split; [|auto]. intros w. rewrite I3. split; intros (t' & A & B).
      + exists t'. split; [rewrite app_assoc; apply in_or_app; auto|auto].
      + rewrite app_assoc in A. apply in_app_or in A. destruct A as [A|[<-|[]]]; [eauto|]. apply I3. fold lw in B. subst w. eapply nth_error_In; eauto.
    - split; [apply dict_add; auto|]. split; [|split; [|split; [apply zlen_nonneg|split]]].
      + intros w. rewrite in_app_iff, I3. simpl. split.
        * intros [(t' & A & B)|[<-|[]]]; [exists t'; split; [rewrite app_assoc; apply in_or_app; auto|auto]|]. exists t. split; [rewrite !in_app_iff; simpl; auto|reflexivity].
        * intros (t' & A & B). rewrite app_assoc in A. apply in_app_or in A. destruct A as [A|[<-|[]]]; [left; eauto|]. right. left. exact B.
      + rewrite app_length. cbn [length]. rewrite Nat.add_1_r. rewrite <- I4, vresize_snoc, app_length. simpl. lia.
      + rewrite to_nat_zlen, nth_snoc, Nat.eqb_refl. reflexivity.
      + intros i w. rewrite app_length. cbn [length]. rewrite Nat.add_1_r. rewrite <- I4, vresize_snoc, !nth_snoc, I4. destruct (Nat.eqb_spec i (length (di2w d))); [|apply I5].
        intros H. injection H as <-. f_equal. assert (Z: forall l, (forall t', In t' l -> lowercase t' <> lw) -> spellings lw l = 0).
        { intros l H. unfold spellings. replace (filter (is_form lw) l) with (@nil word); [reflexivity|]. symmetry. induction l as [|a l IHl]; [reflexivity|]. cbn [filter]. destruct (is_form lw a) eqn:Ea; [apply is_form_iff in Ea; exfalso; apply (H a); [left|]; auto|]. apply IHl. intros t' J. apply H. right. auto. }
        assert (N: forall t', In t' (concat docs ++ cur) -> lowercase t' <> lw) by (intros t' A B; apply (dict_none _ _ _ I2 E); apply I3; eauto).
        rewrite (Z cur) by (intros t' A; apply N; apply in_or_app; auto). unfold spelling_freq.
        assert (Y: forall ds : list (list word), (forall t', In t' (concat ds) -> lowercase t' <> lw) -> sumZ (map (spellings lw) ds) = 0).
        { intros ds. induction ds as [|a ds IHd]; intros H; [reflexivity|]. cbn [map sumZ fold_right]. rewrite (Z a) by (intros t' A; apply H; cbn [concat]; apply in_or_app; auto). unfold sumZ in IHd. rewrite IHd; [reflexivity|]. intros t' A. apply H. cbn [concat]. apply in_or_app. auto. }
        rewrite Y; [reflexivity|]. intros t' A. apply N. apply in_or_app. auto. }
  destruct X as (X1 & X2 & X3 & X4 & X5 & X6). clearbody v id iw. destruct (in_set t (dset d)) eqn:Es.
  - apply in_set_iff, I6 in Es. eexists. split; [reflexivity|]. split; [auto|]. cbn [docNum dw2i di2w dfv dset dpv]. split; [auto|]. split; [auto|]. split; [auto|]. split; [|split; [|auto]].
    + intros i w H. rewrite (X6 i w H), spellings_snoc. destruct (in_dec word_dec t cur); [|contradiction]. destruct (is_form w t); do 2 f_equal; lia.
    + intros t'. rewrite I6, in_app_iff. simpl. split; [auto|]. intros [A|[<-|[]]]; auto.
  - assert (Nt: ~ In t cur) by (intros A; apply I6, in_set_iff in A; congruence).
    pose proof (X6 _ _ X5) as Hv. pose proof (spelling_freq_le lw docs). pose proof (spellings_le lw cur). rewrite (incr_at_ok v id _ Hv X4) by lia. cbn [bind]. eexists. split; [reflexivity|].
    assert (Li: (Z.to_nat id < length v)%nat) by (apply nth_error_Some; congruence).
    split; [auto|]. cbn [docNum dw2i di2w dfv dset dpv]. split; [auto|]. split; [auto|]. split; [rewrite upd_length; auto|]. split; [|split; [|auto]].
    + intros i w H1. rewrite nth_upd by auto. rewrite spellings_snoc. destruct (in_dec word_dec t cur); [contradiction|]. destruct (Nat.eqb_spec i (Z.to_nat id)) as [->|Ni].
      * rewrite X5 in H1. injection H1 as <-. rewrite (proj2 (is_form_iff lw t)) by reflexivity. f_equal. lia.
      * rewrite (X6 i w H1). destruct (is_form w t) eqn:Ef; [|do 2 f_equal; lia]. apply is_form_iff in Ef. fold lw in Ef. subst w. exfalso. apply Ni. apply (proj1 (NoDup_nth_error iw)); [apply X1| |congruence]. apply nth_error_Some. congruence.
    + intros t'. simpl. rewrite I6, in_app_iff. simpl. tauto.
Qed.
Lemma df_doc_ok : forall ws docs cur d, dfinv docs cur d -> tokens docs + zlen cur + zlen ws < 2 ^ 31 -> exists d', df_doc d ws = Ok d' /\ dfinv docs (cur ++ ws) d'.
Proof.
  intros ws. induction ws as [|t ws IH]; intros docs cur d I H; cbn [df_doc]; [exists d; rewrite app_nil_r; auto|]. rewrite zlen_cons in H. pose proof (zlen_nonneg ws).
  destruct (df_append_ok docs cur d t I) as (d1 & -> & I1); [lia|]. cbn [bind]. destruct (IH docs (cur ++ [t]) d1 I1) as (d2 & -> & I2); [rewrite zlen_app, zlen_cons, zlen_nil; lia|]. exists d2. rewrite <- app_assoc in I2. auto.
Qed.
Lemma df_endDoc_ok : forall docs cur d, dfinv docs cur d -> zlen docs < 2 ^ 31 - 1 -> exists d', df_endDoc d = Ok d' /\ dfinv (docs ++ [cur]) [] d'.
Proof.
  intros docs cur d (I1 & I2 & I3 & I4 & I5 & I6 & I7) H. unfold df_endDoc, incr. rewrite I1. destruct (Z.ltb_spec (zlen docs) (2 ^ 31 - 1)); [|lia]. cbn [bind]. eexists. split; [reflexivity|].
  split; [cbn [docNum]; rewrite zlen_app, zlen_cons, zlen_nil; lia|]. cbn [docNum dw2i di2w dfv dset dpv]. split; [auto|]. split; [|split; [auto|split; [|split; [tauto|auto]]]].
  - intros w. rewrite concat_app. cbn [concat]. rewrite !app_nil_r. apply I3.
  - intros i w E. rewrite (I5 i w E). unfold spelling_freq. rewrite map_app, sumZ_app. cbn [map sumZ fold_right]. change (spellings w []) with 0. f_equal. lia.
Qed.
Lemma df_docs_ok : forall more docs d, dfinv docs [] d -> tokens docs + tokens more < 2 ^ 31 -> zlen docs + zlen more < 2 ^ 31 -> exists d', df_docs d more = Ok d' /\ dfinv (docs ++ more) [] d'.
Proof.
  intros more. induction more as [|ws more IH]; intros docs d I H1 H2; cbn [df_docs]; [exists d; rewrite app_nil_r; auto|].
  rewrite zlen_cons in H2. unfold tokens at 2 in H1. cbn [map sumZ fold_right] in H1. fold (sumZ (map zlen more)) in H1. fold (tokens more) in H1. pose proof (zlen_nonneg more). pose proof (spelling_freq_le [] more).
  destruct (df_doc_ok ws docs [] d I) as (d1 & -> & I1); [rewrite zlen_nil; lia|]. cbn [bind app] in *. destruct (df_endDoc_ok docs ws d1 I1) as (d2 & -> & I2); [lia|]. cbn [bind].
  destruct (IH (docs ++ [ws]) d2 I2) as (d3 & -> & I3).
  - unfold tokens at 1. rewrite map_app, sumZ_app. cbn [map sumZ fold_right]. fold (tokens docs). lia.
  - rewrite zlen_app, zlen_cons, zlen_nil. lia.
  - exists d3. rewrite <- app_assoc in I3. auto.
Qed.
Lemma dfinv_new : dfinv [] [] df_new.
Proof.
  split; [reflexivity|]. split; [split; [constructor|split; [constructor|]]|].
  - intros w i. cbn. split; [discriminate|]. destruct (Z.to_nat i); intros [_ H]; discriminate.
  - split; [intros w; cbn; split; [tauto|intros (t & [] & _)]|]. split; [reflexivity|]. split; [intros i w; cbn; destruct i; discriminate|]. split; [cbn; tauto|reflexivity].
Qed.
(** every corpus of less than 2^31 words and documents: each lower-cased word gets one entry, and its count is the number of (document, spelling) pairs *)
Theorem C59_df : forall docs, tokens docs < 2 ^ 31 -> zlen docs < 2 ^ 31 -> exists d, df_docs df_new docs = Ok d /\ docNum d = zlen docs /\
  NoDup (di2w d) /\ (forall w, In w (di2w d) <-> exists doc t, In doc docs /\ In t doc /\ lowercase t = w) /\ length (dfv d) = length (di2w d) /\
  forall i w, nth_error (di2w d) i = Some w -> nth_error (dfv d) i = Some (spelling_freq w docs).
Proof.
  intros docs H1 H2. destruct (df_docs_ok docs [] df_new) as (d & E & I1 & I2 & I3 & I4 & I5 & I6 & I7).
  - apply dfinv_new.
  - change (tokens []) with 0. lia.
  - rewrite zlen_nil. lia.
  - exists d. split; [auto|]. split; [auto|]. split; [apply I2|]. split; [|split; [auto|]].
    + intros w. rewrite I3, app_nil_r. cbn [app]. split.
      * intros (t & A & B). apply in_concat in A. destruct A as (doc & A & C). eauto.
      * intros (doc & t & A & B & C). exists t. split; [apply in_concat; eauto|auto].
    + intros i w H. rewrite (I5 i w H). cbn [app]. f_equal. unfold spellings. cbn. lia.
Qed.
(** with one spelling per document the count is the document frequency *)
Theorem C59_df_one_spelling : forall w docs, (forall doc t t', In doc docs -> In t doc -> In t' doc -> lowercase t = w -> lowercase t' = w -> t = t') ->
  spelling_freq w docs = doc_freq w docs /\ doc_freq w docs <= zlen docs.
Proof.
  intros w docs H. split; [|apply filter_le]. unfold spelling_freq, doc_freq. induction docs as [|doc docs IH]; [reflexivity|]. cbn [map sumZ fold_right filter].
  unfold sumZ in IH. rewrite IH by (intros; eapply H; eauto; right; auto). clear IH.
  assert (X: spellings w doc = if contains w doc then 1 else 0).
  { unfold spellings. destruct (contains w doc) eqn:C.
    - apply contains_iff in C. destruct C as (t & I & E). transitivity (zlen [t]); [|reflexivity]. unfold zlen. f_equal. apply Permutation_length. apply NoDup_Permutation; [apply NoDup_nodup|constructor; [tauto|constructor]|].
      intros x. rewrite nodup_In, filter_In, is_form_iff. simpl. split; [intros [A B]; left; eapply H; eauto; left; auto|intros [<-|[]]; auto].
    - replace (filter (is_form w) doc) with (@nil word); [reflexivity|]. symmetry. unfold contains in C. clear H. induction doc as [|t doc IH]; [reflexivity|]. cbn [existsb filter] in *. apply orb_false_iff in C. destruct C as [-> C].
      auto. }
  rewrite X. destruct (contains w doc); [rewrite zlen_cons|]; lia.
Qed.
(** finding: two spellings in one document count twice, so the document frequency exceeds the number of documents *)
Theorem C59_df_spelling_finding : exists d, df_docs df_new [[str "Tea"; str "tea"; str "tea"]] = Ok d /\ docNum d = 1 /\ di2w d = [str "tea"] /\ dfv d = [2].
Proof. eexists. split; [vm_compute; reflexivity|]. auto. Qed.
(** Df::term keeps the pvNum rarest of the words above the limit, in order of frequency *)
Definition partial_sorted (psort : nat -> list (Z * Z) -> list (Z * Z)) : Prop := forall k l, (k <= length l)%nat -> Permutation (psort k l) l /\
  StronglySorted (fun a b => snd a <= snd b) (firstn k (psort k l)) /\ forall a b, In a (firstn k (psort k l)) -> In b (skipn k (psort k l)) -> snd a <= snd b.
Lemma df_select_spec : forall lim v i pv p, In p (df_select lim i v pv) <-> In p pv \/ exists n, nth_error v n = Some (snd p) /\ fst p = i + Z.of_nat n /\ lim < snd p.
Proof.
  intros lim v. induction v as [|f v IH]; intros i pv p; cbn [df_select].
  - split; [auto|]. intros [A|(n & A & _)]; [auto|]. destruct n; discriminate.
  - rewrite IH. destruct (Z.leb_spec f lim).
    + split; (intros [A|(n & A & B & C)]; [auto|]).
      * right. exists (S n). split; [auto|]. split; lia.
      * destruct n as [|n]; [cbn in A; injection A as A; lia|]. right. exists n. split; [auto|]. split; lia.
    + rewrite in_app_iff. simpl. split.
      * intros [[A|[<-|[]]]|(n & A & B & C)]; [auto| |]; right; [exists O; cbn; split; [auto|lia]|exists (S n); split; [auto|]; split; lia].
      * intros [A|(n & A & B & C)]; [auto|]. destruct n as [|n]; [left; right; left; cbn in A; injection A as ->; destruct p; cbn in *; f_equal; lia|]. right. exists n. split; [auto|]. split; lia.
Qed.
Theorem C59_df_term : forall trunc psort lim docs d, partial_sorted psort -> df_docs df_new docs = Ok d -> tokens docs < 2 ^ 31 -> zlen docs < 2 ^ 31 ->
  let kept := filter (fun f => lim <? f) (dfv d) in
  0 <= trunc (zlen kept) <= zlen kept -> exists d', df_term trunc psort lim d = Ok d' /\ zlen (dpv d') = trunc (zlen kept) /\ StronglySorted (fun a b => snd a <= snd b) (dpv d') /\
  (forall i f, In (i, f) (dpv d') -> 0 <= i /\ nth_error (dfv d) (Z.to_nat i) = Some f /\ lim < f) /\
  (forall n f, nth_error (dfv d) n = Some f -> lim < f -> In (Z.of_nat n, f) (dpv d') \/ forall a, In a (dpv d') -> snd a <= f).
Proof.
  intros trunc psort lim docs d Hp Ed H1 H2 kept Hk. assert (Hpv: dpv d = []) by (destruct (df_docs_ok docs [] df_new dfinv_new) as (d0 & E0 & I0); [change (tokens []) with 0; lia|rewrite zlen_nil; lia|rewrite E0 in Ed; injection Ed as <-; apply I0]). unfold df_term. rewrite Hpv. set (pv := df_select lim 0 (dfv d) []).
  assert (L: zlen pv = zlen kept).
  { unfold pv, kept. assert (G: forall v i pv, zlen (df_select lim i v pv) = zlen pv + zlen (filter (fun f => lim <? f) v)).
    { intros v. induction v as [|f v IH]; intros i q; cbn [df_select filter]; [rewrite zlen_nil; lia|]. rewrite IH. destruct (Z.leb_spec f lim), (Z.ltb_spec lim f); try lia. rewrite zlen_app, !zlen_cons, zlen_nil. lia. }
    rewrite G, zlen_nil. lia. }
  rewrite L. destruct (Z.ltb_spec (trunc (zlen kept)) 0); [lia|]. destruct (Z.ltb_spec (zlen kept) (trunc (zlen kept))); [lia|]. cbn [orb]. eexists. split; [reflexivity|]. cbn [dpv]. set (k := Z.to_nat (trunc (zlen kept))).
  assert (Lk: (k <= length pv)%nat) by (unfold k; unfold zlen in *; lia). destruct (Hp k pv Lk) as (P1 & P2 & P3).
  split; [rewrite zlen_firstn_le; [unfold k; lia|rewrite (Permutation_length P1); auto]|]. split; [auto|]. split.
  - intros i f I. assert (J: In (i, f) pv) by (eapply Permutation_in; [exact P1|]; rewrite <- (firstn_skipn k); apply in_or_app; auto).
    apply df_select_spec in J. destruct J as [[]|(n & A & B & C)]. cbn [fst snd] in *. subst i. rewrite Z.add_0_l, Nat2Z.id. split; [lia|auto].
  - intros n f A B. assert (J: In (Z.of_nat n, f) pv) by (apply df_select_spec; right; exists n; cbn [fst snd]; auto).
    apply (Permutation_in _ (Permutation_sym P1)) in J. rewrite <- (firstn_skipn k) in J. apply in_app_or in J. destruct J as [J|J]; [auto|]. right. intros a Ia. apply (P3 a _ Ia J).
Qed.

(** ** TfIdf *)
(** the keywords of a file: what stands before the first tab of each line, up to the first line without tab, each once *)
Definition firsts (ws : list word) : list word := fold_left (fun acc w => if in_dec word_dec w acc then acc else acc ++ [w]) ws [].
Definition key_line (e : word * list Z) : list Z := fst e ++ 9 :: snd e ++ [10].
Definition key_entry (e : word * list Z) : Prop := ~ In 9 (fst e) /\ ~ In 10 (fst e) /\ ~ In 10 (snd e).
(** the rest of the file: nothing, or a line without tab and anything after it *)
Definition no_tab_line (tail : list Z) : Prop := exists l more, tail = l ++ more /\ ~ In 9 l /\ ~ In 10 l /\ (more = [] \/ exists x, more = 10 :: x).
(** a document with at least one keyword *)
Definition known (K : list word) (doc : list word) : bool := existsb (fun t => if in_dec word_dec (lowercase t) K then true else false) doc.
Definition keyword (K : list word) (p : Z) : option word := if p <? 0 then None else nth_error K (Z.to_nat p).
(** the counts of a document: an entry for exactly the keywords that occur, in order of their numbers *)
Definition counted (K : list word) (doc : list word) (m : list (Z * Z)) : Prop :=
  increasing (map fst m) /\ forall p, value_at m p = match keyword K p with Some w => if occurrences w doc =? 0 then None else Some (occurrences w doc) | None => None end.

Lemma value_at_cons : forall {A} (l : list (Z * A)) k v p, value_at ((k, v) :: l) p = if k =? p then Some v else value_at l p.
Proof. intros. unfold value_at. cbn [find fst]. destruct (k =? p); reflexivity. Qed.
Lemma imap_incr_ok : forall m id, increasing (map fst m) -> (forall v, value_at m id = Some v -> v < 2 ^ 31 - 1) -> exists m', imap_incr id m = Ok m' /\ increasing (map fst m') /\
  (forall q, q < id -> Forall (Z.lt q) (map fst m) -> Forall (Z.lt q) (map fst m')) /\
  forall p, value_at m' p = if p =? id then Some (match value_at m id with Some v => v + 1 | None => 1 end) else value_at m p.
Proof.
  intros m. induction m as [|[k v] m IH]; intros id Inc Hv; cbn [imap_incr].
  - eexists. split; [reflexivity|]. split; [constructor; constructor|]. split; [intros; cbn; constructor; auto|]. intros p. rewrite value_at_cons. rewrite (Z.eqb_sym id p). destruct (p =? id); reflexivity.
  - cbn [map fst] in Inc. inversion Inc as [|? ? Inc' F]; subst. destruct (Z.ltb_spec id k).
    + assert (N: value_at ((k, v) :: m) id = None).
      { apply value_none. intros x [E|I]; [injection E; lia|]. rewrite Forall_forall in F. specialize (F id (in_map fst _ _ I)). lia. }
      eexists. split; [reflexivity|]. split; [cbn [map fst]; constructor; [exact Inc|constructor; [lia|]]|]. { eapply Forall_impl; [|exact F]. cbn. intros; lia. }
      split; [intros q Hq Fq; cbn [map fst]; constructor; auto|]. intros p. rewrite N, value_at_cons, (Z.eqb_sym id p). destruct (p =? id); reflexivity.
    + destruct (Z.eqb_spec id k) as [->|Nk].
      * rewrite value_at_cons, Z.eqb_refl in *. specialize (Hv v eq_refl). unfold incr. destruct (Z.ltb_spec v (2 ^ 31 - 1)); [|lia]. cbn [bind]. eexists. split; [reflexivity|]. split; [exact Inc|]. split; [auto|].
        intros p. rewrite !value_at_cons, (Z.eqb_sym k p). destruct (p =? k); reflexivity.
      * destruct (IH id Inc') as (m' & -> & A & B & C). { intros x E. apply Hv. rewrite value_at_cons. destruct (Z.eqb_spec k id); [lia|auto]. }
        cbn [bind]. eexists. split; [reflexivity|]. cbn [map fst]. split; [constructor; [exact A|apply B; [lia|auto]]|]. split.
        -- intros q Hq Fq. inversion Fq; subst. constructor; auto.
        -- intros p. rewrite !value_at_cons, C. destruct (Z.eqb_spec k id); [lia|]. destruct (Z.eqb_spec k p) as [->|]; [|reflexivity]. destruct (Z.eqb_spec p id); [lia|reflexivity].
Qed.
Lemma Forall2_length : forall {A B} (P : A -> B -> Prop) l m, Forall2 P l m -> length l = length m.
Proof. intros A B P l m H. induction H; cbn; congruence. Qed.
Lemma nth_error_firstn' : forall {A} (l : list A) n i, nth_error (firstn n l) i = if (i <? n)%nat then nth_error l i else None.
Proof. intros A l. induction l as [|x l IH]; intros [|n] [|i]; cbn [firstn nth_error]; auto. { destruct (_ <? _)%nat; auto. } rewrite IH. reflexivity. Qed.
Section Real.
Context {R : Type} (idf_of : Z -> Z -> R) (times : Z -> R -> R).
Notation tfidf := (tfidf R).

Lemma before_tab_ok : forall w r, ~ In 9 w -> before_tab (w ++ 9 :: r) = Some w.
Proof. intros w r. induction w as [|c w IH]; intros N; cbn [app before_tab]; [reflexivity|]. destruct (Z.eqb_spec c 9) as [->|]; [exfalso; apply N; left; auto|]. rewrite IH; [reflexivity|]. intros I. apply N. right. auto. Qed.
Lemma before_tab_none : forall l, ~ In 9 l -> before_tab l = None.
Proof. intros l. induction l as [|c w IH]; intros N; cbn [before_tab]; [reflexivity|]. destruct (Z.eqb_spec c 9) as [->|]; [exfalso; apply N; left; auto|]. rewrite IH; [reflexivity|]. intros I. apply N. right. auto. Qed.
Lemma getline_lf : forall l t, ~ In 10 l -> getline (l ++ 10 :: t) = Some (l, t).
Proof. intros l t N. unfold getline. pose proof (take_line_lf l t N []) as E. cbn [rev app] in E. destruct (l ++ 10 :: t) eqn:Q; [destruct l; discriminate|]. rewrite E. reflexivity. Qed.
Lemma in_dict : forall w2 iw w, dict w2 iw -> match mfind w w2 with None => ~ In w iw | Some _ => In w iw end.
Proof. intros w2 iw w D. destruct (mfind w w2) eqn:E; [apply D in E; destruct E as [_ E]; eapply nth_error_In; eauto|eapply dict_none; eauto]. Qed.
Lemma key_loop_ok : forall es tail fuel w2 iw, Forall key_entry es -> no_tab_line tail -> dict w2 iw -> (length (concat (map key_line es) ++ tail) < fuel)%nat -> zlen iw + zlen es < 2 ^ 31 ->
  exists w2', key_loop fuel (concat (map key_line es) ++ tail) w2 iw = Ok (w2', fold_left (fun acc w => if in_dec word_dec w acc then acc else acc ++ [w]) (map fst es) iw) /\
   dict w2' (fold_left (fun acc w => if in_dec word_dec w acc then acc else acc ++ [w]) (map fst es) iw).
Proof.
  intros es tail. induction es as [|[w r] es IH]; intros fuel w2 iw He Ht D Hf Hn; (destruct fuel as [|f]; [lia|]); cbn [key_loop map concat fold_left app fst].
  - exists w2. split; [|auto]. destruct Ht as (l & more & -> & N9 & N10 & [->|[x ->]]).
    + rewrite app_nil_r. unfold getline. destruct l as [|c l]; [reflexivity|]. rewrite (take_line_end (c :: l) N10 []). cbn [rev app]. rewrite before_tab_none by auto. reflexivity.
    + rewrite getline_lf by auto. rewrite before_tab_none by auto. reflexivity.
  - inversion He as [|? ? (H1 & H2 & H3) He']; subst. cbn [fst snd] in *.
    assert (Ek: key_line (w, r) = (w ++ 9 :: r) ++ [10]) by (unfold key_line; cbn [fst snd]; rewrite <- app_assoc; reflexivity).
    replace ((key_line (w, r) ++ concat (map key_line es)) ++ tail) with ((w ++ 9 :: r) ++ 10 :: (concat (map key_line es) ++ tail)) by (rewrite Ek, <- !app_assoc; reflexivity).
    rewrite getline_lf by (intros I; apply in_app_or in I; destruct I as [I|[I|I]]; [auto|lia|auto]). rewrite before_tab_ok by auto.
    rewrite zlen_cons in Hn. pose proof (zlen_nonneg es). pose proof (zlen_nonneg iw). rewrite to_s32 by lia. pose proof (in_dict _ _ w D) as X.
    assert (Lf: (length (concat (map key_line es) ++ tail) < f)%nat) by (cbn [map concat] in Hf; rewrite Ek, !app_length in Hf; rewrite app_length; simpl in Hf; lia).
    destruct (mfind w w2) as [i|] eqn:Ew.
    + destruct (in_dec word_dec w iw); [|contradiction]. apply IH; auto; [eapply dict_same; eauto|lia].
    + destruct (in_dec word_dec w iw); [contradiction|]. apply IH; auto; [apply dict_add; auto|rewrite zlen_app, zlen_cons, zlen_nil; lia].
Qed.
Definition tinv (K : list word) (docs : list (list word)) (cur : list word) (t : tfidf) : Prop :=
  dict (w2i t) K /\ i2w t = K /\ length (dfs t) = length K /\
  (forall i w, nth_error K i = Some w -> nth_error (dfs t) i = Some (doc_freq w (docs ++ [cur]))) /\
  Forall2 (counted K) (filter (known K) (docs ++ [cur])) (tfs t) /\
  curTf t = (if known K cur then Some (zlen (tfs t) - 1) else None) /\
  (forall w, In w (tset t) <-> In w K /\ contains w cur = true) /\ svs t = [].
Lemma firsts_dict_empty : dict [] [].
Proof. split; [constructor|]. split; [constructor|]. intros w i. cbn. split; [discriminate|]. destruct (Z.to_nat i); intros [_ H]; discriminate. Qed.
Lemma load_ok : forall es tail, Forall key_entry es -> no_tab_line tail -> zlen es < 2 ^ 31 ->
  exists t, loadKeywordFile ti_new (concat (map key_line es) ++ tail) = Ok t /\ tinv (firsts (map fst es)) [] [] t.
Proof.
  intros es tail He Ht Hn. unfold loadKeywordFile. cbn [w2i i2w ti_new].
  destruct (key_loop_ok es tail (S (length (concat (map key_line es) ++ tail))) [] [] He Ht firsts_dict_empty ltac:(lia) ltac:(rewrite zlen_nil; lia)) as (w2 & -> & D). cbn [bind]. fold (firsts (map fst es)) in *. set (K := firsts (map fst es)) in *.
  eexists. split; [reflexivity|]. split; [exact D|]. cbn [i2w dfs tfs curTf tset svs ti_new]. split; [auto|].
  assert (Ev: vresize (length K) [] = repeat 0 (length K)) by (unfold vresize; cbn [length]; rewrite Nat.sub_0_r, firstn_nil; reflexivity). rewrite Ev.
  split; [apply repeat_length|]. split.
  - intros i w H. assert (i < length K)%nat by (apply nth_error_Some; congruence). rewrite (nth_error_nth' _ 0) by (rewrite repeat_length; auto). rewrite nth_repeat. reflexivity.
  - split; [cbn; constructor|]. split; [reflexivity|]. split; [|reflexivity]. intros w. cbn. split; [tauto|]. intros [_ H]. discriminate.
Qed.
Lemma doc_freq_snoc : forall w docs d, doc_freq w (docs ++ [d]) = doc_freq w docs + if contains w d then 1 else 0.
Proof. intros. unfold doc_freq. rewrite filter_app, zlen_app. cbn [filter]. destruct (contains w d); [rewrite zlen_cons|]; rewrite zlen_nil; lia. Qed.
Lemma occ_zero : forall w doc, occurrences w doc = 0 <-> contains w doc = false.
Proof.
  intros w doc. unfold occurrences, contains. induction doc as [|t doc IH]; [cbn; split; auto|]. cbn [filter existsb]. destruct (is_form w t); cbn [orb].
  - rewrite zlen_cons. pose proof (zlen_nonneg (filter (is_form w) doc)). split; [lia|discriminate].
  - exact IH.
Qed.
Lemma known_false : forall K doc, known K doc = false <-> forall w, In w K -> contains w doc = false.
Proof.
  intros K doc. split.
  - intros H w I. destruct (contains w doc) eqn:C; auto. apply contains_iff in C. destruct C as (t & A & <-). assert (known K doc = true); [|congruence]. apply existsb_exists. exists t. split; [auto|]. destruct (in_dec word_dec (lowercase t) K); tauto.
  - intros H. destruct (known K doc) eqn:C; auto. apply existsb_exists in C. destruct C as (t & A & B). destruct (in_dec word_dec (lowercase t) K) as [I|]; [|discriminate]. assert (contains (lowercase t) doc = true) by (apply contains_iff; eauto). rewrite H in *; auto.
Qed.
Lemma keyword_In : forall K p w, keyword K p = Some w -> In w K.
Proof. intros K p w. unfold keyword. destruct (p <? 0); [discriminate|]. apply nth_error_In. Qed.
Lemma counted_empty : forall K doc, known K doc = false -> counted K doc [].
Proof.
  intros K doc H. split; [constructor|]. intros p. destruct (keyword K p) as [w|] eqn:E; [|reflexivity]. apply keyword_In in E. rewrite known_false in H. rewrite (proj2 (occ_zero w doc)) by auto. reflexivity.
Qed.
Lemma Forall2_snoc : forall {A B} (P : A -> B -> Prop) l a m, Forall2 P (l ++ [a]) m -> exists m' b, m = m' ++ [b] /\ Forall2 P l m' /\ P a b.
Proof. intros A B P l a m H. apply Forall2_app_inv_l in H. destruct H as (m1 & m2 & H1 & H2 & ->). inversion H2 as [|? b ? l2 Hb H3]; subst. inversion H3; subst. eauto. Qed.
Lemma known_snoc : forall K doc t, known K (doc ++ [t]) = known K doc || if in_dec word_dec (lowercase t) K then true else false.
Proof. intros. unfold known. rewrite existsb_app. cbn [existsb]. rewrite orb_false_r. reflexivity. Qed.
Lemma filter_snoc : forall {A} (f : A -> bool) l x, filter f (l ++ [x]) = filter f l ++ if f x then [x] else [].
Proof. intros. rewrite filter_app. cbn [filter]. reflexivity. Qed.
Lemma doc_freq_le : forall w docs, 0 <= doc_freq w docs <= zlen docs.
Proof. intros. split; [apply zlen_nonneg|apply filter_le]. Qed.
Lemma occ_le : forall w doc, 0 <= occurrences w doc <= zlen doc.
Proof. intros. split; [apply zlen_nonneg|apply filter_le]. Qed.
Lemma ti_append_ok : forall K docs cur t w, tinv K docs cur t -> zlen docs < 2 ^ 31 - 1 -> zlen cur < 2 ^ 31 - 1 -> exists t', ti_append t w = Ok t' /\ tinv K docs (cur ++ [w]) t'.
Proof.
  intros K docs cur t w (I1 & I2 & I3 & I4 & I5 & I6 & I7 & I8) Hd Hc. unfold ti_append. rewrite lower_eq. set (lw := lowercase w). pose proof (in_dict _ _ lw I1) as X. destruct (mfind lw (w2i t)) as [id|] eqn:E.
  - apply I1 in E. destruct E as [Hid Eid].
    assert (Y: exists l m, (match curTf t with None => tfs t ++ [[]] | Some _ => tfs t end) = l ++ [m] /\ (match curTf t with None => zlen (tfs t) | Some c => c end) = zlen l /\ Forall2 (counted K) (filter (known K) docs) l /\ counted K cur m).
    { rewrite filter_snoc in I5. rewrite I6. destruct (known K cur) eqn:Ek.
      - apply Forall2_snoc in I5. destruct I5 as (l & m & -> & A & B). exists l, m. split; [auto|]. split; [rewrite zlen_app, zlen_cons, zlen_nil; lia|auto].
      - rewrite app_nil_r in I5. exists (tfs t), []. split; [auto|]. split; [auto|]. split; [auto|]. apply counted_empty. auto. }
    destruct Y as (l & m & -> & -> & Fl & Cm). replace (rd (l ++ [m]) (zlen l)) with (Ok m) by (symmetry; apply rd_some; split; [apply zlen_nonneg|]; rewrite to_nat_zlen, nth_snoc, Nat.eqb_refl; reflexivity). cbn [bind].
    destruct Cm as [Inc Cm].
    assert (Kid: keyword K id = Some lw) by (unfold keyword; destruct (Z.ltb_spec id 0); [lia|auto]).
    destruct (imap_incr_ok m id Inc) as (m' & -> & Inc' & _ & V').
    { intros v Ev. rewrite Cm, Kid in Ev. destruct (Z.eqb_spec (occurrences lw cur) 0); [discriminate|]. injection Ev as <-. pose proof (occ_le lw cur). lia. }
    cbn [bind]. rewrite wr_ok by (pose proof (zlen_nonneg l); rewrite zlen_app, zlen_cons, zlen_nil; lia). cbn [bind]. rewrite to_nat_zlen, upd_app_exact.
    assert (Uniq: forall p q x, keyword K p = Some x -> keyword K q = Some x -> p = q).
    { intros p q x. unfold keyword. destruct (Z.ltb_spec p 0); [discriminate|]. destruct (Z.ltb_spec q 0); [discriminate|]. intros A B. assert (Z.to_nat p = Z.to_nat q); [|lia]. apply (proj1 (NoDup_nth_error K)); [apply I1| |congruence]. apply nth_error_Some. congruence. }
    assert (Cm': counted K (cur ++ [w]) m').
    { split; [auto|]. intros p. rewrite V'. destruct (Z.eqb_spec p id) as [->|Np].
      - rewrite Cm, Kid, occ_snoc, (proj2 (is_form_iff lw w)) by reflexivity. pose proof (occ_le lw cur). destruct (Z.eqb_spec (occurrences lw cur) 0) as [Z0|]; [rewrite Z0; reflexivity|]. destruct (Z.eqb_spec (occurrences lw cur + 1) 0); [lia|reflexivity].
      - rewrite Cm. destruct (keyword K p) as [x|] eqn:Ex; [|reflexivity]. rewrite occ_snoc. destruct (is_form x w) eqn:Ef; [|rewrite Z.add_0_r; reflexivity]. apply is_form_iff in Ef. exfalso. apply Np. subst x. eapply Uniq; eauto. }
    assert (Kn: known K (cur ++ [w]) = true) by (rewrite known_snoc; destruct (in_dec word_dec (lowercase w) K); [apply orb_true_r|contradiction]).
    assert (F': Forall2 (counted K) (filter (known K) (docs ++ [cur ++ [w]])) (l ++ [m'])) by (rewrite filter_snoc, Kn; apply Forall2_app; [auto|constructor; [auto|constructor]]).
    assert (Cu: Some (zlen l) = (if known K (cur ++ [w]) then Some (zlen (l ++ [m']) - 1) else None)) by (rewrite Kn, zlen_app, zlen_cons, zlen_nil; f_equal; lia).
    destruct (in_set lw (tset t)) eqn:Es.
    + apply in_set_iff, I7 in Es. destruct Es as [_ Es]. eexists. split; [reflexivity|]. split; [auto|]. cbn [i2w dfs tfs curTf tset svs]. split; [auto|]. split; [auto|]. split; [|split; [auto|split; [auto|split; [|auto]]]].
      * intros i x H. rewrite (I4 i x H), !doc_freq_snoc, contains_snoc. destruct (is_form x w) eqn:Ef; [|rewrite orb_false_r; auto]. apply is_form_iff in Ef. fold lw in Ef. subst x. rewrite Es. reflexivity.
      * intros x. rewrite I7, contains_snoc. destruct (is_form x w) eqn:Ef; [|rewrite orb_false_r; reflexivity]. apply is_form_iff in Ef. fold lw in Ef. subst x. rewrite Es, orb_true_r. reflexivity.
    + assert (Nc: contains lw cur = false) by (destruct (contains lw cur) eqn:C; auto; assert (A: In lw (tset t)) by (apply I7; auto); apply in_set_iff in A; congruence).
      pose proof (I4 _ _ Eid) as Hv. rewrite doc_freq_snoc, Nc, Z.add_0_r in Hv. pose proof (doc_freq_le lw docs). rewrite (incr_at_ok _ _ _ Hv Hid) by lia. cbn [bind]. eexists. split; [reflexivity|]. split; [auto|]. cbn [i2w dfs tfs curTf tset svs].
      assert (Li: (Z.to_nat id < length (dfs t))%nat) by (apply nth_error_Some; congruence).
      split; [auto|]. split; [rewrite upd_length; auto|]. split; [|split; [auto|split; [auto|split; [|auto]]]].
      * intros i x H1. rewrite nth_upd by auto. rewrite doc_freq_snoc, contains_snoc. destruct (Nat.eqb_spec i (Z.to_nat id)) as [->|Ni].
        -- rewrite Eid in H1. injection H1 as <-. rewrite (proj2 (is_form_iff lw w)) by reflexivity. rewrite orb_true_r. reflexivity.
        -- rewrite (I4 i x H1), doc_freq_snoc. destruct (is_form x w) eqn:Ef; [|rewrite orb_false_r; reflexivity]. apply is_form_iff in Ef. fold lw in Ef. subst x. exfalso. apply Ni. apply (proj1 (NoDup_nth_error K)); [apply I1| |congruence]. apply nth_error_Some. congruence.
      * intros x. simpl. rewrite I7, contains_snoc. destruct (is_form x w) eqn:Ef.
        -- apply is_form_iff in Ef. fold lw in Ef. subst x. rewrite orb_true_r. tauto.
        -- rewrite orb_false_r. split; [intros [<-|A]; [|auto]|auto]. rewrite (proj2 (is_form_iff lw w)) in Ef by reflexivity. discriminate.
  - exists t. split; [reflexivity|].
    assert (Nf: forall x, In x K -> is_form x w = false) by (intros x I; destruct (is_form x w) eqn:Ef; auto; apply is_form_iff in Ef; fold lw in Ef; subst x; contradiction).
    assert (Kn: known K (cur ++ [w]) = known K cur) by (rewrite known_snoc; destruct (in_dec word_dec (lowercase w) K); [contradiction|apply orb_false_r]).
    split; [auto|]. split; [auto|]. split; [auto|]. split; [|split; [|split; [rewrite Kn; auto|split; [|auto]]]].
    + intros i x H. rewrite (I4 i x H), !doc_freq_snoc, contains_snoc, (Nf x), orb_false_r by (eapply nth_error_In; eauto). reflexivity.
    + rewrite filter_snoc in I5. rewrite filter_snoc, Kn. destruct (known K cur); [|auto]. apply Forall2_snoc in I5. destruct I5 as (l & m & -> & A & (B & C)). apply Forall2_app; [auto|]. constructor; [|constructor]. split; [auto|]. intros p. rewrite C.
      destruct (keyword K p) as [x|] eqn:Ex; [|reflexivity]. rewrite occ_snoc, (Nf x), Z.add_0_r by (eapply keyword_In; eauto). reflexivity.
    + intros x. rewrite I7, contains_snoc. split; intros [A B]; (split; [auto|]); rewrite (Nf x A), orb_false_r in *; auto.
Qed.
Lemma ti_doc_ok : forall ws K docs cur t, tinv K docs cur t -> zlen docs < 2 ^ 31 - 1 -> zlen cur + zlen ws < 2 ^ 31 -> exists t', ti_doc t ws = Ok t' /\ tinv K docs (cur ++ ws) t'.
Proof.
  intros ws. induction ws as [|w ws IH]; intros K docs cur t I H1 H2; cbn [ti_doc]; [exists t; rewrite app_nil_r; auto|]. rewrite zlen_cons in H2. pose proof (zlen_nonneg ws).
  destruct (ti_append_ok K docs cur t w I H1) as (t1 & -> & I1); [lia|]. cbn [bind]. destruct (IH K docs (cur ++ [w]) t1 I1 H1) as (t2 & -> & I2); [rewrite zlen_app, zlen_cons, zlen_nil; lia|]. exists t2. rewrite <- app_assoc in I2. auto.
Qed.
Lemma ti_endDoc_ok : forall K docs cur t, tinv K docs cur t -> tinv K (docs ++ [cur]) [] (ti_endDoc t).
Proof.
  intros K docs cur t (I1 & I2 & I3 & I4 & I5 & I6 & I7 & I8). split; [auto|]. unfold ti_endDoc. cbn [i2w dfs tfs curTf tset svs]. split; [auto|]. split; [auto|]. split; [|split; [|split; [auto|split; [|auto]]]].
  - intros i w H. rewrite (I4 i w H), (doc_freq_snoc w (docs ++ [cur]) []). cbn [contains existsb]. rewrite Z.add_0_r. reflexivity.
  - rewrite (filter_snoc (known K) (docs ++ [cur]) []). cbn [known existsb]. rewrite app_nil_r. auto.
  - intros w. cbn. split; [tauto|]. intros [_ H]. discriminate.
Qed.
Lemma ti_docs_ok : forall more K docs t, tinv K docs [] t -> zlen docs + zlen more < 2 ^ 31 -> Forall (fun d => zlen d < 2 ^ 31) more -> exists t', ti_docs t more = Ok t' /\ tinv K (docs ++ more) [] t'.
Proof.
  intros more. induction more as [|ws more IH]; intros K docs t I H1 H2; cbn [ti_docs]; [exists t; rewrite app_nil_r; auto|]. inversion H2 as [|? ? Hw H2']; subst. rewrite zlen_cons in H1. pose proof (zlen_nonneg more).
  destruct (ti_doc_ok ws K docs [] t I) as (t1 & -> & I1); [lia|rewrite zlen_nil; lia|]. cbn [bind app] in *. apply ti_endDoc_ok in I1. destruct (IH K (docs ++ [ws]) _ I1) as (t2 & -> & I2); [rewrite zlen_app, zlen_cons, zlen_nil; lia|auto|].
  exists t2. rewrite <- app_assoc in I2. auto.
Qed.
(** The whole use: load the keywords, feed every document.  df: documents containing the keyword; tf: one table per document that contains a keyword at all *)
Theorem C59_count : forall es tail docs, Forall key_entry es -> no_tab_line tail -> zlen es < 2 ^ 31 -> zlen docs < 2 ^ 31 -> Forall (fun d => zlen d < 2 ^ 31) docs ->
  let K := firsts (map fst es) in
  exists t0 t, loadKeywordFile ti_new (concat (map key_line es) ++ tail) = Ok t0 /\ ti_docs (R := R) t0 docs = Ok t /\ i2w t = K /\ dfs t = map (fun w => doc_freq w docs) K /\
  Forall2 (counted K) (filter (known K) docs) (tfs t).
Proof.
  intros es tail docs He Ht Hn Hd Hs K. destruct (load_ok es tail He Ht Hn) as (t0 & E0 & I0). destruct (ti_docs_ok docs K [] t0 I0) as (t & E & I1 & I2 & I3 & I4 & I5 & _); [rewrite zlen_nil; lia|auto|].
  exists t0, t. split; [auto|]. split; [auto|]. split; [auto|]. cbn [app] in *. rewrite (filter_snoc (known K) docs []) in I5. cbn [known existsb] in I5. rewrite app_nil_r in I5. split; [|auto].
  assert (X: forall (a b : list Z), length a = length b -> (forall i x, nth_error b i = Some x -> nth_error a i = Some x) -> a = b).
  { intros a. induction a as [|x a IH]; intros [|y b] L H; try discriminate; [reflexivity|]. pose proof (H O y eq_refl) as H0. cbn in H0. injection H0 as ->. f_equal. apply IH; [simpl in L; lia|]. intros i z Hz. apply (H (S i) z Hz). }
  apply X; [rewrite map_length; auto|]. intros i x Hx. rewrite nth_error_map in Hx. destruct (nth_error K i) as [w|] eqn:Ew; [|discriminate]. cbn in Hx. injection Hx as <-. rewrite (I4 i w Ew), doc_freq_snoc. cbn [contains existsb]. rewrite Z.add_0_r. reflexivity.
Qed.
(** ** term *)
Lemma firsts_spec : forall ws acc, NoDup acc -> NoDup (fold_left (fun acc w => if in_dec word_dec w acc then acc else acc ++ [w]) ws acc) /\
  (forall w, In w (fold_left (fun acc w => if in_dec word_dec w acc then acc else acc ++ [w]) ws acc) <-> In w acc \/ In w ws).
Proof.
  intros ws. induction ws as [|x ws IH]; intros acc N; cbn [fold_left]; [split; [auto|intros w; simpl; tauto]|]. destruct (in_dec word_dec x acc) as [I|I].
  - destruct (IH acc N) as [A B]. split; [auto|]. intros w. rewrite B. simpl. split; [tauto|]. intros [C|[<-|C]]; auto.
  - destruct (IH (acc ++ [x])) as [A B].
    + apply NoDup_Add with (a := x) (l := acc); [rewrite <- (app_nil_r acc) at 1; apply Add_app|]. auto.
    + split; [auto|]. intros w. rewrite B, in_app_iff. simpl. tauto.
Qed.
Definition weights (N : Z) (dfv : list Z) (m : list (Z * Z)) : list (Z * R) := map (fun e => (fst e, times (snd e) (idf_of N (nth (Z.to_nat (fst e)) dfv 0)))) m.
Lemma ti_vec_ok : forall N dfv m v l, repr v l -> is_packed (tab v) = false -> increasing (map fst l ++ map fst m) -> (forall e, In e m -> 0 <= fst e < zlen dfv) -> zlen dfv <= 2 ^ 31 ->
  exists v', ti_vec times (map (idf_of N) dfv) v m = Ok v' /\ repr v' (l ++ weights N dfv m) /\ is_packed (tab v') = false.
Proof.
  intros N dfv m. induction m as [|[id n] m IH]; intros v l Rv Pv Inc Hm Hd; cbn [ti_vec weights map]; [exists v; rewrite app_nil_r; auto|].
  pose proof (Hm (id, n) (or_introl eq_refl)) as Hid. cbn [fst] in Hid.
  replace (rd (map (idf_of N) dfv) id) with (Ok (idf_of N (nth (Z.to_nat id) dfv 0))).
  2: { symmetry. apply rd_some. split; [lia|]. rewrite nth_error_map, (nth_error_nth' dfv 0) by (unfold zlen in *; lia). reflexivity. }
  cbn [bind]. destruct (Z.ltb_spec id 0); [lia|]. destruct (repr_push v l id (times n (idf_of N (nth (Z.to_nat id) dfv 0))) Rv ltac:(lia)) as (v1 & -> & P1 & R1). rewrite Pv in *.
  assert (Ac: accepts false l id = true).
  { unfold accepts. apply andb_true_iff. split; [|apply Z.ltb_lt; lia]. destruct (Z.eqb_spec (zlen l) 0) as [|Nz]; [reflexivity|]. cbn [orb]. apply Z.ltb_lt. unfold last_pos. cbn [map fst] in Inc.
    destruct l as [|x l0 _] using rev_ind; [exfalso; apply Nz; reflexivity|]. rewrite map_app. cbn [map]. rewrite last_app_one. rewrite map_app in Inc. cbn [map] in Inc. rewrite <- app_assoc in Inc. cbn [app] in Inc.
    assert (Q: forall a, increasing (a ++ fst x :: id :: map fst m) -> fst x < id). { intros a. induction a as [|y a IHa]; intros Ha; inversion Ha as [|? ? Ha' Fa]; subst; [inversion Fa; auto|auto]. }
    eapply Q. exact Inc. }
  rewrite Ac in *. cbn [negb] in *. destruct (IH v1 (l ++ [(id, times n (idf_of N (nth (Z.to_nat id) dfv 0)))]) R1 P1) as (v' & -> & R' & P').
  - rewrite map_app. cbn [map fst]. rewrite <- app_assoc. exact Inc.
  - intros e I. apply Hm. right. auto.
  - auto.
  - exists v'. split; [reflexivity|]. cbn [fst snd]. rewrite <- app_assoc in R'. auto.
Qed.
Lemma ti_vecs_ok : forall N dfv tf, Forall (fun m => increasing (map fst m) /\ forall e, In e m -> 0 <= fst e < zlen dfv) tf -> zlen dfv <= 2 ^ 31 -> forall n i acc, 0 <= i ->
  (i + Z.of_nat n <= zlen tf -> exists vs, ti_vecs times n i tf (map (idf_of N) dfv) acc = Ok (acc ++ vs) /\ Forall2 (fun m v => repr v (weights N dfv m)) (firstn n (skipn (Z.to_nat i) tf)) vs) /\
  (i <= zlen tf -> zlen tf < i + Z.of_nat n -> ti_vecs times n i tf (map (idf_of N) dfv) acc = UB).
Proof.
  intros N dfv tf Ht Hd n. induction n as [|n IH]; intros i acc Hi; cbn [ti_vecs].
  - split; [|lia]. intros _. exists []. rewrite app_nil_r. split; [auto|constructor].
  - destruct (Z.lt_ge_cases i (zlen tf)) as [L|L].
    + destruct (nth_error tf (Z.to_nat i)) as [m|] eqn:Em; [|apply nth_error_None in Em; unfold zlen in *; lia]. rewrite (proj2 (rd_some tf i m)) by auto. cbn [bind].
      rewrite Forall_forall in Ht. destruct (Ht m (nth_error_In _ _ Em)) as [A B]. destruct (ti_vec_ok N dfv m (sv_new false) [] (repr_new false) eq_refl A B Hd) as (v & -> & Rv & _). cbn [bind app] in *.
      destruct (IH (i + 1) (acc ++ [v]) ltac:(lia)) as [P Q]. split.
      * intros H. destruct P as (vs & -> & F); [lia|]. exists (v :: vs). rewrite <- app_assoc. split; [reflexivity|]. replace (skipn (Z.to_nat i) tf) with (m :: skipn (Z.to_nat (i + 1)) tf).
        -- cbn [firstn]. constructor; auto.
        -- replace (Z.to_nat (i + 1)) with (S (Z.to_nat i)) by lia. clear - Em. revert tf Em. generalize (Z.to_nat i). intros k. induction k as [|k IHk]; intros [|x tf] E; try discriminate; cbn in *; [injection E as ->; reflexivity|apply IHk; auto].
      * intros H1 H2. apply Q; lia.
    + split; [lia|]. intros H1 H2. assert (i = zlen tf) by lia. subst i. unfold rd. destruct (Z.ltb_spec (zlen tf) 0); [lia|]. rewrite (proj2 (nth_error_None tf _)) by (rewrite to_nat_zlen; lia). reflexivity.
Qed.
Lemma counted_keys : forall K doc m, counted K doc m -> increasing (map fst m) /\ forall e, In e m -> 0 <= fst e < zlen K.
Proof.
  intros K doc m [A B]. split; [auto|]. intros [p x] I. cbn [fst]. apply value_in in I; auto. rewrite B in I. unfold keyword in I. destruct (Z.ltb_spec p 0); [discriminate|]. destruct (nth_error K (Z.to_nat p)) eqn:E; [|discriminate].
  assert (Z.to_nat p < length K)%nat by (apply nth_error_Some; congruence). unfold zlen. lia.
Qed.
(** after any such use, term() gives the first (number of keywords) documents their weights if there are at least as many documents with keywords, and reads outside tf_ otherwise *)
Theorem C59_term : forall es tail docs t0 t, Forall key_entry es -> no_tab_line tail -> zlen es < 2 ^ 30 - 1 -> zlen docs < 2 ^ 31 -> Forall (fun d => zlen d < 2 ^ 31) docs ->
  loadKeywordFile ti_new (concat (map key_line es) ++ tail) = Ok t0 -> ti_docs (R := R) t0 docs = Ok t ->
  let K := firsts (map fst es) in let used := filter (known K) docs in
  (zlen K <= zlen used -> exists t', ti_term idf_of times t = Ok t' /\ zlen (svs t') = zlen K /\
     forall j v m, nth_error (svs t') j = Some v -> nth_error (tfs t) j = Some m -> exists v', iterate v = Ok (weights (zlen used) (map (fun w => doc_freq w docs) K) m, v')) /\
  (zlen used < zlen K -> ti_term idf_of times t = UB).
Proof.
  intros es tail docs t0 t He Ht Hn Hd Hs E0 E1 K used.
  destruct (C59_count es tail docs He Ht ltac:(lia) Hd Hs) as (t0' & t' & E0' & E1' & Ei & Ed & F). rewrite E0' in E0. injection E0 as <-. rewrite E1' in E1. injection E1 as <-. fold K in Ei, Ed, F. fold used in F.
  destruct (load_ok es tail He Ht ltac:(lia)) as (t1 & E2 & I0). rewrite E0' in E2. injection E2 as <-. destruct (ti_docs_ok docs _ [] t0' I0) as (t2 & E3 & I1); [rewrite zlen_nil; lia|auto|]. rewrite E1' in E3. injection E3 as <-.
  assert (Sv: svs t' = []) by apply I1. clear I0 I1.
  assert (LK: zlen K <= zlen es). { destruct (firsts_spec (map fst es) [] (NoDup_nil _)) as [A B]. unfold zlen. rewrite <- (map_length fst es). apply inj_le. apply NoDup_incl_length; [exact A|]. intros w I. apply B in I. destruct I as [[]|I]; auto. }
  assert (Ld: zlen (dfs t') = zlen K) by (rewrite Ed; apply zlen_map). assert (Lt: zlen (tfs t') = zlen used) by (apply Forall2_length in F; unfold zlen; lia).
  assert (Hk: Forall (fun m => increasing (map fst m) /\ forall e, In e m -> 0 <= fst e < zlen (dfs t')) (tfs t')).
  { rewrite Ld. clear - F idf_of times. induction F as [|d m ds ms H F IH]; constructor; auto. eapply counted_keys; eauto. }
  unfold ti_term. rewrite Sv. destruct (ti_vecs_ok (zlen (tfs t')) (dfs t') (tfs t') Hk ltac:(rewrite Ld; lia) (length (dfs t')) 0 [] ltac:(lia)) as [P Q]. fold (zlen (dfs t')) in P, Q. rewrite Z.add_0_l, Ld, Lt in *. split.
  - intros H. destruct P as (vs & -> & Fv); [auto|]. cbn [bind app]. eexists. split; [reflexivity|]. cbn [svs]. change (Z.to_nat 0) with 0%nat in Fv. cbn [skipn] in Fv. pose proof (Forall2_length _ _ _ Fv) as L. rewrite firstn_length in L. split.
    + unfold zlen in *. lia.
    + intros j v m Hv Hm. assert (Rv: repr v (weights (zlen used) (dfs t') m)).
      { assert (G: forall ms vs j, Forall2 (fun m v => repr v (weights (zlen used) (dfs t') m)) ms vs -> nth_error vs j = Some v -> nth_error ms j = Some m -> repr v (weights (zlen used) (dfs t') m)).
        { clear. intros ms vs j F. revert j. induction F as [|a b ms vs H F IH]; intros [|j] A B; try discriminate; cbn in *; [congruence|eauto]. }
        eapply G; [exact Fv|exact Hv|]. assert (j < length vs)%nat by (apply nth_error_Some; congruence). rewrite nth_error_firstn'. destruct (Nat.ltb_spec j (length (dfs t'))); [auto|]. unfold zlen in *. lia. }
      rewrite <- Ed. destruct (iterate_ok v _ Rv) as (v' & Ev & _); [|eauto]. unfold room, weights. rewrite zlen_map.
      assert (Km: increasing (map fst m) /\ forall e, In e m -> 0 <= fst e < zlen K) by (rewrite Forall_forall in Hk; apply Hk; eapply nth_error_In; eauto).
      assert (zlen m <= zlen K); [|lia]. destruct Km as [K1 K2]. transitivity (zlen (map Z.of_nat (seq 0 (length K)))); [|unfold zlen; rewrite map_length, seq_length; lia].
      rewrite <- (zlen_map fst m). unfold zlen. apply inj_le. apply NoDup_incl_length.
      * clear - K1. unfold increasing in K1. induction K1 as [|a l S IH F]; constructor; auto. intros I. rewrite Forall_forall in F. specialize (F a I). lia.
      * intros p I. apply in_map_iff in I. destruct I as (e & <- & I). specialize (K2 e I). apply in_map_iff. exists (Z.to_nat (fst e)). split; [lia|]. apply in_seq. unfold zlen in K2. lia.
  - intros H. rewrite Q; [reflexivity|pose proof (zlen_nonneg used); lia|auto].
Qed.
End Real.
(** ** Findings and examples *)
(** more keywords than documents: term() reads outside tf_ *)
Theorem C59_term_oob_finding : exists t0 t, loadKeywordFile (R := Z) ti_new (str "tea" ++ [9; 49; 10] ++ str "cup" ++ [9; 50; 10]) = Ok t0 /\ ti_docs t0 [[str "Tea"; str "cup"]] = Ok t /\ ti_term (fun n d => n - d) Z.mul t = UB.
Proof. eexists _, _. split; [vm_compute; reflexivity|]. split; [vm_compute; reflexivity|]. vm_compute. reflexivity. Qed.
(** fewer keywords than documents: the documents after the first (number of keywords) get no vector; a document without keyword gets no table, so positions shift *)
Theorem C59_missing_vectors_finding : exists t0 t t', loadKeywordFile (R := Z) ti_new (str "tea" ++ [9; 10]) = Ok t0 /\
  ti_docs t0 [[str "cup"]; [str "Tea"; str "tea"]; [str "TEA"]] = Ok t /\ ti_term (fun n d => 10 * n + d) Z.mul t = Ok t' /\
  tfs t' = [[(0, 2)]; [(0, 1)]] /\ dfs t' = [2] /\ svs t' = [mk_sv (Plain [0]) [44]].
Proof. eexists _, _, _. split; [vm_compute; reflexivity|]. split; [vm_compute; reflexivity|]. split; [vm_compute; reflexivity|]. split; [vm_compute; reflexivity|]. split; vm_compute; reflexivity. Qed.
(** a keyword with a capital letter is never found *)
Theorem C59_capital_keyword_finding : forall w docs, lowercase w <> w -> doc_freq w docs = 0.
Proof.
  intros w docs H. unfold doc_freq. induction docs as [|d docs IH]; [reflexivity|]. cbn [filter]. destruct (contains w d) eqn:C; [|auto]. apply contains_iff in C. destruct C as (t & _ & E). exfalso. apply H. rewrite <- E.
  unfold lowercase. rewrite map_map. apply map_ext. intros c. destruct ((65 <=? c) && (c <=? 90)) eqn:Q; [|rewrite Q; reflexivity]. destruct ((65 <=? c + 32) && (c + 32 <=? 90)) eqn:Q2; [lia|reflexivity].
Qed.
Example C59_capital_ex : lowercase (str "Tea") <> str "Tea". Proof. discriminate. Qed.
Example C59_case : tokens [[str "Tea"; str "cup"; str "tea"]; [str "CUP"]] = 4 /\ spelling_freq (str "tea") [[str "Tea"; str "cup"; str "tea"]; [str "CUP"]] = 2 /\ doc_freq (str "cup") [[str "Tea"; str "cup"; str "tea"]; [str "CUP"]] = 2.
Proof. vm_compute. auto. Qed.
Example C59_file : Forall key_entry [(str "tea", str "5 0.1"); (str "cup", []); (str "tea", str "x")] /\ no_tab_line [] /\ no_tab_line (str "end" ++ 10 :: str "more") /\
  firsts (map fst [(str "tea", str "5 0.1"); (str "cup", []); (str "tea", str "x")]) = [str "tea"; str "cup"].
Proof.
  split; [repeat constructor; cbn; intuition lia|]. split; [exists [], []; cbn; tauto|]. split; [exists (str "end"), (10 :: str "more"); split; [reflexivity|]; split; [cbn; lia|split; [cbn; lia|right; eauto]]|]. vm_compute. reflexivity.
Qed.
Example C59_partial_sort : partial_sorted (fun _ l => fold_right (fun x acc => (fix ins (y : Z * Z) (m : list (Z * Z)) := match m with [] => [y] | z :: r => if snd y <=? snd z then y :: m else z :: ins y r end) x acc) [] l).
Proof.
  set (ins := fix ins (y : Z * Z) (m : list (Z * Z)) := match m with [] => [y] | z :: r => if snd y <=? snd z then y :: m else z :: ins y r end).
  assert (P: forall y m, Permutation (ins y m) (y :: m)).
  { intros y m. induction m as [|z r IH]; [apply Permutation_refl|]. cbn. destruct (snd y <=? snd z); [apply Permutation_refl|]. eapply perm_trans; [apply perm_skip; apply IH|apply perm_swap]. }
  assert (S: forall y m, StronglySorted (fun a b : Z * Z => snd a <= snd b) m -> StronglySorted (fun a b : Z * Z => snd a <= snd b) (ins y m)).
  { intros y m H. induction H as [|z r Hs IH F]; [cbn; constructor; constructor|]. cbn. destruct (Z.leb_spec (snd y) (snd z)); [constructor; [constructor; auto|constructor; [auto|eapply Forall_impl; [|exact F]; cbn; intros; lia]]|].
    constructor; [auto|]. eapply Permutation_Forall; [apply Permutation_sym; apply P|]. constructor; [lia|auto]. }
  intros k l Hk. set (s := fold_right ins [] l). assert (Ps: Permutation s l) by (unfold s; clear Hk s; induction l as [|x l IH]; [constructor|]; cbn [fold_right]; eapply perm_trans; [apply P|apply perm_skip; auto]).
  assert (Ss: StronglySorted (fun a b => snd a <= snd b) s) by (unfold s; clear Ps Hk s; induction l as [|x l IH]; [constructor|]; cbn [fold_right]; auto).
  split; [exact Ps|]. rewrite <- (firstn_skipn k s) in Ss. clear - Ss. change (fold_right (fun x acc => ins x acc) [] l) with s. revert Ss. generalize (firstn k s) (skipn k s). intros a b. induction a as [|x a IH]; intros H; cbn [app] in *.
  - split; [constructor|]. intros ? ? [].
  - inversion H as [|? ? H' F]; subst. destruct (IH H') as [A B]. apply Forall_app in F. destruct F as [F1 F2]. split; [constructor; auto|]. intros u v [<-|I] J; [|auto]. rewrite Forall_forall in F2. auto.
Qed.
Print Assumptions C59_df. Print Assumptions C59_df_one_spelling. Print Assumptions C59_df_spelling_finding. Print Assumptions C59_df_term. Print Assumptions C59_count. Print Assumptions C59_term.
Print Assumptions C59_term_oob_finding. Print Assumptions C59_missing_vectors_finding. Print Assumptions C59_capital_keyword_finding.
