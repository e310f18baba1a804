(** C45, C46: minixml. *)
Require Import Verif.Common Verif.AtoiModel Verif.ConfigModel Verif.ConfigProps Verif.Text Verif.XmlModel.
From Coq Require String.

(** * Specification *)
(** C45: the five entities, and what an escaped text stands for *)
Inductive entity : list Z -> Z -> Prop :=
| ent_amp : entity (str "&amp;") 38
| ent_lt : entity (str "&lt;") 60
| ent_gt : entity (str "&gt;") 62
| ent_apos : entity (str "&apos;") 39
| ent_quot : entity (str "&quot;") 34.
Inductive stands_for : list Z -> list Z -> Prop :=
| st_nil : stands_for [] []
| st_plain c t s : c <> 38 -> stands_for t s -> stands_for (c :: t) (c :: s)
| st_entity e c t s : entity e c -> stands_for t s -> stands_for (e ++ t) (c :: s).

(** C46: the grammar of accepted documents *)
Definition space (c : Z) : Prop := c = 32 \/ c = 9 \/ c = 13 \/ c = 10.
Definition quote (c : Z) : Prop := c = 34 \/ c = 39.
Definition name_char (c : Z) : Prop := ~ space c /\ c <> 61 /\ ~ quote c.
Definition spaces (l : list Z) : Prop := Forall space l.
(** an element name: no space, '=', quote or '>', not starting with '/' *)
Definition elem_name (n : list Z) : Prop := Forall (fun c => name_char c /\ c <> 62) n /\ n <> [] /\ hd 0 n <> 47.
(** an attribute  key = "value"  (either quote, spaces around '=' allowed) *)
Inductive attribute : list Z -> list Z -> list Z -> Prop :=
| attribute_intro k v s1 s2 q : Forall name_char k -> k <> [] -> spaces s1 -> spaces s2 -> quote q -> Forall (fun c => c <> q) v ->
    attribute k v (k ++ s1 ++ [61] ++ s2 ++ [q] ++ v ++ [q]).
(** what follows an element name (or "<?xml"): attributes, then one of the closing texts; a key cannot begin like a closing text *)
Inductive tail (close : list (list Z)) : list (list Z * list Z) -> list Z -> list Z -> Prop :=
| tail_close sp e : spaces sp -> In e close -> tail close [] e (sp ++ e)
| tail_attr sp k v a kvs e t : spaces sp -> attribute k v a -> (forall e', In e' close -> hd 0 e' <> hd 0 k) -> tail close kvs e t ->
    tail close ((k, v) :: kvs) e (sp ++ a ++ t).
(** the attributes of a node form a map; a repeated key keeps its last value *)
Fixpoint last_value (k : list Z) (kvs : list (list Z * list Z)) : option (list Z) :=
  match kvs with
  | [] => None
  | (k', v) :: r => match last_value k r with Some v' => Some v' | None => if list_eq_dec Z.eq_dec k k' then Some v else None end
  end.
Definition map_of (kvs : list (list Z * list Z)) (m : attrs) : Prop := msorted m /\ forall k, mfind k m = last_value k kvs.
(** white space and an optional run of text, which does not begin with white space *)
Definition run (sp t : list Z) : Prop := spaces sp /\ Forall (fun c => c <> 60) t /\ (t <> [] -> ~ space (hd 0 t)).
(** a node's content is its last run of text *)
Definition newer (old t : list Z) : list Z := match t with [] => old | _ => t end.
Definition tag_close : list (list Z) := [str ">"; str "/>"].
Inductive element : node -> list Z -> Prop :=
| el_empty n kvs m t : elem_name n -> tail tag_close kvs (str "/>") t -> space (hd 0 t) -> map_of kvs m ->
    element (Node n m [] []) (str "<" ++ n ++ t)
| el_full n kvs m t c ch b : elem_name n -> tail tag_close kvs (str ">") t -> (space (hd 0 t) \/ hd 0 t = 62) -> map_of kvs m -> body [] c ch b ->
    element (Node n m c ch) (str "<" ++ n ++ t ++ b ++ str "</" ++ n ++ str ">")
with body : list Z -> list Z -> list node -> list Z -> Prop :=
| body_end c sp t : run sp t -> body c (newer c t) [] (sp ++ t)
| body_child c sp t e x c' ch b : run sp t -> element e x -> body (newer c t) c' ch b -> body c c' (e :: ch) (sp ++ t ++ x ++ b).
Inductive document : attrs -> node -> list Z -> Prop :=
| doc sp hkvs h ht sp2 root x : spaces sp -> tail [str "?>"] hkvs (str "?>") ht -> space (hd 0 ht) -> map_of hkvs h -> spaces sp2 -> element root x ->
    document h root (sp ++ str "<?xml" ++ ht ++ sp2 ++ x).

Scheme element_ind2 := Induction for element Sort Prop with body_ind2 := Induction for body Sort Prop.
Combined Scheme element_body_ind from element_ind2, body_ind2.

(** * C45 *)
Lemma escape_concat s : escape s = concat (map escape_char s).
Proof. unfold escape. now rewrite fold_left_concat. Qed.
Lemma escape_char_cases c : (c <> 38 /\ c <> 60 /\ c <> 62 /\ c <> 39 /\ c <> 34 /\ escape_char c = [c]) \/ entity (escape_char c) c.
Proof.
  unfold escape_char. destruct (c =? 38) eqn:E1. { right. apply Z.eqb_eq in E1. subst. constructor. }
  destruct (c =? 60) eqn:E2. { right. apply Z.eqb_eq in E2. subst. constructor. }
  destruct (c =? 62) eqn:E3. { right. apply Z.eqb_eq in E3. subst. constructor. }
  destruct (c =? 39) eqn:E4. { right. apply Z.eqb_eq in E4. subst. constructor. }
  destruct (c =? 34) eqn:E5. { right. apply Z.eqb_eq in E5. subst. constructor. }
  left. rewrite !Z.eqb_neq in *. tauto.
Qed.
Lemma escape_stands s : stands_for (escape s) s.
Proof.
  rewrite escape_concat. induction s as [|c s IH]; [constructor|]. cbn [map concat].
  destruct (escape_char_cases c) as [(H & _ & _ & _ & _ & ->)|H].
  - change ([c] ++ concat (map escape_char s)) with (c :: concat (map escape_char s)). now constructor.
  - now constructor.
Qed.
Lemma list_eqb_eq a : forall b, list_eqb a b = true <-> a = b.
Proof.
  induction a as [|x a IH]; intros [|y b]; cbn [list_eqb]; split; intros; try congruence; try discriminate.
  - apply andb_true_iff in H. destruct H as [H1 H2]. apply Z.eqb_eq in H1. apply IH in H2. congruence.
  - injection H as -> ->. rewrite Z.eqb_refl. now apply IH.
Qed.
Lemma try_entity (p : list Z) r n (X : res (list Z)) (Y : list Z) : zlen p = n - 1 ->
  (exists t, r = p ++ t /\ (if n <=? zlen (38 :: r) then memcmp_eq p r else Ok false) = Ok true /\ skipn (length p) r = t) \/
  ((forall t, r <> p ++ t) /\ (if n <=? zlen (38 :: r) then memcmp_eq p r else Ok false) = Ok false).
Proof.
  intros L. rewrite zlen_cons. unfold zlen in *. unfold memcmp_eq.
  destruct (n <=? 1 + Z.of_nat (length r)) eqn:E.
  - apply Z.leb_le in E. assert (length p <= length r)%nat by lia.
    destruct (Nat.ltb_spec (length r) (length p)); [lia|].
    destruct (list_eqb p (firstn (length p) r)) eqn:M.
    + left. apply list_eqb_eq in M. exists (skipn (length p) r). split; [|split]; auto. rewrite M at 1. now rewrite firstn_skipn.
    + right. split; auto. intros t ->. rewrite firstn_app, Nat.sub_diag, firstn_all in M. cbn [firstn] in M. rewrite app_nil_r in M.
      assert (list_eqb p p = true) by now apply list_eqb_eq. congruence.
  - right. split; auto. intros t ->. rewrite app_length in E. apply Z.leb_gt in E. lia.
Qed.
Lemma entity_inv e c : entity e c -> e = 38 :: str "amp;" /\ c = 38 \/ e = 38 :: str "lt;" /\ c = 60 \/ e = 38 :: str "gt;" /\ c = 62 \/
  e = 38 :: str "apos;" /\ c = 39 \/ e = 38 :: str "quot;" /\ c = 34.
Proof. intros []; tauto. Qed.
Lemma unescape_loop_spec f : forall s ret, (length s < f)%nat ->
  (exists o, stands_for s o /\ unescape_loop f s ret = Ok (ret ++ o)) \/ ((forall o, ~ stands_for s o) /\ unescape_loop f s ret = Exn).
Proof.
  induction f as [|f IH]; intros s ret L; [lia|]. cbn [unescape_loop]. destruct s as [|c r].
  - left. exists []. rewrite app_nil_r. split; auto. constructor.
  - cbn [length] in L. destruct (c =? 38) eqn:E.
    + apply Z.eqb_eq in E. subst c.
      assert (G : forall p ch t, entity (38 :: p) ch -> r = p ++ t ->
        (exists o, stands_for (38 :: r) o /\ unescape_loop f t (ret ++ [ch]) = Ok (ret ++ o)) \/ ((forall o, ~ stands_for (38 :: r) o) /\ unescape_loop f t (ret ++ [ch]) = Exn)).
      { intros p ch t HE ->. destruct (IH t (ret ++ [ch])) as [(o & H1 & H2)|(H1 & H2)]; [rewrite app_length in L; lia| |].
        - left. exists (ch :: o). split; [|now rewrite H2, <- app_assoc].
          change (38 :: p ++ t) with ((38 :: p) ++ t). now constructor.
        - right. split; auto. intros o SF. inversion SF as [|? ? ? N1|e c' t' s' HE' ST EQ]; [lia|]. subst o.
          apply entity_inv in HE. apply entity_inv in HE'.
          destruct HE as [[P ?]|[[P ?]|[[P ?]|[[P ?]|[P ?]]]]]; injection P as ->;
          destruct HE' as [[-> ?]|[[-> ?]|[[-> ?]|[[-> ?]|[-> ?]]]]]; try discriminate EQ; injection EQ as ->; eapply H1; eauto. }
      destruct (try_entity (str "amp;") r 5 Exn []) as [(t & R & -> & SK)|(NO1 & ->)]; [reflexivity| |].
      { change 4%nat with (length (str "amp;")). cbn [bind]. rewrite SK. eapply G; eauto. constructor. }
      cbn [bind]. destruct (try_entity (str "lt;") r 4 Exn []) as [(t & R & -> & SK)|(NO2 & ->)]; [reflexivity| |].
      { change 3%nat with (length (str "lt;")). cbn [bind]. rewrite SK. eapply G; eauto. constructor. }
      cbn [bind]. destruct (try_entity (str "gt;") r 4 Exn []) as [(t & R & -> & SK)|(NO3 & ->)]; [reflexivity| |].
      { change 3%nat with (length (str "gt;")). cbn [bind]. rewrite SK. eapply G; eauto. constructor. }
      cbn [bind]. destruct (try_entity (str "apos;") r 6 Exn []) as [(t & R & -> & SK)|(NO4 & ->)]; [reflexivity| |].
      { change 5%nat with (length (str "apos;")). cbn [bind]. rewrite SK. eapply G; eauto. constructor. }
      cbn [bind]. destruct (try_entity (str "quot;") r 6 Exn []) as [(t & R & -> & SK)|(NO5 & ->)]; [reflexivity| |].
      { change 5%nat with (length (str "quot;")). cbn [bind]. rewrite SK. eapply G; eauto. constructor. }
      cbn [bind]. right. split; auto. intros o SF. inversion SF as [|? ? ? N1|e c' t' s' HE' ST EQ]; [lia|].
      apply entity_inv in HE'. destruct HE' as [[-> ?]|[[-> ?]|[[-> ?]|[[-> ?]|[-> ?]]]]]; injection EQ as EQ; symmetry in EQ.
      * now apply NO1 in EQ. * now apply NO2 in EQ. * now apply NO3 in EQ. * now apply NO4 in EQ. * now apply NO5 in EQ.
    + apply Z.eqb_neq in E. destruct (IH r (ret ++ [c])) as [(o & H1 & H2)|(H1 & H2)]; [lia| |].
      * left. exists (c :: o). rewrite H2, <- app_assoc. split; auto. now constructor.
      * right. split; auto. intros o SF. inversion SF as [|? ? ? N1|e c' t' s' HE' ST EQ]; [eapply H1; eauto|].
        apply entity_inv in HE'. destruct HE' as [[-> ?]|[[-> ?]|[[-> ?]|[[-> ?]|[-> ?]]]]]; injection EQ as EQ; lia.
Qed.

(** C45: unescape succeeds exactly on the texts made of characters other than '&' and the five entities and then gives what they stand for;
    every other text throws; no string is read outside. *)
Theorem C45_unescape t s : unescape t = Ok s <-> stands_for t s.
Proof.
  unfold unescape. destruct (unescape_loop_spec (S (length t)) t []) as [(o & H1 & H2)|(H1 & H2)]; [lia| |]; rewrite H2; cbn [app].
  - split; [intros E; injection E as <-; auto|]. intros H. f_equal.
    assert (U : forall t a, stands_for t a -> forall b, stands_for t b -> a = b).
    { clear. induction 1 as [|c t s N H IH|e c t s HE H IH]; intros b HB.
      - inversion HB as [| |e c t s HE H]; auto. apply entity_inv in HE. destruct HE as [[-> ?]|[[-> ?]|[[-> ?]|[[-> ?]|[-> ?]]]]]; discriminate.
      - inversion HB as [|? ? ? ? H2|e c2 t2 s2 HE H2]; subst; [f_equal; auto|]. apply entity_inv in HE.
        destruct HE as [[-> ?]|[[-> ?]|[[-> ?]|[[-> ?]|[-> ?]]]]]; injection H0; intros; lia.
      - inversion HB as [E0|c2 ? ? ? H2 E0|e2 c2 t2 s2 HE2 H2 E0]; subst; apply entity_inv in HE.
        + destruct HE as [[-> ?]|[[-> ?]|[[-> ?]|[[-> ?]|[-> ?]]]]]; discriminate.
        + destruct HE as [[-> ?]|[[-> ?]|[[-> ?]|[[-> ?]|[-> ?]]]]]; injection E0; intros; lia.
        + apply entity_inv in HE2.
          destruct HE as [[-> ->]|[[-> ->]|[[-> ->]|[[-> ->]|[-> ->]]]]];
          destruct HE2 as [[-> ->]|[[-> ->]|[[-> ->]|[[-> ->]|[-> ->]]]]]; try discriminate E0; injection E0 as ->; f_equal; auto. }
    eauto.
  - split; [discriminate|]. intros H. now apply H1 in H.
Qed.
Theorem C45_unescape_throws t : (forall s, ~ stands_for t s) <-> unescape t = Exn.
Proof.
  unfold unescape. destruct (unescape_loop_spec (S (length t)) t []) as [(o & H1 & H2)|(H1 & H2)]; [lia| |]; rewrite H2; split; auto; try discriminate.
  intros H. now apply H in H1.
Qed.
(** Unescaping an escaped text gives the original; the escaped text is a text without '<', '>', apostrophe, quote, whose '&'s all begin entities. *)
Theorem C45_round_trip s : unescape (escape s) = Ok s.
Proof. apply C45_unescape, escape_stands. Qed.
Theorem C45_escaped_is_plain s : Forall (fun c => c <> 60 /\ c <> 62 /\ c <> 39 /\ c <> 34) (escape s) /\ stands_for (escape s) s.
Proof.
  split; [|apply escape_stands]. rewrite escape_concat. induction s as [|c s IH]; [constructor|]. cbn [map concat]. apply Forall_app. split; auto.
  destruct (escape_char_cases c) as [(_ & H2 & H3 & H4 & H5 & ->)|H]; [repeat constructor; auto|].
  apply entity_inv in H. assert (B : forall l, forallb (fun c => negb (c =? 60) && negb (c =? 62) && negb (c =? 39) && negb (c =? 34)) l = true -> Forall (fun c => c <> 60 /\ c <> 62 /\ c <> 39 /\ c <> 34) l).
  { intros l B. apply Forall_forall. intros x Hx. rewrite forallb_forall in B. apply B in Hx. rewrite !andb_true_iff, !negb_true_iff, !Z.eqb_neq in Hx. tauto. }
  destruct H as [[-> _]|[[-> _]|[[-> _]|[[-> _]|[-> _]]]]]; apply B; reflexivity.
Qed.
Example C45_case : escape (str "a<b&&lt;") = str "a&lt;b&amp;&amp;lt;" /\ unescape (str "&quot;x&gt;") = Ok ([34; 120; 62]) /\ unescape (str "&lt") = Exn.
Proof. repeat split; vm_compute; reflexivity. Qed.

(** * C46 *)
Lemma isSpace_iff c : isSpace c = true <-> space c.
Proof. unfold isSpace, space. rewrite !orb_true_iff, !Z.eqb_eq. tauto. Qed.
Lemma isSpace_false c : isSpace c = false <-> ~ space c.
Proof. rewrite <- isSpace_iff. destruct (isSpace c); intuition congruence. Qed.
Lemma isQuote_iff c : isQuote c = true <-> quote c.
Proof. unfold isQuote, quote. rewrite !orb_true_iff, !Z.eqb_eq. tauto. Qed.
Lemma isName_iff c : isName c = true <-> name_char c.
Proof.
  unfold isName, name_char. rewrite !andb_true_iff, !negb_true_iff, isSpace_false. unfold isEqual. rewrite Z.eqb_neq.
  rewrite <- isQuote_iff. destruct (isQuote c); intuition congruence.
Qed.
Lemma isName2_iff c : isName2 c = true <-> name_char c /\ c <> 62.
Proof.
  change (isName2 c) with (isName c && negb (c =? 62)). rewrite andb_true_iff, isName_iff, negb_true_iff, Z.eqb_neq. tauto.
Qed.
Lemma skipSpace_spec s : exists sp, s = sp ++ skipSpace s /\ spaces sp /\ (skipSpace s <> [] -> ~ space (hd 0 (skipSpace s))).
Proof.
  induction s as [|c s (sp & E & H1 & H2)]; cbn [skipSpace].
  - exists []. repeat split; try constructor. congruence.
  - destruct (isSpace c) eqn:C.
    + exists (c :: sp). split; [cbn [app]; congruence|]. split; auto. constructor; auto. now apply isSpace_iff.
    + exists []. split; auto. split; [constructor|]. intros _. cbn. now apply isSpace_false.
Qed.
Lemma skipSpace_app sp s : spaces sp -> ~ space (hd 0 s) -> skipSpace (sp ++ s) = s.
Proof.
  intros H N. induction H as [|c sp H1 H2 IH]; cbn [app skipSpace].
  - destruct s; auto. cbn [skipSpace]. cbn in N. apply isSpace_false in N. now rewrite N.
  - apply isSpace_iff in H1. now rewrite H1.
Qed.
Lemma skipSpace_len s : (length (skipSpace s) <= length s)%nat.
Proof. destruct (skipSpace_spec s) as (sp & E & _). rewrite E at 2. rewrite app_length. lia. Qed.
Lemma getWord_spec f s : exists w t, getWord f s = (w, t) /\ s = w ++ t /\ Forall (fun c => f c = true) w /\ (t <> [] -> f (hd 0 t) = false).
Proof.
  induction s as [|c s (w & t & E & H1 & H2 & H3)]; cbn [getWord].
  - exists [], []. repeat split; auto. congruence.
  - destruct (f c) eqn:C.
    + rewrite E. exists (c :: w), t. split; auto. split; [cbn [app]; congruence|]. auto.
    + exists [], (c :: s). repeat split; auto.
Qed.
Lemma getWord_app f w t : Forall (fun c => f c = true) w -> (t <> [] -> f (hd 0 t) = false) -> getWord f (w ++ t) = (w, t).
Proof.
  intros H N. induction H as [|c w H1 H2 IH]; cbn [app getWord].
  - destruct t as [|c t]; auto. cbn [getWord]. cbn in N. rewrite N; [auto|discriminate].
  - now rewrite H1, IH.
Qed.
Lemma forall_imp {A} (P Q : A -> Prop) l : (forall x, P x -> Q x) -> Forall P l -> Forall Q l.
Proof. intros H. now apply Forall_impl. Qed.
Lemma space_nosp : ~ space 61 /\ ~ space 62 /\ ~ space 47 /\ ~ space 60 /\ ~ space 63 /\ ~ space 34 /\ ~ space 39.
Proof. unfold space. repeat split; lia. Qed.

(** attributes *)
Lemma parseAttribute_ok k v a s : attribute k v a -> parseAttribute (a ++ s) = Ok (k, v, s).
Proof.
  intros [k' v' s1 s2 q HK NK H1 H2 HQ HV]. unfold parseAttribute. rewrite <- !app_assoc.
  rewrite (getWord_app isName k').
  2:{ revert HK. apply forall_imp. intros. now apply isName_iff. }
  2:{ intros _. destruct s1 as [|c s1]; [reflexivity|]. cbn [app hd]. inversion H1; subst. destruct (isName c) eqn:E; auto. apply isName_iff in E. destruct E. contradiction. }
  destruct k' as [|k0 k']; [congruence|].
  rewrite skipSpace_app by (auto; cbn; unfold space; lia). cbn [app next bind]. change (isEqual 61) with true. cbv iota.
  rewrite skipSpace_app; auto.
  2:{ cbn [app hd]. destruct HQ as [->| ->]; unfold space; lia. }
  cbn [app next bind]. assert (Q : isQuote q = true) by now apply isQuote_iff. rewrite Q.
  rewrite (getWord_app (isAttrValue q) v').
  - cbn [next bind]. now rewrite Z.eqb_refl.
  - revert HV. apply forall_imp. intros x. unfold isAttrValue. rewrite negb_true_iff, Z.eqb_neq. tauto.
  - intros _. cbn. unfold isAttrValue. now rewrite Z.eqb_refl.
Qed.
Definition fine {A} (r : res A) : Prop := match r with Ok _ | Exn => True | _ => False end.
Lemma parseAttribute_inv s : (exists k v a t, s = a ++ t /\ attribute k v a /\ parseAttribute s = Ok (k, v, t)) \/ parseAttribute s = Exn.
Proof.
  unfold parseAttribute. destruct (getWord_spec isName s) as (k & t & -> & -> & HK & _).
  destruct (match k with [] => true | _ => false end) eqn:EK; [now right|].
  assert (NK : k <> []) by (intros ->; discriminate). rename k into kk.
  destruct (skipSpace_spec t) as (s1 & E1 & H1 & _). destruct (skipSpace t) as [|c t1]; [now right|]. cbn [next bind].
  unfold isEqual. destruct (Z.eqb_spec c 61) as [->|]; [|now right].
  destruct (skipSpace_spec t1) as (s2 & E2 & H2 & _). destruct (skipSpace t1) as [|q t2]; [now right|]. cbn [next bind].
  destruct (isQuote q) eqn:Q; [|now right]. apply isQuote_iff in Q.
  destruct (getWord_spec (isAttrValue q) t2) as (v & t3 & -> & E3 & HV & HT). destruct t3 as [|c t3]; [now right|]. cbn [next bind].
  destruct (Z.eqb_spec c q) as [->|]; [|now right].
  left. exists kk, v, (kk ++ s1 ++ [61] ++ s2 ++ [q] ++ v ++ [q]), t3. split; [|split; auto].
  - rewrite <- !app_assoc. cbn [app]. rewrite E1, E2, E3. rewrite <- ?app_assoc. reflexivity.
  - constructor; auto.
    + revert HK. apply forall_imp; intros; now apply isName_iff.
    + revert HV. apply forall_imp. intros x. unfold isAttrValue. rewrite negb_true_iff, Z.eqb_neq. tauto.
Qed.
Lemma attribute_len k v a : attribute k v a -> (1 <= length a)%nat.
Proof. intros [k' v' s1 s2 q HK NK]. rewrite app_length. destruct k'; [congruence|]. cbn [length]. lia. Qed.
Lemma attribute_hd k v a s : attribute k v a -> hd 0 (a ++ s) = hd 0 k /\ name_char (hd 0 k).
Proof. intros [k' v' s1 s2 q HK NK]. destruct k'; [congruence|]. inversion HK. cbn. auto. Qed.
(** the attribute map *)
Lemma map_ext m1 : forall m2 : attrs, msorted m1 -> msorted m2 -> (forall k, mfind k m1 = mfind k m2) -> m1 = m2.
Proof.
  induction m1 as [|[k1 v1] m1 IH]; intros [|[k2 v2] m2] S1 S2 H; auto.
  - specialize (H k2). cbn [mfind] in H. rewrite str_eq_refl in H. discriminate.
  - specialize (H k1). cbn [mfind] in H. rewrite str_eq_refl in H. discriminate.
  - inversion S1 as [|? ? S1' F1]; inversion S2 as [|? ? S2' F2]; subst.
    assert (K : k1 = k2).
    { destruct (list_eq_dec Z.eq_dec k1 k2) as [|N]; auto. exfalso.
      pose proof (H k1) as A. pose proof (H k2) as B. cbn [mfind] in A, B. rewrite str_eq_refl in A, B.
      rewrite (str_eq_ne k1 k2) in A by auto. rewrite (str_eq_ne k2 k1) in B by auto.
      destruct (str_lt k1 k2) eqn:L1.
      - assert (mfind k1 m2 = None); [|congruence]. apply mfind_lt. eapply Forall_impl; [|exact F2]. intros [k v] Hl. cbn in *. eapply str_lt_trans; eauto.
      - destruct (str_lt k2 k1) eqn:L2.
        + assert (mfind k2 m1 = None); [|congruence]. apply mfind_lt. eapply Forall_impl; [|exact F1]. intros [k v] Hl. cbn in *. eapply str_lt_trans; eauto.
        + now apply N, str_lt_total. }
    subst k2. pose proof (H k1) as A. cbn [mfind] in A. rewrite str_eq_refl in A. injection A as ->. f_equal. apply IH; auto.
    intros k. destruct (list_eq_dec Z.eq_dec k k1) as [->|N].
    + rewrite !mfind_lt; auto.
    + specialize (H k). cbn [mfind] in H. now rewrite (str_eq_ne k k1) in H by auto.
Qed.
Lemma attr_set_sorted m k v : msorted m -> msorted (attr_set m k v).
Proof. intros. unfold attr_set. apply mset_sorted, minsert_sorted; auto. Qed.
Lemma attr_set_find m k v k' : msorted m -> mfind k' (attr_set m k v) = if list_eq_dec Z.eq_dec k' k then Some v else mfind k' m.
Proof.
  intros S. unfold attr_set. rewrite mset_find, !minsert_find by auto.
  destruct (list_eq_dec Z.eq_dec k' k) as [->|N].
  - rewrite str_eq_refl. destruct (mfind k m); auto.
  - rewrite ?(str_eq_ne k' k), ?(str_eq_ne k k') by auto. auto.
Qed.
Lemma last_value_app k a b : last_value k (a ++ b) = match last_value k b with Some v => Some v | None => last_value k a end.
Proof.
  induction a as [|[k' v] a IH]; cbn [app last_value]; [destruct (last_value k b); auto|]. rewrite IH. destruct (last_value k b); auto.
Qed.
Lemma map_of_snoc pre m k v : map_of pre m -> map_of (pre ++ [(k, v)]) (attr_set m k v).
Proof.
  intros [S H]. split; [now apply attr_set_sorted|]. intros k'. rewrite attr_set_find, last_value_app by auto. cbn [last_value].
  destruct (list_eq_dec Z.eq_dec k' k); auto.
Qed.
Lemma map_of_fun kvs a b : map_of kvs a -> map_of kvs b -> a = b.
Proof. intros [S1 H1] [S2 H2]. apply map_ext; auto. congruence. Qed.
Lemma map_of_nil : map_of [] []. Proof. split; [constructor|]. reflexivity. Qed.

Definition closes (normal : bool) : list (list Z) := if normal then tag_close else [str "?>"].
Lemma parseAttributes_ok normal kvs e t : tail (closes normal) kvs e t -> forall f pre m m' s, map_of pre m -> map_of (pre ++ kvs) m' -> (length t < f)%nat ->
  parseAttributes f m normal (t ++ s) = Ok (m', negb (str_eq e (str ">")), s).
Proof.
  induction 1 as [sp e SP IN|sp k v a kvs e t SP AT NH HT IH]; intros f pre m m' s M M' L; (destruct f as [|f]; [lia|]); cbn [parseAttributes].
  - rewrite app_nil_r in M'. rewrite (map_of_fun _ _ _ M' M). rewrite <- app_assoc.
    assert (IN' : normal = true /\ (e = str ">" \/ e = str "/>") \/ normal = false /\ e = str "?>").
    { destruct normal; cbn in IN; [left|right]; intuition. }
    destruct IN' as [[-> [-> | ->]]|[-> ->]]; rewrite skipSpace_app by (auto; cbn; unfold space; lia); reflexivity.
  - rewrite <- !app_assoc. destruct (attribute_hd _ _ _ (t ++ s) AT) as [HD NC].
    rewrite skipSpace_app; auto; [|rewrite HD; apply NC].
    destruct (a ++ t ++ s) as [|c r] eqn:EA; [apply attribute_len in AT; destruct a; cbn in AT, EA; [lia|discriminate]|]. rewrite <- EA in *.
    assert (Q : query (a ++ t ++ s) = Ok c) by now rewrite EA. assert (HC : c = hd 0 k) by (rewrite <- HD, EA; reflexivity).
    rewrite Q. cbn [bind].
    assert (C1 : normal && (c =? 62) = false).
    { destruct normal; auto. cbn. apply Z.eqb_neq. subst c. intros E. apply (NH (str ">")); [now left|]. now rewrite E. }
    assert (C2 : (normal && (c =? 47)) || (negb normal && (c =? 63)) = false).
    { destruct normal; cbn; rewrite ?orb_false_r; apply Z.eqb_neq; subst c; intros E.
      - apply (NH (str "/>")); [right; now left|]. now rewrite E.
      - apply (NH (str "?>")); [now left|]. now rewrite E. }
    rewrite C1, C2. rewrite (parseAttribute_ok _ _ _ (t ++ s) AT). cbn [bind].
    apply attribute_len in AT. rewrite !app_length in L.
    apply (IH f (pre ++ [(k, v)]) (attr_set m k v) m' s); [now apply map_of_snoc|now rewrite <- app_assoc|lia].
Qed.
Lemma parseAttributes_inv normal f : forall pre m s, map_of pre m -> (length s < f)%nat ->
  (exists kvs m' e t s', s = t ++ s' /\ tail (closes normal) kvs e t /\ map_of (pre ++ kvs) m' /\ parseAttributes f m normal s = Ok (m', negb (str_eq e (str ">")), s')) \/
  parseAttributes f m normal s = Exn.
Proof.
  induction f as [|f IH]; intros pre m s M L; [lia|]. cbn [parseAttributes].
  destruct (skipSpace_spec s) as (sp & E & SP & NS). pose proof (skipSpace_len s) as LS. destruct (skipSpace s) as [|c r] eqn:ES; [now right|]. rewrite <- ES in *.
  replace (query (skipSpace s)) with (Ok c) by now rewrite ES. cbn [bind].
  assert (NS' : ~ space c) by (rewrite ES in NS; apply NS; discriminate). clear NS.
  destruct (normal && (c =? 62)) eqn:C1.
  - left. apply andb_true_iff in C1. destruct C1 as [-> C1]. apply Z.eqb_eq in C1. subst c. rewrite ES. cbn [inc bind].
    exists [], m, (str ">"), (sp ++ str ">"), r. rewrite E, ES, app_nil_r, <- app_assoc. split; auto. split; [|split; auto]. constructor; auto. now left.
  - destruct (normal && (c =? 47) || negb normal && (c =? 63)) eqn:C2.
    + rewrite ES. unfold last_char. cbn [inc bind]. destruct r as [|d r]; [now right|]. cbn [next bind]. destruct (Z.eqb_spec d 62) as [->|]; [|now right]. left. cbn [negb bind].
      destruct normal; cbn in C2.
      * rewrite orb_false_r in C2. apply Z.eqb_eq in C2. subst c. exists [], m, (str "/>"), (sp ++ str "/>"), r. rewrite E, ES, app_nil_r, <- app_assoc. split; auto. split; [|split; auto]. constructor; auto. right. now left.
      * apply Z.eqb_eq in C2. subst c. exists [], m, (str "?>"), (sp ++ str "?>"), r. rewrite E, ES, app_nil_r, <- app_assoc. split; auto. split; [|split; auto]. constructor; auto. now left.
    + destruct (parseAttribute_inv (skipSpace s)) as [(k & v & a & t & EA & AT & ->)| ->]; [|now right]. cbn [bind].
      pose proof (attribute_len _ _ _ AT) as LA. assert (LT : (length (skipSpace s) = length a + length t)%nat) by now rewrite EA, app_length.
      destruct (IH (pre ++ [(k, v)]) (attr_set m k v) t) as [(kvs & m' & e & t1 & s' & E1 & T & M' & ->)| ->]; [now apply map_of_snoc|lia| |now right].
      left. exists ((k, v) :: kvs), m', e, (sp ++ a ++ t1), s'. split; [rewrite E, EA, E1, <- !app_assoc; auto|]. split; [|split; auto].
      * constructor; auto. destruct (attribute_hd _ _ _ t AT) as [HD NC]. rewrite <- EA, ES in HD. cbn [hd] in HD. subst c. intros e' IN H.
        destruct normal; cbn in IN; [destruct IN as [<-|[<-|[]]]|destruct IN as [<-|[]]]; cbn in H; rewrite <- H in C1, C2; discriminate.
      * rewrite <- app_assoc in M'. auto.
Qed.
Lemma tail_ne close kvs e t : (forall x, In x close -> x <> []) -> tail close kvs e t -> t <> [].
Proof.
  intros N H. inversion H as [sp e' SP IN|sp k v a kvs' e' t' SP AT]; subst; intros Q; apply app_eq_nil in Q; destruct Q as [_ Q].
  - now apply N in IN.
  - apply app_eq_nil in Q. destruct Q as [Q _]. apply attribute_len in AT. rewrite Q in AT. cbn in AT. lia.
Qed.
Lemma close_ne x : In x tag_close -> x <> []. Proof. intros [<-|[<-|[]]]; discriminate. Qed.
Lemma hd_app (t s : list Z) : t <> [] -> hd 0 (t ++ s) = hd 0 t. Proof. destruct t; [congruence|auto]. Qed.
(** after the maximal name, the tail begins with a space or '>' *)
Lemma tail_hd normal kvs e t : tail (closes normal) kvs e t -> (isName (hd 0 t) = false \/ hd 0 t = 62) -> space (hd 0 t) \/ hd 0 t = 62.
Proof.
  intros T H. destruct T as [sp e SP IN|sp k v a kvs e t SP AT NH T].
  - destruct sp as [|c sp]; [|left; now inversion SP]. cbn [app] in *.
    assert (E : hd 0 e = 62 \/ hd 0 e = 47 \/ hd 0 e = 63) by (destruct normal; cbn in IN; intuition (subst; auto)).
    destruct H; auto. destruct E as [E|[E|E]]; auto; rewrite E in H; discriminate.
  - destruct sp as [|c sp]; [|left; now inversion SP]. cbn [app] in *. destruct (attribute_hd _ _ _ t AT) as [HD NC]. rewrite HD in *.
    destruct H; auto. apply isName_iff in NC. congruence.
Qed.

(** tags *)
Lemma parseTag_end sp n s : spaces sp -> elem_name n -> parseTag (sp ++ str "</" ++ n ++ str ">" ++ s) = Ok (EndTag, n, [], s).
Proof.
  intros SP (NC & NN & H0). unfold parseTag. rewrite skipSpace_app by (auto; cbn; unfold space; lia).
  change (str "</" ++ n ++ str ">" ++ s) with (60 :: 47 :: n ++ 62 :: s). cbn [next bind query inc].
  change (negb (60 =? 60)) with false. change (47 =? 47) with true. cbv iota. cbn [bind].
  rewrite getWord_app; [|revert NC; apply forall_imp; intros; now apply isName2_iff|intros _; reflexivity].
  destruct n; [congruence|]. reflexivity.
Qed.
Lemma parseTag_open sp n kvs e t m s : spaces sp -> elem_name n -> tail tag_close kvs e t -> (space (hd 0 t) \/ hd 0 t = 62) -> map_of kvs m ->
  parseTag (sp ++ str "<" ++ n ++ t ++ s) = Ok (if negb (str_eq e (str ">")) then CompleteTag else BeginTag, n, m, s).
Proof.
  intros SP (NC & NN & H0) T HD M. unfold parseTag. rewrite skipSpace_app by (auto; cbn; unfold space; lia).
  change (str "<" ++ n ++ t ++ s) with (60 :: n ++ t ++ s). cbn [next bind].
  change (negb (60 =? 60)) with false. cbv iota. pose proof (tail_ne _ _ _ _ close_ne T) as TN.
  destruct n as [|n0 n]; [congruence|]. cbn [app query bind]. cbn [hd] in H0. apply Z.eqb_neq in H0. rewrite H0. cbn [bind].
  change (n0 :: n ++ t ++ s) with ((n0 :: n) ++ t ++ s).
  rewrite getWord_app.
  2:{ revert NC; apply forall_imp; intros; now apply isName2_iff. }
  2:{ intros _. rewrite hd_app by auto. destruct (isName2 (hd 0 t)) eqn:Q; auto. apply isName2_iff in Q. destruct Q as [[Q1 _] Q2]. destruct HD; contradiction. }
  rewrite (parseAttributes_ok true kvs e t T (S (length (t ++ s))) [] [] m s map_of_nil M) by (rewrite app_length; lia). reflexivity.
Qed.
Lemma parseTag_inv s :
  (exists sp n s', s = sp ++ str "</" ++ n ++ str ">" ++ s' /\ spaces sp /\ Forall (fun c => name_char c /\ c <> 62) n /\ n <> [] /\ parseTag s = Ok (EndTag, n, [], s')) \/
  (exists sp n kvs e t m s', s = sp ++ str "<" ++ n ++ t ++ s' /\ spaces sp /\ elem_name n /\ tail tag_close kvs e t /\ (space (hd 0 t) \/ hd 0 t = 62) /\ map_of kvs m /\
     parseTag s = Ok (if negb (str_eq e (str ">")) then CompleteTag else BeginTag, n, m, s')) \/
  parseTag s = Exn.
Proof.
  unfold parseTag. destruct (skipSpace_spec s) as (sp & E & SP & _). destruct (skipSpace s) as [|c r]; [auto|]. cbn [next bind].
  destruct (Z.eqb_spec c 60) as [->|]; [|auto]. cbn [negb]. destruct r as [|c r]; [auto|]. cbn [query bind].
  destruct (Z.eqb_spec c 47) as [->|NC].
  - cbn [inc bind]. destruct (getWord_spec isName2 r) as (n & t & -> & -> & HN & HT). destruct n as [|n0 n]; [auto|].
    destruct t as [|d t]; [auto|]. cbn [next bind]. destruct (Z.eqb_spec d 62) as [->|]; [|auto]. cbn [negb].
    left. exists sp, (n0 :: n), t. split; [rewrite E; reflexivity|]. split; auto. split; [revert HN; apply forall_imp; intros; now apply isName2_iff|]. split; [discriminate|auto].
  - cbn [bind]. destruct (getWord_spec isName2 (c :: r)) as (n & t & -> & EN & HN & HT). destruct n as [|n0 n]; [auto|].
    destruct (parseAttributes_inv true (S (length t)) [] [] t map_of_nil) as [(kvs & m & e & t1 & s' & -> & T & M & ->)| ->]; [lia| |auto].
    cbn [bind]. right. left. exists sp, (n0 :: n), kvs, e, t1, m, s'. split; [rewrite E, EN; reflexivity|]. split; auto.
    split; [split; [revert HN; apply forall_imp; intros; now apply isName2_iff|split; [discriminate|]]; injection EN as -> _; auto|].
    split; auto. split; auto. apply (tail_hd true _ _ _ T). pose proof (tail_ne _ _ _ _ close_ne T) as TN.
    rewrite hd_app in HT by auto. assert (Q : isName2 (hd 0 t1) = false) by (apply HT; destruct t1; [congruence|discriminate]).
    change (isName2 (hd 0 t1)) with (isName (hd 0 t1) && negb (hd 0 t1 =? 62)) in Q. apply andb_false_iff in Q.
    destruct Q as [Q|Q]; auto. right. now apply negb_false_iff, Z.eqb_eq in Q.
Qed.

(** one step of the parseNode loop up to the tag *)
Lemma node_step f name c child sp t x : run sp t -> hd 0 x = 60 ->
  parseNode (S f) name c child (sp ++ t ++ x) =
  (let! (type, n, attr, s) := parseTag x in
    match type with
    | EndTag => if str_eq name n then Ok (newer c t, child, s) else Exn
    | CompleteTag => parseNode f name (newer c t) (child ++ [Node n attr [] []]) s
    | BeginTag => let! (c1, ch1, s) := parseNode f n [] [] s in parseNode f name (newer c t) (child ++ [Node n attr c1 ch1]) s
    end).
Proof.
  intros (SP & NT & HT) HX. destruct x as [|x0 x]; [discriminate|]. cbn [hd] in HX. subst x0.
  cbn [parseNode]. rewrite skipSpace_app; auto.
  2:{ destruct t as [|t0 t]; [cbn; unfold space; lia|]. cbn [app hd] in *. apply HT. discriminate. }
  destruct t as [|t0 t].
  - cbn [app query bind]. change (60 =? 60) with true. cbv iota. reflexivity.
  - change (query ((t0 :: t) ++ 60 :: x)) with (Ok t0). cbn [bind].
    inversion NT as [|? ? N0]; subst. apply Z.eqb_neq in N0. rewrite N0. unfold parseContent.
    rewrite getWord_app; [|eapply Forall_impl; [|exact NT]; intros a Ha; cbn in Ha; unfold isContent; now rewrite (proj2 (Z.eqb_neq a 60) Ha)|intros _; reflexivity].
    reflexivity.
Qed.
Lemma element_hd e x s : element e x -> hd 0 (x ++ s) = 60. Proof. intros []; reflexivity. Qed.
Lemma parse_ok :
  (forall e x, element e x -> match e with Node n m c ch => forall s,
     (c = [] /\ ch = [] /\ parseTag (x ++ s) = Ok (CompleteTag, n, m, s)) \/
     (exists r, parseTag (x ++ s) = Ok (BeginTag, n, m, r) /\ (length r < length (x ++ s))%nat /\ (length s < length r)%nat /\
        forall f, (length r < f)%nat -> parseNode f n [] [] r = Ok (c, ch, s)) end) /\
  (forall c c' ch b, body c c' ch b -> forall f name child s, elem_name name -> (length (b ++ str "</" ++ name ++ str ">" ++ s) < f)%nat ->
     parseNode f name c child (b ++ str "</" ++ name ++ str ">" ++ s) = Ok (c', child ++ ch, s)).
Proof.
  apply element_body_ind.
  - intros n kvs m t EN T HD M s. left. split; auto. split; auto.
    rewrite <- !app_assoc. change (str "<" ++ n ++ t ++ s) with ([] ++ str "<" ++ n ++ t ++ s).
    rewrite (parseTag_open [] n kvs (str "/>") t m s); auto. constructor.
  - intros n kvs m t c ch b EN T HD M B IH s. right. exists (b ++ str "</" ++ n ++ str ">" ++ s).
    rewrite <- !app_assoc. split; [|split; [|split]].
    + exact (parseTag_open [] n kvs (str ">") t m (b ++ str "</" ++ n ++ str ">" ++ s) (Forall_nil _) EN T HD M).
    + rewrite (app_length (str "<")), (app_length n (t ++ _)), (app_length t). change (length (str "<")) with 1%nat. lia.
    + rewrite !app_length. change (length (str "</")) with 2%nat. lia.
    + intros f L. now apply IH.
  - intros c sp t R f name child s EN L. destruct f as [|f]; [lia|]. rewrite <- app_assoc, node_step; auto.
    pose proof (parseTag_end [] name s (Forall_nil _) EN) as P. cbn [app] in P. rewrite P. cbn [bind]. rewrite str_eq_refl, app_nil_r. auto.
  - intros c sp t e x c' ch b R EL IHe B IHb f name child s EN L. destruct f as [|f]; [lia|]. rewrite <- !app_assoc in *.
    rewrite node_step; [|auto|eapply element_hd; eauto]. destruct e as [n m c1 ch1].
    assert (LX : (length (x ++ b ++ str "</" ++ name ++ str ">" ++ s) < S f)%nat) by (rewrite 2!app_length in L; lia). clear L.
    assert (X0 : (1 <= length x)%nat) by (destruct EL; cbn [str app length]; rewrite app_length; cbn; lia).
    destruct (IHe (b ++ str "</" ++ name ++ str ">" ++ s)) as [(-> & -> & P)|(r & P & L1 & L2 & PN)]; rewrite P; cbn [bind].
    + rewrite IHb; auto; [now rewrite <- app_assoc|rewrite app_length in LX; lia].
    + rewrite PN by lia. cbn [bind]. rewrite IHb; auto; [now rewrite <- app_assoc|rewrite app_length in LX; lia].
Qed.
Lemma node_split s : (exists sp t x, s = sp ++ t ++ x /\ run sp t /\ hd 0 x = 60) \/ (forall f name c child, parseNode (S f) name c child s = Exn).
Proof.
  destruct (skipSpace_spec s) as (sp & E & SP & NS). cbn [parseNode]. destruct (skipSpace s) as [|c0 r] eqn:ES; [right; auto|].
  destruct (getWord_spec isContent (c0 :: r)) as (t & x & G & EX & HT & HX).
  destruct x as [|x0 x].
  - right. intros. cbn [query bind]. destruct (Z.eqb_spec c0 60) as [->|].
    + exfalso. destruct t; [discriminate|]. injection EX as <- _. inversion HT. discriminate.
    + unfold parseContent. rewrite G. auto.
  - left. exists sp, t, (x0 :: x). rewrite E, EX. split; auto. split.
    + split; auto. split; [revert HT; apply forall_imp; intros a; unfold isContent; rewrite negb_true_iff, Z.eqb_neq; tauto|].
      intros TN. destruct t as [|t0 t]; [congruence|]. cbn [hd]. injection EX as <- _. apply NS. discriminate.
    + cbn [hd] in *. specialize (HX ltac:(discriminate)). unfold isContent in HX. now apply negb_false_iff, Z.eqb_eq in HX.
Qed.
Lemma parse_inv f : forall name c child s, (length s < f)%nat -> Forall (fun c => name_char c /\ c <> 62) name -> name <> [] ->
  (exists c' ch b s', s = b ++ str "</" ++ name ++ str ">" ++ s' /\ body c c' ch b /\ parseNode f name c child s = Ok (c', child ++ ch, s')) \/
  parseNode f name c child s = Exn.
Proof.
  induction f as [|f IH]; intros name c child s L NC NN; [lia|].
  destruct (node_split s) as [(sp & t & x & -> & R & HX)|H]; [|right; apply H]. rewrite node_step by auto.
  assert (LX : (length x < S f)%nat) by (rewrite !app_length in L; lia). clear L.
  destruct (parseTag_inv x) as [(sp1 & n & s1 & -> & SP1 & HN & HNN & ->)|[(sp1 & n & kvs & e & t1 & m & s1 & -> & SP1 & EN & T & HD & M & ->)| ->]]; [| |now right]; cbn [bind].
  - destruct sp1 as [|w sp1]; [|exfalso; inversion SP1; subst; cbn [app hd] in HX; subst w; now apply (proj1 (proj2 (proj2 (proj2 space_nosp))))].
    destruct (str_eq name n) eqn:Q; [|now right]. apply str_eq_iff in Q. subst n. left. exists (newer c t), [], (sp ++ t), s1.
    rewrite app_nil_r. split; [now rewrite <- app_assoc|]. split; auto. now constructor.
  - destruct sp1 as [|w sp1]; [|exfalso; inversion SP1; subst; cbn [app hd] in HX; subst w; now apply (proj1 (proj2 (proj2 (proj2 space_nosp))))].
    cbn [app] in *. assert (L1 : (length s1 < f)%nat) by (cbn [length] in LX; rewrite !app_length in LX; change (length (str "<")) with 1%nat in LX; lia).
    pose proof EN as (EN1 & EN2 & EN3).
    assert (CE : e = str ">" \/ e = str "/>").
    { clear - T. induction T as [? ? ? IN|]; auto. cbn in IN. intuition. }
    destruct CE as [-> | ->].
    + change (negb (str_eq (str ">") (str ">"))) with false. cbv iota.
      destruct (IH n [] [] s1 L1 EN1 EN2) as [(c1 & ch1 & b1 & s2 & -> & B1 & ->)| ->]; [|now right]. cbn [bind app].
      destruct (IH name (newer c t) (child ++ [Node n m c1 ch1]) s2) as [(c2 & ch2 & b2 & s3 & -> & B2 & ->)| ->]; auto; [rewrite !app_length in L1; lia|].
      left. exists c2, (Node n m c1 ch1 :: ch2), (sp ++ t ++ (str "<" ++ n ++ t1 ++ b1 ++ str "</" ++ n ++ str ">") ++ b2), s3.
      rewrite <- !app_assoc. split; auto. split; [|reflexivity].
      pose proof (body_child c sp t _ _ _ _ _ R (el_full n kvs m t1 c1 ch1 b1 EN T HD M B1) B2) as B. now rewrite <- !app_assoc in B.
    + change (negb (str_eq (str "/>") (str ">"))) with true. cbv iota.
      destruct (IH name (newer c t) (child ++ [Node n m [] []]) s1) as [(c2 & ch2 & b2 & s3 & -> & B2 & ->)| ->]; auto.
      left. exists c2, (Node n m [] [] :: ch2), (sp ++ t ++ (str "<" ++ n ++ t1) ++ b2), s3.
      rewrite <- !app_assoc. split; auto. split; [|reflexivity].
      assert (HS : space (hd 0 t1)).
      { destruct HD as [|HD]; auto. exfalso. inversion T as [sp0 e0 SP0 IN0|sp0 k v a kvs' e0 t' SP0 AT NH T']; subst.
        - destruct sp0; [cbn in HD; lia|]. inversion SP0. cbn [app hd] in HD. subst. now apply (proj1 (proj2 space_nosp)).
        - destruct sp0; [|inversion SP0; cbn [app hd] in HD; subst; now apply (proj1 (proj2 space_nosp))]. cbn [app] in HD.
          destruct (attribute_hd _ _ _ t' AT) as [E0 _]. apply (NH (str ">")); [now left|]. rewrite <- E0, HD. reflexivity. }
      pose proof (body_child c sp t _ _ _ _ _ R (el_empty n kvs m t1 EN T HS M) B2) as B. now rewrite <- !app_assoc in B.
Qed.
Lemma hd_space_not_gt close kvs e t : tail close kvs e t -> In (str ">") close -> e = str "/>" -> hd 0 t = 62 -> False.
Proof.
  intros T IN -> HD. inversion T as [sp0 e0 SP0 IN0|sp0 k v a kvs' e0 t' SP0 AT NH T']; subst.
  - destruct sp0; [cbn in HD; lia|]. inversion SP0. cbn [app hd] in HD. subst. now apply (proj1 (proj2 space_nosp)).
  - destruct sp0; [|inversion SP0; cbn [app hd] in HD; subst; now apply (proj1 (proj2 space_nosp))]. cbn [app] in HD.
    destruct (attribute_hd _ _ _ t' AT) as [E0 _]. apply (NH (str ">")); [now auto|]. rewrite <- E0, HD. reflexivity.
Qed.
Lemma readHeader_ok sp hkvs h ht s : spaces sp -> tail [str "?>"] hkvs (str "?>") ht -> space (hd 0 ht) -> map_of hkvs h ->
  readHeader (sp ++ str "<?xml" ++ ht ++ s) = Ok (h, s).
Proof.
  intros SP T HS M. unfold readHeader. rewrite skipSpace_app by (auto; cbn; unfold space; lia).
  assert (TN : ht <> []) by (apply (tail_ne _ _ _ _) with (2 := T); intros x [<-|[]]; discriminate).
  rewrite (getWord_app isName (str "<?xml")); [|repeat constructor|].
  2:{ intros _. rewrite hd_app by auto. destruct (isName (hd 0 ht)) eqn:Q; auto. apply isName_iff in Q. destruct Q. contradiction. }
  rewrite str_eq_refl. cbn [negb].
  rewrite (parseAttributes_ok false hkvs (str "?>") ht T (S (length (ht ++ s))) [] [] h s map_of_nil M) by (rewrite app_length; lia). reflexivity.
Qed.
Lemma readHeader_inv s : (exists sp hkvs h ht s', s = sp ++ str "<?xml" ++ ht ++ s' /\ spaces sp /\ tail [str "?>"] hkvs (str "?>") ht /\ space (hd 0 ht) /\ map_of hkvs h /\ readHeader s = Ok (h, s')) \/ readHeader s = Exn.
Proof.
  unfold readHeader. destruct (skipSpace_spec s) as (sp & E & SP & _). destruct (getWord_spec isName (skipSpace s)) as (w & t & -> & EW & HW & HT).
  destruct (str_eq w (str "<?xml")) eqn:Q; [|now right]. apply str_eq_iff in Q. subst w. cbn [negb].
  destruct (parseAttributes_inv false (S (length t)) [] [] t map_of_nil) as [(kvs & m & e & t1 & s' & -> & T & M & ->)| ->]; [lia| |now right].
  cbn [bind]. left. assert (e = str "?>") as -> by (clear - T; induction T as [? ? ? IN|]; auto; cbn in IN; intuition).
  exists sp, kvs, m, t1, s'. split; [rewrite E at 1; now rewrite EW|]. split; auto. split; [exact T|]. split; [|split; auto].
  assert (TN : t1 <> []) by (apply (tail_ne _ _ _ _) with (2 := T); intros x [<-|[]]; discriminate).
  rewrite hd_app in HT by auto. assert (Q : isName (hd 0 t1) = false) by (apply HT; destruct t1; [congruence|discriminate]).
  destruct (tail_hd false _ _ _ T (or_introl Q)) as [|H]; auto. exfalso. rewrite H in Q. discriminate.
Qed.

Lemma parse_total s : (exists h root d rest, s = d ++ rest /\ document h root d /\ parse s = Ok (h, root, rest)) \/ parse s = Exn.
Proof.
  unfold parse. destruct (readHeader_inv s) as [(sp & hkvs & h & ht & s1 & -> & SP & T & HS & M & ->)| ->]; [|now right]. cbn [bind].
  destruct (parseTag_inv s1) as [(sp1 & n & s2 & -> & SP1 & HN & HNN & ->)|[(sp1 & n & kvs & e & t1 & m & s2 & -> & SP1 & EN & T1 & HD & M1 & ->)| ->]]; [now right| |now right]; cbn [bind].
  assert (CE : e = str ">" \/ e = str "/>").
  { clear - T1. induction T1 as [? ? ? IN|]; auto. cbn in IN. intuition. }
  pose proof EN as (EN1 & EN2 & EN3). destruct CE as [-> | ->].
  - change (negb (str_eq (str ">") (str ">"))) with false. cbv iota.
    destruct (parse_inv (S (length s2)) n [] [] s2 ltac:(lia) EN1 EN2) as [(c & ch & b & s3 & -> & B & ->)| ->]; [|now right]. cbn [bind app]. left.
    exists h, (Node n m c ch), (sp ++ str "<?xml" ++ ht ++ sp1 ++ (str "<" ++ n ++ t1 ++ b ++ str "</" ++ n ++ str ">")), s3.
    split; [now rewrite <- !app_assoc|]. split; auto. econstructor; eauto. econstructor; eauto.
  - change (negb (str_eq (str "/>") (str ">"))) with true. cbv iota. left.
    exists h, (Node n m [] []), (sp ++ str "<?xml" ++ ht ++ sp1 ++ (str "<" ++ n ++ t1)), s2.
    split; [now rewrite <- !app_assoc|]. split; auto. econstructor; eauto. econstructor; eauto.
    destruct HD; auto. exfalso. eapply hd_space_not_gt; eauto. now left.
Qed.

(** C46: parsing a text that begins with a document of the grammar gives its header attributes and its tree and stops right behind it,
    and a text is accepted only in this way. *)
Theorem C46_parse s h root rest : parse s = Ok (h, root, rest) <-> exists d, s = d ++ rest /\ document h root d.
Proof.
  split.
  - intros P. destruct (parse_total s) as [(h' & r' & d & rest' & E & D & P')|P']; [|congruence]. rewrite P in P'. injection P' as -> -> ->. eauto.
  - intros (d & -> & [sp hkvs h' ht sp2 root' x SP T HS M SP2 EL]). unfold parse. rewrite <- !app_assoc. rewrite (readHeader_ok sp hkvs h' ht _ SP T HS M). cbn [bind].
    assert (PT : parseTag (sp2 ++ x ++ rest) = parseTag (x ++ rest)).
    { unfold parseTag. assert (NS : ~ space (hd 0 (x ++ rest))) by (rewrite (element_hd _ _ _ EL); unfold space; lia).
      rewrite skipSpace_app by auto. pose proof (skipSpace_app [] (x ++ rest) (Forall_nil _) NS) as Q. cbn [app] in Q. now rewrite Q. }
    rewrite PT. destruct root' as [n m c ch]. destruct (proj1 parse_ok _ _ EL rest) as [(-> & -> & ->)|(r & -> & _ & _ & PN)]; cbn [bind]; auto.
    rewrite PN by lia. reflexivity.
Qed.
(** For every input text parsing ends, and never reads outside the text (neither UB nor out of fuel): it succeeds or throws. *)
Theorem C46_safe s : (exists r, parse s = Ok r) \/ parse s = Exn.
Proof. destruct (parse_total s) as [(h & r & d & rest & _ & _ & ->)|]; eauto. Qed.
(** The tree is determined by the text. *)
Theorem C46_unambiguous h1 r1 d1 x1 h2 r2 d2 x2 : document h1 r1 d1 -> document h2 r2 d2 -> d1 ++ x1 = d2 ++ x2 -> h1 = h2 /\ r1 = r2 /\ d1 = d2.
Proof.
  intros D1 D2 E. assert (P1 : parse (d1 ++ x1) = Ok (h1, r1, x1)) by (apply C46_parse; eauto).
  assert (P2 : parse (d1 ++ x1) = Ok (h2, r2, x2)) by (apply C46_parse; exists d2; auto).
  rewrite P1 in P2. injection P2 as -> -> ->. repeat split. now apply app_inv_tail in E.
Qed.

(** Serialization: a tree whose names and keys are written as themselves, whose values contain no double quote, and which has no text. *)
Definition key_ok (k : list Z) : Prop := Forall name_char k /\ k <> [] /\ hd 0 k <> 62 /\ hd 0 k <> 47.
Inductive printable : node -> Prop :=
| printable_intro n m ch : elem_name n -> msorted m -> Forall (fun kv => key_ok (fst kv) /\ Forall (fun c => c <> 34) (snd kv)) m -> Forall printable ch ->
    printable (Node n m [] ch).
Lemma map_of_self m : msorted m -> map_of m m.
Proof.
  intros S. split; auto. intros k. induction S as [|[k' v] m S IH F]; [reflexivity|]. cbn [mfind last_value].
  destruct (list_eq_dec Z.eq_dec k k') as [->|N].
  - rewrite str_eq_refl. assert (mfind k' m = None) as E by now apply mfind_lt. rewrite IH in E. now rewrite E.
  - rewrite str_eq_ne by auto. rewrite IH. now destruct (last_value k m).
Qed.
Lemma put_attrs_tail m : Forall (fun kv => key_ok (fst kv) /\ Forall (fun c => c <> 34) (snd kv)) m -> tail tag_close m (str ">") (put_attrs m ++ str ">") /\
  (space (hd 0 (put_attrs m ++ str ">")) \/ hd 0 (put_attrs m ++ str ">") = 62).
Proof.
  unfold put_attrs. rewrite (fold_left_concat (fun kv : list Z * list Z => [32] ++ fst kv ++ [61; 34] ++ snd kv ++ [34])). cbn [app].
  intros H. split.
  - induction H as [|[k v] m [(HK & NK & N1 & N2) HV] H IH]; cbn [map concat].
    + change (tail tag_close [] (str ">") ([] ++ str ">")). constructor; [constructor|now left].
    + cbn [fst snd] in *. rewrite <- app_assoc.
      replace ((32 :: k ++ 61 :: 34 :: v ++ [34]) ++ concat (map (fun kv : list Z * list Z => 32 :: fst kv ++ 61 :: 34 :: snd kv ++ [34]) m) ++ str ">")
        with ([32] ++ (k ++ [] ++ [61] ++ [] ++ [34] ++ v ++ [34]) ++ concat (map (fun kv : list Z * list Z => 32 :: fst kv ++ 61 :: 34 :: snd kv ++ [34]) m) ++ str ">") by (cbn [app]; rewrite <- ?app_assoc; reflexivity).
      constructor; auto.
      * repeat constructor.
      * constructor; auto; try constructor. auto.
      * intros e' [<-|[<-|[]]]; cbn; auto.
  - destruct m as [|[k v] m]; cbn; unfold space; auto.
Qed.
Lemma node_ind2 (P : node -> Prop) : (forall n m c ch, Forall P ch -> P (Node n m c ch)) -> forall t, P t.
Proof.
  intros H. fix IH 1. intros [n m c ch]. apply H. induction ch as [|x ch IHc]; constructor; auto.
Qed.
Lemma put_element t : printable t -> element t (put_node t).
Proof.
  induction t as [n m c ch IH] using node_ind2. intros P. inversion P as [n' m' ch' EN S F FC]; subst. cbn [put_node].
  destruct (put_attrs_tail m F) as [T HD].
  replace ([60] ++ n ++ put_attrs m ++ [62] ++ concat (map put_node ch) ++ [60; 47] ++ n ++ [62])
    with (str "<" ++ n ++ (put_attrs m ++ str ">") ++ concat (map put_node ch) ++ str "</" ++ n ++ str ">") by (rewrite <- !app_assoc; reflexivity).
  econstructor; eauto; [now apply map_of_self|]. clear - IH FC.
  induction ch as [|x ch IHc]; cbn [map concat].
  - change (body [] (newer [] []) [] ([] ++ [])). constructor. repeat split; auto; try constructor; congruence.
  - change (body [] [] (x :: ch) ([] ++ [] ++ put_node x ++ concat (map put_node ch))). inversion IH; inversion FC; subst.
    constructor; auto. repeat split; auto; try constructor; congruence.
Qed.
Theorem C46_print_parse root : printable root -> exists h, parse (put_xml root) = Ok (h, root, []).
Proof.
  intros P. exists [(str "encoding", str "UTF-8"); (str "standalone", str "yes"); (str "version", str "1.0")].
  apply C46_parse. exists (put_xml root). split; [now rewrite app_nil_r|].
  pose (at1 k v := k ++ [] ++ [61] ++ [] ++ [34] ++ v ++ [34]).
  replace (put_xml root) with ([] ++ str "<?xml" ++ ([32] ++ at1 (str "version") (str "1.0") ++ [32] ++ at1 (str "encoding") (str "UTF-8") ++ [32] ++ at1 (str "standalone") (str "yes") ++ [] ++ str "?>") ++ [] ++ put_node root) by reflexivity.
  assert (A : forall k v, Forall name_char k -> k <> [] -> Forall (fun c => c <> 34) v -> attribute k v (at1 k v)).
  { intros. constructor; auto; try constructor; auto. }
  assert (NC : forall k, forallb isName k = true -> Forall name_char k).
  { intros k H. apply Forall_forall. intros x Hx. rewrite forallb_forall in H. apply isName_iff. auto. }
  assert (NQ : forall v, forallb (fun c => negb (c =? 34)) v = true -> Forall (fun c => c <> 34) v).
  { intros k H. apply Forall_forall. intros x Hx. rewrite forallb_forall in H. apply H in Hx. now apply negb_true_iff, Z.eqb_neq in Hx. }
  econstructor; [constructor| | | |constructor|now apply put_element].
  - assert (S1 : spaces [32]) by (repeat constructor).
    assert (K : forall k, hd 0 k <> 63 -> forall e', In e' [str "?>"] -> hd 0 e' <> hd 0 k) by (intros k Hk e' [<-|[]]; cbn; auto).
    constructor; [auto|apply A; [now apply NC|discriminate|now apply NQ]|apply K; discriminate|].
    constructor; [auto|apply A; [now apply NC|discriminate|now apply NQ]|apply K; discriminate|].
    constructor; [auto|apply A; [now apply NC|discriminate|now apply NQ]|apply K; discriminate|].
    constructor; [constructor|now left].
  - cbn. unfold space. auto.
  - split; [repeat constructor|]. intros k. cbn [mfind last_value]. unfold str_eq.
    repeat destruct (list_eq_dec Z.eq_dec k _); subst; try reflexivity; try discriminate.
Qed.
(** non-vacuity *)
Definition sample_tree : node :=
  Node (str "book") [(str "id", str "7"); (str "lang", str "ja & en")] [] [Node (str "ch") [] [] [Node (str "p") [] [] []]; Node (str "ch") [(str "n", str "2")] [] []].
Example C46_print_case : printable sample_tree /\ (exists h, parse (put_xml sample_tree) = Ok (h, sample_tree, [])).
Proof.
  assert (P : printable sample_tree); [|split; [auto|now apply C46_print_parse]].
  assert (NC : forall k, forallb isName2 k = true -> k <> [] -> hd 0 k <> 47 -> elem_name k).
  { intros k H N1 N2. split; auto. apply Forall_forall. intros x Hx. rewrite forallb_forall in H. apply isName2_iff. auto. }
  assert (KO : forall k, forallb isName2 k = true -> k <> [] -> hd 0 k <> 62 -> hd 0 k <> 47 -> key_ok k).
  { intros k H N1 N2 N3. destruct (NC k H N1 N3) as (A & B & C). split; auto. eapply Forall_impl; [|exact A]. intros x Hx; exact (proj1 Hx). }
  assert (NQ : forall v, forallb (fun c => negb (c =? 34)) v = true -> Forall (fun c => c <> 34) v).
  { intros k H. apply Forall_forall. intros x Hx. rewrite forallb_forall in H. apply H in Hx. now apply negb_true_iff, Z.eqb_neq in Hx. }
  repeat (constructor; cbn [fst snd]; try (apply NC; [reflexivity|discriminate|discriminate]); try (apply KO; [reflexivity|discriminate|discriminate|discriminate]); try (apply NQ; reflexivity)).
Qed.
Example C46_parse_case : parse (str " <?xml version='1.0' ?> <a x=""1"" y = 'z'> hi <b /> there<c k='' ></c></a>!") =
  Ok ([(str "version", str "1.0")], Node (str "a") [(str "x", str "1"); (str "y", str "z")] (str "there") [Node (str "b") [] [] []; Node (str "c") [(str "k", [])] [] []], str "!").
Proof. vm_compute. reflexivity. Qed.

(** getFirstTagByName: the first node of that name in document order *)
Fixpoint document_order (n : node) : list node := match n with Node _ _ _ ch => n :: concat (map document_order ch) end.
Definition node_name (n : node) : list Z := match n with Node name _ _ _ => name end.
Theorem C46_first_tag v t : match getFirstTagByName v t with
  | Some x => exists a b, document_order t = a ++ x :: b /\ node_name x = v /\ Forall (fun y => node_name y <> v) a
  | None => Forall (fun y => node_name y <> v) (document_order t)
  end.
Proof.
  induction t as [n m c ch IH] using node_ind2. cbn [getFirstTagByName document_order].
  destruct (str_eq n v) eqn:E.
  - apply str_eq_iff in E. exists [], (concat (map document_order ch)). repeat split; auto.
  - assert (N : node_name (Node n m c ch) <> v) by (intros H; apply str_eq_iff in H; cbn [node_name] in H; congruence).
    generalize dependent (Node n m c ch). intros top N.
    induction IH as [|x ch HX HC IHc]; cbn [map concat]; [repeat constructor; auto|].
    destruct (getFirstTagByName v x) as [p|].
    + destruct HX as (a & b & E1 & E2 & F). exists (top :: a), (b ++ concat (map document_order ch)). split; [rewrite E1; cbn [app]; now rewrite <- app_assoc|]. split; auto.
    + match type of IHc with match ?X with _ => _ end => destruct X as [p|] end.
      * destruct IHc as (a & b & E1 & E2 & F). destruct a as [|a0 a].
        { exfalso. injection E1 as -> _. contradiction. }
        injection E1 as <- E1. exists (top :: document_order x ++ a), b. split; [cbn [app]; rewrite E1; now rewrite <- app_assoc|]. split; auto.
        inversion F; subst. constructor; auto. apply Forall_app. auto.
      * inversion IHc; subst. constructor; auto. apply Forall_app. auto.
Qed.
Example C46_first_tag_case : getFirstTagByName (str "ch") sample_tree = Some (Node (str "ch") [] [] [Node (str "p") [] [] []]).
Proof. reflexivity. Qed.

(** Findings. *)
(** "<a/>", without a space, is taken as the begin tag of an element named "a/". *)
Theorem C46_empty_tag_finding : parse (str "<?xml ?><a/>") = Exn /\ parse (str "<?xml ?><a/></a/>") = Ok ([], Node (str "a/") [] [] [], []).
Proof. split; vm_compute; reflexivity. Qed.
(** operator<< loses the text of every element ... *)
Theorem C46_text_lost_finding n m c ch : put_node (Node n m c ch) = put_node (Node n m [] ch).
Proof. reflexivity. Qed.
(** ... and does not escape: a value holding a double quote yields another tree. *)
Theorem C46_unescaped_finding : let root := Node (str "a") [(str "k", str "1"" l=""2")] [] [] in
  exists h, parse (put_xml root) = Ok (h, Node (str "a") [(str "k", str "1"); (str "l", str "2")] [] [], []).
Proof. eexists. vm_compute. reflexivity. Qed.
(** Of several text runs only the last is kept; entities in text and values are left undecoded. *)
Theorem C46_mixed_text_finding : parse (str "<?xml ?><a>x<b />&lt;</a>") = Ok ([], Node (str "a") [] (str "&lt;") [Node (str "b") [] [] []], []).
Proof. vm_compute. reflexivity. Qed.

Print Assumptions C45_unescape. Print Assumptions C45_unescape_throws. Print Assumptions C45_round_trip. Print Assumptions C45_escaped_is_plain.
Print Assumptions C46_parse. Print Assumptions C46_safe. Print Assumptions C46_unambiguous. Print Assumptions C46_print_parse. Print Assumptions C46_first_tag.
