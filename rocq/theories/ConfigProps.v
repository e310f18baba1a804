(** C42: Config loads exactly what its grammar says and round trips through toString. *)
Require Import Verif.Common Verif.ConfigModel Verif.LineProps Verif.Text.
Require Import Sorted.
From Coq Require String.
Local Open Scope Z_scope.

(* ------------------------------------------------------------------ *)
(** * Specification *)
(** NAME characters: 0-9 a-z A-Z _ *)
Definition name_char (c : Z) : Prop := 48 <= c <= 57 \/ 97 <= c <= 122 \/ 65 <= c <= 90 \/ c = 95.
Definition is_name (s : list Z) : Prop := Forall name_char s.
(** what a line says *)
Inductive item := Nothing | Header (name : list Z) | KeyValue (key value : list Z).
(** the grammar of a line (its LF and one CR before it removed) *)
Inductive means : list Z -> item -> Prop :=
| MEmpty : means [] Nothing
| MComment c l : c = 59 \/ c = 35 -> means (c :: l) Nothing
| MHeader n : is_name n -> means (91 :: n ++ [93]) (Header n)
| MKeyValue k sp v : is_name k -> Forall (fun c => c = 32 \/ c = 9) sp -> means (k ++ sp ++ 61 :: v) (KeyValue k v).
(** one CR at the end of a line does not count *)
Inductive line_means (l : list Z) (i : item) : Prop :=
| LCr l' : l = l' ++ [13] -> means l' i -> line_means l i
| LNoCr : (forall l', l <> l' ++ [13]) -> means l i -> line_means l i.
(** the (section, key, value) triples said by a sequence of lines, the first lines belonging to section [cur] *)
Fixpoint entries (cur : list Z) (its : list item) : list (list Z * list Z * list Z) :=
  match its with
  | [] => []
  | Nothing :: r => entries cur r
  | Header n :: r => entries n r
  | KeyValue k v :: r => (cur, k, v) :: entries cur r
  end.
(** observable content of a config *)
Definition value_of (c : config) (s k : list Z) : option (list Z) :=
  match querySection c s with Some sec => queryValue sec k | None => None end.
Definition has_section (c : config) (s : list Z) : Prop := querySection c s <> None.

(** configs a program can build: from nothing, by appending sections and keys, assigning sections built by append, and loading *)
Inductive built_section : section -> Prop :=
| BSEmpty : built_section []
| BSAppend s k v s' : built_section s -> sec_append s k v = Ok s' -> built_section s'.
Inductive built : config -> Prop :=
| BEmpty : built []
| BSection c n c' : built c -> appendSection c n = Ok c' -> built c'
| BAssign c n s c' : built c -> built_section s -> appendSection2 c n s = Ok c' -> built c'
| BAppend c n k v c' : built c -> append_to c n k v = Ok c' -> built c'
| BLoad c t c' : built c -> load c t = Ok c' -> built c'.

(* ------------------------------------------------------------------ *)
(** * Strings and maps *)
Lemma str_lt_irrefl a : str_lt a a = false.
Proof. induction a as [|x a IH]; cbn; auto. rewrite Z.ltb_irrefl, Z.eqb_refl. exact IH. Qed.
Lemma str_lt_trans a : forall b c, str_lt a b = true -> str_lt b c = true -> str_lt a c = true.
Proof.
  induction a as [|x a IH]; intros [|y b] [|z c]; cbn; try congruence.
  destruct (x <? y) eqn:E1, (y <? z) eqn:E2, (x =? y) eqn:E3, (y =? z) eqn:E4, (x <? z) eqn:E5, (x =? z) eqn:E6;
    try congruence; try lia; eauto.
Qed.
Lemma str_lt_total a : forall b, str_lt a b = false -> str_lt b a = false -> a = b.
Proof.
  induction a as [|x a IH]; intros [|y b]; cbn; try congruence.
  destruct (x <? y) eqn:E1, (y <? x) eqn:E2, (x =? y) eqn:E3, (y =? x) eqn:E4; try congruence; try lia.
  intros H1 H2. apply Z.eqb_eq in E3. subst. f_equal. auto.
Qed.
Lemma str_eq_iff a b : str_eq a b = true <-> a = b.
Proof. unfold str_eq. destruct list_eq_dec; split; congruence. Qed.
Lemma str_eq_refl a : str_eq a a = true. Proof. now apply str_eq_iff. Qed.
Lemma str_eq_ne a b : a <> b -> str_eq a b = false.
Proof. intros H. destruct (str_eq a b) eqn:E; auto. apply str_eq_iff in E. congruence. Qed.

Definition klt {V} (a b : list Z * V) : Prop := str_lt (fst a) (fst b) = true.
Definition msorted {V} (m : list (list Z * V)) : Prop := StronglySorted klt m.

Lemma mfind_lt {V} k (m : list (list Z * V)) : Forall (fun e => str_lt k (fst e) = true) m -> mfind k m = None.
Proof.
  induction 1 as [|[k' v'] r H _ IH]; cbn; auto. rewrite str_eq_ne; auto.
  intros ->. cbn in H. now rewrite str_lt_irrefl in H.
Qed.
Lemma minsert_find {V} k (v : V) m : msorted m -> forall k', mfind k' (minsert k v m) =
  if str_eq k' k then match mfind k m with Some v' => Some v' | None => Some v end else mfind k' m.
Proof.
  induction 1 as [|[a x] r S IH F]; intros k'; cbn [minsert mfind].
  - reflexivity.
  - destruct (str_lt k a) eqn:E1.
    + cbn [mfind]. destruct (str_eq k' k) eqn:E2; auto.
      apply str_eq_iff in E2. subst k'.
      rewrite (str_eq_ne k a) by (intros ->; rewrite str_lt_irrefl in E1; congruence).
      rewrite mfind_lt; auto. eapply Forall_impl; [|exact F]. intros [b y] L. unfold klt in L. cbn in *. eapply str_lt_trans; eauto.
    + destruct (str_eq k a) eqn:E2.
      * apply str_eq_iff in E2. subst a. cbn [mfind]. destruct (str_eq k' k); reflexivity.
      * cbn [mfind]. rewrite IH. destruct (str_eq k' a) eqn:E3; auto.
        apply str_eq_iff in E3. subst. rewrite (str_eq_ne a k); auto. intros ->. rewrite str_eq_refl in E2. congruence.
Qed.
Lemma minsert_forall {V} (P : list Z * V -> Prop) k v m : Forall P m -> P (k, v) -> Forall P (minsert k v m).
Proof.
  induction 1 as [|[a x] r H F IH]; intros Q; cbn; [auto|].
  destruct (str_lt k a); [auto|]. destruct (str_eq k a); auto.
Qed.
Lemma minsert_sorted {V} k (v : V) m : msorted m -> msorted (minsert k v m).
Proof.
  induction 1 as [|[a x] r S IH F]; cbn; [repeat constructor|].
  destruct (str_lt k a) eqn:E1.
  - constructor; [constructor; auto|]. constructor; [exact E1|].
    eapply Forall_impl; [|exact F]. intros [b y] L. unfold klt in *. cbn in *. eapply str_lt_trans; eauto.
  - destruct (str_eq k a) eqn:E2; [constructor; auto|]. constructor; [exact IH|].
    apply minsert_forall; auto. unfold klt. cbn. destruct (str_lt a k) eqn:E3; auto.
    rewrite (str_lt_total k a E1 E3), str_eq_refl in E2. congruence.
Qed.
Lemma mset_find {V} k (v : V) m k' : mfind k' (mset k v m) =
  if str_eq k' k then match mfind k m with Some _ => Some v | None => None end else mfind k' m.
Proof.
  induction m as [|[a x] r IH]; cbn [mset mfind].
  - now destruct (str_eq k' k).
  - destruct (str_eq k a) eqn:E.
    + apply str_eq_iff in E. subst a. cbn [mfind]. destruct (str_eq k' k); reflexivity.
    + cbn [mfind]. rewrite IH. destruct (str_eq k' a) eqn:E3; auto.
      apply str_eq_iff in E3. subst. rewrite (str_eq_ne a k); auto. intros ->. rewrite str_eq_refl in E. congruence.
Qed.
Lemma mset_keys {V} k (v : V) m : map fst (mset k v m) = map fst m.
Proof. induction m as [|[a x] r IH]; cbn; auto. destruct (str_eq k a); cbn; congruence. Qed.
Lemma mset_forall {V} (P : list Z -> Prop) k (v : V) m : Forall (fun e => P (fst e)) m -> Forall (fun e => P (fst e)) (mset k v m).
Proof. induction 1 as [|[a x] r H F IH]; cbn; auto. destruct (str_eq k a); constructor; auto. Qed.
Lemma mset_forall2 {V} (P : V -> Prop) k (v : V) m : P v -> Forall (fun e => P (snd e)) m -> Forall (fun e => P (snd e)) (mset k v m).
Proof. intros Q. induction 1 as [|[a x] r H F IH]; cbn; auto. destruct (str_eq k a); constructor; auto. Qed.
Lemma mset_sorted {V} k (v : V) m : msorted m -> msorted (mset k v m).
Proof.
  induction 1 as [|[a x] r S IH F]; cbn; [constructor|]. destruct (str_eq k a); constructor; auto.
  unfold klt in *. cbn in *. now apply (mset_forall (fun b => str_lt a b = true)).
Qed.
Lemma mfind_forall {V} (P : V -> Prop) k (v : V) m : Forall (fun e => P (snd e)) m -> mfind k m = Some v -> P v.
Proof. induction 1 as [|[a x] r H F IH]; cbn; [congruence|]. destruct (str_eq k a); auto. intros [= <-]. exact H. Qed.

(* ------------------------------------------------------------------ *)
(** * Shape of built configs *)
Definition wf_sec (s : section) : Prop := msorted s /\ Forall (fun e => is_name (fst e)) s.
Definition wf (c : config) : Prop := msorted c /\ Forall (fun e => is_name (fst e)) c /\ Forall (fun e => wf_sec (snd e)) c.

Lemma isName_iff s : isName s = true <-> is_name s.
Proof.
  unfold is_name. induction s as [|c r IH]; [split; auto; constructor|].
  cbn [isName].
  assert (Q : negb ((48 <=? c) && (c <=? 57)) && negb ((97 <=? c) && (c <=? 122)) && negb ((65 <=? c) && (c <=? 90)) && negb (c =? 95) = false <-> name_char c).
  { unfold name_char. destruct (48 <=? c) eqn:A1, (c <=? 57) eqn:A2, (97 <=? c) eqn:A3, (c <=? 122) eqn:A4, (65 <=? c) eqn:A5, (c <=? 90) eqn:A6, (c =? 95) eqn:A7;
      cbn [negb andb]; split; intros; try reflexivity; try congruence; lia. }
  destruct (_ && _) eqn:E.
  - split; [congruence|]. intros H. inversion H; subst. apply Q in H2. congruence.
  - rewrite IH. pose proof (proj1 Q eq_refl). split; intros H'; [constructor; auto|now inversion H'].
Qed.

Lemma sec_append_cases s k v : sec_append s k v = if isName k then match mfind k s with Some _ => Exn | None => Ok (minsert k v s) end else Exn.
Proof. reflexivity. Qed.
Lemma sec_append_wf s k v s' : wf_sec s -> sec_append s k v = Ok s' -> wf_sec s'.
Proof.
  intros [S N] H. rewrite sec_append_cases in H. destruct (isName k) eqn:E; [|discriminate]. destruct (mfind k s); [discriminate|].
  injection H as <-. split; [now apply minsert_sorted|]. apply minsert_forall; auto. cbn. now apply isName_iff.
Qed.
Lemma appendSection_wf c n c' : wf c -> appendSection c n = Ok c' -> wf c'.
Proof.
  intros (S & N & W) H. unfold appendSection in H. destruct (isName n) eqn:E; [|discriminate]. injection H as <-.
  split; [|split]; [now apply minsert_sorted| |]; apply minsert_forall; auto; cbn.
  - now apply isName_iff.
  - split; constructor.
Qed.
Lemma mset_wf c n s : wf c -> wf_sec s -> wf (mset n s c).
Proof.
  intros (S & N & W) H. split; [|split]; [now apply mset_sorted|now apply mset_forall|now apply mset_forall2].
Qed.
Lemma append_to_wf c n k v c' : wf c -> append_to c n k v = Ok c' -> wf c'.
Proof.
  intros W H. unfold append_to in H. destruct (mfind n c) as [s|] eqn:F; [|discriminate].
  destruct (sec_append s k v) as [s'| | |] eqn:E; cbn [bind] in H; try discriminate. injection H as <-.
  apply mset_wf; auto. eapply sec_append_wf; eauto. eapply mfind_forall; [|exact F]. apply W.
Qed.
Lemma load_line_wf c cur l c' cur' : wf c -> load_line c cur l = Ok (c', cur') -> wf c'.
Proof.
  intros W H. unfold load_line in H.
  repeat match type of H with
  | (if ?b then _ else _) = _ => destruct b eqn:?; try (injection H as <- <-; exact W); try discriminate
  | bind (rd ?a ?b) _ = _ => destruct (rd a b); cbn [bind] in H; try discriminate
  end.
  - match type of H with bind ?x _ = _ => destruct x as [y| | |] eqn:E; cbn [bind] in H; try discriminate end.
    injection H as <- <-. eapply appendSection_wf; eauto.
  - match type of H with bind ?x _ = _ => destruct x as [[k v]| | |] eqn:E; cbn [bind] in H; try discriminate end.
    match type of H with bind ?x _ = _ => destruct x as [y| | |] eqn:E2; cbn [bind] in H; try discriminate end.
    injection H as <- <-. eapply append_to_wf; eauto.
Qed.
Lemma load_loop_wf f : forall c cur d c', wf c -> load_loop f c cur d = Ok c' -> wf c'.
Proof.
  induction f as [|f IH]; intros c cur d c' W H; cbn [load_loop] in H; [discriminate|].
  destruct (getline d) as [[l r]|]; [|injection H as <-; exact W].
  destruct (load_line c cur l) as [[c1 cur1]| | |] eqn:E; cbn [bind] in H; try discriminate.
  eapply IH; [|exact H]. eapply load_line_wf; eauto.
Qed.
Lemma built_section_wf s : built_section s -> wf_sec s.
Proof. induction 1; [split; constructor|]. eapply sec_append_wf; eauto. Qed.
Lemma built_wf c : built c -> wf c.
Proof.
  induction 1 as [|c n c' _ IH H|c n s c' _ IH S H|c n k v c' _ IH H|c t c' _ IH H].
  - repeat split; constructor.
  - eapply appendSection_wf; eauto.
  - unfold appendSection2 in H. destruct (appendSection c n) as [c1| | |] eqn:E; cbn [bind] in H; try discriminate.
    injection H as <-. apply mset_wf; [eapply appendSection_wf; eauto|now apply built_section_wf].
  - eapply append_to_wf; eauto.
  - unfold load in H. destruct (appendSection c []) as [c1| | |] eqn:E; cbn [bind] in H; try discriminate.
    eapply load_loop_wf; [|exact H]. eapply appendSection_wf; eauto.
Qed.

(* ------------------------------------------------------------------ *)
(** * One line *)
Definition apply_item (c : config) (cur : list Z) (i : item) : res (config * list Z) :=
  match i with
  | Nothing => Ok (c, cur)
  | Header n => Ok (minsert n [] c, n)
  | KeyValue k v => let! c := append_to c cur k v in Ok (c, cur)
  end.

Lemma trim_rev_spec r : exists sp, r = sp ++ trim_rev r /\ Forall (fun c => c = 32 \/ c = 9) sp /\
  match trim_rev r with [] => True | c :: _ => c <> 32 /\ c <> 9 end.
Proof.
  induction r as [|c r (sp & E & F & H)]; [exists []; cbn; auto|]. cbn [trim_rev].
  destruct ((c =? 32) || (c =? 9)) eqn:B.
  - exists (c :: sp). cbn. split; [congruence|]. split; auto. constructor; auto. lia.
  - exists []. cbn. repeat split; auto; lia.
Qed.
Lemma trimEndSpace_split s : exists sp, s = trimEndSpace s ++ sp /\ Forall (fun c => c = 32 \/ c = 9) sp.
Proof.
  destruct (trim_rev_spec (rev s)) as (sp & E & F & _). exists (rev sp). unfold trimEndSpace. split.
  - rewrite <- rev_app_distr, <- E. now rewrite rev_involutive.
  - now apply Forall_rev.
Qed.
Lemma trim_rev_app sp r : Forall (fun c => c = 32 \/ c = 9) sp -> match r with [] => True | c :: _ => c <> 32 /\ c <> 9 end -> trim_rev (sp ++ r) = r.
Proof.
  intros F H. induction F as [|c sp D F IH]; cbn [app trim_rev].
  - destruct r as [|c r]; auto. cbn [trim_rev]. destruct ((c =? 32) || (c =? 9)) eqn:B; auto. lia.
  - destruct ((c =? 32) || (c =? 9)) eqn:B; auto. lia.
Qed.
Lemma trimEndSpace_app k sp : is_name k -> Forall (fun c => c = 32 \/ c = 9) sp -> trimEndSpace (k ++ sp) = k.
Proof.
  intros N F. unfold trimEndSpace. rewrite rev_app_distr, trim_rev_app; [apply rev_involutive|now apply Forall_rev|].
  destruct (rev k) as [|c r] eqn:E; auto. assert (C : name_char c).
  { assert (G : Forall name_char (rev k)) by now apply Forall_rev. rewrite E in G. now inversion G. }
  unfold name_char in C. lia.
Qed.
Lemma strchr_eq_some s q : strchr_eq s = Some q -> exists v, s = firstn q s ++ 61 :: v /\ skipn (S q) s = v /\ Forall (fun c => c <> 61 /\ c <> 0) (firstn q s).
Proof.
  revert q. induction s as [|c r IH]; intros q; cbn [strchr_eq]; [discriminate|].
  destruct (c =? 61) eqn:E1. { intros [= <-]. exists r. cbn. repeat split; auto. f_equal. lia. }
  destruct (c =? 0) eqn:E2; [discriminate|]. destruct (strchr_eq r) as [q'|] eqn:E3; [|discriminate]. cbn [option_map].
  intros [= <-]. destruct (IH q' eq_refl) as (v & A & B & C). exists v. cbn [firstn skipn app]. split; [congruence|]. split; auto.
  constructor; auto. lia.
Qed.
Lemma strchr_eq_app a v : Forall (fun c => c <> 61 /\ c <> 0) a -> strchr_eq (a ++ 61 :: v) = Some (length a).
Proof.
  induction 1 as [|c a H F IH]; [reflexivity|]. cbn [app strchr_eq]. destruct (c =? 61) eqn:E; [lia|]. destruct (c =? 0) eqn:E2; [lia|].
  rewrite IH. reflexivity.
Qed.
Lemma cfg_split_ok line k v : cfg_split line = Ok (k, v) <-> is_name k /\ exists sp, line = k ++ sp ++ 61 :: v /\ Forall (fun c => c = 32 \/ c = 9) sp.
Proof.
  unfold cfg_split. split.
  - destruct (strchr_eq line) as [q|] eqn:E; [|discriminate]. destruct (isName _) eqn:N; [|discriminate]. intros H.
    assert (K : k = trimEndSpace (firstn q line)) by congruence. assert (V : v = skipn (S q) line) by congruence. clear H. subst k v.
    apply isName_iff in N. split; auto. destruct (strchr_eq_some _ _ E) as (v & A & B & _).
    destruct (trimEndSpace_split (firstn q line)) as (sp & C & F). exists sp. split; auto.
    rewrite B. rewrite app_assoc, <- C. exact A.
  - intros (N & sp & -> & F). rewrite app_assoc, strchr_eq_app.
    + rewrite firstn_app_exact, trimEndSpace_app by auto. rewrite (proj2 (isName_iff k) N). f_equal. f_equal.
      change (S (length (k ++ sp))) with (1 + length (k ++ sp))%nat. rewrite <- skipn_skipn, skipn_app_exact. reflexivity.
    + apply Forall_app. split.
      * eapply Forall_impl; [|exact N]. intros c. unfold name_char. lia.
      * eapply Forall_impl; [|exact F]. cbn. lia.
Qed.
Lemma cfg_split_cases line : (exists k v, cfg_split line = Ok (k, v)) \/ cfg_split line = Exn.
Proof. unfold cfg_split. destruct strchr_eq; auto. destruct isName; eauto. Qed.

(** the chomped non-empty line *)
Definition core (c : config) (cur line : list Z) : res (config * list Z) :=
  let n := zlen line in
  let! ch := rd line 0 in
  if (ch =? 59) || (ch =? 35) then Ok (c, cur) else
  if ch =? 91 then
    let! la := rd line (n - 1) in
    if negb (la =? 93) then Exn else
    let name := firstn (Z.to_nat (n - 2)) (skipn 1 line) in
    let! c := appendSection c name in
    Ok (c, name)
  else
    let! (key, value) := cfg_split line in
    let! c := append_to c cur key value in
    Ok (c, cur).
Lemma list_snoc {A} (l : list A) : l = [] \/ exists l' x, l = l' ++ [x].
Proof. destruct (rev l) as [|x r] eqn:E; [left|right]; apply (f_equal (@rev A)) in E; rewrite rev_involutive in E; subst; eauto. exists (rev r), x. reflexivity. Qed.

Lemma load_line_core c cur l : load_line c cur l =
  match rev l with
  | [] => Ok (c, cur)
  | x :: r => if x =? 13 then match r with [] => Ok (c, cur) | _ => core c cur (rev r) end else core c cur l
  end.
Proof.
  destruct (list_snoc l) as [->|(l' & x & ->)]; [reflexivity|].
  rewrite rev_app_distr. change (rev [x] ++ rev l') with (x :: rev l').
  unfold load_line. replace (zlen (l' ++ [x]) =? 0) with false by (rewrite zlen_app, zlen_cons, zlen_nil; pose proof (zlen_nonneg l'); lia).
  rewrite (rd_app_exact' l' x []) by (rewrite zlen_app, zlen_cons, zlen_nil; lia). cbn [bind].
  destruct (x =? 13) eqn:X; cbn [andb].
  - destruct l' as [|y l'].
    + reflexivity.
    + replace (zlen ((y :: l') ++ [x]) =? 1) with false by (rewrite zlen_app, !zlen_cons, zlen_nil; pose proof (zlen_nonneg l'); lia).
      destruct (rev (y :: l')) eqn:E. { apply (f_equal (@length Z)) in E. rewrite rev_length in E. discriminate. }
      rewrite <- E, rev_involutive. unfold core.
      replace (zlen ((y :: l') ++ [x]) - 1) with (zlen (y :: l')) by (rewrite zlen_app, !zlen_cons, zlen_nil; lia).
      rewrite to_nat_zlen, firstn_app_exact. reflexivity.
  - reflexivity.
Qed.

Lemma core_ok c cur l i : means l i -> l <> [] -> core c cur l = apply_item c cur i.
Proof.
  intros M NE. destruct M as [|ch l H|n N|k sp v N F]; [congruence| | |].
  - unfold core. change (rd (ch :: l) 0) with (@Ok Z ch). cbn [bind]. replace ((ch =? 59) || (ch =? 35)) with true by lia. reflexivity.
  - unfold core. change (rd (91 :: n ++ [93]) 0) with (@Ok Z 91). cbn [bind]. change ((91 =? 59) || (91 =? 35)) with false. change (91 =? 91) with true. cbv iota.
    change (91 :: n ++ [93]) with ((91 :: n) ++ [93]). rewrite rd_app_exact' by (rewrite zlen_app, zlen_cons, zlen_cons, zlen_nil; lia).
    cbn [bind]. change (negb (93 =? 93)) with false. cbv iota.
    replace (firstn (Z.to_nat (zlen ((91 :: n) ++ [93]) - 2)) (skipn 1 ((91 :: n) ++ [93]))) with n.
    + unfold appendSection. rewrite (proj2 (isName_iff n) N). reflexivity.
    + rewrite zlen_app, !zlen_cons, zlen_nil. replace (Z.to_nat (1 + zlen n + (1 + 0) - 2)) with (length n) by (unfold zlen; lia).
      cbn [app skipn]. now rewrite firstn_app_exact.
  - assert (H : cfg_split (k ++ sp ++ 61 :: v) = Ok (k, v)) by (apply cfg_split_ok; split; auto; exists sp; auto).
    assert (HD : exists ch t, k ++ sp ++ 61 :: v = ch :: t /\ ch <> 59 /\ ch <> 35 /\ ch <> 91).
    { destruct k as [|a k]; [destruct sp as [|a sp]|].
      - exists 61, v. repeat split; lia.
      - exists a, (sp ++ 61 :: v). split; auto. inversion F; subst. lia.
      - exists a, (k ++ sp ++ 61 :: v). split; auto. inversion N; subst. unfold name_char in *. lia. }
    destruct HD as (ch & t & E & C1 & C2 & C3). unfold core. rewrite H. rewrite E. change (rd (ch :: t) 0) with (@Ok Z ch). cbn [bind].
    destruct (ch =? 59) eqn:D1; [lia|]. destruct (ch =? 35) eqn:D2; [lia|]. destruct (ch =? 91) eqn:D3; [lia|]. reflexivity.
Qed.
Lemma core_bad c cur l : (forall i, ~ means l i) -> core c cur l = Exn.
Proof.
  intros M. destruct l as [|ch t]; [destruct (M Nothing); constructor|]. unfold core. change (rd (ch :: t) 0) with (@Ok Z ch). cbn [bind].
  destruct ((ch =? 59) || (ch =? 35)) eqn:D1. { exfalso. apply (M Nothing). constructor. lia. }
  destruct (ch =? 91) eqn:D2.
  - apply Z.eqb_eq in D2. subst ch. destruct (list_snoc t) as [->|(n & x & ->)].
    + reflexivity.
    + change (91 :: n ++ [x]) with ((91 :: n) ++ [x]). rewrite rd_app_exact' by (rewrite zlen_app, zlen_cons, zlen_cons, zlen_nil; lia).
      cbn [bind]. destruct (x =? 93) eqn:X; [|reflexivity]. apply Z.eqb_eq in X. subst x. cbn [negb].
      rewrite zlen_app, !zlen_cons, zlen_nil. replace (Z.to_nat (1 + zlen n + (1 + 0) - 2)) with (length n) by (unfold zlen; lia).
      cbn [app skipn]. rewrite firstn_app_exact. unfold appendSection. destruct (isName n) eqn:N; [|reflexivity].
      exfalso. apply (M (Header n)). constructor. now apply isName_iff.
  - destruct (cfg_split_cases (ch :: t)) as [(k & v & H)|H]; rewrite H; [|reflexivity].
    exfalso. apply cfg_split_ok in H. destruct H as (N & sp & E & F). apply (M (KeyValue k v)). rewrite E. constructor; auto.
Qed.

Lemma kv_head k sp v : is_name k -> Forall (fun c => c = 32 \/ c = 9) sp ->
  exists ch t, k ++ sp ++ 61 :: v = ch :: t /\ ch <> 59 /\ ch <> 35 /\ ch <> 91.
Proof.
  intros N F. destruct k as [|a k]; [destruct sp as [|a sp]|].
  - exists 61, v. repeat split; lia.
  - exists a, (sp ++ 61 :: v). split; auto. inversion F; subst. lia.
  - exists a, (k ++ sp ++ 61 :: v). split; auto. inversion N; subst. unfold name_char in *. lia.
Qed.
Lemma means_cons ch t i : means (ch :: t) i ->
  ((ch = 59 \/ ch = 35) /\ i = Nothing) \/
  (ch = 91 /\ exists n, t = n ++ [93] /\ is_name n /\ i = Header n) \/
  (ch <> 59 /\ ch <> 35 /\ ch <> 91 /\ exists k v, cfg_split (ch :: t) = Ok (k, v) /\ i = KeyValue k v).
Proof.
  intros M. remember (ch :: t) as l eqn:E. destruct M as [|c l H|n N|k sp v N F].
  - discriminate.
  - injection E as -> ->. auto.
  - injection E as <- <-. right. left. eauto.
  - right. right. destruct (kv_head k sp v N F) as (c' & t' & E' & ?). assert (c' = ch) by congruence. subst c'.
    repeat split; try tauto. exists k, v. split; auto. apply cfg_split_ok. eauto.
Qed.
Lemma means_fun l i j : means l i -> means l j -> i = j.
Proof.
  destruct l as [|ch t].
  - intros A B.
    assert (Q : forall i, means [] i -> i = Nothing).
    { clear. intros i M. remember [] as l eqn:E. destruct M; auto; try discriminate. destruct k; [destruct sp|]; discriminate. }
    rewrite (Q _ A), (Q _ B). reflexivity.
  - intros A B. destruct (means_cons _ _ _ A) as [(? & ->)|[(? & n & E & _ & ->)|(? & ? & ? & k & v & E & ->)]];
      destruct (means_cons _ _ _ B) as [(? & ->)|[(? & n' & E' & _ & ->)|(? & ? & ? & k' & v' & E' & ->)]]; try lia; auto.
    + subst. apply app_inj_tail in E'. destruct E' as [-> _]. reflexivity.
    + congruence.
Qed.
Lemma means_dec l : (exists i, means l i) \/ (forall i, ~ means l i).
Proof.
  destruct l as [|ch t]; [left; exists Nothing; constructor|].
  destruct ((ch =? 59) || (ch =? 35)) eqn:D1. { left. exists Nothing. constructor. lia. }
  destruct (ch =? 91) eqn:D2.
  - apply Z.eqb_eq in D2. subst ch. destruct (list_snoc t) as [->|(n & x & ->)].
    + right. intros i M. apply means_cons in M. destruct M as [M|[(_ & n & E & _)|M]]; try lia. destruct n; discriminate.
    + destruct ((x =? 93) && isName n) eqn:X.
      * apply andb_true_iff in X. destruct X as [X N]. apply Z.eqb_eq in X. subst x. left. exists (Header n). constructor. now apply isName_iff.
      * right. intros i M. apply means_cons in M. destruct M as [M|[(_ & n' & E & N & _)|M]]; try lia.
        apply app_inj_tail in E. destruct E as [-> ->]. apply isName_iff in N. rewrite N in X. discriminate.
  - destruct (cfg_split_cases (ch :: t)) as [(k & v & H)|H].
    + left. exists (KeyValue k v). apply cfg_split_ok in H. destruct H as (N & sp & E & F). rewrite E. constructor; auto.
    + right. intros i M. apply means_cons in M. destruct M as [M|[M|(_ & _ & _ & k & v & E & _)]]; try lia. congruence.
Qed.

Lemma line_means_fun l i j : line_means l i -> line_means l j -> i = j.
Proof.
  intros [l1 E1 M1|N1 M1] [l2 E2 M2|N2 M2].
  - subst. apply app_inj_tail in E2. destruct E2 as [-> _]. eapply means_fun; eauto.
  - exfalso. eapply N2; eauto.
  - exfalso. eapply N1; eauto.
  - eapply means_fun; eauto.
Qed.
(** a line either has a meaning, and is executed accordingly, or throws *)
Lemma load_line_spec l : (exists i, line_means l i /\ forall c cur, load_line c cur l = apply_item c cur i) \/
  ((forall i, ~ line_means l i) /\ forall c cur, load_line c cur l = Exn).
Proof.
  destruct (list_snoc l) as [->|(l' & x & ->)].
  - left. exists Nothing. split; [|reflexivity]. apply LNoCr; [intros [|? ?]; discriminate|constructor].
  - assert (R : forall c cur, load_line c cur (l' ++ [x]) = if x =? 13 then match l' with [] => Ok (c, cur) | _ => core c cur l' end else core c cur (l' ++ [x])).
    { intros c cur. rewrite load_line_core, rev_app_distr. cbn [rev app]. destruct (x =? 13); auto.
      destruct l' as [|a l']; [reflexivity|]. destruct (rev (a :: l')) eqn:E.
      - apply (f_equal (@length Z)) in E. rewrite rev_length in E. discriminate.
      - rewrite <- E, rev_involutive. reflexivity. }
    destruct (x =? 13) eqn:X.
    + apply Z.eqb_eq in X. subst x. destruct (means_dec l') as [[i M]|M].
      * left. exists i. split; [eapply LCr; eauto|]. intros c cur. rewrite R. destruct l' as [|a l'].
        -- rewrite (means_fun _ _ _ M MEmpty). reflexivity.
        -- apply core_ok; auto. discriminate.
      * right. split.
        -- intros i [l2 E2 M2|N2 M2]; [|eapply N2; eauto]. apply app_inj_tail in E2. destruct E2 as [-> _]. eapply M; eauto.
        -- intros c cur. rewrite R. destruct l'; [exfalso; eapply M; constructor|]. now apply core_bad.
    + destruct (means_dec (l' ++ [x])) as [[i M]|M].
      * left. exists i. split.
        -- apply LNoCr; auto. intros l2 E2. apply app_inj_tail in E2. lia.
        -- intros c cur. rewrite R. apply core_ok; auto. destruct l'; discriminate.
      * right. split.
        -- intros i [l2 E2 M2|N2 M2]; [|eapply M; eauto]. apply app_inj_tail in E2. lia.
        -- intros c cur. rewrite R. now apply core_bad.
Qed.

(* ------------------------------------------------------------------ *)
(** * All lines *)
Fixpoint load_lines (ls : list (list Z)) (c : config) (cur : list Z) : res config :=
  match ls with
  | [] => Ok c
  | l :: r => let! (c, cur) := load_line c cur l in load_lines r c cur
  end.
Lemma take_line_lf l t : no_lf l -> forall cur, take_line cur (l ++ 10 :: t) = (rev cur ++ l, t).
Proof.
  induction l as [|x l IH]; intros N cur; cbn [app take_line].
  - rewrite app_nil_r. reflexivity.
  - destruct (x =? 10) eqn:E. { exfalso. apply N. left. lia. }
    rewrite IH by (intros I; apply N; now right). cbn [rev]. now rewrite <- app_assoc.
Qed.
Lemma take_line_end l : no_lf l -> forall cur, take_line cur l = (rev cur ++ l, []).
Proof.
  induction l as [|x l IH]; intros N cur; cbn [take_line].
  - rewrite app_nil_r. reflexivity.
  - destruct (x =? 10) eqn:E. { exfalso. apply N. left. lia. }
    rewrite IH by (intros I; apply N; now right). cbn [rev]. now rewrite <- app_assoc.
Qed.
Lemma load_loop_lines ls last : Forall no_lf ls -> no_lf last -> forall f c cur, (length (lines_text ls last) < f)%nat ->
  load_loop f c cur (lines_text ls last) = load_lines (ls ++ [last]) c cur.
Proof.
  intros N NL. induction N as [|l ls H N IH]; intros f c cur F.
  - unfold lines_text in *. cbn [map concat app] in *. destruct f as [|f]; [lia|]. cbn [load_loop load_lines]. unfold getline.
    destruct last as [|x last].
    + reflexivity.
    + rewrite take_line_end by auto. cbn [rev app]. destruct (load_line c cur (x :: last)) as [[c1 cur1]| | |]; cbn [bind]; auto.
      destruct f as [|f]; [cbn in F; lia|]. reflexivity.
  - assert (E : lines_text (l :: ls) last = l ++ 10 :: lines_text ls last) by (unfold lines_text; cbn [map concat]; rewrite <- !app_assoc; reflexivity).
    rewrite E in *. destruct f as [|f]; [lia|]. cbn [load_loop load_lines app]. unfold getline.
    replace (match l ++ 10 :: lines_text ls last with [] => None | _ :: _ => Some (take_line [] (l ++ 10 :: lines_text ls last)) end)
      with (Some (take_line [] (l ++ 10 :: lines_text ls last))) by (destruct l; reflexivity).
    rewrite take_line_lf by auto. cbn [rev app]. destruct (load_line c cur l) as [[c1 cur1]| | |]; cbn [bind]; auto.
    apply IH. rewrite app_length in F. cbn [length] in F. lia.
Qed.

(** what a successful run of lines does to the content *)
Definition fresh (c : config) (es : list (list Z * list Z * list Z)) : Prop :=
  NoDup (map fst es) /\ Forall (fun e => value_of c (fst (fst e)) (snd (fst e)) = None) es.
Definition adds (c : config) (es : list (list Z * list Z * list Z)) (secs : list (list Z)) (c' : config) : Prop :=
  (forall s k v, value_of c' s k = Some v <-> value_of c s k = Some v \/ In (s, k, v) es) /\
  (forall s, has_section c' s <-> has_section c s \/ In s secs).
Fixpoint headers (its : list item) : list (list Z) :=
  match its with [] => [] | Header n :: r => n :: headers r | _ :: r => headers r end.

Lemma has_section_minsert c n s : wf c -> has_section (minsert n [] c) s <-> has_section c s \/ n = s.
Proof.
  intros (S & _). unfold has_section, querySection. rewrite minsert_find by exact S.
  destruct (str_eq s n) eqn:E.
  - apply str_eq_iff in E. subst. destruct (mfind n c); split; intros; try congruence; tauto.
  - split; [tauto|]. intros [H|H]; auto. subst. rewrite str_eq_refl in E. discriminate.
Qed.
Lemma value_of_minsert c n s k : wf c -> value_of (minsert n [] c) s k = value_of c s k.
Proof.
  intros (S & _). unfold value_of, querySection. rewrite minsert_find by exact S.
  destruct (str_eq s n) eqn:E; auto. apply str_eq_iff in E. subst. destruct (mfind n c); reflexivity.
Qed.
Lemma append_to_spec c cur k v : wf c -> has_section c cur -> is_name k ->
  (value_of c cur k = None /\ exists c', append_to c cur k v = Ok c' /\ wf c' /\
    (forall s k', value_of c' s k' = if str_eq s cur && str_eq k' k then Some v else value_of c s k') /\
    (forall s, has_section c' s <-> has_section c s)) \/
  (value_of c cur k <> None /\ append_to c cur k v = Exn).
Proof.
  intros W H N. unfold has_section, querySection in H. unfold value_of, querySection, queryValue.
  assert (AW := append_to_wf c cur k v). unfold append_to in *. destruct (mfind cur c) as [s|] eqn:F; [|congruence].
  assert (WS : wf_sec s) by (eapply mfind_forall; [|exact F]; apply W).
  rewrite sec_append_cases in *. rewrite (proj2 (isName_iff k) N) in *. destruct (mfind k s) as [v0|] eqn:G.
  - right. split; [congruence|reflexivity].
  - left. split; auto. eexists. split; [reflexivity|]. split; [apply AW; auto|]. split.
    + intros s' k'. rewrite mset_find. destruct (str_eq s' cur) eqn:E; cbn [andb]; auto.
      apply str_eq_iff in E. subst s'. rewrite F. rewrite minsert_find by apply WS. rewrite G. reflexivity.
    + intros s'. unfold has_section, querySection. rewrite mset_find. destruct (str_eq s' cur) eqn:E; [|reflexivity].
      apply str_eq_iff in E. subst s'. rewrite F. split; congruence.
Qed.

Lemma means_names l i : line_means l i -> match i with Nothing => True | Header n => is_name n | KeyValue k _ => is_name k end.
Proof. intros [l' _ M|_ M]; destruct M; auto. Qed.

Lemma load_lines_spec ls : forall c cur, wf c -> has_section c cur ->
  (exists its c', load_lines ls c cur = Ok c' /\ wf c' /\ Forall2 line_means ls its /\ fresh c (entries cur its) /\ adds c (entries cur its) (headers its) c') \/
  (load_lines ls c cur = Exn /\ ~ exists its, Forall2 line_means ls its /\ fresh c (entries cur its)).
Proof.
  induction ls as [|l ls IH]; intros c cur W HS.
  - left. exists [], c. split; [reflexivity|]. split; [exact W|]. split; [constructor|]. split; [split; constructor|]. split; intros; cbn; tauto.
  - cbn [load_lines]. destruct (load_line_spec l) as [(i & M & R)|(M & R)]; rewrite R; cycle 1.
    { right. split; [reflexivity|]. intros (its & F & _). inversion F; subst. eapply M; eauto. }
    pose proof (means_names _ _ M) as NM.
    assert (HD : forall its, Forall2 line_means (l :: ls) its -> exists r, its = i :: r /\ Forall2 line_means ls r).
    { intros its F. inversion F as [|? j ? r M' F']; subst. exists r. split; auto. f_equal. eapply line_means_fun; eauto. }
    destruct i as [|n|k v]; cbn [apply_item bind].
    + destruct (IH c cur W HS) as [(its & c' & E & W' & F & FR & AD)|(E & NO)].
      * left. exists (Nothing :: its), c'. repeat (split; auto).
      * right. split; auto. intros (its & F & FR). destruct (HD _ F) as (r & -> & F'). apply NO. eauto.
    + assert (W1 : wf (minsert n [] c)). { apply (appendSection_wf c n); auto. unfold appendSection. now rewrite (proj2 (isName_iff n) NM). }
      assert (V : forall es, fresh (minsert n [] c) es <-> fresh c es).
      { intros es. unfold fresh. assert (Q : forall e : list Z * list Z * list Z, value_of (minsert n [] c) (fst (fst e)) (snd (fst e)) = None <-> value_of c (fst (fst e)) (snd (fst e)) = None)
          by (intros e; now rewrite value_of_minsert).
        rewrite !Forall_forall. split; intros (A & B); split; auto; intros e I; apply (Q e); auto. }
      destruct (IH (minsert n [] c) n W1) as [(its & c' & E & W' & F & FR & AV & AS)|(E & NO)].
      { apply has_section_minsert; auto. }
      * left. exists (Header n :: its), c'. split; auto. split; auto. split; [auto|]. split; [now apply V|]. cbn [entries headers]. split.
        -- intros s k v. rewrite AV, value_of_minsert by auto. reflexivity.
        -- intros s. rewrite AS, has_section_minsert by auto. cbn [In]. tauto.
      * right. split; auto. intros (its & F & FR). destruct (HD _ F) as (r & -> & F'). apply NO. exists r. split; auto. now apply V.
    + destruct (append_to_spec c cur k v W HS NM) as [(FN & c1 & E1 & W1 & V1 & S1)|(FN & E1)]; rewrite E1; cbn [bind].
      * assert (V : forall es, fresh c1 es <-> fresh c ((cur, k, v) :: es)).
        { intros es. unfold fresh. cbn [map fst snd]. rewrite NoDup_cons_iff, Forall_cons_iff. cbn [fst snd]. rewrite !Forall_forall. split.
          - intros (A & B). split; [split; auto|split; auto].
            + intros I. apply in_map_iff in I. destruct I as ([[s' k'] v'] & E & I). cbn in E. injection E as -> ->.
              specialize (B _ I). cbn in B. rewrite V1, !str_eq_refl in B. discriminate.
            + intros e I. specialize (B e I). rewrite V1 in B. destruct (_ && _); congruence.
          - intros ((A1 & A2) & B1 & B2). split; auto. intros [[s' k'] v'] I. cbn [fst snd]. rewrite V1.
            destruct (str_eq s' cur && str_eq k' k) eqn:Q; [|exact (B2 _ I)].
            apply andb_true_iff in Q. destruct Q as [Q1 Q2]. apply str_eq_iff in Q1, Q2. subst. exfalso. apply A1. apply in_map_iff. eexists. split; [|exact I]. reflexivity. }
        destruct (IH c1 cur W1 (proj2 (S1 cur) HS)) as [(its & c' & E & W' & F & FR & AV & AS)|(E & NO)].
        -- left. exists (KeyValue k v :: its), c'. split; auto. split; auto. split; [auto|]. split; [now apply V|]. cbn [entries headers]. split.
           ++ intros s k' v'. rewrite AV, V1. cbn [In]. destruct (str_eq s cur && str_eq k' k) eqn:Q.
              ** apply andb_true_iff in Q. destruct Q as [Q1 Q2]. apply str_eq_iff in Q1, Q2. subst. split.
                 --- intros [H|H]; auto. injection H as ->. auto.
                 --- intros [H|[H|H]]; auto; [congruence|]. injection H as ->. auto.
              ** split; [tauto|]. intros [H|[H|H]]; auto. injection H as -> -> ->. rewrite !str_eq_refl in Q. discriminate.
           ++ intros s. rewrite AS, S1. reflexivity.
        -- right. split; auto. intros (its & F & FR). destruct (HD _ F) as (r & -> & F'). apply NO. exists r. split; auto. now apply V.
      * right. split; auto. intros (its & F & FR). destruct (HD _ F) as (r & -> & F'). cbn [entries] in FR. destruct FR as (_ & FR). inversion FR; subst. cbn in *. congruence.
Qed.

(* ------------------------------------------------------------------ *)
(** * Theorems: load *)
(** [load] on any text, from any config: it succeeds exactly when every line is well formed and no (section, key) is given twice or
    already present; then exactly the listed values and sections are added. Otherwise it throws. *)
Theorem C42_load c ls last : built c -> Forall no_lf ls -> no_lf last ->
  (exists its c', load c (lines_text ls last) = Ok c' /\
     Forall2 line_means (ls ++ [last]) its /\ NoDup (map fst (entries [] its)) /\
     (forall s k v, In (s, k, v) (entries [] its) -> value_of c s k = None) /\
     (forall s k v, value_of c' s k = Some v <-> value_of c s k = Some v \/ In (s, k, v) (entries [] its)) /\
     (forall s, has_section c' s <-> has_section c s \/ s = [] \/ In s (headers its))) \/
  (load c (lines_text ls last) = Exn /\
     ~ exists its, Forall2 line_means (ls ++ [last]) its /\ NoDup (map fst (entries [] its)) /\
         forall s k v, In (s, k, v) (entries [] its) -> value_of c s k = None).
Proof.
  intros B N NL. apply built_wf in B. unfold load. change (appendSection c []) with (Ok (minsert [] [] c)). cbn [bind].
  assert (W : wf (minsert [] [] c)) by (apply (appendSection_wf c []); auto).
  rewrite load_loop_lines by (auto; lia).
  assert (V : forall es, fresh (minsert [] [] c) es <-> NoDup (map fst es) /\ forall s k v, In (s, k, v) es -> value_of c s k = None).
  { intros es. unfold fresh. rewrite Forall_forall. split; intros (A & D); split; auto.
    - intros s k v I. specialize (D _ I). cbn in D. now rewrite value_of_minsert in D.
    - intros [[s k] v] I. cbn. rewrite value_of_minsert by auto. eauto. }
  destruct (load_lines_spec (ls ++ [last]) (minsert [] [] c) [] W) as [(its & c' & E & W' & F & FR & AV & AS)|(E & NO)].
  - apply has_section_minsert; auto.
  - left. exists its, c'. apply V in FR. destruct FR as [FR1 FR2]. split; [exact E|]. split; [exact F|]. split; [exact FR1|]. split; [exact FR2|]. split.
    + intros s k v. rewrite AV, value_of_minsert by auto. reflexivity.
    + intros s. rewrite AS, has_section_minsert by auto. split; intros H; repeat destruct H as [H|H]; auto.
  - right. split; auto. intros (its & F & D). apply NO. exists its. split; auto. now apply V.
Qed.

(** a line has at most one meaning *)
Theorem C42_grammar_unambiguous l i j : line_means l i -> line_means l j -> i = j.
Proof. apply line_means_fun. Qed.

Definition demo_lines : list (list Z) :=
  [str "; comment"; str "a = 1 "; str "[sec]"; []; str "b=x=y" ++ [13]; [13]; str "[]"; str "c="].
Example C42_load_nonvacuous :
  load [] (lines_text demo_lines (str "[t]")) =
    Ok [([], [(str "a", str " 1 "); (str "c", [])]); (str "sec", [(str "b", str "x=y")]); (str "t", [])].
Proof. reflexivity. Qed.
Example C42_load_dup : load [] (str "a=1" ++ [10] ++ str "[s]" ++ [10] ++ str "a=1" ++ [10] ++ str "[]" ++ [10] ++ str "a=2") = Exn.
Proof. reflexivity. Qed.

(** the documented grammar says NAME = [0-9a-zA-Z_]+ but the empty key is taken *)
Theorem C42_empty_key_finding : exists c, load [] (str "=v") = Ok c /\ value_of c [] [] = Some (str "v").
Proof. eexists. split; reflexivity. Qed.

(* ------------------------------------------------------------------ *)
(** * Round trip *)
(** values that survive: no LF, no CR at the end *)
Definition good_value (v : list Z) : Prop := no_lf v /\ (forall v', v <> v' ++ [13]).

Lemma minsert_last {V} k (v : V) m : Forall (fun e => str_lt (fst e) k = true) m -> minsert k v m = m ++ [(k, v)].
Proof.
  induction 1 as [|[a x] r H F IH]; [reflexivity|]. cbn [minsert app fst] in *.
  destruct (str_lt k a) eqn:E. { exfalso. pose proof (str_lt_trans _ _ _ H E) as Q. rewrite str_lt_irrefl in Q. discriminate. }
  rewrite str_eq_ne; [now rewrite IH|]. intros ->. rewrite str_lt_irrefl in H. discriminate.
Qed.
Lemma mfind_last {V} k (v : V) m : Forall (fun e => str_lt (fst e) k = true) m -> mfind k (m ++ [(k, v)]) = Some v.
Proof.
  induction 1 as [|[a x] r H F IH]; cbn [app mfind fst] in *.
  - now rewrite str_eq_refl.
  - rewrite str_eq_ne; auto. intros ->. rewrite str_lt_irrefl in H. discriminate.
Qed.
Lemma mfind_none {V} k (m : list (list Z * V)) : Forall (fun e => str_lt (fst e) k = true) m -> mfind k m = None.
Proof.
  induction 1 as [|[a x] r H F IH]; cbn [mfind fst] in *; auto. rewrite str_eq_ne; auto. intros ->. rewrite str_lt_irrefl in H. discriminate.
Qed.
Lemma mset_last {V} k (v v' : V) m : Forall (fun e => str_lt (fst e) k = true) m -> mset k v' (m ++ [(k, v)]) = m ++ [(k, v')].
Proof.
  induction 1 as [|[a x] r H F IH]; cbn [app mset fst] in *.
  - now rewrite str_eq_refl.
  - rewrite str_eq_ne; [congruence|]. intros ->. rewrite str_lt_irrefl in H. discriminate.
Qed.

Definition kv_line (e : list Z * list Z) : list Z := fst e ++ [61] ++ snd e.
Definition sec_lines (ns : list Z * section) : list (list Z) :=
  match fst ns with [] => [] | _ => [91 :: fst ns ++ [93]] end ++ map kv_line (snd ns).

Lemma fold_left_concat {A} (f : A -> list Z) l : forall a, fold_left (fun r e => r ++ f e) l a = a ++ concat (map f l).
Proof. induction l as [|x l IH]; intros a; cbn; [now rewrite app_nil_r|]. now rewrite IH, <- app_assoc. Qed.
Lemma sec_toString_eq s : sec_toString s = concat (map (fun l => l ++ [10]) (map kv_line s)).
Proof.
  unfold sec_toString. rewrite (fold_left_concat (fun kv => fst kv ++ [61] ++ snd kv ++ [10])), map_map. cbn [app]. f_equal.
  apply map_ext. intros [k v]. unfold kv_line. cbn [fst snd]. now rewrite <- !app_assoc.
Qed.
Lemma toString_eq c : toString c = lines_text (concat (map sec_lines c)) [].
Proof.
  unfold toString, lines_text. rewrite app_nil_r.
  assert (Q : forall c a, fold_left (fun ret ns => (if match fst ns with [] => true | _ => false end then ret else ret ++ [91] ++ fst ns ++ [93; 10]) ++ sec_toString (snd ns)) c a
              = a ++ concat (map (fun l => l ++ [10]) (concat (map sec_lines c)))).
  { clear c. induction c as [|[n s] c IH]; intros a; cbn [fold_left map concat]; [now rewrite app_nil_r|].
    rewrite IH. unfold sec_lines at 2. cbn [fst snd]. rewrite !map_app, !concat_app, <- sec_toString_eq. destruct n as [|x n].
    - cbn [map concat app]. now rewrite <- !app_assoc.
    - cbn [map concat app]. rewrite <- !app_assoc. f_equal. cbn [app]. f_equal. f_equal. now rewrite <- !app_assoc. }
  now rewrite Q.
Qed.

Lemma no_cr_tail k v : (forall v', v <> v' ++ [13]) -> forall l', k ++ 61 :: v <> l' ++ [13].
Proof.
  intros H l' E. destruct (list_snoc v) as [->|(v' & x & ->)].
  - change (k ++ [61] = l' ++ [13]) in E. apply app_inj_tail in E. lia.
  - rewrite app_comm_cons, app_assoc in E. apply app_inj_tail in E. destruct E as [_ ->]. eapply H; eauto.
Qed.
Lemma load_line_item c cur l i : line_means l i -> load_line c cur l = apply_item c cur i.
Proof.
  intros M. destruct (load_line_spec l) as [(j & M' & R)|(M' & _)].
  - rewrite R. now rewrite (line_means_fun _ _ _ M M').
  - exfalso. eapply M'; eauto.
Qed.
Lemma kv_line_means k v : is_name k -> good_value v -> line_means (kv_line (k, v)) (KeyValue k v).
Proof.
  intros N (_ & G). unfold kv_line. cbn [fst snd app]. apply LNoCr; [now apply no_cr_tail|]. apply (MKeyValue k [] v); auto.
Qed.
Lemma header_means n : is_name n -> line_means (91 :: n ++ [93]) (Header n).
Proof.
  intros N. apply LNoCr; [|now constructor]. intros l' E. rewrite app_comm_cons in E. apply app_inj_tail in E. lia.
Qed.

Definition good_sec (s : section) : Prop := wf_sec s /\ Forall (fun e => good_value (snd e)) s.
Lemma sorted_mid {V} (a b : list (list Z * V)) e : msorted (a ++ e :: b) -> Forall (fun x => str_lt (fst x) (fst e) = true) a.
Proof.
  induction a as [|x a IH]; intros S; constructor.
  - inversion S; subst. rewrite Forall_app in H2. destruct H2 as [_ H2]. inversion H2; subst. exact H3.
  - apply IH. now inversion S.
Qed.
Lemma load_kvs n pre rest : is_name n -> Forall (fun e => str_lt (fst e) n = true) pre -> forall s2 s1, good_sec (s1 ++ s2) ->
  load_lines (map kv_line s2 ++ rest) (pre ++ [(n, s1)]) n = load_lines rest (pre ++ [(n, s1 ++ s2)]) n.
Proof.
  intros N P. induction s2 as [|[k v] s2 IH]; intros s1 G; cbn [map app]; [now rewrite app_nil_r|].
  cbn [load_lines]. assert (G' := G). destruct G' as ((S & NS) & GV).
  rewrite Forall_app in NS, GV. destruct NS as [_ NS]. destruct GV as [_ GV]. inversion NS; subst. inversion GV; subst. cbn [fst snd] in *.
  rewrite (load_line_item _ _ _ _ (kv_line_means k v H1 H3)). cbn [apply_item]. unfold append_to. rewrite mfind_last by auto.
  assert (L := sorted_mid _ _ _ S). cbn [fst] in L. rewrite sec_append_cases. rewrite (proj2 (isName_iff k) H1), mfind_none by auto. cbn [bind].
  rewrite minsert_last, mset_last by auto. rewrite IH; rewrite <- app_assoc; auto.
Qed.
Lemma load_secs c : forall pre cur, msorted (pre ++ c) -> Forall (fun e => is_name (fst e)) c -> Forall (fun e => good_sec (snd e)) c -> Forall (fun e => fst e <> []) c ->
  load_lines (concat (map sec_lines c) ++ [[]]) pre cur = Ok (pre ++ c).
Proof.
  induction c as [|[n s] c IH]; intros pre cur S N G NE.
  - cbn. now rewrite app_nil_r.
  - inversion N; subst. inversion G; subst. inversion NE; subst. cbn [fst snd] in *.
    cbn [map concat]. unfold sec_lines at 1. cbn [fst snd].
    destruct n as [|x n]; [congruence|]. rewrite <- !app_assoc. cbn [app]. cbn [load_lines].
    rewrite (load_line_item _ _ _ _ (header_means (x :: n) H1)). cbn [apply_item bind].
    assert (L := sorted_mid _ _ _ S). cbn [fst] in L.
    rewrite minsert_last by auto. rewrite (load_kvs (x :: n) pre) by auto. cbn [app].
    rewrite IH; auto; rewrite <- app_assoc; auto.
Qed.

(** config c plus the (possibly empty) global section *)
Definition with_global (c : config) : config := match querySection c [] with Some _ => c | None => ([], []) :: c end.

Lemma good_no_lf c : Forall (fun e => is_name (fst e)) c -> Forall (fun e => good_sec (snd e)) c -> Forall no_lf (concat (map sec_lines c)).
Proof.
  assert (NN : forall n, is_name n -> no_lf n).
  { intros n N I. unfold is_name in N. rewrite Forall_forall in N. specialize (N _ I). unfold name_char in N. lia. }
  intros N G. apply Forall_concat. rewrite Forall_map, Forall_forall in *. intros [n s] I. specialize (N _ I). specialize (G _ I). cbn [fst snd] in *.
  unfold sec_lines. cbn [fst snd]. apply Forall_app. split.
  - destruct n as [|x n]; constructor; auto. intros J. cbn [In] in J. destruct J as [J|J]; [lia|]. change (In 10 ((x :: n) ++ [93])) in J.
    apply in_app_iff in J. destruct J as [J|[J|[]]]; [|lia]. eapply NN; eauto.
  - rewrite Forall_map. destruct G as ((_ & G1) & G2). rewrite Forall_forall in *. intros [k v] J. specialize (G1 _ J). specialize (G2 _ J). cbn [fst snd] in *.
    unfold kv_line. cbn [fst snd app]. intros Q. apply in_app_iff in Q. destruct Q as [Q|[Q|Q]]; [eapply NN; eauto|lia|]. destruct G2 as [G2 _]. auto.
Qed.

(** Loading the text of a config into a fresh Config gives that config back (and the global section, which loading always creates). *)
Theorem C42_round_trip c : built c -> (forall s k v, value_of c s k = Some v -> good_value v) ->
  load [] (toString c) = Ok (with_global c).
Proof.
  intros B GV. apply built_wf in B. destruct B as (S & N & W).
  assert (FD : forall V (m : list (list Z * V)) k v, msorted m -> In (k, v) m -> mfind k m = Some v).
  { clear. intros V m k v S. induction S as [|[a x] r S IH F]; cbn [In mfind]; [tauto|]. intros [H|H].
    - injection H as -> ->. now rewrite str_eq_refl.
    - rewrite str_eq_ne; auto. intros ->. rewrite Forall_forall in F. specialize (F _ H). unfold klt in F. cbn in F. rewrite str_lt_irrefl in F. discriminate. }
  assert (G : Forall (fun e => good_sec (snd e)) c).
  { rewrite Forall_forall in *. intros [n s] I. cbn. specialize (W _ I). cbn in W. split; auto. rewrite Forall_forall. intros [k v] J. cbn.
    apply (GV n k). unfold value_of, querySection, queryValue. rewrite (FD _ _ _ _ S I). apply FD; auto. apply W. }
  rewrite toString_eq. unfold load. change (appendSection [] []) with (Ok ([([], [])] : config)). cbn [bind].
  rewrite load_loop_lines; [|now apply good_no_lf|intros []|lia].
  assert (NE : forall d, msorted d -> Forall (fun e => str_lt [] (fst e) = true) d -> Forall (fun e : list Z * section => fst e <> []) d).
  { intros d _ F. eapply Forall_impl; [|exact F]. intros [n s]. cbn. destruct n; [discriminate|congruence]. }
  destruct c as [|[n s] c].
  - reflexivity.
  - destruct n as [|x n].
    + unfold with_global, querySection. cbn [mfind]. rewrite str_eq_refl. inversion N; subst. inversion G; subst. inversion S; subst. cbn [fst snd] in *.
      cbn [map concat]. unfold sec_lines at 1. cbn [fst snd app]. rewrite <- app_assoc.
      rewrite (load_kvs [] [] _ H1 (Forall_nil _) s []) by auto. cbn [app]. apply (load_secs c [([], s)]); auto; cbn; auto.
    + assert (F : Forall (fun e : list Z * section => str_lt [] (fst e) = true) ((x :: n, s) :: c)).
      { inversion S; subst. constructor; auto. eapply Forall_impl; [|exact H2]. intros [b y] L. unfold klt in L. cbn [fst] in *. eapply str_lt_trans; [|exact L]. reflexivity. }
      unfold with_global, querySection. rewrite mfind_lt by auto.
      apply (load_secs ((x :: n, s) :: c) [([], [])]); auto. cbn. constructor; auto.
Qed.
(** in terms of queries: same values, same named sections *)
Theorem C42_round_trip_queries c : built c -> (forall s k v, value_of c s k = Some v -> good_value v) ->
  exists c', load [] (toString c) = Ok c' /\ (forall s k, value_of c' s k = value_of c s k) /\ (forall s, s <> [] -> querySection c' s = querySection c s).
Proof.
  intros B G. exists (with_global c). split; [now apply C42_round_trip|]. unfold with_global. destruct (querySection c []) as [s0|] eqn:E; [auto|]. split.
  - intros s k. unfold value_of. unfold querySection at 1. cbn [mfind]. destruct (str_eq s []) eqn:Q; [|reflexivity].
    apply str_eq_iff in Q. subst. rewrite E. reflexivity.
  - intros s NE. unfold querySection. cbn [mfind]. now rewrite str_eq_ne.
Qed.

(** a program building a config and what it writes *)
Definition demo_cfg : config := [([], [(str "k", str "v")]); (str "B", []); (str "a", [(str "x", str " = ;"); (str "y", [])])].
Example C42_round_trip_nonvacuous : built demo_cfg /\ (forall s k v, value_of demo_cfg s k = Some v -> good_value v) /\ load [] (toString demo_cfg) = Ok demo_cfg.
Proof.
  split; [|split; [|reflexivity]].
  - eapply BAppend with (n := str "a") (k := str "y") (v := []) (c := [([], [(str "k", str "v")]); (str "B", []); (str "a", [(str "x", str " = ;")])]); [|reflexivity].
    eapply BAppend with (n := str "a") (k := str "x") (v := str " = ;") (c := [([], [(str "k", str "v")]); (str "B", []); (str "a", [])]); [|reflexivity].
    eapply BSection with (n := str "B") (c := [([], [(str "k", str "v")]); (str "a", [])]); [|reflexivity].
    eapply BAssign with (n := []) (s := [(str "k", str "v")]) (c := [(str "a", [])]); [|eapply BSAppend with (s := []) (k := str "k") (v := str "v"); [constructor|reflexivity]|reflexivity].
    eapply BSection with (n := str "a") (c := []); [constructor|reflexivity].
  - assert (Q : forall v, In v [str "v"; str " = ;"; []] -> good_value v).
    { intros v H. cbn [In] in H. destruct H as [<-|[<-|[<-|[]]]]; split; try (intros H; cbn in H; lia);
        intros v' E; destruct (rev v') as [|x r] eqn:R; apply (f_equal (@rev Z)) in E; rewrite rev_app_distr, R in E; cbn in E; congruence. }
    intros s k v H. apply Q. unfold value_of, querySection, demo_cfg in H. cbn [mfind] in H.
    repeat match type of H with context [if str_eq ?a ?b then _ else _] => destruct (str_eq a b) end; unfold queryValue in H; cbn [mfind] in H;
    repeat match type of H with context [if str_eq ?a ?b then _ else _] => destruct (str_eq a b) end; try discriminate; injection H as <-; cbn; tauto.
Qed.

(** outside that domain the round trip fails *)
Definition one (v : list Z) : config := [([], [(str "k", v)])].
Theorem C42_value_lf_finding : built (one (str "x" ++ [10] ++ str "j=1")) /\
  exists c', load [] (toString (one (str "x" ++ [10] ++ str "j=1"))) = Ok c' /\ value_of c' [] (str "k") = Some (str "x") /\ value_of c' [] (str "j") = Some (str "1").
Proof.
  split.
  - eapply BAppend with (c := [([], [])]) (n := []) (k := str "k"); [|reflexivity]. eapply BSection with (c := []) (n := []); [constructor|reflexivity].
  - eexists. split; [reflexivity|]. split; reflexivity.
Qed.
Theorem C42_value_cr_finding : exists c', load [] (toString (one [97; 13])) = Ok c' /\ value_of c' [] (str "k") = Some [97].
Proof. eexists. split; reflexivity. Qed.
Theorem C42_global_section_finding : built [] /\ load [] (toString []) = Ok [([], [])] /\ ~ has_section [] [] /\ has_section [([], [])] [].
Proof. repeat split; try constructor; unfold has_section; cbn; congruence. Qed.

Print Assumptions C42_load.
Print Assumptions C42_round_trip.
Print Assumptions C42_round_trip_queries.
