(** C112: sample/fmindex_smpl.cpp.  A search in the index prints what a search in the text prints, recover gives the text back. *)
Require Import Verif.Common Verif.Text Verif.StreamModel Verif.HashModel Verif.FrequencyModel Verif.FrequencyProps Verif.WaveletModel Verif.FmModel Verif.FmCore Verif.FmInit Verif.FmProps Verif.SaisProps Verif.CsvFileModel Verif.FmSampleModel.
From Coq Require Import Sorting.Sorted.
Ltac Zify.zify_post_hook ::= idtac.

(** * Specification.  [occurs key text p] is in FmCore.v, [text_ok] in FmInit.v *)
Definition space (c : Z) : Prop := c = 32 \/ 9 <= c <= 13.
(** ws are the words of s, in order: maximal runs of characters that are no spaces *)
Inductive words : list Z -> list (list Z) -> Prop :=
| words_end s : Forall space s -> words s []
| words_one s w rest ws : Forall space s -> w <> [] -> Forall (fun c => ~ space c) w -> (forall c r, rest = c :: r -> space c) -> words rest ws -> words (s ++ w ++ rest) (w :: ws).
(** the positions at which key stands in text, in increasing order *)
Definition positions (key text l : list Z) : Prop := StronglySorted Z.lt l /\ forall p, In p l <-> occurs key text p.
(** what is printed for the words ws: each word with its positions, or only a hash over all the positions *)
Definition report (putHash : bool) (text : list Z) (ws : list (list Z)) (out : list line) : Prop :=
  exists ls, Forall2 (fun w l => positions w text l) ws ls /\
  out = if putHash then [LHash (fold_left (fun h l => hash64 l h) ls 0)] else concat (map (fun wl => [LQuery (fst wl); LSet (snd wl)]) (combine ws ls)).
(** a file name the command line takes as such *)
Definition name_ok (n : list Z) : Prop := n <> [] /\ hd 0 n <> 45.

(** * Proofs: words *)
Lemma is_space_ok c : is_space c = true <-> space c.
Proof. unfold is_space, space. rewrite orb_true_iff, andb_true_iff, Z.eqb_eq, !Z.leb_le. tauto. Qed.
Lemma skipws_ok : forall s, exists a, s = a ++ skipws s /\ Forall space a /\ (forall c r, skipws s = c :: r -> ~ space c).
Proof.
  induction s as [|c s (a & E & F & N)]; [exists []; repeat split; auto; discriminate|]. cbn [skipws]. destruct (is_space c) eqn:S.
  - exists (c :: a). cbn [app]. rewrite <- E. repeat split; auto. constructor; auto. apply is_space_ok. auto.
  - exists []. repeat split; auto. intros c' r X. injection X as <- _. intros Y. apply is_space_ok in Y. congruence.
Qed.
Lemma span_ok : forall s w r, span s = (w, r) -> s = w ++ r /\ Forall (fun c => ~ space c) w /\ (forall c t, r = c :: t -> space c).
Proof.
  induction s as [|c s IH]; cbn [span]; intros w r E; [injection E as <- <-; repeat split; auto; discriminate|]. destruct (is_space c) eqn:S.
  - injection E as <- <-. repeat split; auto. intros c' t X. injection X as <- _. apply is_space_ok. auto.
  - destruct (span s) as [w' r'] eqn:E'. injection E as <- <-. destruct (IH _ _ eq_refl) as (-> & F & N). repeat split; auto. constructor; auto. intros Y. apply is_space_ok in Y. congruence.
Qed.
Lemma get_word_ok s : match get_word s with None => words s [] | Some (w, r) => (length r < length s)%nat /\ forall ws, words r ws -> words s (w :: ws) end.
Proof.
  unfold get_word. destruct (skipws_ok s) as (a & E & F & N). destruct (span (skipws s)) as [w r] eqn:Es. destruct (span_ok _ _ _ Es) as (E2 & F2 & N2). destruct w as [|c w].
  - cbn [app] in E2. assert (skipws s = []) as Z0. { destruct (skipws s) as [|c t] eqn:Y; auto. exfalso. apply (N c t eq_refl). apply (N2 c t). auto. } rewrite Z0, app_nil_r in E. subst a. constructor. auto.
  - rewrite E2 in E. split; [rewrite E; rewrite !app_length; cbn [length]; lia|]. intros ws W. rewrite E. constructor; auto; discriminate.
Qed.

(** ** sets and positions *)
Lemma set_insert_in x : forall s p, In p (set_insert x s) <-> p = x \/ In p s.
Proof.
  induction s as [|y s IH]; intros p; cbn [set_insert]; [cbn; intuition auto|]. destruct (Z.ltb_spec x y); [cbn; intuition auto|]. destruct (Z.ltb_spec y x); [cbn [In]; rewrite IH; intuition auto|]. assert (x = y) as -> by lia. cbn. intuition auto.
Qed.
Lemma set_insert_sorted x : forall s, StronglySorted Z.lt s -> StronglySorted Z.lt (set_insert x s).
Proof.
  induction s as [|y s IH]; intros H; cbn [set_insert]; [repeat constructor|]. pose proof (StronglySorted_inv H) as [H1 H2]. destruct (Z.ltb_spec x y).
  - constructor; auto. constructor; auto. eapply Forall_impl; [|exact H2]. intros. cbn beta in *. lia.
  - destruct (Z.ltb_spec y x); auto. constructor; auto. apply Forall_forall. intros p Hp. apply set_insert_in in Hp. rewrite Forall_forall in H2. destruct Hp as [-> |Hp]; auto.
Qed.
Lemma sorted_unique : forall a b : list Z, StronglySorted Z.lt a -> StronglySorted Z.lt b -> (forall p, In p a <-> In p b) -> a = b.
Proof.
  induction a as [|x a IH]; intros [|y b] Ha Hb E; auto.
  - destruct (proj2 (E y) (or_introl eq_refl)).
  - destruct (proj1 (E x) (or_introl eq_refl)).
  - apply StronglySorted_inv in Ha, Hb. destruct Ha as [Ha Fa], Hb as [Hb Fb]. rewrite Forall_forall in Fa, Fb.
    assert (x = y) as ->. { destruct (proj1 (E x) (or_introl eq_refl)) as [X|X]; auto. destruct (proj2 (E y) (or_introl eq_refl)) as [Y|Y]; auto. specialize (Fa _ Y). specialize (Fb _ X). lia. }
    f_equal. apply IH; auto. intros p. split; intros Hp.
    + destruct (proj1 (E p) (or_intror Hp)) as [<- |]; auto. specialize (Fa _ Hp). lia.
    + destruct (proj2 (E p) (or_intror Hp)) as [<- |]; auto. specialize (Fb _ Hp). lia.
Qed.
Theorem positions_unique key text a b : positions key text a -> positions key text b -> a = b.
Proof. intros (Sa & Ia) (Sb & Ib). apply sorted_unique; auto. intros p. rewrite Ia, Ib. tauto. Qed.
Lemma to_int_small x : 0 <= x < 2 ^ 31 -> to_int x = x.
Proof. intros H. unfold to_int. rewrite Z.mod_small by lia. lia. Qed.
Lemma begins_ok : forall key s, begins key s = true <-> exists post, s = key ++ post.
Proof.
  induction key as [|k key IH]; intros s; cbn [begins app]; [split; eauto|]. destruct s as [|c s]; [split; [discriminate|intros (x & X); discriminate]|]. rewrite andb_true_iff, Z.eqb_eq, IH. split.
  - intros (-> & post & ->). eauto.
  - intros (post & X). injection X as -> ->. eauto.
Qed.
Lemma find_from_ok key : forall s pre, match find_from key s (zlen pre) with
  | Some q => zlen pre <= q /\ occurs key (pre ++ s) q /\ forall r, zlen pre <= r < q -> ~ occurs key (pre ++ s) r
  | None => forall r, zlen pre <= r -> ~ occurs key (pre ++ s) r end.
Proof.
  assert (forall s pre r, occurs key (pre ++ s) r -> r = zlen pre -> begins key s = true) as B.
  { intros s pre r (p1 & post & E & L) ->. apply begins_ok. exists post. apply app_eq_app in E. destruct E as (l & [[-> E]|[-> E]]); rewrite zlen_app in L; pose proof (zlen_nonneg l); assert (l = []) by (destruct l; auto; rewrite zlen_cons in L; pose proof (zlen_nonneg l); lia); subst l; cbn in E; auto. }
  induction s as [|c s IH]; intros pre; cbn [find_from].
  - destruct (begins key []) eqn:E.
    + split; [lia|]. split; [|intros; lia]. apply begins_ok in E. destruct E as (post & E). exists pre, post. rewrite <- E. auto.
    + intros r Hr H. assert (r = zlen pre) as Er. { destruct H as (p1 & post & X & L). rewrite app_nil_r in X. rewrite X in Hr. rewrite !zlen_app in Hr. pose proof (zlen_nonneg key). pose proof (zlen_nonneg post). rewrite X, !zlen_app. lia. } rewrite (B [] pre r H Er) in E. discriminate.
  - destruct (begins key (c :: s)) eqn:E.
    + split; [lia|]. split; [|intros; lia]. apply begins_ok in E. destruct E as (post & E). exists pre, post. rewrite <- E. auto.
    + specialize (IH (pre ++ [c])). rewrite zlen_app in IH. change (zlen [c]) with 1 in IH. rewrite <- app_assoc in IH. cbn [app] in IH.
      assert (forall r, r = zlen pre -> ~ occurs key (pre ++ c :: s) r) as N by (intros r Hr H; rewrite (B _ _ _ H Hr) in E; discriminate).
      destruct (find_from key s (zlen pre + 1)) as [q|].
      * destruct IH as (I1 & I2 & I3). split; [lia|]. split; auto. intros r Hr. destruct (Z.eq_dec r (zlen pre)); auto. apply I3. lia.
      * intros r Hr. destruct (Z.eq_dec r (zlen pre)); auto. apply IH. lia.
Qed.
Lemma occurs_range key text p : occurs key text p -> 0 <= p <= zlen text - zlen key.
Proof. intros (a & b & -> & <-). rewrite !zlen_app. pose proof (zlen_nonneg a). pose proof (zlen_nonneg b). lia. Qed.
Lemma find_ok text key p : 0 <= p -> match find text key p with
  | Some q => p <= q /\ occurs key text q /\ forall r, p <= r < q -> ~ occurs key text r
  | None => forall r, p <= r -> ~ occurs key text r end.
Proof.
  intros Hp. unfold find. destruct (Z.ltb_spec (zlen text) p).
  - intros r Hr X. apply occurs_range in X. pose proof (zlen_nonneg key). lia.
  - pose proof (find_from_ok key (skipn (Z.to_nat p) text) (firstn (Z.to_nat p) text)) as F. rewrite firstn_skipn in F. assert (zlen (firstn (Z.to_nat p) text) = p) as Lp by (unfold zlen in *; rewrite firstn_length; lia). rewrite Lp in F. auto.
Qed.
Lemma simple_loop_ok text key : zlen text < 2 ^ 31 -> forall n p set, 0 <= p -> zlen text + 2 - p <= Z.of_nat n -> 0 < Z.of_nat n -> StronglySorted Z.lt set -> (forall r, In r set <-> occurs key text r /\ r < p) ->
  exists l, simple_loop n text key p set = Ok l /\ positions key text l.
Proof.
  intros Lt. induction n as [|n IH]; intros p set Hp Hn Hn0 Ss Is; [lia|]. cbn [simple_loop]. pose proof (find_ok text key p Hp) as F. destruct (find text key p) as [q|].
  - destruct F as (F1 & F2 & F3). pose proof (occurs_range _ _ _ F2) as R. pose proof (zlen_nonneg key). rewrite to_int_small by lia. apply IH; [lia|lia|lia|apply set_insert_sorted; auto|]. intros r. rewrite set_insert_in, Is. split.
    + intros [-> |[A B]]; [split; auto; lia|split; auto; lia].
    + intros [A B]. destruct (Z.eq_dec r q); auto. right. split; auto. destruct (Z.lt_ge_cases r p); auto. exfalso. apply (F3 r); auto. lia.
  - exists set. split; auto. split; auto. intros r. rewrite Is. split; [tauto|]. intros A. split; auto. destruct (Z.lt_ge_cases r p); auto. exfalso. apply (F r); auto.
Qed.
Lemma simple_ok text key : zlen text < 2 ^ 31 -> exists l, simple_loop (length text + 2) text key 0 [] = Ok l /\ positions key text l.
Proof. intros Lt. apply simple_loop_ok; auto; [lia|unfold zlen; lia|lia|constructor|]. intros r. split; [intros []|]. intros [A B]. apply occurs_range in A. lia. Qed.

(** ** the loop over the words *)
Lemma queries_ok run putHash text : forall n qs hash out, (length qs < n)%nat ->
  (forall key, key <> [] -> (forall c, In c key -> In c qs) -> exists l, run key = Ok l /\ positions key text l) ->
  exists ws ls, words qs ws /\ Forall2 (fun w l => positions w text l) ws ls /\
    queries n run putHash qs hash out = Ok (true, out ++ if putHash then [LHash (fold_left (fun h l => hash64 l h) ls hash)] else concat (map (fun wl => [LQuery (fst wl); LSet (snd wl)]) (combine ws ls))).
Proof.
  induction n as [|n IH]; intros qs hash out Hn R; [lia|]. cbn [queries]. pose proof (get_word_ok qs) as G. unfold get_word in *. destruct (skipws_ok qs) as (a & Ea & _). destruct (span (skipws qs)) as [w r] eqn:Es. destruct (span_ok _ _ _ Es) as (E2 & _). destruct w as [|c w].
  - exists [], []. split; auto.
  - destruct G as (G1 & G2). set (key := c :: w) in *. destruct (R key) as (l & El & Pl); [discriminate|intros x Hx; rewrite Ea, E2; apply in_or_app; right; apply in_or_app; auto|]. rewrite El.
    assert (forall k, k <> [] -> (forall x, In x k -> In x r) -> exists l0, run k = Ok l0 /\ positions k text l0) as R' by (intros k K1 K2; apply R; auto; intros x Hx; rewrite Ea, E2; apply in_or_app; right; apply in_or_app; auto).
    destruct putHash.
    + destruct (IH r (hash64 l hash) (out ++ []) ltac:(lia) R') as (ws & ls & W & F & E). exists (key :: ws), (l :: ls). split; [auto|]. split; [constructor; auto|]. rewrite E, app_nil_r. reflexivity.
    + destruct (IH r hash ((out ++ [LQuery key]) ++ [LSet l]) ltac:(lia) R') as (ws & ls & W & F & E). exists (key :: ws), (l :: ls). split; [auto|]. split; [constructor; auto|]. rewrite E, <- !app_assoc. reflexivity.
Qed.
Lemma words_unique : forall s a, words s a -> forall b, words s b -> a = b.
Proof.
  assert (forall s w (rest : list Z) s' w' rest', Forall space s -> Forall space s' -> w <> [] -> w' <> [] -> Forall (fun c => ~ space c) w -> Forall (fun c => ~ space c) w' -> (forall c r, rest = c :: r -> space c) -> (forall c r, rest' = c :: r -> space c) ->
    s ++ w ++ rest = s' ++ w' ++ rest' -> s = s' /\ w = w' /\ rest = rest') as Cut.
  { assert (forall w (rest w' rest' : list Z), Forall (fun c => ~ space c) w -> Forall (fun c => ~ space c) w' -> (forall c r, rest = c :: r -> space c) -> (forall c r, rest' = c :: r -> space c) -> w ++ rest = w' ++ rest' -> w = w' /\ rest = rest') as C2.
    { induction w as [|x w IH]; intros rest [|y w'] rest' F F' N N' E; cbn [app] in *; auto.
      - exfalso. apply (Forall_inv F'). apply (N y (w' ++ rest')). auto.
      - exfalso. apply (Forall_inv F). apply (N' x (w ++ rest)). auto.
      - injection E as -> E. destruct (IH _ _ _ (Forall_inv_tail F) (Forall_inv_tail F') N N' E) as [-> ->]. auto. }
    induction s as [|x s IH]; intros w rest [|y s'] w' rest' F F' W W' G G' N N' E; cbn [app] in *.
    - destruct (C2 _ _ _ _ G G' N N' E) as [-> ->]. auto.
    - destruct w as [|z w]; [congruence|]. cbn [app] in E. injection E as -> E. exfalso. apply (Forall_inv G). apply (Forall_inv F').
    - destruct w' as [|z w']; [congruence|]. cbn [app] in E. injection E as -> E. exfalso. apply (Forall_inv G'). apply (Forall_inv F).
    - injection E as -> E. destruct (IH _ _ _ _ _ (Forall_inv_tail F) (Forall_inv_tail F') W W' G G' N N' E) as (-> & -> & ->). auto. }
  assert (forall s w (rest : list Z), w <> [] -> Forall (fun c => ~ space c) w -> ~ Forall space (s ++ w ++ rest)) as No.
  { intros s w rest W G F. destruct w as [|x w]; [congruence|]. apply (Forall_inv G). rewrite Forall_forall in F. apply F. apply in_or_app. right. left. auto. }
  induction 1 as [s S|s w rest ws S W G N H IH]; intros b Hb; inversion Hb as [s' S' E1 E2|s' w' rest' ws' S' W' G' N' H' E1 E2]; subst; auto.
  - exfalso. exact (No _ _ _ W' G' S).
  - exfalso. exact (No _ _ _ W G S').
  - destruct (Cut _ _ _ _ _ _ S' S W' W G' G N' N E1) as (-> & -> & ->). f_equal. auto.
Qed.

(** ** the command line *)
Lemma eqs_refl a : eqs a a = true.
Proof. unfold eqs. destruct (list_eq_dec Z.eq_dec a a); congruence. Qed.
Lemma eqs_no a b : a <> b -> eqs a b = false.
Proof. unfold eqs. destruct (list_eq_dec Z.eq_dec a b); congruence. Qed.
Lemma name_no n s : name_ok n -> hd 0 s = 45 -> eqs n s = false.
Proof. intros [_ H] E. apply eqs_no. congruence. Qed.
Lemma name_dash n : name_ok n -> dash n = false /\ nil n = false.
Proof. intros [H0 H]. destruct n as [|c n]; [congruence|]. split; [|reflexivity]. apply Z.eqb_neq. exact H. Qed.
Lemma content_other fs n d i : n <> i -> content (store fs i d) n = content fs n.
Proof. intros H. unfold content, store. destruct (list_eq_dec Z.eq_dec n i); congruence. Qed.
Lemma content_same fs i d : content (store fs i d) i = d.
Proof. unfold content, store. destruct (list_eq_dec Z.eq_dec i i); congruence. Qed.
Lemma store_other fs n d i : n <> i -> store fs i d n = fs n.
Proof. intros H. unfold store. destruct (list_eq_dec Z.eq_dec n i); congruence. Qed.

Section Sample.
Variables (x64 : bool) (sort8 : (Z -> Z -> bool) -> list Z -> list Z) (sort16 : list (Z * (Z * Z)) -> list (Z * (Z * Z))) (place : Z * (Z * Z) -> list (Z * (Z * Z)) -> nat) (junk : list Z).
Hypothesis Hs8 : vsrt_ok sort8.
Hypothesis Hs16 : srt_ok Z.gtb sort16.
Hypothesis Hjunk : zlen junk = 256.
Variables (c_atoi : list Z -> Z) (can : list Z -> bool).
Notation run sched fuel := (main x64 sort8 sort16 place junk c_atoi can sched fuel).

Lemma pos_loop_ok fuel m (text : list Z) : zlen text < 2 ^ 31 - 1 -> (forall i, 0 <= i <= zlen text -> exists p, fm_convert x64 false fuel m i = Ok p /\ 0 <= p <= zlen text) ->
  forall n b e set, Z.of_nat n = e - b -> 0 <= b -> e <= zlen text + 1 -> StronglySorted Z.lt set ->
  exists l, pos_loop x64 fuel n m b e set = Ok l /\ StronglySorted Z.lt l /\ forall p, In p l <-> In p set \/ exists i, b <= i < e /\ fm_convert x64 false fuel m i = Ok p.
Proof.
  intros L P. induction n as [|n IH]; intros b e set Hn Hb He Ss; cbn [pos_loop].
  - assert (b = e) as -> by lia. rewrite Z.eqb_refl. exists set. split; auto. split; auto. intros p. split; [auto|]. intros [H|(i & Hi & _)]; [auto|lia].
  - destruct (Z.eqb_spec b e); [lia|]. destruct (P b ltac:(lia)) as (p & E & Hp). rewrite E. cbn [bind]. rewrite to_int_small by lia. destruct (IH (b + 1) e (set_insert p set) ltac:(lia) ltac:(lia) He (set_insert_sorted _ _ Ss)) as (l & El & Sl & Il). exists l. split; auto. split; auto. intros r. rewrite Il, set_insert_in. split.
    + intros [[-> |H]|(i & Hi & Ei)]; auto; right; [exists b; split; [lia|auto]|exists i; split; [lia|auto]].
    + intros [H|(i & Hi & Ei)]; auto. destruct (Z.eq_dec i b) as [-> |]; [left; left; congruence|]. right. exists i. split; [lia|auto].
Qed.
Lemma index_positions_ok fuel m skip text : zlen text < 2 ^ 31 - 1 -> skip <= Z.of_nat fuel -> index_of x64 false false skip text m -> forall key, key <> [] -> bytes key ->
  exists l, index_positions x64 fuel m key = Ok l /\ positions key text l.
Proof.
  intros L Hf Ix key K0 Kb. destruct (Ix fuel Hf) as (_ & _ & P1 & P2 & _ & G & _). unfold index_positions. destruct (G key) as [[X _]|[(_ & E & N)|(_ & b & e & E & H1 & H2 & H3)]].
  - split; [|discriminate]. eapply Forall_impl; [|exact Kb]. intros c Hc. exact Hc.
  - congruence.
  - rewrite E. cbn [bind]. exists []. split; auto. split; [constructor|]. intros p. split; [intros []|apply N].
  - rewrite E. cbn [bind]. destruct (pos_loop_ok fuel m text L P1 (Z.to_nat (e - b)) b e [] ltac:(lia) ltac:(lia) H2 ltac:(constructor)) as (l & El & Sl & Il). exists l. split; auto. split; auto. intros p. rewrite Il. split.
    + intros [[]|(i & Hi & Ei)]. apply (H3 i p); auto. lia.
    + intros O. right. pose proof (occurs_range _ _ _ O) as R. pose proof (zlen_nonneg key). destruct (P2 p ltac:(lia)) as (i & Hi & Ei). exists i. split; auto. apply (H3 i p); auto.
Qed.

Lemma parse_c r o : parse c_atoi (str "-c" :: r) o = parse c_atoi r (mk_opts (o_name1 o) (o_name2 o) (Some MCreate) (o_skip o) (o_hash o)).
Proof. reflexivity. Qed.
Lemma parse_s r o : parse c_atoi (str "-s" :: r) o = parse c_atoi r (mk_opts (o_name1 o) (o_name2 o) (Some MSearch) (o_skip o) (o_hash o)).
Proof. reflexivity. Qed.
Lemma parse_r r o : parse c_atoi (str "-r" :: r) o = parse c_atoi r (mk_opts (o_name1 o) (o_name2 o) (Some MRecover) (o_skip o) (o_hash o)).
Proof. reflexivity. Qed.
Lemma parse_ss r o : parse c_atoi (str "-ss" :: r) o = parse c_atoi r (mk_opts (o_name1 o) (o_name2 o) (Some MSimple) (o_skip o) (o_hash o)).
Proof. reflexivity. Qed.
Lemma parse_skip x r o : parse c_atoi (str "-skip" :: x :: r) o = parse c_atoi r (mk_opts (o_name1 o) (o_name2 o) (o_mode o) (c_atoi x) (o_hash o)).
Proof. reflexivity. Qed.
Lemma parse_hash r o : parse c_atoi (str "-hash" :: r) o = parse c_atoi r (mk_opts (o_name1 o) (o_name2 o) (o_mode o) (o_skip o) true).
Proof. destruct r; reflexivity. Qed.
Lemma parse_name a r o : name_ok a -> parse c_atoi (a :: r) o = if nil (o_name1 o) then parse c_atoi r (mk_opts a (o_name2 o) (o_mode o) (o_skip o) (o_hash o)) else if nil (o_name2 o) then parse c_atoi r (mk_opts (o_name1 o) a (o_mode o) (o_skip o) (o_hash o)) else None.
Proof.
  intros H. destruct (name_dash a H) as [D _]. cbn [parse]. rewrite (name_no a (str "-c")), (name_no a (str "-s")), (name_no a (str "-r")), (name_no a (str "-ss")), (name_no a (str "-hash")), (name_no a (str "-time")), D by (auto; reflexivity). cbn [negb andb]. destruct r; auto. rewrite (name_no a (str "-skip")) by (auto; reflexivity). reflexivity.
Qed.
Lemma run_two sched fuel fs m a b rest o : name_ok a -> name_ok b -> parse c_atoi rest (mk_opts a b (Some m) 8 false) = Some o ->
  o_name1 o = a -> o_name2 o = b -> o_mode o = Some m ->
  run sched fuel (match m with MCreate => str "-c" | MSearch => str "-s" | MRecover => str "-r" | MSimple => str "-ss" end :: a :: b :: rest) fs =
  match m with
  | MCreate => create x64 sort8 sort16 place junk can fs a b (o_skip o)
  | MSearch => search x64 sort16 place sched fuel fs a b (o_hash o)
  | MRecover => recover x64 sort16 place can sched fs a b
  | MSimple => simpleSearch fs a b (o_hash o)
  end.
Proof.
  intros Ha Hb E E1 E2 E3. destruct (name_dash a Ha) as [_ A], (name_dash b Hb) as [_ B]. unfold main.
  assert (parse c_atoi (match m with MCreate => str "-c" | MSearch => str "-s" | MRecover => str "-r" | MSimple => str "-ss" end :: a :: b :: rest) (mk_opts [] [] None 8 false) = Some o) as ->.
  { rewrite <- E. destruct m; [rewrite parse_c|rewrite parse_s|rewrite parse_r|rewrite parse_ss]; rewrite parse_name by auto; cbn [o_name1 o_name2 o_mode o_skip o_hash nil]; rewrite parse_name by auto; cbn [o_name1 o_name2 o_mode o_skip o_hash]; rewrite A; reflexivity. }
  rewrite E1, E2, E3, A, B. cbn [orb]. destruct m; reflexivity.
Qed.
Definition hash_opt (h : bool) : list (list Z) := if h then [str "-hash"] else [].

Lemma session : forall fs t i text args skip,
  name_ok t -> name_ok i -> t <> i -> can i = true -> fs t = Some text -> text_ok false false text ->
  (args = [] /\ skip = 8) \/ (exists s, args = [str "-skip"; s] /\ skip = c_atoi s) -> 0 < skip < 2 ^ 31 ->
  exists fs', (forall n, n <> i -> fs' n = fs n) /\
    forall sched fuel, skip <= Z.of_nat fuel ->
    run sched fuel ([str "-c"; t; i] ++ args) fs = Ok (0, [], fs') /\
    (forall q h, name_ok q -> q <> i -> bytes (content fs q) ->
       exists ws out, words (content fs q) ws /\ report h text ws out /\
         run sched fuel ([str "-s"; i; q] ++ hash_opt h) fs' = Ok (0, out, fs') /\ run sched fuel ([str "-ss"; t; q] ++ hash_opt h) fs' = Ok (0, out, fs')) /\
    (forall o, name_ok o -> run sched fuel [str "-r"; i; o] fs' = Ok (0, [], if can o then store fs' o text else fs')).
Proof.
  intros fs t i text args skip Ht Hi Hne Hc Ef Tk Ha Hk. pose proof Tk as (L & _).
  destruct (C31_index_end_to_end x64 false false sort8 sort16 place junk Hs8 Hs16 Hjunk text skip Tk Hk) as (m & Em & _).
  destruct (C31_save_load x64 false false repo_sais sort8 sort16 place junk Hs8 Hs16 Hjunk C64_meets_C31 sort16 place text skip m Hs16 Tk Hk Em) as (enc & Es & Ld).
  exists (store fs i enc). split; [intros n Hn; apply store_other; auto|]. intros sched fuel Hf.
  destruct (Ld [] sched) as (m' & s' & El & _ & Ix). rewrite app_nil_r in El. split; [|split].
  - assert (exists o, parse c_atoi args (mk_opts t i (Some MCreate) 8 false) = Some o /\ o_name1 o = t /\ o_name2 o = i /\ o_mode o = Some MCreate /\ o_skip o = skip) as (o & Eo & O1 & O2 & O3 & O4).
    { destruct Ha as [[-> ->]|(s & -> & ->)]; [|rewrite parse_skip]; eexists; (split; [reflexivity|]); repeat split. }
    cbn [app]. rewrite (run_two sched fuel fs MCreate t i args o) by auto. rewrite O4. unfold create. rewrite Ef, Em, Hc, Es. reflexivity.
  - intros q h Hq Hqi Hb. assert (forall m', exists o, parse c_atoi (hash_opt h) (mk_opts i q (Some m') 8 false) = Some o /\ o_name1 o = i /\ o_name2 o = q /\ o_mode o = Some m' /\ o_hash o = h) as Ps by (intros; destruct h; cbn [hash_opt]; [rewrite parse_hash|]; eexists; (split; [reflexivity|]); repeat split).
    assert (forall m', exists o, parse c_atoi (hash_opt h) (mk_opts t q (Some m') 8 false) = Some o /\ o_name1 o = t /\ o_name2 o = q /\ o_mode o = Some m' /\ o_hash o = h) as Pt by (intros; destruct h; cbn [hash_opt]; [rewrite parse_hash|]; eexists; (split; [reflexivity|]); repeat split).
    destruct (Ps MSearch) as (o & Eo & O1 & O2 & O3 & O4). destruct (Pt MSimple) as (o' & Eo' & P1 & P2 & P3 & P4). cbn [app].
    rewrite (run_two sched fuel (store fs i enc) MSearch i q (hash_opt h) o) by auto. rewrite (run_two sched fuel (store fs i enc) MSimple t q (hash_opt h) o') by auto. rewrite O4, P4. unfold search, simpleSearch, readable. rewrite (content_same fs i enc), El, (content_other fs q enc i Hqi), (store_other fs t enc i Hne), Ef.
    set (qs := content fs q) in *.
    destruct (queries_ok (index_positions x64 fuel m') h text (S (length qs)) qs 0 [] ltac:(lia)) as (ws & ls & W & F & E). { intros key K0 Ki. apply (index_positions_ok fuel m' skip text); auto. unfold bytes in *. rewrite Forall_forall in *. auto. }
    destruct (queries_ok (fun key => simple_loop (length text + 2) text key 0 []) h text (S (length qs)) qs 0 [] ltac:(lia)) as (ws2 & ls2 & W2 & F2 & E2). { intros key K0 Ki. apply simple_ok. lia. }
    assert (ws2 = ws) as -> by (eapply words_unique; eauto). assert (ls2 = ls) as ->. { clear - F F2. revert ls2 F2. induction F as [|w l ws ls P F IH]; intros ls2 F2; inversion F2; subst; auto. f_equal; [eapply positions_unique; eauto|auto]. }
    rewrite E, E2. eexists ws, _. split; auto. split; [exists ls; split; [exact F|reflexivity]|]. split; reflexivity.
  - intros o Ho. change [str "-r"; i; o] with ([str "-r"; i; o] ++ []). cbn [app]. rewrite (run_two sched fuel (store fs i enc) MRecover i o [] (mk_opts i o (Some MRecover) 8 false)) by auto. unfold recover, readable. rewrite content_same, El.
    destruct (Ix (Z.to_nat skip) ltac:(lia)) as (Sz & R0 & _ & _ & _ & _ & Pv). rewrite Sz. pose proof (zlen_nonneg text). rewrite Z.mod_small by lia. rewrite (Pv 0 (zlen text)) by (auto; lia). cbn [finish]. do 3 f_equal. assert (suffix_of (Z.to_nat (zlen text + 1 - 1)) (firstn (Z.to_nat (zlen text)) text) = text) as ->; [|reflexivity].
    unfold zlen. rewrite Nat2Z.id, firstn_all. unfold suffix_of. replace (length text - _)%nat with 0%nat by lia. reflexivity.
Qed.

(** * C112 *)
(** After "-c text index -skip n" (and "-skip" left out: 8), whatever the sorting inside does and however the file is read:
    "-s index queries" prints what "-ss text queries" prints, which is every word of the query file with all the positions at which it
    stands in the text (also overlapping ones), in increasing order, or with -hash the hash over them; "-r index out" writes the text. *)
Theorem C112_session : forall fs t i text args skip,
  name_ok t -> name_ok i -> t <> i -> can i = true -> fs t = Some text -> text_ok false false text ->
  (args = [] /\ skip = 8) \/ (exists s, args = [str "-skip"; s] /\ skip = c_atoi s) -> 0 < skip < 2 ^ 31 ->
  exists fs', (forall n, n <> i -> fs' n = fs n) /\
    forall sched fuel, skip <= Z.of_nat fuel ->
    run sched fuel ([str "-c"; t; i] ++ args) fs = Ok (0, [], fs') /\
    (forall q h, name_ok q -> q <> i -> bytes (content fs q) ->
       exists ws out, words (content fs q) ws /\ report h text ws out /\
         run sched fuel ([str "-s"; i; q] ++ hash_opt h) fs' = Ok (0, out, fs') /\ run sched fuel ([str "-ss"; t; q] ++ hash_opt h) fs' = Ok (0, out, fs')) /\
    (forall o, name_ok o -> can o = true -> run sched fuel [str "-r"; i; o] fs' = Ok (0, [], store fs' o text)).
Proof.
  intros fs t i text args skip Ht Hi Hne Hc Ef Tk Ha Hk. destruct (session fs t i text args skip Ht Hi Hne Hc Ef Tk Ha Hk) as (fs' & E & H). exists fs'. split; auto. intros sched fuel Hf. destruct (H sched fuel Hf) as (A & B & C). split; auto. split; auto. intros o Ho Hco. rewrite C, Hco by auto. reflexivity.
Qed.

(** What cannot be indexed is refused with status 1, and no file is touched: a text that is not there, with 256 different bytes or too
    long, a skip that is not positive, an output that cannot be opened *)
Theorem C112_refused : forall sched fuel fs t i s, name_ok t -> name_ok i ->
  fs t = None \/ c_atoi s <= 0 \/ (exists text, fs t = Some text /\ bytes text /\ (2 ^ 32 - 1 <= zlen text \/ (zlen text < 2 ^ 32 /\ 256 <= distinct text))) \/ (exists text, fs t = Some text /\ text_ok false false text /\ c_atoi s < 2 ^ 31 /\ can i = false) ->
  (forall text, fs t = Some text -> bytes text) ->
  run sched fuel [str "-c"; t; i; str "-skip"; s] fs = Ok (1, [LErr], fs).
Proof.
  intros sched fuel fs t i s Ht Hi H Hb. rewrite (run_two sched fuel fs MCreate t i [str "-skip"; s] (mk_opts t i (Some MCreate) (c_atoi s) false)) by (auto; reflexivity). cbn [o_skip]. unfold create. destruct (fs t) as [text|] eqn:Ef; [|reflexivity].
  assert (Forall (symbol false) text) as Sy by (eapply Forall_impl; [|exact (Hb _ eq_refl)]; intros c Hc; exact Hc).
  assert (c_atoi s <= 0 \/ 2 ^ 32 - 1 <= zlen text \/ (zlen text < 2 ^ 32 /\ 2 ^ tbits false <= distinct text) -> fm_init x64 false false repo_sais sort8 sort16 place junk (fm_new false) text (c_atoi s) = Exn) as Rf.
  { intros X. apply C31_refused; auto. destruct X as [X|[X|[X Y]]]; auto. right. right. right. auto. }
  destruct H as [H|[H|[(x & E & _ & H)|(x & E & Tk & K & H)]]]; [discriminate| | |].
  - rewrite Rf by auto. reflexivity.
  - injection E as <-. rewrite Rf; [reflexivity|]. right. destruct H as [H|H]; [left; exact H|right; exact H].
  - injection E as <-. destruct (Z.leb_spec (c_atoi s) 0); [rewrite Rf by auto; reflexivity|]. destruct (C31_index_end_to_end x64 false false sort8 sort16 place junk Hs8 Hs16 Hjunk text (c_atoi s) Tk ltac:(lia)) as (m & -> & _). rewrite H. reflexivity.
Qed.
(** ** Finding: recovering to a file that cannot be written looks like success *)
(** recover does not look at the stream it writes to: with an output that cannot be opened "-r" prints nothing, writes nothing and ends
    with status 0 *)
Theorem C112_recover_finding : forall fs t i text,
  name_ok t -> name_ok i -> t <> i -> can i = true -> fs t = Some text -> text_ok false false text ->
  exists fs', (forall n, n <> i -> fs' n = fs n) /\ forall sched fuel, 8 <= Z.of_nat fuel ->
    run sched fuel [str "-c"; t; i] fs = Ok (0, [], fs') /\
    forall o, name_ok o -> can o = false -> run sched fuel [str "-r"; i; o] fs' = Ok (0, [], fs').
Proof.
  intros fs t i text Ht Hi Hne Hc Ef Tk. destruct (session fs t i text [] 8 Ht Hi Hne Hc Ef Tk (or_introl (conj eq_refl eq_refl)) ltac:(lia)) as (fs' & E & H). exists fs'. split; auto. intros sched fuel Hf. destruct (H sched fuel Hf) as (A & B & C). split; [exact A|]. intros o Ho Hco. rewrite C, Hco by auto. reflexivity.
Qed.
End Sample.

(** ** non-vacuity *)
Definition ex_files : files := fun n => if list_eq_dec Z.eq_dec n (str "text") then Some (str "abracadabra") else if list_eq_dec Z.eq_dec n (str "q") then Some (32 :: str "abra" ++ [10] ++ str "a  zz") else None.
Example C112_nonvacuous : vsrt_ok s8 /\ srt_ok Z.gtb s16 /\ name_ok (str "text") /\ name_ok (str "idx") /\ str "text" <> str "idx" /\ ex_files (str "text") = Some (str "abracadabra") /\
  text_ok false false (str "abracadabra") /\ bytes (content ex_files (str "q")) /\ words (content ex_files (str "q")) [str "abra"; str "a"; str "zz"].
Proof.
  split; [apply isort_vsrt_ok|]. split; [apply (isort_srt_ok Z.gtb Z.eqb Z.eqb_eq Z_gtb_total)|]. split; [split; discriminate|]. split; [split; discriminate|]. split; [discriminate|]. split; [reflexivity|]. split; [split; [reflexivity|]; split; [repeat constructor; unfold symbol; cbn; lia|vm_compute; discriminate]|].
  split; [vm_compute; repeat constructor; discriminate|].
  change (content ex_files (str "q")) with ([32] ++ str "abra" ++ ([10] ++ str "a" ++ ([32; 32] ++ str "zz" ++ []))).
  assert (forall c, ~ space c <-> c <> 32 /\ (c < 9 \/ 13 < c)) as N by (intros c; unfold space; lia).
  apply (words_one [32] (str "abra")); [apply Forall_forall; intros c Hc; vm_compute in Hc; unfold space; lia|discriminate|apply Forall_forall; intros c Hc; apply N; vm_compute in Hc; lia|intros c r E; injection E as <- _; unfold space; lia|].
  apply (words_one [10] (str "a")); [apply Forall_forall; intros c Hc; vm_compute in Hc; unfold space; lia|discriminate|apply Forall_forall; intros c Hc; apply N; vm_compute in Hc; lia|intros c r E; injection E as <- _; unfold space; lia|].
  apply (words_one [32; 32] (str "zz")); [apply Forall_forall; intros c Hc; vm_compute in Hc; unfold space; lia|discriminate|apply Forall_forall; intros c Hc; apply N; vm_compute in Hc; lia|intros c r E; discriminate E|].
  constructor. constructor.
Qed.
Example C112_demo : forall x64 sort8 sort16 place junk c_atoi can sched fuel,
  main x64 sort8 sort16 place junk c_atoi can sched fuel [str "-ss"; str "text"; str "q"] ex_files =
  Ok (0, [LQuery (str "abra"); LSet [0; 7]; LQuery (str "a"); LSet [0; 3; 5; 7; 10]; LQuery (str "zz"); LSet []], ex_files).
Proof. intros. vm_compute. reflexivity. Qed.

Print Assumptions C112_session.
Print Assumptions C112_refused.
Print Assumptions C112_recover_finding.
