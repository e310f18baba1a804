(** Property C85: the trace reader finds every address of a stack trace, looks it up and changes nothing else. *)
Require Import Verif.Common Verif.Text Verif.AtoiSpec Verif.AtoiModel Verif.ItoaModel Verif.ItoaProof Verif.NumProps Verif.StrOpModel Verif.StrOpProps
  Verif.ConfigModel Verif.ExceptionModel Verif.ExceptionProps Verif.DesymbolModel.

(** ** Specification *)
(** a line of text: no NUL, no newline, and not ending in CR *)
Definition a_line (l : list Z) : Prop := bytes l /\ no_nul l /\ no_ch 10 l /\ (forall u, l <> u ++ [13]).
Definition begins (pat l : list Z) : Prop := exists r, l = pat ++ r.
(** a file: each line is followed by any number of CRs and a newline *)
Definition file_of (ls : list (list Z * nat)) : list Z := concat (map (fun lk => fst lk ++ repeat 13 (snd lk) ++ [10]) ls).
Definition unlines (ls : list (list Z)) : list Z := concat (map (fun l => l ++ [10]) ls).
(** h is the text of a 64-bit address *)
Definition is_addr (h : list Z) (addr : Z) : Prop := h <> [] /\ Forall is_xdigit h /\ hex_value h = addr /\ addr < 2 ^ 64.
(** the first "[0x" of s is followed by h and then "]" *)
Definition bracketed (s h : list Z) : Prop :=
  exists a b, s = a ++ str "[0x" ++ h ++ str "]" ++ b /\ no_ch 93 h /\ forall a' b', s = a' ++ str "[0x" ++ b' -> (length a <= length a')%nat.
(** what BFD and the demangler deliver: C strings and an int *)
Definition info_ok (info : bfd_info) (cxa : list Z -> option (list Z)) : Prop :=
  (forall addr file func line, info addr = Some (file, func, line) -> no_nul file /\ no_nul func /\ - 2 ^ 31 <= line < 2 ^ 31) /\
  (forall f d, cxa f = Some d -> no_nul d).
(** a line s of a trace and how it is shown *)
Inductive decorated (info : bfd_info) (cxa : list Z -> option (list Z)) (s : list Z) : list Z -> Prop :=
| deco_known h addr file func line d : bracketed s h -> is_addr h addr -> addr <> 0 -> info addr = Some (file, func, line) -> canonical_int d line ->
    decorated info cxa s (file ++ str ":" ++ d ++ str " " ++ shown cxa func ++ str " " ++ s)
| deco_unknown h addr : bracketed s h -> is_addr h addr -> addr <> 0 -> info addr = None -> decorated info cxa s s
| deco_none : (forall h addr, bracketed s h -> is_addr h addr -> addr = 0) -> decorated info cxa s s.
(** an address of a one-line trace and its line *)
Inductive listed (info : bfd_info) (cxa : list Z -> option (list Z)) : list Z * Z -> list Z -> Prop :=
| listed_known h addr file func line d : info addr = Some (file, func, line) -> canonical_int d line ->
    listed info cxa (h, addr) (file ++ str ":" ++ d ++ str " " ++ shown cxa func ++ str " " ++ str "0x" ++ h)
| listed_unknown h addr : info addr = None -> listed info cxa (h, addr) (str "0x" ++ h).

(** ** Lemmas *)
Lemma starts_spec pat : forall s, starts pat s = true <-> begins pat s.
Proof.
  induction pat as [|p pat IH]; intros s.
  - split; [|reflexivity]. intros _. exists s. reflexivity.
  - destruct s as [|c s]; cbn [starts].
    + split; [discriminate|]. intros [r E]. discriminate.
    + rewrite andb_true_iff, IH, Z.eqb_eq. split.
      * intros [-> [r ->]]. exists r. reflexivity.
      * intros [r E]. injection E as -> ->. split; auto. exists r. reflexivity.
Qed.
Lemma find_sub_some pat : forall s i p, find_sub pat s i = Some p ->
  exists a b, s = a ++ pat ++ b /\ p = (i + length a)%nat /\ forall a' b', s = a' ++ pat ++ b' -> (length a <= length a')%nat.
Proof.
  induction s as [|c s IH]; intros i p; cbn [find_sub]; destruct (starts pat _) eqn:E.
  - intros H. injection H as <-. apply starts_spec in E as [b E]. exists [], b. split; [exact E|]. split; [cbn; lia|]. cbn. lia.
  - discriminate.
  - intros H. injection H as <-. apply starts_spec in E as [b E]. exists [], b. split; [exact E|]. split; [cbn; lia|]. cbn. lia.
  - intros H. apply IH in H as (a & b & -> & -> & M). exists (c :: a), b. split; [reflexivity|]. split; [cbn; lia|].
    intros [|x a'] b' E'.
    + exfalso. assert (starts pat (c :: a ++ pat ++ b) = true) by (apply starts_spec; exists b'; exact E'). congruence.
    + injection E' as _ E'. apply M in E'. cbn. lia.
Qed.
Lemma find_sub_none pat : forall s i, find_sub pat s i = None -> forall a b, s <> a ++ pat ++ b.
Proof.
  induction s as [|c s IH]; intros i; cbn [find_sub]; destruct (starts pat _) eqn:E; try discriminate; intros H a b E'.
  - destruct a; [|discriminate]. assert (starts pat [] = true) by (apply starts_spec; exists b; exact E'). congruence.
  - destruct a as [|x a].
    + assert (starts pat (c :: s) = true) by (apply starts_spec; exists b; exact E'). congruence.
    + injection E' as _ E'. eapply IH; eauto.
Qed.
Lemma find_is_0_spec pat s : find_is_0 pat s = true <-> begins pat s.
Proof.
  unfold find_is_0, find_at. cbn [skipn]. split.
  - destruct (find_sub pat s 0) as [[|p]|] eqn:E; try discriminate. intros _. apply find_sub_some in E as (a & b & -> & L & _).
    destruct a; [|cbn in L; lia]. exists b. reflexivity.
  - intros [r ->]. destruct (find_sub pat (pat ++ r) 0) as [[|p]|] eqn:E; auto.
    + apply find_sub_some in E as (a & b & _ & L & M). specialize (M [] r eq_refl). cbn in *. lia.
    + exfalso. eapply (find_sub_none _ _ _ E [] r). reflexivity.
Qed.
Lemma find_is_0_false pat s : ~ begins pat s -> find_is_0 pat s = false.
Proof. intros N. destruct (find_is_0 pat s) eqn:E; auto. exfalso. apply N. now apply find_is_0_spec. Qed.

(** an address text is read exactly *)
Lemma hextoi_addr h tail : bytes (h ++ tail) -> no_nul h ->
  (forall addr, is_addr h addr -> hextoi ty_u64 true ((h ++ tail) ++ [0]) (zlen h) = Ok (true, addr)) /\
  ((forall addr, ~ is_addr h addr) -> exists v, hextoi ty_u64 true ((h ++ tail) ++ [0]) (zlen h) = Ok (false, v)).
Proof.
  intros B N. destruct (C03_hextoi_exact ty_u64 0 (2 ^ 64 - 1) ((h ++ tail) ++ [0]) (zlen h)) as [P Q].
  - cbn. tauto.
  - apply bytes_app. split; auto. repeat constructor; lia.
  - apply zlen_nonneg.
  - right. apply in_or_app. right. cbn. auto.
  - rewrite <- app_assoc in P, Q |- *. rewrite visible_all in P, Q by auto. split.
    + intros addr (A & D & V & L). subst addr. apply P. repeat split; auto. lia.
    + intros A. exists 0. apply Q. intros (X & Y & Z0). apply (A (hex_value h)). repeat split; auto. lia.
Qed.
Lemma is_addr_dec h : (exists addr, is_addr h addr) \/ forall addr, ~ is_addr h addr.
Proof.
  destruct h as [|c h]; [right; intros addr (N & _); congruence|].
  destruct (forallb (fun c => ((48 <=? c) && (c <=? 57)) || ((65 <=? c) && (c <=? 70)) || ((97 <=? c) && (c <=? 102))) (c :: h)) eqn:E.
  - destruct (Z_lt_ge_dec (hex_value (c :: h)) (2 ^ 64)) as [L|L].
    + left. exists (hex_value (c :: h)). split; [discriminate|]. split; [|auto]. apply Forall_forall. intros x Hx. rewrite forallb_forall in E. specialize (E x Hx). unfold is_xdigit. lia.
    + right. intros addr (_ & _ & <- & X). lia.
  - right. intros addr (_ & F & _). rewrite Forall_forall in F.
    enough (forallb (fun c => ((48 <=? c) && (c <=? 57)) || ((65 <=? c) && (c <=? 70)) || ((97 <=? c) && (c <=? 102))) (c :: h) = true) by congruence.
    apply forallb_forall. intros x Hx. specialize (F x Hx). unfold is_xdigit in F. lia.
Qed.
Lemma is_addr_fun h a1 a2 : is_addr h a1 -> is_addr h a2 -> a1 = a2.
Proof. intros (_ & _ & <- & _) (_ & _ & <- & _). reflexivity. Qed.
Lemma is_addr_nonneg h addr : is_addr h addr -> 0 <= addr.
Proof.
  intros (_ & F & <- & _). unfold hex_value, value.
  enough (G: forall l a, 0 <= a -> Forall is_xdigit l -> 0 <= fold_left (fun a d => a * 16 + d) (map xdigit l) a) by (apply G; auto; lia).
  induction l as [|c l IH]; intros a Ha Fl; [auto|]. apply Forall_cons_iff in Fl as [Fc Fl]. cbn [map fold_left]. apply IH; auto.
  assert (0 <= xdigit c) by (unfold is_xdigit in Fc; unfold xdigit; destruct (c <=? 57) eqn:?; [lia|]; destruct (c <=? 70) eqn:?; lia). lia.
Qed.

Lemma app_eq_len (a b c d : list Z) : length a = length c -> a ++ b = c ++ d -> a = c /\ b = d.
Proof.
  revert c. induction a as [|x a IH]; intros [|y c] L E; try discriminate; [auto|]. cbn in *. injection E as -> E. injection L as L.
  destruct (IH c L E) as [-> ->]. auto.
Qed.
Lemma first_split k a b c d : no_ch k a -> no_ch k c -> a ++ k :: b = c ++ k :: d -> a = c /\ b = d.
Proof.
  revert c. induction a as [|x a IH]; intros [|y c] F1 F2 E; cbn in E.
  - injection E as E. auto.
  - injection E as <- _. apply Forall_cons_iff in F2 as [F2 _]. congruence.
  - injection E as -> _. apply Forall_cons_iff in F1 as [F1 _]. congruence.
  - injection E as -> E. apply Forall_cons_iff in F1 as [_ F1]. apply Forall_cons_iff in F2 as [_ F2]. destruct (IH c F1 F2 E) as [-> ->]. auto.
Qed.
Lemma bracket_unique s h1 h2 : bracketed s h1 -> bracketed s h2 -> h1 = h2.
Proof.
  intros (a1 & b1 & E1 & N1 & M1) (a2 & b2 & E2 & N2 & M2).
  assert (L: length a1 = length a2).
  { apply Nat.le_antisymm; [eapply M1; rewrite E2; reflexivity|eapply M2; rewrite E1; reflexivity]. }
  rewrite E1 in E2. apply app_eq_len in E2 as [_ E2]; auto. apply app_inv_head in E2. change (str "]") with [93] in E2. cbn [app] in E2.
  now apply first_split in E2 as [-> _].
Qed.

Lemma findAddr_spec s : bytes s -> no_nul s ->
  (exists h addr, bracketed s h /\ is_addr h addr /\ findAddr s = Ok addr) \/
  ((forall h addr, bracketed s h -> ~ is_addr h addr) /\ findAddr s = Ok 0).
Proof.
  intros B N. unfold findAddr, find_at. cbn [skipn].
  destruct (find_sub (str "[0x") s 0) as [p|] eqn:E.
  - apply find_sub_some in E as (a & b & E & -> & M). cbn [Nat.add].
    assert (K: skipn (length a + 3) s = b).
    { rewrite E. rewrite skipn_app, skipn_all2 by lia. replace (length a + 3 - length a)%nat with 3%nat by lia. reflexivity. }
    rewrite K.
    destruct (find_sub (str "]") b (length a + 3)) as [q|] eqn:E2.
    + apply find_sub_some in E2 as (h & b' & E2 & -> & M2).
      assert (Nh: no_ch 93 h).
      { apply Forall_forall. intros x Hx ->. apply in_split in Hx as (u & v & ->). specialize (M2 u (v ++ str "]" ++ b')).
        rewrite app_length in M2. cbn [length] in M2. enough (length u + S (length v) <= length u)%nat by lia. apply M2.
        rewrite E2. change (str "]") with [93]. rewrite <- !app_assoc. reflexivity. }
      assert (Bk: bracketed s h) by (exists a, b'; rewrite <- E2; split; [exact E|split; auto]).
      replace (Z.of_nat (length a + 3 + length h) - Z.of_nat (length a) - 3) with (zlen h) by (unfold zlen; lia).
      assert (Bb: bytes b) by (rewrite E in B; apply bytes_app in B as [_ B]; apply bytes_app in B; tauto).
      assert (Nb: no_nul b) by (rewrite E in N; apply Forall_app in N as [_ N]; apply Forall_app in N; tauto).
      rewrite E2 in Bb, Nb |- *. apply Forall_app in Nb as [Nb _].
      destruct (hextoi_addr h (str "]" ++ b') Bb Nb) as [P Q].
      destruct (is_addr_dec h) as [[addr A]|A].
      * left. exists h, addr. split; [auto|]. split; [auto|]. rewrite (P addr A). reflexivity.
      * right. split.
        -- intros h' addr Hb Ha. rewrite (bracket_unique s h' h) in Ha by auto. eapply A; eauto.
        -- destruct (Q A) as [v ->]. reflexivity.
    + right. split; [|reflexivity]. intros h addr (a' & b' & Es & Nh & M') _.
      assert (L: length a = length a') by (apply Nat.le_antisymm; [eapply M; rewrite Es; reflexivity|eapply M'; rewrite E; reflexivity]).
      rewrite E in Es. apply app_eq_len in Es as [_ Es]; auto. apply app_inv_head in Es. eapply find_sub_none in E2. apply E2. exact Es.
  - right. split; [|reflexivity]. intros h addr (a & b & -> & _) _. eapply find_sub_none in E. apply E. reflexivity.
Qed.

Lemma decode_spec info cxa s : info_ok info cxa -> bytes s -> no_nul s ->
  exists s', decode info cxa s = Ok s' /\ decorated info cxa s s' /\ no_nul s'.
Proof.
  intros [I C] B N. unfold decode. destruct (findAddr_spec s B N) as [(h & addr & Hb & Ha & ->)|[A ->]]; cbn [bind].
  - destruct (Z.eqb_spec addr 0) as [->|Nz].
    + exists s. split; [reflexivity|]. split; [|auto]. apply deco_none. intros h' addr' Hb' Ha'. rewrite (bracket_unique s h' h) in Ha' by auto. eapply is_addr_fun; eauto.
    + destruct (info addr) as [[[file func] line]|] eqn:E.
      * destruct (I _ _ _ _ E) as (N1 & N2 & L). pose proof (d_text line L) as D.
        assert (Ed: Demangle cxa func = shown cxa func) by (unfold Demangle, shown; rewrite cstr_id by auto; destruct (cxa func); reflexivity).
        eexists. split; [reflexivity|]. rewrite Ed. split; [eapply deco_known; eauto|].
        assert (Nd: no_nul (printf_d line)).
        { destruct D as [[_ (_ & F & _)]|(_ & d' & -> & (_ & F & _))]; [|constructor; [lia|]]; eapply Forall_impl; try exact F; unfold is_digit; cbn; lia. }
        assert (Ns: no_nul (shown cxa func)) by (unfold shown; destruct (cxa func) eqn:Ec; auto; eapply C; eauto).
        repeat (apply Forall_app; split; auto); try (repeat constructor; lia).
      * exists s. split; [reflexivity|]. split; [|auto]. eapply deco_unknown; eauto.
  - exists s. split; [reflexivity|]. split; [|auto]. apply deco_none. intros h addr Hb Ha. exfalso. eapply A; eauto.
Qed.

(** ** lines *)
Lemma strip_unique t1 r1 t2 r2 : t1 ++ r1 = t2 ++ r2 -> Forall (fun c => c = 10 \/ c = 13) r1 -> Forall (fun c => c = 10 \/ c = 13) r2 ->
  (forall c u, t1 = u ++ [c] -> c <> 10 /\ c <> 13) -> (forall c u, t2 = u ++ [c] -> c <> 10 /\ c <> 13) -> t1 = t2.
Proof.
  revert r2. induction r1 as [|x r1 IH] using rev_ind; intros r2 E F1 F2 N1 N2.
  - destruct r2 as [|y r2 _] using rev_ind; [rewrite !app_nil_r in E; auto|]. rewrite app_nil_r in E. rewrite app_assoc in E.
    apply Forall_app in F2 as [_ F2]. apply Forall_cons_iff in F2 as [F2 _]. destruct (N1 y _ E). lia.
  - destruct r2 as [|y r2 _] using rev_ind.
    + rewrite app_nil_r, app_assoc in E. symmetry in E. apply Forall_app in F1 as [_ F1]. apply Forall_cons_iff in F1 as [F1 _]. destruct (N2 x _ E). lia.
    + rewrite !app_assoc in E. apply app_inj_tail in E as [E ->]. apply Forall_app in F1 as [F1 _]. apply Forall_app in F2 as [F2 _]. eapply IH; eauto.
Qed.
Lemma strip_line l k : a_line l -> Strip (l ++ repeat 13 k) = Ok l.
Proof.
  intros (_ & _ & N10 & N13). destruct (C21_Strip (l ++ repeat 13 k)) as (t & r & -> & E & F & T). f_equal. symmetry.
  eapply strip_unique; [exact E| |exact F| |exact T].
  - apply Forall_forall. intros x Hx. apply repeat_spec in Hx. auto.
  - intros c u ->. split; [|intros ->; eapply N13; reflexivity]. intros ->. apply Forall_app in N10 as [_ N10]. apply Forall_cons_iff in N10 as [N10 _]. congruence.
Qed.
Lemma take_line_spec l : forall cur rest, no_ch 10 l -> take_line cur (l ++ 10 :: rest) = (rev cur ++ l, rest).
Proof.
  induction l as [|c l IH]; intros cur rest N; cbn [app take_line].
  - cbn. now rewrite app_nil_r.
  - apply Forall_cons_iff in N as [Nc N]. destruct (Z.eqb_spec c 10); [congruence|]. rewrite IH by auto. cbn [rev]. now rewrite <- app_assoc.
Qed.
Lemma getline_spec l rest : no_ch 10 l -> getline (l ++ 10 :: rest) = Some (l, rest).
Proof.
  intros N. unfold getline. destruct (l ++ 10 :: rest) eqn:E; [destruct l; discriminate|]. rewrite <- E. now rewrite take_line_spec.
Qed.

(** the run over a file, line by line *)
Inductive steps (info : bfd_info) (cxa : list Z -> option (list Z)) (all : bool) : bool -> list (list Z * nat) -> list Z -> bool -> Prop :=
| st_nil b : steps info cxa all b [] [] b
| st_cons b l k ls b1 o os b2 : a_line l -> (forall out, one_line info cxa all (l ++ repeat 13 k) b out = Ok (b1, out ++ o)) ->
    steps info cxa all b1 ls os b2 -> steps info cxa all b ((l, k) :: ls) (o ++ os) b2.
Lemma steps_app info cxa all b ls1 o1 b1 ls2 o2 b2 : steps info cxa all b ls1 o1 b1 -> steps info cxa all b1 ls2 o2 b2 -> steps info cxa all b (ls1 ++ ls2) (o1 ++ o2) b2.
Proof. induction 1; intros S2; cbn [app]; auto. rewrite <- app_assoc. econstructor; eauto. Qed.
Lemma file_of_cons l k ls : file_of ((l, k) :: ls) = (l ++ repeat 13 k) ++ 10 :: file_of ls.
Proof. unfold file_of. cbn [map concat fst snd]. rewrite <- !app_assoc. reflexivity. Qed.
Lemma loop_steps info cxa all b ls os b' : steps info cxa all b ls os b' -> forall fuel out, (length (file_of ls) < fuel)%nat ->
  line_loop info cxa fuel all (file_of ls) b out = Ok (out ++ os).
Proof.
  induction 1 as [b|b l k ls b1 o os b2 A St _ IH]; intros fuel out L.
  - destruct fuel; [cbn in L; lia|]. cbn. now rewrite app_nil_r.
  - rewrite file_of_cons in *. destruct fuel as [|fuel]; [lia|]. cbn [line_loop]. rewrite getline_spec.
    + rewrite St. cbn [bind]. rewrite IH; [now rewrite <- app_assoc|]. rewrite app_length in L. cbn [length] in L. lia.
    + destruct A as (_ & _ & N & _). apply Forall_app. split; auto. apply Forall_forall. intros x Hx. apply repeat_spec in Hx. lia.
Qed.
Lemma desymbol_steps info cxa all ls os b' : steps info cxa all false ls os b' -> desymbol info cxa all (file_of ls) = Ok os.
Proof. intros S1. unfold desymbol. rewrite (loop_steps _ _ _ _ _ _ _ S1) by lia. reflexivity. Qed.

Lemma not_oneline info cxa l out : ~ begins (str "<<<STACKTRACE>>> ") l -> tryDecodeOnelineAndPut info cxa l out = Ok None.
Proof. intros N. unfold tryDecodeOnelineAndPut. now rewrite find_is_0_false. Qed.

Lemma line_plain info cxa l k out : a_line l -> ~ begins (str "<<<STACKTRACE") l ->
  one_line info cxa false (l ++ repeat 13 k) false out = Ok (false, out ++ l ++ [10]).
Proof.
  intros A N. unfold one_line. rewrite strip_line by auto. cbn [bind]. rewrite not_oneline.
  - cbn [bind]. rewrite find_is_0_false by auto. cbn [bind]. rewrite cstr_id by apply A. reflexivity.
  - intros [r ->]. apply N. exists (str ">>> " ++ r). reflexivity.
Qed.
Lemma line_begin info cxa l k out : a_line l -> begins (str "<<<STACKTRACE") l -> ~ begins (str "<<<STACKTRACE>>> ") l ->
  one_line info cxa false (l ++ repeat 13 k) false out = Ok (true, out ++ l ++ [10]).
Proof.
  intros A Y N. unfold one_line. rewrite strip_line by auto. cbn [bind]. rewrite not_oneline by auto.
  cbn [bind]. apply find_is_0_spec in Y. rewrite Y. cbn [bind]. rewrite cstr_id by apply A. reflexivity.
Qed.
Lemma line_end info cxa l k out : a_line l -> begins (str ">>>STACKTRACE") l ->
  one_line info cxa false (l ++ repeat 13 k) true out = Ok (false, out ++ l ++ [10]).
Proof.
  intros A Y. unfold one_line. rewrite strip_line by auto. cbn [bind]. rewrite not_oneline.
  - cbn [bind]. apply find_is_0_spec in Y. rewrite Y. cbn [bind]. rewrite cstr_id by apply A. reflexivity.
  - intros [r ->]. destruct Y as [r' E]. discriminate.
Qed.
Lemma line_inside info cxa l k : info_ok info cxa -> a_line l -> ~ begins (str ">>>STACKTRACE") l -> ~ begins (str "<<<STACKTRACE>>> ") l ->
  exists l', decorated info cxa l l' /\ forall out, one_line info cxa false (l ++ repeat 13 k) true out = Ok (true, out ++ l' ++ [10]).
Proof.
  intros I A N1 N2. destruct (decode_spec info cxa l I) as (l' & E & D & N); [apply A|apply A|]. exists l'. split; auto. intros out.
  unfold one_line. rewrite strip_line by auto. cbn [bind]. rewrite not_oneline by auto. cbn [bind]. rewrite find_is_0_false by auto.
  rewrite E. cbn [bind]. now rewrite cstr_id.
Qed.
Lemma line_all info cxa l k b : info_ok info cxa -> a_line l -> ~ begins (str "<<<STACKTRACE>>> ") l ->
  exists l', decorated info cxa l l' /\ forall out, one_line info cxa true (l ++ repeat 13 k) b out = Ok (b, out ++ l' ++ [10]).
Proof.
  intros I A N2. destruct (decode_spec info cxa l I) as (l' & E & D & N); [apply A|apply A|]. exists l'. split; auto. intros out.
  unfold one_line. rewrite strip_line by auto. cbn [bind]. rewrite not_oneline by auto. cbn [bind].
  rewrite E. cbn [bind]. now rewrite cstr_id.
Qed.

Lemma unlines_cons l ls : unlines (l :: ls) = (l ++ [10]) ++ unlines ls.
Proof. reflexivity. Qed.
Lemma plain_steps info cxa ls : Forall (fun lk => a_line (fst lk) /\ ~ begins (str "<<<STACKTRACE") (fst lk)) ls -> steps info cxa false false ls (unlines (map fst ls)) false.
Proof.
  induction 1 as [|[l k] ls [A N] F IH]; [constructor|]. cbn [map fst] in *. rewrite unlines_cons. eapply st_cons; eauto. intros out. now apply line_plain.
Qed.
Lemma inside_steps info cxa ls : info_ok info cxa -> Forall (fun lk => a_line (fst lk) /\ ~ begins (str ">>>STACKTRACE") (fst lk) /\ ~ begins (str "<<<STACKTRACE>>> ") (fst lk)) ls ->
  exists ls', Forall2 (decorated info cxa) (map fst ls) ls' /\ steps info cxa false true ls (unlines ls') true.
Proof.
  intros I. induction 1 as [|[l k] ls (A & N1 & N2) F (ls' & F2 & S1)]; cbn [map fst] in *.
  - exists []. split; constructor.
  - destruct (line_inside info cxa l k I A N1 N2) as (l' & D & E). exists (l' :: ls'). split; [constructor; auto|]. rewrite unlines_cons. econstructor; eauto.
Qed.

(** ** C85: text outside stack traces is unchanged; in a trace each line keeps its text and gets, in front, the file, line and demangled
    function of the address it shows if that address is known; nothing is lost, nothing else is added *)
Theorem C85_lines : forall info cxa before body after,
  info_ok info cxa ->
  Forall (fun lk => a_line (fst lk) /\ ~ begins (str "<<<STACKTRACE") (fst lk)) before ->
  Forall (fun lk => a_line (fst lk) /\ ~ begins (str ">>>STACKTRACE") (fst lk) /\ ~ begins (str "<<<STACKTRACE>>> ") (fst lk)) body ->
  Forall (fun lk => a_line (fst lk) /\ ~ begins (str "<<<STACKTRACE") (fst lk)) after ->
  desymbol info cxa false (file_of before) = Ok (unlines (map fst before)) /\
  exists body', Forall2 (decorated info cxa) (map fst body) body' /\
    desymbol info cxa false (file_of (before ++ [(str "<<<STACKTRACE", O)] ++ body ++ [(str ">>>STACKTRACE", O)] ++ after)) =
    Ok (unlines (map fst before ++ [str "<<<STACKTRACE"] ++ body' ++ [str ">>>STACKTRACE"] ++ map fst after)).
Proof.
  intros info cxa before body after I F1 F2 F3. split; [eapply desymbol_steps; eapply plain_steps; eauto|].
  destruct (inside_steps info cxa body I F2) as (body' & D & S2). exists body'. split; [auto|].
  eapply desymbol_steps. unfold unlines. rewrite !map_app, !concat_app.
  assert (A1: a_line (str "<<<STACKTRACE")) by (repeat split; [repeat constructor; unfold is_byte; cbn; lia|repeat constructor; discriminate|repeat constructor; discriminate|];
    intros u E; change (str "<<<STACKTRACE") with (str "<<<STACKTRAC" ++ [69]) in E; apply app_inj_tail in E as [_ E]; discriminate).
  assert (A2: a_line (str ">>>STACKTRACE")) by (repeat split; [repeat constructor; unfold is_byte; cbn; lia|repeat constructor; discriminate|repeat constructor; discriminate|];
    intros u E; change (str ">>>STACKTRACE") with (str ">>>STACKTRAC" ++ [69]) in E; apply app_inj_tail in E as [_ E]; discriminate).
  eapply steps_app; [apply plain_steps; auto|]. eapply steps_app.
  { eapply (st_cons info cxa false false (str "<<<STACKTRACE") 0%nat [] true); [auto| |constructor].
    intros out. apply line_begin; [auto|exists []; reflexivity|]. intros [r E]. discriminate. }
  eapply steps_app; [exact S2|]. eapply steps_app; [|apply plain_steps; auto].
  eapply (st_cons info cxa false true (str ">>>STACKTRACE") 0%nat [] false); [auto| |constructor].
  intros out. apply line_end; [auto|exists []; reflexivity].
Qed.
(** with -a every line is treated like this *)
Theorem C85_all : forall info cxa ls,
  info_ok info cxa -> Forall (fun lk => a_line (fst lk) /\ ~ begins (str "<<<STACKTRACE>>> ") (fst lk)) ls ->
  exists ls', Forall2 (decorated info cxa) (map fst ls) ls' /\ desymbol info cxa true (file_of ls) = Ok (unlines ls').
Proof.
  intros info cxa ls I F.
  enough (G: exists ls', Forall2 (decorated info cxa) (map fst ls) ls' /\ steps info cxa true false ls (unlines ls') false).
  { destruct G as (ls' & D & S1). exists ls'. split; auto. eapply desymbol_steps; eauto. }
  induction F as [|[l k] ls (A & N2) F (ls' & F2 & S1)]; cbn [map fst] in *.
  - exists []. split; constructor.
  - destruct (line_all info cxa l k false I A N2) as (l' & D & E). exists (l' :: ls'). split; [constructor; auto|]. rewrite unlines_cons. econstructor; eauto.
Qed.
Example C85_lines_nonvacuous :
  let info a := if a =? 0x4007f0 then Some (str "a.cpp", str "_Z1fv", 12) else None in
  let cxa f := if list_eq_dec Z.eq_dec f (str "_Z1fv") then Some (str "f()") else None in
  desymbol info cxa false (str "err:x [0x4007f0]
<<<STACKTRACE
./a(_Z1fv+0x4) [0x4007f0] 
./b() [0x10] 
>>>STACKTRACE
ok
") = Ok (str "err:x [0x4007f0]
<<<STACKTRACE
a.cpp:12 f() ./a(_Z1fv+0x4) [0x4007f0] 
./b() [0x10] 
>>>STACKTRACE
ok
") /\
  desymbol info cxa true (str "err:x [0x4007f0]
") = Ok (str "a.cpp:12 f() err:x [0x4007f0]
") /\ info_ok info cxa /\ a_line (str "./a(_Z1fv+0x4) [0x4007f0] ") /\ bracketed (str "./a() [0x4007f0] ") (str "4007f0").
Proof.
  split; [reflexivity|]. split; [reflexivity|]. split; [|split].
  - split.
    + intros addr file func line. destruct (addr =? 0x4007f0); [|discriminate]. intros E. injection E as <- <- <-. split; [|split; [|lia]]; repeat constructor; discriminate.
    + intros f d. destruct (list_eq_dec _ _ _); [|discriminate]. intros E. injection E as <-. repeat constructor; discriminate.
  - repeat split; [repeat constructor; unfold is_byte; cbn; lia|repeat constructor; discriminate|repeat constructor; discriminate|].
    intros u E. change (str "./a(_Z1fv+0x4) [0x4007f0] ") with (str "./a(_Z1fv+0x4) [0x4007f0]" ++ [32]) in E. apply app_inj_tail in E as [_ E]. discriminate.
  - exists (str "./a() "), (str " "). split; [reflexivity|]. split; [repeat constructor; discriminate|].
    intros a' b' E. destruct a' as [|? [|? [|? [|? [|? [|? ?]]]]]]; try discriminate. cbn. lia.
Qed.

(** ** the one-line form *)
Lemma isspace_x c : is_xdigit c -> isspace c = false.
Proof. unfold is_xdigit, isspace. lia. Qed.
Definition word (ha : list Z * Z) : list Z := str "0x" ++ fst ha.
Lemma take_word_spec w rest : Forall (fun c => isspace c = false) w -> (rest = [] \/ exists r, rest = 32 :: r) -> take_word (w ++ rest) = (w, rest).
Proof.
  intros F R. induction F as [|c w Hc F IH]; cbn [app take_word].
  - destruct R as [->|[r ->]]; reflexivity.
  - rewrite Hc, IH. reflexivity.
Qed.
Lemma word_nospace ha : is_addr (fst ha) (snd ha) -> Forall (fun c => isspace c = false) (word ha) /\ no_nul (word ha) /\ bytes (word ha).
Proof.
  intros (_ & F & _). unfold word. change (str "0x") with [48; 120]. cbn [app]. split; [|split].
  - repeat (constructor; [reflexivity|]). eapply Forall_impl; [|exact F]. apply isspace_x.
  - repeat (constructor; [lia|]). eapply Forall_impl; [|exact F]. unfold is_xdigit. cbn. lia.
  - repeat (constructor; [unfold is_byte; lia|]). eapply Forall_impl; [|exact F]. unfold is_xdigit, is_byte. cbn. lia.
Qed.
Lemma next_word_spec ha rest : is_addr (fst ha) (snd ha) -> (rest = [] \/ exists r, rest = 32 :: r) -> next_word (word ha ++ rest) = Some (word ha, rest).
Proof.
  intros A R. unfold next_word.
  assert (E: skip_ws (word ha ++ rest) = word ha ++ rest) by reflexivity.
  rewrite E. pose proof (take_word_spec (word ha) rest (proj1 (word_nospace ha A)) R) as T. destruct (word ha ++ rest) eqn:X; [discriminate|]. now rewrite T.
Qed.
Lemma one_word info cxa ha : info_ok info cxa -> is_addr (fst ha) (snd ha) -> exists line, listed info cxa ha line /\
  forall f s rest out, next_word s = Some (word ha, rest) -> word_loop info cxa (S f) s out = word_loop info cxa f rest (out ++ line ++ [10]).
Proof.
  intros [I C] A. destruct ha as [h addr]. cbn [fst snd] in A.
  assert (W := word_nospace (h, addr) A). destruct W as (_ & Nw & Bw).
  assert (H2: hextoi ty_u64 true (skipn 2 (word (h, addr)) ++ [0]) (zlen (word (h, addr)) - 2) = Ok (true, addr)).
  { change (skipn 2 (word (h, addr))) with h. replace (zlen (word (h, addr)) - 2) with (zlen h) by (unfold word, zlen; cbn [fst]; rewrite app_length; change (length (str "0x")) with 2%nat; lia).
    destruct (hextoi_addr h []) as [P _].
    - rewrite app_nil_r. unfold word in Bw. apply bytes_app in Bw. cbn in Bw. tauto.
    - unfold word in Nw. apply Forall_app in Nw. cbn in Nw. tauto.
    - rewrite app_nil_r in P. apply P; auto. }
  assert (H3: find_is_0 (str "0x") (word (h, addr)) = true) by (apply find_is_0_spec; exists h; reflexivity).
  destruct (info addr) as [[[file func] line]|] eqn:E.
  - destruct (I _ _ _ _ E) as (N1 & N2 & L). pose proof (d_text line L) as D. eexists. split; [eapply listed_known; eauto|].
    intros f s rest out Hn. cbn [word_loop]. rewrite Hn, H3, H2. cbn [bind negb]. rewrite E. f_equal. rewrite !cstr_id by auto.
    assert (Ed: Demangle cxa func = shown cxa func) by (unfold Demangle, shown; rewrite cstr_id by auto; destruct (cxa func); reflexivity).
    rewrite Ed. rewrite cstr_id by (unfold shown; destruct (cxa func) eqn:Ec; auto; eapply C; eauto). rewrite (cstr_id (word (h, addr))) by auto. rewrite <- !app_assoc. reflexivity.
  - eexists. split; [apply listed_unknown; auto|].
    intros f s rest out Hn. cbn [word_loop]. rewrite Hn, H3, H2. cbn [bind negb]. rewrite E. rewrite cstr_id by auto. rewrite <- !app_assoc. reflexivity.
Qed.
Lemma words_spec info cxa l : info_ok info cxa -> Forall (fun ha => is_addr (fst ha) (snd ha)) l -> exists lines, Forall2 (listed info cxa) l lines /\
  forall fuel out s, (s = sep_by [32] (map word l) \/ s = 32 :: sep_by [32] (map word l)) -> (length l < fuel)%nat -> word_loop info cxa fuel s out = Ok (out ++ unlines lines).
Proof.
  intros I. induction 1 as [|ha l A F (lines & F2 & IH)].
  - exists []. split; [constructor|]. intros fuel out s E L. destruct fuel; [lia|]. cbn in E. destruct E as [-> | ->]; cbn; now rewrite app_nil_r.
  - destruct (one_word info cxa ha I A) as (line & Hl & St). exists (line :: lines). split; [constructor; auto|].
    intros fuel out s E L. destruct fuel as [|fuel]; [lia|].
    assert (Q: exists rest, next_word s = Some (word ha, rest) /\ (rest = sep_by [32] (map word l) \/ rest = 32 :: sep_by [32] (map word l))).
    { assert (Q': next_word s = next_word (sep_by [32] (map word (ha :: l)))) by (destruct E as [-> | ->]; reflexivity).
      rewrite Q'. clear E Q'. destruct l as [|hb l].
      - exists []. split; [|left; reflexivity]. cbn [map sep_by]. rewrite <- (app_nil_r (word ha)) at 1. apply next_word_spec; auto.
      - exists (32 :: sep_by [32] (map word (hb :: l))). split; [|right; reflexivity]. cbn [map sep_by]. apply next_word_spec; [auto|]. right. eexists. reflexivity. }
    destruct Q as (rest & Q1 & Q2). rewrite (St _ _ _ _ Q1). cbn [length] in L. rewrite (IH fuel _ _ Q2) by lia.
    rewrite unlines_cons, <- !app_assoc. reflexivity.
Qed.

Lemma words_len l : Forall (fun ha => is_addr (fst ha) (snd ha)) l -> (length l <= length (sep_by [32%Z] (map word l)))%nat.
Proof.
  induction 1 as [|ha l A F IH]; [cbn; lia|]. cbn [map]. destruct l as [|hb l]; [cbn; lia|].
  cbn [map sep_by] in *. rewrite !app_length. cbn [length] in *. unfold word at 1. rewrite app_length. change (length (str "0x")) with 2%nat. lia.
Qed.
Lemma words_no_ch k l : (k = 0 \/ k = 10 \/ k = 13) -> Forall (fun ha => is_addr (fst ha) (snd ha)) l -> no_ch k (sep_by [32] (map word l)).
Proof.
  intros K. assert (W: forall ha, is_addr (fst ha) (snd ha) -> no_ch k (word ha)).
  { intros ha (_ & F & _). unfold word. change (str "0x") with [48; 120]. repeat (constructor; [lia|]). eapply Forall_impl; [|exact F]. unfold is_xdigit. cbn. lia. }
  induction 1 as [|ha l A F IH]; [constructor|]. cbn [map]. destruct l as [|hb l]; [apply W; auto|].
  cbn [map sep_by] in *. apply Forall_app. split; [apply W; auto|]. constructor; [lia|]. exact IH.
Qed.
Lemma words_bytes l : Forall (fun ha => is_addr (fst ha) (snd ha)) l -> bytes (sep_by [32] (map word l)).
Proof.
  assert (W: forall ha, is_addr (fst ha) (snd ha) -> bytes (word ha)) by (intros ha A; apply word_nospace; auto).
  induction 1 as [|ha l A F IH]; [constructor|]. cbn [map]. destruct l as [|hb l]; [apply W; auto|].
  cbn [map sep_by] in *. apply bytes_app. split; [apply W; auto|]. constructor; [unfold is_byte; lia|]. exact IH.
Qed.

Lemma oneline_step info cxa l all b k : info_ok info cxa -> Forall (fun ha => is_addr (fst ha) (snd ha)) l ->
  exists lines, Forall2 (listed info cxa) l lines /\
  (a_line (str "<<<STACKTRACE>>> " ++ sep_by [32] (map word l)) -> forall out,
   one_line info cxa all ((str "<<<STACKTRACE>>> " ++ sep_by [32] (map word l)) ++ repeat 13 k) b out =
   Ok (b, out ++ unlines ([str "<<<STACKTRACE"] ++ lines ++ [str ">>>STACKTRACE"]))).
Proof.
  intros I F. destruct (words_spec info cxa l I F) as (lines & F2 & W). exists lines. split; auto. intros A out.
  unfold one_line. rewrite strip_line by auto. cbn [bind]. unfold tryDecodeOnelineAndPut.
  assert (H3: find_is_0 (str "<<<STACKTRACE>>> ") (str "<<<STACKTRACE>>> " ++ sep_by [32] (map word l)) = true) by (apply find_is_0_spec; eexists; reflexivity).
  rewrite H3. cbn [negb]. change (skipn 17 (str "<<<STACKTRACE>>> " ++ sep_by [32] (map word l))) with (sep_by [32] (map word l)).
  rewrite (W _ _ _ (or_introl eq_refl)) by (pose proof (words_len l F); lia). cbn [bind]. f_equal. f_equal. unfold unlines. rewrite !map_app, !concat_app, <- !app_assoc. reflexivity.
Qed.
Lemma oneline_a_line l : Forall (fun ha => is_addr (fst ha) (snd ha)) l -> a_line (str "<<<STACKTRACE>>> " ++ sep_by [32] (map word l)).
Proof.
  intros F. split; [|split; [|split]].
  - apply bytes_app. split; [repeat constructor; unfold is_byte; cbn; lia|now apply words_bytes].
  - apply Forall_app. split; [repeat constructor; discriminate|apply (words_no_ch 0); auto].
  - apply Forall_app. split; [repeat constructor; discriminate|apply (words_no_ch 10); auto].
  - intros u E. assert (N: no_ch 13 (str "<<<STACKTRACE>>> " ++ sep_by [32] (map word l))).
    { apply Forall_app. split; [repeat constructor; discriminate|apply (words_no_ch 13); auto]. }
    rewrite E in N. apply Forall_app in N as [_ N]. apply Forall_cons_iff in N as [N _]. congruence.
Qed.

(** ** C85: a one-line trace becomes a block with one line for each of its addresses, in order, each looked up exactly *)
Theorem C85_oneline : forall info cxa all l, info_ok info cxa -> Forall (fun ha => is_addr (fst ha) (snd ha)) l ->
  exists lines, Forall2 (listed info cxa) l lines /\
  desymbol info cxa all (file_of [(str "<<<STACKTRACE>>> " ++ sep_by (str " ") (map (fun ha => str "0x" ++ fst ha) l), O)]) =
  Ok (unlines ([str "<<<STACKTRACE"] ++ lines ++ [str ">>>STACKTRACE"])).
Proof.
  intros info cxa all l I F. destruct (oneline_step info cxa l all false 0 I F) as (lines & F2 & St). exists lines. split; auto.
  eapply desymbol_steps. rewrite <- (app_nil_r (unlines _)). eapply st_cons; [apply oneline_a_line; auto|apply St; apply oneline_a_line; auto|constructor].
Qed.

(** ** C85: an exception with a one-line stack trace, written to a log: the reader shows the message unchanged, and one line for every
    captured frame, in order, with the very address that was captured *)
Theorem C85_roundtrip : forall info cxa all addrs name items,
  info_ok info cxa -> addrs <> [] -> Forall (fun a => 0 <= a < 2 ^ 64) addrs ->
  Forall no_nul items -> a_line (joined name items) -> ~ begins (str "<<<STACKTRACE") (joined name items) ->
  all = false \/ (forall h, ~ bracketed (joined name items) h) ->
  let c := mk_config false false in
  let trace := trace_toString c (fun _ => None) (fun _ => None) (map (fun a => (a, None)) addrs) in
  exists lines, Forall2 (fun a line => exists h, canonical_hex lower_or_digit h a /\ listed info cxa (h, a) line) addrs lines /\
  desymbol info cxa all (snd (what c [] (run c (map Add items) (Exception_new name true trace))) ++ [10]) =
  Ok (unlines ([joined name items; str "<<<STACKTRACE"] ++ lines ++ [str ">>>STACKTRACE"])).
Proof.
  intros info cxa all addrs name items I Ne Ha Fi Al Nb Hall c trace.
  assert (T: exists l, map snd l = addrs /\ Forall (fun ha => canonical_hex lower_or_digit (fst ha) (snd ha) /\ is_addr (fst ha) (snd ha)) l /\ trace = sep_by [32] (map word l)).
  { destruct (C84_trace c (fun _ => None) (fun _ => None) (map (fun a => (a, None)) addrs)) as (lines & F2 & E).
    { rewrite Forall_map. eapply Forall_impl; [|exact Ha]. intros a La. split; [exact La|]. split; discriminate. }
    change (is_one_line c) with true in E. cbn iota in E. fold trace in E. change (str " ") with [32] in E. rewrite E. clear E trace.
    enough (G: exists l, map snd l = addrs /\ Forall (fun ha => canonical_hex lower_or_digit (fst ha) (snd ha) /\ is_addr (fst ha) (snd ha)) l /\ lines = map word l).
    { destruct G as (l & G1 & G2 & ->). eauto. }
    clear Ne. revert lines F2. induction Ha as [|a addrs La Ha IH]; intros lines F2; cbn [map] in F2; inversion F2 as [|x y l1 l2 R F2']; subst.
    - exists []. repeat split; constructor.
    - destruct (IH _ F2') as (l & <- & G2 & ->). destruct R as (pre & fn & body & Lo & -> & Hb). cbn in Lo. destruct Lo as [-> ->]. cbn in Hb. destruct Hb as (h & C & ->).
      exists ((h, a) :: l). split; [reflexivity|]. split; [|reflexivity]. constructor; [|auto]. cbn [fst snd]. split; [auto|].
      destruct C as (N & Fh & V & _). split; [auto|]. split; [|split; [exact V|lia]]. eapply Forall_impl; [|exact Fh]. unfold lower_or_digit, is_xdigit. cbn. lia. }
  destruct T as (l & El & Fl & Et).
  assert (Fa: Forall (fun ha => is_addr (fst ha) (snd ha)) l) by (eapply Forall_impl; [|exact Fl]; cbn; tauto).
  destruct (oneline_step info cxa l all false 0 I Fa) as (lines & F2 & St). pose proof (oneline_a_line l Fa) as Ao.
  exists lines. split.
  { clear - El Fl F2. revert addrs El. induction F2 as [|ha line l lines R F2 IH]; intros addrs <-; cbn [map]; constructor; [|apply Forall_cons_iff in Fl as [_ Fl]; apply IH; auto].
    apply Forall_cons_iff in Fl as [[C _] _]. exists (fst ha). split; auto. now destruct ha. }
  assert (W: snd (what c [] (run c (map Add items) (Exception_new name true trace))) ++ [10] =
    file_of [(joined name items, O); (str "<<<STACKTRACE>>> " ++ sep_by [32] (map word l), O)]).
  { unfold what. rewrite run_adds by auto. rewrite show_block. cbn [snd e_str e_trace Exception_new]. change (is_one_line c) with true.
    assert (Tn: trace <> []).
    { rewrite Et. destruct l as [|ha l]; [cbn in El; congruence|]. cbn [map]. destruct (map word l); discriminate. }
    unfold trace_block. destruct trace as [|x t] eqn:Ex; [congruence|]. rewrite cstr_id.
    - rewrite Et. unfold file_of. cbn [map concat fst snd repeat app]. rewrite app_nil_r, <- !app_assoc. reflexivity.
    - apply Forall_app. split; [apply Al|]. rewrite Et. change (str "
<<<STACKTRACE>>> " ++ sep_by [32] (map word l)) with (10 :: (str "<<<STACKTRACE>>> " ++ sep_by [32] (map word l))). constructor; [lia|]. apply Ao. }
  rewrite W. eapply desymbol_steps.
  replace (unlines ([joined name items; str "<<<STACKTRACE"] ++ lines ++ [str ">>>STACKTRACE"])) with
    ((joined name items ++ [10]) ++ unlines ([str "<<<STACKTRACE"] ++ lines ++ [str ">>>STACKTRACE"]) ++ []) by (rewrite app_nil_r; reflexivity).
  eapply st_cons; [auto| |eapply st_cons; [auto|apply St; auto|constructor]].
  intros out. destruct all.
  - destruct Hall as [Hall|Hall]; [discriminate|]. destruct (line_all info cxa (joined name items) 0 false I Al) as (l' & D & E).
    + intros [r E]. apply Nb. exists (str ">>> " ++ r). rewrite E. reflexivity.
    + rewrite E. inversion D; subst; auto; exfalso; eapply Hall; eauto.
  - apply line_plain; auto.
Qed.
Example C85_roundtrip_nonvacuous :
  let info a := if a =? 0x4007f0 then Some (str "a.cpp", str "f", 12) else None in
  desymbol info (fun _ => None) false (str "err:x
<<<STACKTRACE>>> 0x4007f0 0xffffffffffffffff 0x10
") = Ok (str "err:x
<<<STACKTRACE
a.cpp:12 f 0x4007f0
0xffffffffffffffff
0x10
>>>STACKTRACE
").
Proof. reflexivity. Qed.

(** ** C85: the lookup itself: the first section that holds the address and for which BFD knows a line decides *)
Definition hit (s : section) (addr : Z) (r : option (list Z) * option (list Z) * Z) : Prop :=
  s_vma s <= addr < s_vma s + s_size s /\ s_nearest s (addr - s_vma s) = Some r.
Definition sec_ok (os : option section) : Prop := forall s, os = Some s -> 0 <= s_vma s /\ 0 <= s_size s /\ s_vma s + s_size s < 2 ^ 64.
Definition opt (o : option (list Z)) : list Z := match o with Some s => s | None => [] end.
Theorem C85_lookup : forall secs addr, Forall sec_ok secs ->
  (forall pre s post file func line, secs = pre ++ Some s :: post -> (forall s' r, In (Some s') pre -> ~ hit s' addr r) -> hit s addr (file, func, line) ->
     getInfo true secs addr = Some (opt file, opt func, line)) /\
  ((forall s r, In (Some s) secs -> ~ hit s addr r) -> getInfo true secs addr = None) /\
  getInfo false secs addr = None.
Proof.
  intros secs addr F.
  assert (Miss: forall os d, b_found d = false -> b_pc d = addr -> sec_ok os -> (forall s r, os = Some s -> ~ hit s addr r) -> findAddress os d = d).
  { intros os d Fd Pc Ok1 H. unfold findAddress. rewrite Fd. destruct os as [s|]; auto. specialize (Ok1 s eq_refl). rewrite Pc.
    destruct (addr <? s_vma s) eqn:E1; auto. destruct (_ <=? addr) eqn:E2; auto. rewrite Z.mod_small in E2 by lia.
    destruct (s_nearest s (addr - s_vma s)) as [r|] eqn:E3; auto. exfalso. eapply (H s r eq_refl). split; [lia|auto]. }
  assert (MissL: forall pre d, b_found d = false -> b_pc d = addr -> Forall sec_ok pre -> (forall s r, In (Some s) pre -> ~ hit s addr r) ->
    fold_left (fun d s => findAddress s d) pre d = d).
  { induction pre as [|os pre IH]; intros d Fd Pc Ok1 H; [auto|]. cbn [fold_left]. apply Forall_cons_iff in Ok1 as [O1 O2].
    rewrite (Miss os d Fd Pc O1); [|intros s r ->; apply H; now left]. apply IH; auto. intros s r Hin. apply H. now right. }
  assert (Done: forall post d, b_found d = true -> fold_left (fun d s => findAddress s d) post d = d).
  { induction post as [|os post IH]; intros d Fd; [auto|]. cbn [fold_left]. unfold findAddress at 2. rewrite Fd. auto. }
  split; [|split; [|reflexivity]].
  - intros pre s post file func line E H [R N]. unfold getInfo. rewrite E, fold_left_app. rewrite E in F. apply Forall_app in F as [F1 F2]. apply Forall_cons_iff in F2 as [F2 _].
    rewrite (MissL pre) by first [reflexivity|exact F1|exact H]. cbn [fold_left]. specialize (F2 s eq_refl).
    assert (X: findAddress (Some s) (mk_bdata addr [] [] 0 false) = mk_bdata addr (opt file) (opt func) line true).
    { unfold findAddress. cbn [b_found b_pc b_file b_func]. destruct (addr <? s_vma s) eqn:E1; [lia|]. rewrite Z.mod_small by lia.
      destruct (_ <=? addr) eqn:E2; [lia|]. rewrite N. reflexivity. }
    rewrite X. rewrite Done by reflexivity. reflexivity.
  - intros H. unfold getInfo. rewrite MissL by first [reflexivity|exact F|exact H]. reflexivity.
Qed.
Example C85_lookup_nonvacuous :
  let text := mk_section 0x400000 0x1000 (fun off => if off =? 0x7f0 then Some (Some (str "a.cpp"), Some (str "f"), 12) else None) in
  getInfo true [None; Some (mk_section 0 0x300 (fun _ => None)); Some text] 0x4007f0 = Some (str "a.cpp", str "f", 12) /\ sec_ok (Some text) /\
  hit text 0x4007f0 (Some (str "a.cpp"), Some (str "f"), 12).
Proof. split; [reflexivity|]. split; [intros s E; injection E as <-; cbn; lia|]. split; [cbn; lia|reflexivity]. Qed.

(** ** Finding: in a one-line trace everything from the first word that is not an address is silently dropped (desymbol.cpp:53, 56); with
    an item appended after the message was asked for (C84_late_item_finding) that is the last address and the item. *)
Theorem C85_dropped_finding :
  desymbol (fun _ => None) (fun _ => None) false (str "<<<STACKTRACE>>> 0x10 0x20:more text
") = Ok (str "<<<STACKTRACE
0x10
>>>STACKTRACE
").
Proof. reflexivity. Qed.

(** ** Finding: only the first "[0x" of a line is looked at (desymbol.cpp:23-29), so a bracket that is not an address hides the address
    that follows it. *)
Theorem C85_first_bracket_finding :
  desymbol (fun _ => Some (str "a.cpp", str "f", 1)) (fun _ => None) true (str "a[0xg] [0x400]
") = Ok (str "a[0xg] [0x400]
").
Proof. reflexivity. Qed.

(** ** Finding: a line is cut at a NUL byte when it is written (desymbol.cpp:123). *)
Theorem C85_nul_finding : desymbol (fun _ => None) (fun _ => None) false (str "ab" ++ [0] ++ str "cd
") = Ok (str "ab
").
Proof. reflexivity. Qed.

(** ** Finding: a section that ends at the top of the address space is never found, because vma + size wraps to 0 (bfd.hpp:95). *)
Theorem C85_top_section_finding :
  let s := mk_section (2 ^ 64 - 4096) 4096 (fun _ => Some (Some (str "a.c"), None, 1)) in
  hit s (2 ^ 64 - 16) (Some (str "a.c"), None, 1) /\ getInfo true [Some s] (2 ^ 64 - 16) = None.
Proof. split; [split; [cbn; lia|reflexivity]|reflexivity]. Qed.

Print Assumptions C85_lines.
Print Assumptions C85_all.
Print Assumptions C85_oneline.
Print Assumptions C85_roundtrip.
Print Assumptions C85_lookup.
