(** Property C84: exception messages, error number texts and stack traces say what they are documented to say. *)
Require Import Verif.Common Verif.Text Verif.AtoiSpec Verif.ItoaModel Verif.ItoaProof Verif.NumProps Verif.ExceptionModel.

(** ** Specification *)
Definition no_nul (s : list Z) : Prop := Forall (fun c => c <> 0) s.
Definition no_ch (ch : Z) (s : list Z) : Prop := Forall (fun c => c <> ch) s.
(** the message: the name, then each item after a colon *)
Definition joined (name : list Z) (items : list (list Z)) : list Z := name ++ concat (map (fun a => 58 :: a) items).
(** texts with a separator between them *)
Fixpoint sep_by (sep : list Z) (l : list (list Z)) : list Z :=
  match l with
  | [] => []
  | [x] => x
  | x :: r => x ++ sep ++ sep_by sep r
  end.
(** the trace as it appears in the message *)
Definition trace_block (one_line : bool) (trace : list Z) : list Z :=
  match trace with
  | [] => []
  | _ => if one_line then str "
<<<STACKTRACE>>> " ++ trace else str "
<<<STACKTRACE
" ++ trace ++ str "
>>>STACKTRACE"
  end.
(** one line is used when neither BFD nor symbol resolution is compiled in *)
Definition is_one_line (c : config) : bool := negb (with_bfd c) && negb (resolve c).

(** what a user does with an exception object *)
Inductive use := Add (item : list Z) | Show.
Fixpoint run (c : config) (l : list use) (e : exn) : exn :=
  match l with
  | [] => e
  | Add s :: r => run c r (append_str e s)
  | Show :: r => run c r (fst (exn_toString c [] e))
  end.
Fixpoint added (l : list use) : list (list Z) :=
  match l with
  | [] => []
  | Add s :: r => s :: added r
  | Show :: r => added r
  end.

Lemma cstr_id s : no_nul s -> cstr s = s.
Proof. induction 1 as [|c s N F IH]; [reflexivity|]. cbn [cstr]. destruct (Z.eqb_spec c 0); [congruence|]. now rewrite IH. Qed.
Lemma cstr_app s t : no_nul s -> cstr (s ++ t) = s ++ cstr t.
Proof. induction 1 as [|c s N F IH]; [reflexivity|]. cbn [cstr app]. destruct (Z.eqb_spec c 0); [congruence|]. now rewrite IH. Qed.
Lemma cstr_cut s t : no_nul s -> cstr (s ++ 0 :: t) = s.
Proof. intros N. rewrite cstr_app by auto. cbn. apply app_nil_r. Qed.
Lemma cstr_no_nul s : no_nul (cstr s).
Proof. induction s as [|c s IH]; [constructor|]. cbn [cstr]. destruct (Z.eqb_spec c 0); constructor; auto. Qed.

Lemma oneline_spec c : oneline c = is_one_line c.
Proof. unfold oneline, is_one_line. apply negb_orb. Qed.

Lemma show_block c e : exn_toString c [] e = (mk_exn (e_str e ++ trace_block (is_one_line c) (e_trace e)) [], e_str e ++ trace_block (is_one_line c) (e_trace e)).
Proof.
  unfold exn_toString. rewrite oneline_spec. destruct (e_trace e) as [|x t].
  - cbn [trace_block]. now rewrite app_nil_r.
  - destruct (is_one_line c); cbn [appends trace_block]; rewrite <- !app_assoc; reflexivity.
Qed.

Lemma run_app c a b e : run c (a ++ b) e = run c b (run c a e).
Proof. revert e. induction a as [|[s|] a IH]; intros e; cbn [app run]; auto. Qed.
Lemma added_app a b : added (a ++ b) = added a ++ added b.
Proof. induction a as [|[s|] a IH]; cbn [app added]; auto. now rewrite IH. Qed.

Lemma run_adds c items e : Forall no_nul items -> run c (map Add items) e = mk_exn (joined (e_str e) items) (e_trace e).
Proof.
  intros F. revert e. induction F as [|a items N F IH]; intros e; cbn [map run].
  - unfold joined. cbn. rewrite app_nil_r. now destruct e.
  - rewrite IH. unfold append_str, append_c. cbn [e_str e_trace]. rewrite cstr_id by auto. unfold joined. cbn [map concat]. now rewrite <- !app_assoc.
Qed.
Lemma run_shown c l s : Forall no_nul (added l) -> run c l (mk_exn s []) = mk_exn (joined s (added l)) [].
Proof.
  revert s. induction l as [|[a|] l IH]; intros s F; cbn [run added] in *.
  - unfold joined. cbn. now rewrite app_nil_r.
  - apply Forall_cons_iff in F as [N F]. unfold append_str, append_c. cbn [e_str e_trace]. rewrite IH by auto. rewrite cstr_id by auto.
    unfold joined. cbn [map concat]. now rewrite <- !app_assoc.
  - rewrite show_block. cbn [fst e_str e_trace trace_block]. rewrite app_nil_r. auto.
Qed.

(** ** C84: the message is the name and every appended item in order, each after a colon; the trace is in it exactly once, at the place
    where the message was first asked for, however often it is asked for and whatever is appended later. *)
Theorem C84_message : forall c name enable trace items rest,
  Forall no_nul items -> Forall no_nul (added rest) ->
  let e := run c (map Add items ++ Show :: rest) (Exception_new name enable trace) in
  snd (exn_toString c [] e) =
    joined (joined name items ++ trace_block (is_one_line c) (if enable then trace else [])) (added rest).
Proof.
  intros c name enable trace items rest F1 F2 e. unfold e. rewrite run_app, run_adds by auto. cbn [run].
  rewrite !show_block. cbn [fst snd e_str e_trace Exception_new]. rewrite run_shown by auto. cbn [e_str e_trace trace_block]. now rewrite app_nil_r.
Qed.
Example C84_message_nonvacuous :
  snd (what (mk_config false false) [] (run (mk_config false false) [Add (str "open"); Show; Show; Add (str "late")] (Exception_new (str "file") true (str "0x12"))))
  = str "file:open
<<<STACKTRACE>>> 0x12:late".
Proof. reflexivity. Qed.

(** the names and items can be read back from the message when they hold no colon *)
Theorem C84_injective : forall c name1 items1 name2 items2,
  no_nul name1 -> no_nul name2 -> Forall no_nul items1 -> Forall no_nul items2 ->
  Forall (no_ch 58) (name1 :: items1) -> Forall (no_ch 58) (name2 :: items2) ->
  snd (what c [] (run c (map Add items1) (Exception_new name1 false []))) = snd (what c [] (run c (map Add items2) (Exception_new name2 false []))) ->
  name1 = name2 /\ items1 = items2.
Proof.
  assert (J: forall items1 name1 items2 name2, Forall (no_ch 58) (name1 :: items1) -> Forall (no_ch 58) (name2 :: items2) ->
     joined name1 items1 = joined name2 items2 -> name1 = name2 /\ items1 = items2).
  { assert (P: forall n1 n2 r1 r2, no_ch 58 n1 -> no_ch 58 n2 -> (r1 = [] \/ exists x, r1 = 58 :: x) -> (r2 = [] \/ exists x, r2 = 58 :: x) ->
      n1 ++ r1 = n2 ++ r2 -> n1 = n2 /\ r1 = r2).
    { induction n1 as [|c n1 IH]; intros n2 r1 r2 F1 F2 R1 R2 E.
      - destruct n2 as [|d n2]; [auto|]. cbn in E. subst r1. exfalso. apply Forall_cons_iff in F2 as [F2 _].
        destruct R1 as [R1|[x R1]]; [discriminate|]. injection R1 as -> _. congruence.
      - destruct n2 as [|d n2].
        + cbn in E. subst r2. exfalso. apply Forall_cons_iff in F1 as [F1 _]. destruct R2 as [R2|[x R2]]; [discriminate|]. injection R2 as -> _. congruence.
        + cbn in E. injection E as -> E. apply Forall_cons_iff in F1 as [_ F1]. apply Forall_cons_iff in F2 as [_ F2].
          destruct (IH n2 r1 r2) as [-> ->]; auto. }
    induction items1 as [|a items1 IH]; intros name1 items2 name2 F1 F2 E; unfold joined in E;
      apply P in E as [-> E];
      try (apply Forall_cons_iff in F1; tauto); try (apply Forall_cons_iff in F2; tauto);
      try (cbn; auto; fail); try (destruct items2; cbn; eauto; fail); try (cbn; eauto; fail).
    - destruct items2; [auto|discriminate].
    - destruct items2 as [|b items2]; [discriminate|]. cbn in E. injection E as E. split; auto.
      apply Forall_cons_iff in F1 as [_ F1]. apply Forall_cons_iff in F2 as [_ F2].
      destruct (IH a items2 b) as [-> ->]; auto. }
  intros c name1 items1 name2 items2 N1 N2 G1 G2 F1 F2. unfold what. rewrite !run_adds by auto. rewrite !show_block. cbn [snd e_str e_trace Exception_new trace_block].
  rewrite !app_nil_r.
  assert (K: forall n l, no_nul n -> Forall no_nul l -> no_nul (joined n l)).
  { intros n l Hn Hl. unfold joined. apply Forall_app. split; auto. induction Hl as [|a l Ha Hl IH]; cbn; [constructor|].
    constructor; [lia|]. apply Forall_app; auto. }
  rewrite !cstr_id by (apply K; auto). apply J; auto.
Qed.
Example C84_injective_nonvacuous : Forall (no_ch 58) [str "file"; str "open"] /\ Forall no_nul [str "file"; str "open"].
Proof. split; repeat constructor; discriminate. Qed.

(** asking for the message never throws: whichever allocation fails, the message so far is kept, at most (part of) the trace is missing,
    and from then on the message is stable *)
Theorem C84_nothrow : forall c oks e, exists part more,
  trace_block (is_one_line c) (e_trace e) = part ++ more /\
  snd (exn_toString c oks e) = e_str e ++ part /\
  forall oks', snd (exn_toString c oks' (fst (exn_toString c oks e))) = e_str e ++ part.
Proof.
  assert (A: forall parts s oks, exists part more, concat parts = part ++ more /\ appends s parts oks = s ++ part).
  { induction parts as [|p parts IH]; intros s oks.
    - exists [], []. cbn. now rewrite app_nil_r.
    - cbn [appends concat]. destruct oks as [|[|] oks].
      + destruct (IH (s ++ p) []) as (part & more & E1 & E2). exists (p ++ part), more. rewrite E1, E2, <- !app_assoc. auto.
      + destruct (IH (s ++ p) oks) as (part & more & E1 & E2). exists (p ++ part), more. rewrite E1, E2, <- !app_assoc. auto.
      + exists [], (p ++ concat parts). cbn. now rewrite app_nil_r. }
  intros c oks e.
  assert (G: exists part more, trace_block (is_one_line c) (e_trace e) = part ++ more /\ snd (exn_toString c oks e) = e_str e ++ part).
  { unfold exn_toString. rewrite oneline_spec. destruct (e_trace e) as [|x t]; [exists [], []; cbn; now rewrite app_nil_r|].
    cbn [snd trace_block]. destruct (is_one_line c).
    - destruct (A [str "
<<<STACKTRACE>>> "; x :: t] (e_str e) oks) as (part & more & E1 & E2). exists part, more. split; [rewrite <- E1; cbn [concat]; rewrite ?app_nil_r; reflexivity|exact E2].
    - destruct (A [str "
<<<STACKTRACE
"; x :: t; str "
>>>STACKTRACE"] (e_str e) oks) as (part & more & E1 & E2). exists part, more. split; [rewrite <- E1; cbn [concat]; rewrite ?app_nil_r; reflexivity|exact E2]. }
  destruct G as (part & more & E1 & E2). exists part, more. split; [auto|]. split; [auto|]. intros oks'. rewrite <- E2. reflexivity.
Qed.
Example C84_nothrow_nonvacuous : snd (exn_toString (mk_config false true) [true; false] (Exception_new (str "x") true (str "t"))) = str "x
<<<STACKTRACE
".
Proof. reflexivity. Qed.

(** ** numbers as printf writes them *)
Lemma num_text_digs base ch f x : 2 <= base -> 0 <= x < base ^ Z.of_nat (S f) -> digs base ch x (num_text base ch (S f) x).
Proof.
  intros B. revert x. induction f as [|f IH]; intros x Hx.
  - cbn [num_text]. change (Z.of_nat 1) with 1 in Hx. rewrite Z.pow_1_r in Hx. destruct (x <? base) eqn:E; [constructor; lia|lia].
  - remember (S f) as g. cbn [num_text]. destruct (x <? base) eqn:E; [constructor; lia|].
    constructor; [lia|]. apply IH. rewrite Nat2Z.inj_succ, Z.pow_succ_r in Hx by lia. split; [apply Z.div_pos; lia|].
    apply Z.div_lt_upper_bound; lia.
Qed.
Lemma llx_text x : 0 <= x < 2 ^ 64 -> canonical_hex lower_or_digit (printf_llx x) x.
Proof.
  intros Hx. unfold printf_llx.
  eapply (digs_canonical 16 (hex_char false) lower_or_digit xdigit); try lia; try (intros d Hd; apply (hex_ch false d Hd)); try reflexivity.
  apply num_text_digs; [lia|]. split; [lia|]. apply Z.lt_le_trans with (2 ^ 64); [lia|]. vm_compute. discriminate.
Qed.
Lemma d_text x : - 2 ^ 31 <= x < 2 ^ 31 -> canonical_int (printf_d x) x.
Proof.
  intros Hx. assert (G: forall y, 0 <= y <= 2 ^ 31 -> canonical_dec (num_text 10 (fun d => 48 + d) 20 y) y).
  { intros y Hy. eapply (digs_canonical 10 (fun d => 48 + d) is_digit dec_digit); try lia; try (intros d Hd; apply (dec_ch d Hd)); try reflexivity.
    apply num_text_digs; [lia|]. split; [lia|]. apply Z.le_lt_trans with (2 ^ 31); [lia|]. vm_compute. reflexivity. }
  unfold printf_d. destruct (x <? 0) eqn:E.
  - right. split; [lia|]. eexists. split; [reflexivity|]. apply G. lia.
  - left. split; [lia|]. apply G. lia.
Qed.

(** ** C84: an error number text ends with the number in parentheses, so the number can always be read back from it, whatever text
    strerror_r gives *)
Theorem C84_errno : forall gnu msg gnu_msg err, - 2 ^ 31 <= err < 2 ^ 31 ->
  exists m d, canonical_int d err /\ ErrorNo_toString gnu msg gnu_msg err = m ++ str "(" ++ d ++ str ")" /\
    (gnu = true -> no_nul gnu_msg -> m = gnu_msg) /\ (forall t, gnu = false -> msg = Some t -> no_nul t -> m = t).
Proof.
  intros gnu msg gm err He. unfold ErrorNo_toString, ConvertErrorNoToString.
  pose proof (d_text err He) as D. eexists. exists (printf_d err). split; [exact D|]. split.
  - f_equal. unfold snprintf. replace (64 <=? 0) with false by reflexivity. apply firstn_all2.
    assert (L: zlen (printf_d err) <= 40) by (apply (canonical_int_len _ err); auto; lia).
    rewrite !app_length. cbn [length str]. unfold zlen in L. change (length (str "(")) with 1%nat. change (length (str ")")) with 1%nat. lia.
  - split.
    + intros -> N. apply cstr_id; auto.
    + intros t -> -> N. apply cstr_id; auto.
Qed.
Theorem C84_errno_read_back : forall g1 m1 x1 err1 g2 m2 x2 err2, - 2 ^ 31 <= err1 < 2 ^ 31 -> - 2 ^ 31 <= err2 < 2 ^ 31 ->
  ErrorNo_toString g1 m1 x1 err1 = ErrorNo_toString g2 m2 x2 err2 -> err1 = err2.
Proof.
  intros g1 m1 x1 e1 g2 m2 x2 e2 H1 H2 E.
  destruct (C84_errno g1 m1 x1 e1 H1) as (a1 & d1 & C1 & E1 & _). destruct (C84_errno g2 m2 x2 e2 H2) as (a2 & d2 & C2 & E2 & _).
  rewrite E1, E2 in E. clear E1 E2.
  change (str ")") with [41] in E. change (str "(") with [40] in E. rewrite !app_assoc in E. apply app_inj_tail in E as [E _].
  rewrite <- !app_assoc in E.
  assert (N: forall d x, canonical_int d x -> no_ch 40 d).
  { intros d x [[_ C]|(_ & d' & -> & C)]; destruct C as (_ & F & _).
    - eapply Forall_impl; [|exact F]. unfold is_digit. cbn. lia.
    - constructor; [lia|]. eapply Forall_impl; [|exact F]. unfold is_digit. cbn. lia. }
  assert (P: forall d1 d2 a1 a2, no_ch 40 d1 -> no_ch 40 d2 -> a1 ++ [40] ++ d1 = a2 ++ [40] ++ d2 -> d1 = d2).
  { clear. induction d1 as [|c d1 IH] using rev_ind; intros d2 a1 a2 F1 F2 E.
    - destruct d2 as [|y d2 _] using rev_ind; [auto|]. exfalso. rewrite app_nil_r in E. rewrite !app_assoc in E. apply app_inj_tail in E as [_ <-].
      apply Forall_app in F2 as [_ F2]. apply Forall_cons_iff in F2 as [F2 _]. congruence.
    - destruct d2 as [|y d2 _] using rev_ind.
      + exfalso. rewrite app_nil_r in E. rewrite !app_assoc in E. apply app_inj_tail in E as [_ ->].
        apply Forall_app in F1 as [_ F1]. apply Forall_cons_iff in F1 as [F1 _]. congruence.
      + rewrite !app_assoc in E. apply app_inj_tail in E as [E ->]. apply Forall_app in F1 as [F1 _]. apply Forall_app in F2 as [F2 _].
        rewrite <- !app_assoc in E. f_equal. eapply IH; eauto. }
  assert (d1 = d2) by (eapply P; eauto). subst d2.
  destruct C1 as [[P1 C1]|(P1 & u1 & -> & C1)], C2 as [[P2 C2]|(P2 & u2 & E2 & C2)].
  - destruct C1 as (_ & _ & V1 & _), C2 as (_ & _ & V2 & _). congruence.
  - exfalso. subst d1. destruct C1 as (_ & F & _). apply Forall_cons_iff in F as [F _]. unfold is_digit in F. lia.
  - exfalso. destruct C2 as (_ & F & _). apply Forall_cons_iff in F as [F _]. unfold is_digit in F. lia.
  - injection E2 as ->. destruct C1 as (_ & _ & V1 & _), C2 as (_ & _ & V2 & _). lia.
Qed.
Example C84_errno_nonvacuous : ErrorNo_toString true None (str "No such file or directory") 2 = str "No such file or directory(2)" /\
  ErrorNo_toString false None [] (-7) = str "err(-7)".
Proof. split; reflexivity. Qed.

(** ** stack traces *)
(** a name as it is shown: demangled if it can be *)
Definition shown (cxa : list Z -> option (list Z)) (f : list Z) : list Z := match cxa f with Some d => d | None => f end.
(** what is printed before the symbol: "file:line ", and the function name that is then known *)
Definition located (c : config) (info : bfd_info) (cxa : list Z -> option (list Z)) (addr : Z) (pre fn : list Z) : Prop :=
  match (if with_bfd c then info addr else None) with
  | Some (file, func, line) => exists d, canonical_int d line /\ pre = file ++ str ":" ++ d ++ str " " /\ fn = shown cxa func
  | None => pre = [] /\ fn = []
  end.
(** "obj(func+rest": the first opening parenthesis and the first plus after it *)
Definition splits (sym obj func rest : list Z) : Prop :=
  sym = obj ++ str "(" ++ func ++ str "+" ++ rest /\ no_ch 40 obj /\ no_ch 43 func.
(** the line of one frame *)
Definition frame_line (c : config) (info : bfd_info) (cxa : list Z -> option (list Z)) (addr : Z) (sym : option (list Z)) (line : list Z) : Prop :=
  exists pre fn body, located c info cxa addr pre fn /\ line = pre ++ body /\
  match (if resolve c then sym else None) with
  | Some s =>
      (exists obj func rest, splits s obj func rest /\
         body = obj ++ str "(" ++ (match fn with [] => shown cxa func | _ => fn end) ++ str "+" ++ rest ++ str " ")
      \/ ((forall obj func rest, ~ splits s obj func rest) /\ body = (match fn with [] => [] | _ => fn ++ str " " end) ++ s ++ str " ")
  | None => exists h, canonical_hex lower_or_digit h addr /\ body = if is_one_line c then str "0x" ++ h else str "[0x" ++ h ++ str "]"
  end.

Lemma find_ch_none ch s : forall i, find_ch ch s i = None <-> no_ch ch s.
Proof.
  induction s as [|x s IH]; intros i; cbn [find_ch].
  - split; auto. constructor.
  - destruct (Z.eqb_spec x ch).
    + split; [discriminate|]. intros F. apply Forall_cons_iff in F as [F _]. congruence.
    + rewrite IH. split; intros F; [constructor; auto|now apply Forall_cons_iff in F].
Qed.
Lemma find_ch_some ch s : forall i p, find_ch ch s i = Some p -> exists a b, s = a ++ ch :: b /\ no_ch ch a /\ p = (i + length a)%nat.
Proof.
  induction s as [|x s IH]; intros i p E; cbn [find_ch] in E; [discriminate|].
  destruct (Z.eqb_spec x ch) as [->|N].
  - injection E as <-. exists [], s. split; [reflexivity|]. split; [constructor|]. cbn. lia.
  - apply IH in E as (a & b & -> & F & ->). exists (x :: a), b. split; [reflexivity|]. split; [constructor; auto|]. cbn. lia.
Qed.
Lemma find_ch_first ch a b i : no_ch ch a -> find_ch ch (a ++ ch :: b) i = Some (i + length a)%nat.
Proof.
  intros F. revert i. induction F as [|x a N F IH]; intros i; cbn [app find_ch].
  - rewrite Z.eqb_refl. f_equal. cbn. lia.
  - destruct (Z.eqb_spec x ch); [congruence|]. rewrite IH. f_equal. cbn. lia.
Qed.

Lemma symbol_split cxa fn obj func rest : no_nul (obj ++ str "(" ++ func ++ str "+" ++ rest) -> no_ch 40 obj -> no_ch 43 func ->
  symbol_text cxa fn (obj ++ str "(" ++ func ++ str "+" ++ rest) = obj ++ str "(" ++ (match fn with [] => shown cxa func | _ => fn end) ++ str "+" ++ rest ++ str " ".
Proof.
  change (str "(") with [40]. change (str "+") with [43]. change (str " ") with [32]. intros N F1 F2.
  assert (N' := N). apply Forall_app in N' as [N1 N']. apply Forall_app in N' as [_ N']. apply Forall_app in N' as [N2 N']. apply Forall_app in N' as [_ N3].
  unfold symbol_text.
  assert (E0: find_from 40 ((obj ++ [40] ++ func ++ [43] ++ rest) ++ [0]) 0 = Some (length obj)).
  { unfold find_from. cbn [skipn]. rewrite <- app_assoc. cbn [app]. rewrite find_ch_first by auto. reflexivity. }
  rewrite E0.
  assert (E1: find_from 43 ((obj ++ [40] ++ func ++ [43] ++ rest) ++ [0]) (length obj + 1) = Some (length obj + 1 + length func)%nat).
  { unfold find_from. replace (skipn (length obj + 1) ((obj ++ [40] ++ func ++ [43] ++ rest) ++ [0])) with (func ++ 43 :: (rest ++ [0])).
    - now rewrite find_ch_first by auto.
    - rewrite <- app_assoc. rewrite skipn_app, skipn_all2 by lia. replace (length obj + 1 - length obj)%nat with 1%nat by lia.
      cbn [app skipn]. rewrite <- app_assoc. reflexivity. }
  rewrite E1.
  assert (U1: upd ((obj ++ [40] ++ func ++ [43] ++ rest) ++ [0]) (length obj) 0 = (obj ++ [0] ++ func) ++ 43 :: (rest ++ [0])).
  { rewrite <- !app_assoc. cbn [app]. rewrite upd_app_exact. reflexivity. }
  rewrite U1.
  assert (U2: upd ((obj ++ [0] ++ func) ++ 43 :: (rest ++ [0])) (length obj + 1 + length func) 0 = (obj ++ [0] ++ func) ++ 0 :: (rest ++ [0])).
  { replace (length obj + 1 + length func)%nat with (length (obj ++ [0] ++ func)) by (rewrite !app_length; cbn; lia). apply upd_app_exact. }
  rewrite U2.
  assert (C0: cstr ((obj ++ [0] ++ func) ++ 0 :: rest ++ [0]) = obj).
  { rewrite <- app_assoc. cbn [app]. now apply cstr_cut. }
  assert (C1: cstr (skipn (length obj + 1) ((obj ++ [0] ++ func) ++ 0 :: rest ++ [0])) = func).
  { rewrite <- app_assoc. rewrite skipn_app, skipn_all2 by lia. replace (length obj + 1 - length obj)%nat with 1%nat by lia. cbn [app skipn]. now apply cstr_cut. }
  assert (C2: cstr (skipn (length obj + 1 + length func + 1) ((obj ++ [0] ++ func) ++ 0 :: rest ++ [0])) = rest).
  { rewrite skipn_app, skipn_all2 by (rewrite !app_length; cbn; lia).
    replace (length obj + 1 + length func + 1 - length (obj ++ [0%Z] ++ func))%nat with 1%nat by (rewrite !app_length; cbn; lia). cbn [app skipn]. now apply cstr_cut. }
  rewrite C0, C1, C2. unfold Demangle, shown. rewrite cstr_id by auto. reflexivity.
Qed.

Lemma symbol_plain cxa fn s : no_nul s -> (forall obj func rest, ~ splits s obj func rest) ->
  symbol_text cxa fn s = (match fn with [] => [] | _ => fn ++ str " " end) ++ s ++ str " ".
Proof.
  intros N H. unfold symbol_text. change (str " ") with [32].
  destruct (find_from 40 (s ++ [0]) 0) as [p|] eqn:E; [|reflexivity].
  unfold find_from in E. cbn [skipn] in E. apply find_ch_some in E as (obj & b & E & F & ->). cbn [Nat.add].
  destruct (find_from 43 (s ++ [0]) (length obj + 1)) as [q|] eqn:E2; [|reflexivity].
  exfalso. unfold find_from in E2. rewrite E in E2. rewrite skipn_app, skipn_all2 in E2 by lia.
  replace (length obj + 1 - length obj)%nat with 1%nat in E2 by lia. cbn [app skipn] in E2.
  apply find_ch_some in E2 as (func & r & -> & F2 & _).
  destruct r as [|x r _] using rev_ind.
  - change (obj ++ 40 :: func ++ [43]) with (obj ++ ([40] ++ func) ++ [43]) in E. rewrite app_assoc in E. apply app_inj_tail in E as [_ E]. discriminate.
  - assert (Q: obj ++ 40 :: func ++ 43 :: r ++ [x] = (obj ++ [40] ++ func ++ [43] ++ r) ++ [x]) by (rewrite <- !app_assoc; reflexivity).
    rewrite Q in E. apply app_inj_tail in E as [E _].
    apply (H obj func r). split; [exact E|]. split; auto.
Qed.

Lemma splits_dec s : (exists obj func rest, splits s obj func rest) \/ forall obj func rest, ~ splits s obj func rest.
Proof.
  destruct (find_ch 40 s 0) as [p|] eqn:E.
  - apply find_ch_some in E as (obj & b & -> & F & _). destruct (find_ch 43 b 0) as [q|] eqn:E2.
    + apply find_ch_some in E2 as (func & rest & -> & F2 & _). left. exists obj, func, rest. split; [reflexivity|]. auto.
    + apply find_ch_none in E2. right. intros obj' func rest (E & F1 & F2). change (str "(") with [40] in E. cbn [app] in E.
      assert (obj = obj' /\ b = func ++ str "+" ++ rest) as [-> ->].
      { revert E F F1. clear. revert obj'. induction obj as [|x obj IH]; intros [|y o] E F F1; cbn in E.
        - injection E as E. auto.
        - injection E as <- _. apply Forall_cons_iff in F1 as [F1 _]. congruence.
        - injection E as -> _. apply Forall_cons_iff in F as [F _]. congruence.
        - injection E as -> E. apply Forall_cons_iff in F as [_ F]. apply Forall_cons_iff in F1 as [_ F1]. destruct (IH o E F F1) as [-> ->]. auto. }
      apply Forall_app in E2 as [_ E2]. apply Forall_cons_iff in E2 as [E2 _]. apply E2; reflexivity.
  - apply find_ch_none in E. right. intros obj func rest (-> & _ & _). apply Forall_app in E as [_ E]. apply Forall_cons_iff in E as [E _]. apply E; reflexivity.
Qed.

Lemma addrToHex_spec c addr : 0 <= addr < 2 ^ 64 -> exists h, canonical_hex lower_or_digit h addr /\
  addrToHex c addr = if is_one_line c then str "0x" ++ h else str "[0x" ++ h ++ str "]".
Proof.
  intros Ha. pose proof (llx_text addr Ha) as C. exists (printf_llx addr). split; auto. unfold addrToHex. rewrite oneline_spec.
  assert (L: (length (printf_llx addr) <= 16)%nat).
  { assert (zlen (printf_llx addr) <= 16); [|unfold zlen in *; lia].
    eapply (canonical_len 16 lower_or_digit xdigit); [lia| | |exact C|lia|lia].
    all: intros d Hd; unfold lower_or_digit in Hd; unfold xdigit; destruct (d <=? 57) eqn:?; [lia|]; destruct (d <=? 70) eqn:?; lia. }
  unfold snprintf. change (32 <=? 0) with false. change (Z.to_nat (32 - 1)) with 31%nat.
  destruct (is_one_line c); apply firstn_all2; rewrite ?app_length;
    change (length (str "0x")) with 2%nat; change (length (str "[0x")) with 3%nat; change (length (str "]")) with 1%nat; lia.
Qed.

Definition frame_ok (c : config) (info : bfd_info) (fr : Z * option (list Z)) : Prop :=
  0 <= fst fr < 2 ^ 64 /\ (forall s, snd fr = Some s -> no_nul s) /\
  (forall file func line, info (fst fr) = Some (file, func, line) -> no_nul func /\ - 2 ^ 31 <= line < 2 ^ 31).

Lemma frame_text_spec c info cxa fr : frame_ok c info fr -> frame_line c info cxa (fst fr) (snd fr) (frame_text c info cxa (snd fr) (fst fr)).
Proof.
  destruct fr as [addr sym]. intros (Ha & Hs & Hi). cbn [fst snd] in *. unfold frame_line, frame_text.
  assert (L: exists pre fn, located c info cxa addr pre fn /\
    (if with_bfd c then match info addr with Some (file, func, line) => (file ++ [58] ++ printf_d line ++ [32], Demangle cxa func) | None => ([], []) end else ([], [])) = (pre, fn)).
  { unfold located. destruct (with_bfd c); [|eauto]. destruct (info addr) as [[[file func] line]|] eqn:E; [|eauto].
    destruct (Hi _ _ _ eq_refl) as [Nf Hl]. eexists. eexists. split; [|reflexivity]. exists (printf_d line). split; [now apply d_text|]. split; [reflexivity|].
    unfold Demangle, shown. rewrite cstr_id by auto. destruct (cxa func); reflexivity. }
  destruct L as (pre & fn & L & ->). exists pre, fn. eexists. split; [exact L|]. split; [reflexivity|].
  destruct (resolve c).
  - destruct sym as [s|]; [|apply addrToHex_spec; auto]. specialize (Hs s eq_refl).
    destruct (splits_dec s) as [(obj & func & rest & S1)|S1].
    + left. exists obj, func, rest. split; [auto|]. destruct S1 as (-> & F1 & F2). now apply symbol_split.
    + right. split; [auto|]. now apply symbol_plain.
  - apply addrToHex_spec; auto.
Qed.

Lemma trace_loop_spec c info cxa frames : forall n i out, (i + length frames = n)%nat ->
  trace_loop c info cxa n i frames out = out ++ sep_by [delim c] (map (fun fr => frame_text c info cxa (snd fr) (fst fr)) frames).
Proof.
  induction frames as [|[addr sym] r IH]; intros n i out E; cbn [trace_loop map].
  - cbn. now rewrite app_nil_r.
  - cbn [length] in E. destruct r as [|fr r].
    + cbn [length] in E. destruct (i <? n - 1)%nat eqn:L; [apply Nat.ltb_lt in L; lia|]. cbn. reflexivity.
    + destruct (i <? n - 1)%nat eqn:L; [|apply Nat.ltb_ge in L; cbn [length] in E; lia].
      rewrite IH by (cbn [length] in *; lia). cbn [fst snd map sep_by]. rewrite <- !app_assoc. reflexivity.
Qed.

(** ** C84: a stack trace has one entry for each captured frame, in order, separated by a space (one line) or a newline; each entry shows
    the address, or the symbol with its function name demangled and everything else unchanged *)
Theorem C84_trace : forall c info cxa frames, Forall (frame_ok c info) frames ->
  exists lines, Forall2 (fun fr line => frame_line c info cxa (fst fr) (snd fr) line) frames lines /\
    trace_toString c info cxa frames = sep_by (if is_one_line c then str " " else str "
") lines.
Proof.
  intros c info cxa frames F. exists (map (fun fr => frame_text c info cxa (snd fr) (fst fr)) frames). split.
  - induction F as [|fr frames H F IH]; cbn [map]; constructor; auto. now apply frame_text_spec.
  - destruct frames as [|fr frames]; [reflexivity|]. unfold trace_toString. rewrite trace_loop_spec by reflexivity. cbn [app].
    f_equal. unfold delim. rewrite oneline_spec. destruct (is_one_line c); reflexivity.
Qed.
(** at most 32 frames are captured, the innermost ones *)
Theorem C84_depth : forall frames, exists rest, frames = StackTrace_new frames ++ rest /\ (length (StackTrace_new frames) <= 32)%nat /\
  ((length frames <= 32)%nat -> rest = []).
Proof.
  intros frames. unfold StackTrace_new. exists (skipn 32 frames). split; [symmetry; apply firstn_skipn|]. split; [rewrite firstn_length; lia|]. intros L. apply skipn_all2. lia.
Qed.
Example C84_trace_nonvacuous :
  trace_toString (mk_config false false) (fun _ => None) (fun _ => None) [(0x4007f0, None); (0x7fff00000000, None)] = str "0x4007f0 0x7fff00000000" /\
  trace_toString (mk_config false true) (fun _ => None) (fun f => if list_eq_dec Z.eq_dec f (str "_Z1fv") then Some (str "f()") else None)
    [(0x4007f0, Some (str "./a(_Z1fv+0x4) [0x4007f0]")); (0x10, Some (str "./b() [0x10]"))] = str "./a(f()+0x4) [0x4007f0] 
./b() [0x10] " /\
  trace_toString (mk_config true false) (fun _ => Some (str "a.cpp", str "f", 12)) (fun _ => None) [(0x4007f0, None)] = str "a.cpp:12 [0x4007f0]" /\
  Forall (frame_ok (mk_config false true) (fun _ => None)) [(0x4007f0, Some (str "./a(_Z1fv+0x4) [0x4007f0]"))].
Proof.
  split; [reflexivity|]. split; [reflexivity|]. split; [reflexivity|]. constructor; [|constructor]. split; [cbn; lia|]. split; [|discriminate].
  intros s E. injection E as <-. repeat constructor; discriminate.
Qed.

(** ** C84: on Windows a wide string item becomes plain ASCII text of the documented form *)
Inductive wide_unit : Z -> list Z -> Prop :=
| wu_ascii c : 0 <= c < 128 -> wide_unit c [c]
| wu_other c h : 128 <= c < 65536 -> zlen h = 4 -> Forall lower_or_digit h -> hex_value h = c -> wide_unit c (str "\u" ++ h).
Theorem C84_wide : forall w, Forall (fun c => 0 <= c < 65536) w ->
  exists parts, Forall2 wide_unit w parts /\ wstr2str w = concat parts /\ Forall (fun c => 0 <= c < 128) (wstr2str w).
Proof.
  assert (V0: forall k s, hex_value (repeat 48 k ++ s) = hex_value s).
  { intros k s. unfold hex_value. induction k as [|k IH]; [reflexivity|]. cbn [repeat app map]. rewrite <- IH. unfold value. cbn. reflexivity. }
  assert (P: forall c, 128 <= c < 65536 -> let h := printf_04x c in zlen h = 4 /\ Forall lower_or_digit h /\ hex_value h = c).
  { intros c Hc h. pose proof (llx_text c ltac:(lia)) as C.
    assert (L: zlen (printf_llx c) <= 4).
    { eapply (canonical_len 16 lower_or_digit xdigit); [lia| | |exact C|lia|lia].
      all: intros d Hd; unfold lower_or_digit in Hd; unfold xdigit; destruct (d <=? 57) eqn:?; [lia|]; destruct (d <=? 70) eqn:?; lia. }
    destruct C as (_ & F & V & _). subst h. unfold printf_04x. split; [|split].
    - unfold zlen in *. rewrite app_length, repeat_length. lia.
    - apply Forall_app. split; auto. apply Forall_forall. intros x Hx. apply repeat_spec in Hx. subst x. unfold lower_or_digit. lia.
    - rewrite V0. exact V. }
  assert (U: forall c, 0 <= c < 65536 -> wide_unit c (if c <? 0x80 then [c] else snprintf 16 (str "\u" ++ printf_04x c))).
  { intros c Hc. destruct (c <? 0x80) eqn:E; [constructor; lia|]. destruct (P c) as (L & F & V); [lia|].
    unfold snprintf. change (16 <=? 0) with false. rewrite firstn_all2; [constructor; auto; lia|].
    rewrite app_length. change (length (str "\u")) with 2%nat. unfold zlen in L. lia. }
  intros w F. induction F as [|c w Hc F (parts & F2 & E & A)].
  - exists []. cbn. split; constructor; constructor.
  - eexists (_ :: parts). split; [constructor; [apply (U c Hc)|exact F2]|]. split; [cbn [wstr2str concat]; now rewrite E|].
    cbn [wstr2str]. apply Forall_app. split; auto. destruct (U c Hc) as [x Hx|x h Hx L G V].
    + constructor; auto.
    + change (str "\u") with [92; 117]. repeat (constructor; [lia|]). eapply Forall_impl; [|exact G]. unfold lower_or_digit. cbn. lia.
Qed.
Example C84_wide_nonvacuous : wstr2str [97; 0x3042; 0xe9] = str "a\u3042\u00e9".
Proof. reflexivity. Qed.

(** ** Finding: a NUL inside the name hides the whole rest of the message, and a NUL inside an item drops the rest of that item
    (exception.hpp:135, 164).  Two different messages then read the same. *)
Theorem C84_nul_finding :
  let e := Exception_new (str "open" ++ [0] ++ str "x") false [] in
  snd (what (mk_config false false) [] (append_str e (str "file"))) = str "open" /\
  snd (exn_toString (mk_config false false) [] (append_str (Exception_new (str "open") false []) (str "a" ++ [0] ++ str "b"))) = str "open:a".
Proof. split; reflexivity. Qed.

(** ** Finding: in the one-line form an item appended after the message was asked for is glued to the last address of the trace
    (exception.hpp:142-143, 158), so that address is no longer a hexadecimal number for a reader of the trace. *)
Theorem C84_late_item_finding :
  snd (exn_toString (mk_config false false) [] (run (mk_config false false) [Show; Add (str "more")] (Exception_new (str "e") true (str "0x10 0x20")))) = str "e
<<<STACKTRACE>>> 0x10 0x20:more".
Proof. reflexivity. Qed.

(** ** Finding: the wide-string form is not injective: a text that already holds a backslash escape reads like the character itself
    (exception.hpp:75-80 escapes no backslash). *)
Theorem C84_wide_finding : wstr2str [0xe9] = wstr2str (str "\u00e9") /\ [0xe9] <> str "\u00e9".
Proof. split; [reflexivity|discriminate]. Qed.

Print Assumptions C84_message.
Print Assumptions C84_injective.
Print Assumptions C84_nothrow.
Print Assumptions C84_errno.
Print Assumptions C84_errno_read_back.
Print Assumptions C84_trace.
Print Assumptions C84_depth.
Print Assumptions C84_wide.
