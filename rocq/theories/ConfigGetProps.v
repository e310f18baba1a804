(** C111: configuration values as integers, files by name, loads that throw *)
Require Import Verif.Common Verif.Text Verif.AtoiSpec Verif.AtoiModel Verif.ItoaModel Verif.NumProps Verif.ConfigModel Verif.LineProps Verif.ConfigProps Verif.ConfigGetModel.

(** ** Specification *)
(** the types with a conversion, with their ranges *)
Definition config_types : list (ityp * (Z * Z)) :=
  [ (ty_i16, (- 2 ^ 15, 2 ^ 15 - 1)); (ty_u16, (0, 2 ^ 16 - 1)); (ty_i32, (- 2 ^ 31, 2 ^ 31 - 1)); (ty_u32, (0, 2 ^ 32 - 1));
    (ty_i64, (- 2 ^ 63, 2 ^ 63 - 1)); (ty_u64, (0, 2 ^ 64 - 1)) ].
Lemma config_types_in x : In x config_types -> In x type_ranges.
Proof. unfold config_types, type_ranges. cbn [In]. tauto. Qed.

(** ** C111: a key that is missing throws, or gives the default; a value that is there is never replaced by the default: it is the number
    it shows (the language of C02: a decimal numeral of the type), or the call throws *)
Theorem C111_value t lo hi s key d : In (t, (lo, hi)) config_types ->
  (queryValue s key = None -> getValueAs t s key = Exn /\ getValueInteger t s key d = Ok d) /\
  (forall v, queryValue s key = Some v -> bytes v ->
     (forall n, language lo hi (visible v (zlen v)) n -> getValueAs t s key = Ok n /\ getValueInteger t s key d = Ok n) /\
     ((forall n, ~ language lo hi (visible v (zlen v)) n) -> getValueAs t s key = Exn /\ getValueInteger t s key d = Exn)).
Proof.
  intros T. apply config_types_in in T. unfold getValueAs, getValueInteger. split; [intros ->; auto|].
  intros v -> B. unfold rt_get.
  destruct (C02_atoi_string_exact t lo hi v T B) as [(n & L & E & E')|(N & E & E')]; rewrite E; cbn [bind].
  - split; [|intros N; exfalso; eapply N; eauto]. intros m M.
    assert (n = m); [|subst; auto].
    pose proof (C02_atoi_exact t lo hi (v ++ [0]) (zlen v) T) as X.
    assert (V: visible (v ++ [0]) (zlen v) = visible v (zlen v)).
    { clear. induction v as [|c v IH]; [reflexivity|]. rewrite zlen_cons. cbn [visible app]. destruct (_ <=? 0); auto. destruct (c =? 0); auto.
      replace (1 + zlen v - 1) with (zlen v) by lia. replace (zlen v + 1 - 1) with (zlen v) by lia. now rewrite IH. }
    rewrite V in X. destruct X as [(k & _ & U & _ & _)|(N & _)].
    + apply Forall_app. split; [auto|]. constructor; [unfold is_byte; lia|constructor].
    + unfold zlen. lia.
    + right. apply in_or_app. right. left. auto.
    + intros _. right. left. rewrite zlen_app, zlen_cons, zlen_nil. lia.
    + rewrite (U n L), (U m M). auto.
    + exfalso. eapply N; eauto.
  - split; [intros n L; exfalso; eapply N; eauto|auto].
Qed.

(** ** C111: a number stored as text survives save and load: written with itoa into any section of a config with good values, it is read
    back from the text of the config, by every type that can hold it *)
Theorem C111_number signed garbage x c sec key v c1 t lo hi : zlen garbage = 40 -> (if signed : bool then - 2 ^ 63 <= x < 2 ^ 63 else 0 <= x < 2 ^ 64) ->
  built c -> (forall s k w, value_of c s k = Some w -> good_value w) ->
  itoa signed garbage x = Ok v -> append_to c sec key v = Ok c1 -> In (t, (lo, hi)) config_types -> lo <= x <= hi ->
  exists c2 s, load_file [] (Some (toString c1)) = Ok c2 /\ getSection c2 sec = Ok s /\ getValueAs t s key = Ok x /\ forall d, getValueInteger t s key d = Ok x.
Proof.
  intros Hg Hx B G I A T R. apply config_types_in in T.
  destruct (C01_itoa_atoi signed garbage x Hg Hx) as (v' & I' & C & P). rewrite I in I'. injection I' as <-.
  specialize (P t lo hi true T R).
  assert (D: Forall (fun ch => ch = 45 \/ 48 <= ch <= 57) v).
  { destruct C as [(_ & _ & F & _)|(_ & d & -> & _ & F & _)]; [|constructor; [auto|]]; (eapply Forall_impl; [|exact F]); cbn; auto. }
  assert (GV: good_value v).
  { rewrite Forall_forall in D. split; [intros H; apply D in H; lia|]. intros v' ->. specialize (D 13). rewrite in_app_iff in D. cbn in D. lia. }
  assert (H: has_section c sec) by (unfold has_section, querySection; unfold append_to in A; destruct (mfind sec c); congruence).
  assert (K: is_name key).
  { unfold append_to in A. destruct (mfind sec c); [|discriminate]. unfold sec_append in A. apply isName_iff. destruct (isName key); [auto|discriminate]. }
  destruct (append_to_spec c sec key v (built_wf _ B) H K) as [(_ & c1' & E & W & V & S)|(_ & E)]; [|congruence].
  rewrite A in E. injection E as <-.
  destruct (C42_round_trip_queries c1) as (c2 & L & Q & _).
  - eapply BAppend; eauto.
  - intros s k w. rewrite V. destruct (str_eq s sec && str_eq k key); [intros X; injection X as <-; auto|eauto].
  - exists c2. specialize (Q sec key). rewrite V in Q. assert (RR: str_eq sec sec && str_eq key key = true) by (rewrite !str_eq_refl; auto). rewrite RR in Q.
    unfold value_of in Q. unfold getSection. destruct (querySection c2 sec) as [s|]; [|discriminate]. exists s. split; [exact L|]. split; [auto|].
    unfold getValueAs, getValueInteger, rt_get. rewrite Q, P. cbn [bind]. auto.
Qed.
Fixpoint lines_st (ls : list (list Z)) (c : config) (cur : list Z) : res unit * config :=
  match ls with
  | [] => (Ok tt, c)
  | l :: r => match load_line c cur l with Ok (c, cur) => lines_st r c cur | Exn => (Exn, c) | UB => (UB, c) | Fuel => (Fuel, c) end
  end.
Lemma loop_st_lines ls last : Forall no_lf ls -> no_lf last -> forall f c cur, (length (lines_text ls last) < f)%nat ->
  load_loop_st f c cur (lines_text ls last) = lines_st (ls ++ [last]) c cur.
Proof.
  intros N NL. induction N as [|l ls H N IH]; intros f c cur F.
  - unfold lines_text in *. cbn [map concat app] in *. destruct f as [|f]; [lia|]. cbn [load_loop_st lines_st]. unfold getline.
    destruct last as [|x last']; [reflexivity|]. rewrite take_line_end by auto. cbn [rev app].
    destruct (load_line c cur (x :: last')) as [[c1 cur1]| | |]; auto. destruct f as [|f]; [cbn in F; lia|]. reflexivity.
  - assert (E : lines_text (l :: ls) last = l ++ 10 :: lines_text ls last) by (unfold lines_text; cbn [map concat]; rewrite <- !app_assoc; reflexivity).
    rewrite E in *. destruct f as [|f]; [lia|]. cbn [load_loop_st]. unfold getline.
    replace (match l ++ 10 :: lines_text ls last with [] => None | _ :: _ => Some (take_line [] (l ++ 10 :: lines_text ls last)) end)
      with (Some (take_line [] (l ++ 10 :: lines_text ls last))) by (destruct l; reflexivity).
    rewrite take_line_lf by auto. cbn [rev app lines_st]. destruct (load_line c cur l) as [[c1 cur1]| | |]; auto.
    apply IH. rewrite app_length in F. cbn in F. lia.
Qed.
Lemma lines_st_spec : forall ls c cur, 
  match load_lines ls c cur with
  | Ok c' => lines_st ls c cur = (Ok tt, c')
  | Exn => exists i l c', nth_error ls i = Some l /\ lines_st ls c cur = (Exn, c') /\ load_lines (firstn i ls) c cur = Ok c' /\ load_lines (firstn i ls ++ [l]) c cur = Exn
  | _ => True
  end.
Proof.
  induction ls as [|l ls IH]; intros c cur; cbn [load_lines lines_st]; [reflexivity|].
  destruct (load_line c cur l) as [[c1 cur1]| | |] eqn:E; cbn [bind]; auto.
  - specialize (IH c1 cur1). destruct (load_lines ls c1 cur1); auto. destruct IH as (i & m & c' & A & B & C & D).
    exists (S i), m, c'. cbn [nth_error firstn app load_lines]. rewrite E. cbn [bind]. auto.
  - exists 0%nat, l, c. cbn. rewrite E. auto.
Qed.
Lemma load_lines_snoc_nil : forall ls c cur, load_lines (ls ++ [[]]) c cur = load_lines ls c cur.
Proof.
  induction ls as [|l ls IH]; intros c cur; cbn [load_lines app]; [reflexivity|]. destruct (load_line c cur l) as [[? ?]| | |]; cbn [bind]; auto.
Qed.
(** ** C111: a load that throws has read the lines before the bad one, and nothing else: the object is as if only those had been loaded *)
Theorem C111_failed_load c ls last : built c -> Forall no_lf ls -> no_lf last ->
  (exists c', load c (lines_text ls last) = Ok c' /\ load_st c (lines_text ls last) = (Ok tt, c')) \/
  (load c (lines_text ls last) = Exn /\ exists i bad c', nth_error (ls ++ [last]) i = Some bad /\ load_st c (lines_text ls last) = (Exn, c') /\
     load c (lines_text (firstn i ls) []) = Ok c' /\ load c (lines_text (firstn i ls) bad) = Exn).
Proof.
  intros B N NL.
  assert (L: forall ls last, Forall no_lf ls -> no_lf last -> load c (lines_text ls last) = load_lines (ls ++ [last]) (minsert [] [] c) []).
  { intros l1 l2 N1 N2. unfold load, appendSection. cbn [isName bind]. apply load_loop_lines; auto. }
  assert (S: load_st c (lines_text ls last) = lines_st (ls ++ [last]) (minsert [] [] c) []).
  { unfold load_st, appendSection. cbn [isName]. apply loop_st_lines; auto. }
  pose proof (lines_st_spec (ls ++ [last]) (minsert [] [] c) []) as X. rewrite <- L in X by auto. rewrite <- S in X.
  destruct (C42_load c ls last B N NL) as [(its & c' & E & _)|(E & _)]; rewrite E in X.
  - left. eauto.
  - right. split; [auto|]. destruct X as (i & bad & c' & A & P & Q & R). exists i, bad, c'. split; [auto|]. split; [auto|].
    assert (I: firstn i (ls ++ [last]) = firstn i ls).
    { assert (i < length (ls ++ [last]))%nat by (apply nth_error_Some; congruence). rewrite app_length in H. cbn in H. rewrite firstn_app. replace (i - length ls)%nat with 0%nat by lia. cbn. apply app_nil_r. }
    rewrite I in *. assert (NF: Forall no_lf (firstn i ls)) by (apply Forall_forall; intros x Hx; rewrite Forall_forall in N; apply N; rewrite <- (firstn_skipn i ls); apply in_or_app; auto).
    assert (NB: no_lf bad). { apply nth_error_In, in_app_or in A. destruct A as [A|[<-|[]]]; [rewrite Forall_forall in N; auto|auto]. }
    rewrite !L by (auto; intros []). rewrite load_lines_snoc_nil. auto.
Qed.
(** ** Finding: a space behind the equal sign belongs to the value: "port = 80" is loaded, and its number cannot be read by any type *)
Theorem C111_space_finding : exists c s, load [] (str "port = 80") = Ok c /\ getSection c [] = Ok s /\ queryValue s (str "port") = Some (str " 80") /\
  Forall (fun t => getValueAs (fst t) s (str "port") = Exn /\ forall d, getValueInteger (fst t) s (str "port") d = Exn) config_types.
Proof. do 2 eexists. split; [reflexivity|]. split; [reflexivity|]. split; [reflexivity|]. repeat constructor. Qed.
(** ** Finding: the result of getValue keeps a reference to the key: kept in a variable and converted later, a bad value makes the message
    of the exception read a string that is gone *)
Theorem C111_later_finding t lo hi s key v : In (t, (lo, hi)) config_types -> queryValue s key = Some v -> bytes v -> (forall n, ~ language lo hi (visible v (zlen v)) n) ->
  getValueLater t s key true = Exn /\ getValueLater t s key false = UB.
Proof.
  intros T Q B N. unfold getValueLater, rt_get. rewrite Q.
  destruct (C02_atoi_string_exact t lo hi v (config_types_in _ T) B) as [(n & L & _)|(_ & -> & _)]; [exfalso; eapply N; eauto|]. auto.
Qed.

(** ** Non-vacuity *)
Definition conf : res config := load [] (str "a=12" ++ [10] ++ str "b=-3" ++ [10] ++ str "[net]" ++ [10] ++ str "port=65536" ++ [10] ++ str "host=x").
Example C111_ex_values : match conf with
  | Ok c => match getSection c [], getSection c (str "net") with
    | Ok g, Ok n => getValueAs ty_i16 g (str "a") = Ok 12 /\ getValueInteger ty_i32 g (str "b") 7 = Ok (-3) /\ getValueAs ty_u32 g (str "b") = Exn /\
        getValueAs ty_u16 n (str "port") = Exn /\ getValueAs ty_u32 n (str "port") = Ok 65536 /\ getValueInteger ty_i32 n (str "host") 7 = Exn /\
        getValueInteger ty_i32 n (str "none") 7 = Ok 7 /\ getValueAs ty_i32 n (str "none") = Exn /\ getValueLater ty_i32 n (str "host") false = UB
    | _, _ => False end
  | _ => False end.
Proof. repeat split. Qed.
Example C111_ex_file c : load_file c None = Exn.
Proof. reflexivity. Qed.
Example C111_ex_failed : load_st [] (lines_text [str "a=1"; str "[s]"; str "b=2"; str "oops"; str "c=3"] []) = (Exn, [([], [(str "a", str "1")]); (str "s", [(str "b", str "2")])]).
Proof. reflexivity. Qed.
Example C111_ex_number : match append_to [([], [])] [] (str "n") (str "-32768") with Ok c => load [] (toString c) = Ok c | _ => False end /\ itoa true (repeat 0 40) (-32768) = Ok (str "-32768").
Proof. split; reflexivity. Qed.

Print Assumptions C111_value.
Print Assumptions C111_number.
Print Assumptions C111_failed_load.
Print Assumptions C111_space_finding.
Print Assumptions C111_later_finding.
