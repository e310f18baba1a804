(** C94: character classes, case, conversions and the overloads of cybozu/regex.hpp. *)
Require Import Verif.Common Verif.Utf8Model Verif.Utf8Spec Verif.Utf8Props Verif.StringModel Verif.RegexModel.
Require Verif.StringProps.
Import ListNotations.
Local Open Scope Z_scope.

(** ** Specification: the classes of the C locale over code points *)
Definition within (a c b : Z) : bool := (a <=? c) && (c <=? b).
Definition c_upper c := within 65 c 90.
Definition c_lower c := within 97 c 122.
Definition c_digit c := within 48 c 57.
Definition c_alpha c := c_upper c || c_lower c.
Definition c_alnum c := c_alpha c || c_digit c.
Definition c_print c := within 32 c 126.
Definition c_graph c := within 33 c 126.
Definition c_punct c := c_graph c && negb (c_alnum c).
Definition c_cntrl c := within 0 c 31 || (c =? 127).
Definition c_space c := within 9 c 13 || (c =? 32).
Definition c_xdigit c := c_digit c || within 65 c 70 || within 97 c 102.
(** the library's masks, as the comment in the code lists them (regex.hpp:110-118), and the two made of them *)
Definition classes : list (Z * (Z -> bool)) :=
  [(0x1, c_upper); (0x2, c_lower); (0x4, c_digit); (0x10, c_punct); (0x20, c_cntrl); (0x80, c_xdigit); (0x48, c_space);
   (0x1d7, c_print); (0x103, c_alpha); (0x107, c_alnum); (0x117, c_graph)].
Definition int_ (c : Z) : Prop := - 2 ^ 31 <= c < 2 ^ 31.
Definition char_ (c : Z) : Prop := -128 <= c < 128.

(** ** Proofs *)
Definition all256 : list Z := map Z.of_nat (seq 0 256).
Lemma in256 c : 0 <= c < 256 -> In c all256.
Proof. intros H. unfold all256. apply in_map_iff. exists (Z.to_nat c). split; [lia|]. apply in_seq. lia. Qed.
Definition agree (m c : Z) (f : Z -> bool) : bool := match nth_error maskTbl (Z.to_nat c) with Some t => Bool.eqb (negb (Z.land t m =? 0)) (f c) | None => false end.
Lemma agree_all : forallb (fun '(m, f) => forallb (fun c => agree m c f) all256) classes = true.
Proof. vm_compute. reflexivity. Qed.
Lemma outside_range m f c : In (m, f) classes -> ~ 0 <= c < 256 -> f c = false.
Proof.
  intros I H. cbn [classes In] in I. repeat (destruct I as [I|I]; [injection I as _ <-; cbv [c_upper c_lower c_digit c_punct c_cntrl c_xdigit c_space c_print c_alpha c_alnum c_graph within]; lia|]). destruct I.
Qed.
Lemma high_bits c : int_ c -> (Z.land (u32 c) (u32 (Z.lnot 255)) =? 0) = ((0 <=? c) && (c <? 256)).
Proof.
  unfold int_, u32. intros H. change (Z.lnot 255 mod 2 ^ 32) with (Z.lnot 255 mod 2 ^ 32).
  assert (E : Z.land (c mod 2 ^ 32) (Z.lnot 255 mod 2 ^ 32) = (c mod 2 ^ 32) / 256 * 256).
  { replace (Z.lnot 255 mod 2 ^ 32) with (Z.shiftl (Z.ones 24) 8) by reflexivity.
    rewrite <- (Z.shiftl_mul_pow2 _ 8), <- (Z.shiftr_div_pow2 _ 8) by lia. apply Z.bits_inj'. intros n Hn.
    rewrite Z.land_spec, !Z.shiftl_spec by lia. destruct (Z.ltb_spec n 8).
    - rewrite !(Z.testbit_neg_r _ (n - 8)) by lia. now rewrite Bool.andb_false_r.
    - rewrite Z.shiftr_spec by lia. replace (n - 8 + 8) with n by lia. rewrite Z.testbit_ones by lia.
      destruct (Z.ltb_spec (n - 8) 24); [replace (0 <=? n - 8) with true by lia; now rewrite Bool.andb_true_r|].
      rewrite Z.mod_pow2_bits_high by lia. now rewrite Bool.andb_false_l. }
  rewrite E. destruct (Z.leb_spec 0 c), (Z.ltb_spec c 256); cbn [andb]; rewrite ?Z.eqb_eq, ?Z.eqb_neq; lia.
Qed.
Lemma rd_tbl c : 0 <= c < 256 -> exists t, rd maskTbl c = Ok t /\ nth_error maskTbl (Z.to_nat c) = Some t.
Proof. intros H. unfold rd. destruct (Z.ltb_spec c 0); [lia|]. destruct (nth_error maskTbl (Z.to_nat c)) eqn:E; [eauto|]. apply nth_error_None in E. cbn [length maskTbl] in E. lia. Qed.
Lemma tbl_class m f c t : In (m, f) classes -> 0 <= c < 256 -> nth_error maskTbl (Z.to_nat c) = Some t -> negb (Z.land t m =? 0) = f c.
Proof.
  intros I H E. pose proof agree_all as A. apply (proj1 (forallb_forall _ _)) with (x := (m, f)) in A; [|exact I]. cbv beta iota in A. apply (proj1 (forallb_forall _ _)) with (x := c) in A; [|exact (in256 c H)]. unfold agree in A. rewrite E in A. now apply Bool.eqb_prop in A.
Qed.
(** ** C94: is decides the classes of the C locale for every Char *)
Theorem C94_is m f c : In (m, f) classes -> int_ c -> is m c = Ok (f c).
Proof.
  intros I H. unfold is. rewrite high_bits by auto. destruct (Z.leb_spec 0 c), (Z.ltb_spec c 256); cbn [andb negb]; try (f_equal; symmetry; apply (outside_range m f); auto; lia).
  unfold to_uchar. rewrite Z.mod_small by lia. destruct (rd_tbl c) as (t & -> & E); [lia|]. cbn [bind]. f_equal. eapply tbl_class; eauto; lia.
Qed.
(** ** C94: is over a range fills one mask per character, right for the characters 0 to 255 and for -1 *)
Theorem C94_is_range l : Forall (fun c => 0 <= c < 256 \/ c = -1) l -> exists d, is_range l = Ok d /\ Forall2 (fun c t => forall m f, In (m, f) classes -> negb (Z.land t m =? 0) = f c) l d.
Proof.
  induction 1 as [|c l H F IH]; [exists []; split; constructor|]. cbn [is_range]. destruct IH as (d & -> & D).
  assert (U : to_uchar (narrow c 0) = if 0 <=? c then c else 255).
  { unfold to_uchar, narrow, to_char. destruct (Z.leb_spec 0 c), (Z.ltb_spec c 256), (Z.eqb_spec c (-1)); cbn [andb orb]; try lia; destruct (c mod 256 <? 128) eqn:?; lia. }
  rewrite U. destruct (rd_tbl (if 0 <=? c then c else 255)) as (t & -> & E); [destruct (0 <=? c) eqn:?; lia|]. cbn [bind]. eexists. split; [reflexivity|]. constructor; auto.
  intros m f I. destruct (Z.leb_spec 0 c).
  - eapply tbl_class; eauto; lia.
  - rewrite (outside_range m f c) by (auto; lia). cbn in E. injection E as <-. reflexivity.
Qed.
(** ** Finding: is over a range calls every other character, such as a hiragana, a control character; the single form does not *)
Theorem C94_range_finding : is_range [0x3042] = Ok [0x20] /\ is 0x20 0x3042 = Ok false.
Proof. split; reflexivity. Qed.
(** ** C94: scan_is and scan_not stop at the first character of, or not of, the class *)
Theorem C94_scan m f l : In (m, f) classes -> Forall int_ l ->
  (exists a b, l = a ++ b /\ scan_is m l = Ok (zlen a) /\ Forall (fun c => f c = false) a /\ match b with [] => True | c :: _ => f c = true end) /\
  (exists a b, l = a ++ b /\ scan_not m l = Ok (zlen a) /\ Forall (fun c => f c = true) a /\ match b with [] => True | c :: _ => f c = false end).
Proof.
  intros I F. split.
  - induction F as [|c l H F IH]; [exists [], []; repeat split; constructor|]. cbn [scan_is]. rewrite (C94_is m f c I H). cbn [bind]. destruct (f c) eqn:E; cbn [negb].
    + exists [], (c :: l). repeat split; auto.
    + destruct IH as (a & b & -> & -> & A & B). exists (c :: a), b. repeat split; auto. cbn [bind]. f_equal. unfold zlen. cbn [length]. lia.
  - induction F as [|c l H F IH]; [exists [], []; repeat split; constructor|]. cbn [scan_not]. rewrite (C94_is m f c I H). cbn [bind]. destruct (f c) eqn:E.
    + destruct IH as (a & b & -> & -> & A & B). exists (c :: a), b. repeat split; auto. cbn [bind]. f_equal. unfold zlen. cbn [length]. lia.
    + exists [], (c :: l). repeat split; auto.
Qed.
(** ** C94: case conversion changes the 26 letters only, inverts on them, stays in int, and works element by element over a range *)
Theorem C94_case c : int_ c ->
  int_ (tolower c) /\ int_ (toupper c) /\ c_upper (tolower c) = false /\ c_lower (toupper c) = false /\
  (c_upper c = false -> tolower c = c) /\ (c_lower c = false -> toupper c = c) /\
  (c_upper c = true -> c_lower (tolower c) = true /\ toupper (tolower c) = c) /\
  (c_lower c = true -> c_upper (toupper c) = true /\ tolower (toupper c) = c) /\
  (forall l, tolower_range l = map tolower l /\ toupper_range l = map toupper l).
Proof.
  unfold int_, tolower, toupper, c_upper, c_lower, within. intros H.
  assert (R : forall l, tolower_range l = map tolower l /\ toupper_range l = map toupper l) by (induction l as [|a l (IH1 & IH2)]; cbn; [auto|rewrite IH1, IH2; auto]).
  destruct (Z.leb_spec 65 c), (Z.leb_spec c 90), (Z.leb_spec 97 c), (Z.leb_spec c 122); cbn [andb]; try lia; repeat split; intros; try lia; try apply R;
  repeat match goal with |- context [?a <=? ?b] => destruct (Z.leb_spec a b); cbn [andb] end; try lia; auto; try discriminate.
Qed.
(** ** C94: narrow and widen are inverse on ASCII and -1; other characters give the default; widen never leaves its value *)
Theorem C94_narrow c d :
  (0 <= c < 128 \/ c = -1 -> narrow (widen c) d = c) /\
  (128 <= c < 256 -> narrow c d = c - 256 /\ to_uchar (narrow c d) = c) /\
  (~ 0 <= c < 256 -> c <> -1 -> narrow c d = d) /\
  (forall l, widen_range l = l /\ narrow_range l d = map (fun c => narrow c d) l).
Proof.
  split; [|split; [|split]].
  - unfold narrow, widen, to_char. intros H. destruct (Z.leb_spec 0 c), (Z.ltb_spec c 256), (Z.eqb_spec c (-1)); cbn [andb orb]; try lia; destruct (c mod 256 <? 128) eqn:?; lia.
  - unfold narrow, widen, to_char, to_uchar. intros H. destruct (Z.leb_spec 0 c), (Z.ltb_spec c 256); cbn [andb orb]; try lia; destruct (c mod 256 <? 128) eqn:?; lia.
  - unfold narrow. intros H1 H2. destruct (Z.leb_spec 0 c), (Z.ltb_spec c 256), (Z.eqb_spec c (-1)); cbn [andb orb]; try lia; auto.
  - induction l as [|a l (IH1 & IH2)]; cbn; [auto|rewrite IH1, IH2; auto].
Qed.
(** ** Finding: the chars 0x80 to 0xFE, negative in a signed char, do not survive widen and narrow *)
Theorem C94_narrow_finding c d : -128 <= c < -1 -> narrow (widen c) d = d.
Proof. unfold narrow, widen. intros H. destruct (Z.leb_spec 0 c), (Z.eqb_spec c (-1)); cbn [andb orb]; try lia; auto. Qed.
(** ** C94: regex_traits::value is the digit value in base 8, 10 and 16, -1 for every other Char *)
Definition digit_of (c : Z) : option Z := if c_digit c then Some (c - 48) else if within 97 c 102 then Some (c - 87) else if within 65 c 70 then Some (c - 55) else None.
Theorem C94_value c base : base = 8 \/ base = 10 \/ base = 16 -> value c base = match digit_of c with Some d => if d <? base then d else -1 | None => -1 end.
Proof.
  unfold value, digit_of, c_digit, within. intros [->|[->| ->]]; cbn [Z.eqb Pos.eqb negb andb orb];
  destruct (Z.leb_spec 48 c), (Z.leb_spec c 57), (Z.leb_spec c 55), (Z.leb_spec 97 c), (Z.leb_spec c 102), (Z.leb_spec 65 c), (Z.leb_spec c 70); cbn [andb orb]; try lia;
  repeat match goal with |- context [?a <? ?b] => destruct (Z.ltb_spec a b) end; try lia.
Qed.
(** ** C94: regex_local::in is the interval test for chars min <= max that are not negative *)
Theorem C94_in c min max : 0 <= c < 2 ^ 32 -> char_ min -> char_ max -> 0 <= min <= max -> in_ c min max = ((min <=? c) && (c <=? max)).
Proof.
  unfold in_, u32, char_. intros H1 H2 H3 H4. rewrite !(Z.mod_small min), !(Z.mod_small (max - min)) by lia.
  destruct (Z.leb_spec min c), (Z.leb_spec c max); cbn [andb]; rewrite ?Z.leb_le, ?Z.leb_gt.
  - rewrite Z.mod_small by lia. lia.
  - rewrite Z.mod_small by lia. lia.
  - replace (c - min) with (c - min + 2 ^ 32 + (-1) * 2 ^ 32) by lia. rewrite Z.mod_add, Z.mod_small by lia. lia.
  - lia.
Qed.
(** ** Finding: with reversed bounds every c but those strictly between them is inside *)
Theorem C94_in_finding : in_ 200 57 48 = true /\ in_ 57 57 48 = true /\ in_ 50 57 48 = false.
Proof. repeat split; reflexivity. Qed.
(** ** C94: the class names mean their class *)
Definition ascii (s : list Z) (c : cls) : Prop := lookup Names s = Some c.
Theorem C94_names :
  ascii [98; 108; 97; 110; 107] Blank /\ ascii [99; 110; 116; 114; 108] Cntrl /\ ascii [100; 105; 103; 105; 116] Digit /\ ascii [100] Digit /\
  ascii [103; 114; 97; 112; 104] Graph /\ ascii [108; 111; 119; 101; 114] Lower /\ ascii [112; 114; 105; 110; 116] Print /\ ascii [112; 117; 110; 99; 116] Punct /\
  ascii [115; 112; 97; 99; 101] Space /\ ascii [115] Space /\ ascii [117; 112; 112; 101; 114] Upper /\ ascii [119] Word /\ ascii [120; 100; 105; 103; 105; 116] Xdigit /\
  (forall s c, lookup Names s = Some c -> In (s, c) Names).
Proof.
  repeat split. assert (G : forall t s c, lookup t s = Some c -> In (s, c) t).
  { induction t as [|[k d] t IH]; intros s c; cbn [lookup]; [discriminate|]. destruct (list_eq_dec Z.eq_dec k s) as [->|]; [intros E; injection E as ->; now left|]. intros E. right. auto. }
  apply G.
Qed.
(** ** Finding: [[:alpha:]] means alphanumeric, so it accepts digits, and [[:alnum:]] is not a class *)
Theorem C94_alpha_finding : ascii [97; 108; 112; 104; 97] Alnum /\ lookup Names [97; 108; 110; 117; 109] = None.
Proof. split; reflexivity. Qed.

Section Engine.
Variables (re match_ flags : Type) (compile : list Z -> flags -> res re).
Variables (search fullmatch : list Z -> re -> flags -> bool * match_) (replace : list Z -> re -> list Z -> flags -> list Z).
Lemma zstr_nul s r : ~ In 0 s -> zstr (s ++ 0 :: r) = Ok s.
Proof. induction s as [|c s IH]; intros N; cbn [app zstr]; [reflexivity|]. destruct (Z.eqb_spec c 0); [subst; destruct N; now left|]. rewrite IH by (intros I; apply N; now right). reflexivity. Qed.
Lemma push16_text l : scalars l -> forall f acc, (length (utf16_text l) < f)%nat -> push16 f acc (utf16_text l) = Ok (acc ++ l, true).
Proof.
  induction l as [|v l IH]; intros S f acc L.
  - destruct f; cbn; now rewrite app_nil_r.
  - inversion S as [|? ? Sv Sl]; subst. change (utf16_text (v :: l)) with (utf16 v ++ utf16_text l) in *. rewrite app_length in L. pose proof (utf16_len v). destruct f; [lia|].
    assert (B: code_units16 (utf16_text l)). { clear - Sl. induction Sl; [constructor|]. apply Forall_app; split; auto. apply utf16_units; auto. }
    cbn [push16]. destruct (utf16 v ++ utf16_text l) eqn:E; [destruct (utf16 v); cbn in *; [lia|discriminate]|]. rewrite <- E, get16_utf16 by auto. cbn [bind].
    rewrite IH by (auto; lia). now rewrite <- app_assoc.
Qed.
Lemma utf16_no0 l : scalars l -> ~ In 0 l -> ~ In 0 (utf16_text l).
Proof.
  induction 1 as [|v l Sv Sl IH]; intros N; [auto|]. change (utf16_text (v :: l)) with (utf16 v ++ utf16_text l). intros I. apply in_app_or in I as [I|I]; [|apply IH; auto; intros J; apply N; now right].
  apply N. left. unfold utf16, scalar in *. destruct (v <? 65536) eqn:E; cbn [In] in I; [intuition lia|]. destruct I as [I|[I|[]]]; lia.
Qed.
(** ** C94: every constructor gives the engine the pattern it was given, if it has no NUL *)
Theorem C94_pattern p f : ~ In 0 p ->
  (forall r, regex_ptr _ _ compile (p ++ 0 :: r) f = compile p f) /\ regex_str _ _ compile p f = compile p f /\ regex_range _ _ compile p f = compile p f /\
  (forall r, regex_len _ _ compile (p ++ r) (zlen p) f = compile p f) /\
  (scalars p -> forall r, regex_16 _ _ compile (utf16_text p ++ 0 :: r) f = compile p f).
Proof.
  intros N. assert (P : forall r, regex_ptr _ _ compile (p ++ 0 :: r) f = compile p f) by (intros r; unfold regex_ptr; now rewrite zstr_nul).
  split; [exact P|]. split; [apply P|]. split; [reflexivity|]. split.
  - intros r. unfold regex_len. destruct (Z.leb_spec (zlen p) (zlen (p ++ r))) as [|L]; [|unfold zlen in L; rewrite app_length in L; lia]. f_equal. unfold zlen. rewrite Nat2Z.id, firstn_app, firstn_all, Nat.sub_diag. cbn. apply app_nil_r.
  - intros S r. unfold regex_16. rewrite zstr_nul by (apply utf16_no0; auto). cbn [bind]. rewrite push16_text by (auto; lia). cbn [bind app]. apply P.
Qed.
(** ** C94: a pattern of Char16 that is not the code units of any text (a lone low unit counting as a character) throws *)
Theorem C94_bad_utf16 s r f : code_units16 s -> ~ In 0 s ->
  (~ exists p, Forall StringProps.char16 p /\ s = concat (map StringProps.units16 p)) -> regex_16 _ _ compile (s ++ 0 :: r) f = Exn.
Proof.
  intros B N X. unfold regex_16. rewrite zstr_nul by auto. cbn [bind].
  destruct (StringProps.push16_spec (S (length s)) [] s ltac:(lia) B) as (p & q & P1 & P2 & P3 & _). rewrite P3. cbn [bind].
  destruct q; [|reflexivity]. destruct X. exists p. split; [exact P1|]. now rewrite app_nil_r in P2.
Qed.
(** ** Finding: a pattern String with a NUL is cut there, the other forms take all of it *)
Theorem C94_nul_finding p r f : ~ In 0 p -> regex_str _ _ compile (p ++ 0 :: r) f = compile p f /\ regex_range _ _ compile (p ++ 0 :: r) f = compile (p ++ 0 :: r) f.
Proof. intros N. split; [|reflexivity]. unfold regex_str, regex_ptr. rewrite <- app_assoc. cbn [app]. now rewrite zstr_nul. Qed.
Lemma sub_mid (a b c : list Z) : sub (a ++ b ++ c) (length a) (length a + length b) = b.
Proof. unfold sub. rewrite skipn_app, skipn_all, Nat.sub_diag. cbn. replace (length a + length b - length a)%nat with (length b + 0)%nat by lia. rewrite firstn_app_2. cbn. apply app_nil_r. Qed.
(** ** C94: every overload of search, match and replace runs the engine on exactly its range *)
Theorem C94_overloads a b c e fmt f : let s := a ++ b ++ c in let first := length a in let last := (length a + length b)%nat in
  regex_search_range _ _ _ search s first last e f = search b e f /\ regex_search_range0 _ _ _ search s first last e f = fst (search b e f) /\
  regex_search _ _ _ search s e f = search s e f /\ regex_search0 _ _ _ search s e f = fst (search s e f) /\
  regex_match_range _ _ _ fullmatch s first last e f = fullmatch b e f /\ regex_match_range0 _ _ _ fullmatch s first last e f = fst (fullmatch b e f) /\
  regex_match _ _ _ fullmatch s e f = fullmatch s e f /\ regex_match0 _ _ _ fullmatch s e f = fst (fullmatch s e f) /\
  regex_replace_range _ _ replace s first last e fmt f = replace b e fmt f /\ regex_replace _ _ replace s e fmt f = replace s e fmt f.
Proof.
  intros s first last. assert (W : sub s 0 (length s) = s) by (unfold sub; cbn; now rewrite Nat.sub_0_r, firstn_all).
  assert (M : sub s first last = b) by apply sub_mid.
  unfold regex_search_range0, regex_search0, regex_match_range0, regex_match0, regex_search, regex_match, regex_replace, regex_search_range, regex_match_range, regex_replace_range. rewrite W, M. repeat split.
Qed.
End Engine.
Example C94_bad_hyp : code_units16 [0xd83d; 66] /\ ~ In 0 [0xd83d; 66] /\ ~ exists p, Forall StringProps.char16 p /\ [0xd83d; 66] = concat (map StringProps.units16 p).
Proof.
  split; [repeat constructor; lia|]. split; [cbn; lia|]. intros (p & P & E). destruct p as [|v p]; [discriminate|]. inversion P as [|? ? V _]; subst. cbn [map concat] in E.
  unfold StringProps.char16, scalar in V. unfold StringProps.units16, utf16 in E. destruct ((56320 <=? v) && (v <? 57344)) eqn:D; [injection E as E1 _; lia|].
  destruct (v <? 65536) eqn:D2; cbn [app] in E; [injection E as E1 _; lia|]. assert (66 = 0xdc00 + (v - 0x10000) mod 1024) by congruence. pose proof (Z.mod_pos_bound (v - 0x10000) 1024 ltac:(lia)). lia.
Qed.
Example C94_bad_example : regex_16 _ unit (fun p _ => Ok p) [65; 0xd83d; 66; 0; 7] tt = Exn.
Proof. reflexivity. Qed.
Example C94_example : is 0x103 (-1) = Ok false /\ is 0x117 0x40 = Ok true /\ scan_is 4 [97; 0x3042; 55; 56] = Ok 2 /\ scan_not 4 [49; 50; -5] = Ok 2 /\ tolower_range [65; 0x3042; 98] = [97; 0x3042; 98] /\ value 70 16 = 15 /\ value 56 8 = -1
  /\ regex_16 _ unit (fun p _ => Ok p) [0xd83d; 0xde00; 65; 0; 7] tt = Ok [0x1f600; 65].
Proof. repeat split; reflexivity. Qed.
Print Assumptions C94_is. Print Assumptions C94_is_range. Print Assumptions C94_range_finding. Print Assumptions C94_scan. Print Assumptions C94_case. Print Assumptions C94_narrow. Print Assumptions C94_narrow_finding. Print Assumptions C94_value. Print Assumptions C94_in. Print Assumptions C94_in_finding. Print Assumptions C94_names. Print Assumptions C94_alpha_finding. Print Assumptions C94_pattern. Print Assumptions C94_bad_utf16. Print Assumptions C94_nul_finding. Print Assumptions C94_overloads.
