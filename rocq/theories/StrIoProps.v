(** C102: String through text streams and the serializer. *)
Require Import Verif.Common Verif.Text Verif.Utf8Spec Verif.Utf8Model Verif.Utf8Props Verif.StringModel Verif.StringProps Verif.StreamModel Verif.StreamProps
  Verif.EndianModel Verif.EndianProps Verif.SerializerModel Verif.SerializerProps Verif.StrIoModel.
Import ListNotations.
Local Open Scope Z_scope.

(** ** Specification *)
Definition opened (b : list Z) : stream := mk_st b false false.
(** while (getline(is, s, delim)) v.push_back(s); *)
Fixpoint all_lines (fuel : nat) (st : stream) (delim : Z) : res (list (list Z)) :=
  match fuel with
  | O => Fuel
  | S f => match getline st delim with
           | (Ok _, s, st) => if failbit st then Ok [] else let! v := all_lines f st delim in Ok (s :: v)
           | _ => Exn
           end
  end.
(** while (is >> s) v.push_back(s); *)
Fixpoint all_words (fuel : nat) (st : stream) : res (list (list Z)) :=
  match fuel with
  | O => Fuel
  | S f => match extract st with
           | (Ok _, s, st) => if failbit st then Ok [] else let! v := all_words f st in Ok (s :: v)
           | _ => Exn
           end
  end.
(** for (i = 0; i < v.size(); i++) os << v[i] << end[i]; *)
Fixpoint put_all (os : list Z) (l : list (list Z * list Z)) : res unit * list Z :=
  match l with
  | [] => (Ok tt, os)
  | (s, e) :: l => match insert os s with (Ok _, os) => put_all (os ++ e) l | (_, os) => (Exn, os) end
  end.
Definition is_text (s : list Z) : Prop := scalars s.
Definition space (c : Z) : Prop := In c (str " ") \/ 9 <= c <= 13.

(** ** Characters and bytes *)
Lemma utf8_ascii : forall v c, scalar v -> In c (utf8 v) -> c < 128 -> v = c.
Proof. intros v c S I L. unfold utf8 in I. unfold scalar in S. destruct (v <? 128) eqn:?; [unfold In in I; lia|]. destruct (v <? 2048) eqn:?; [unfold In in I; lia|]. destruct (v <? 65536) eqn:?; unfold In in I; lia. Qed.
Lemma text_ascii : forall l c, scalars l -> In c (utf8_text l) -> c < 128 -> In c l.
Proof.
  induction l as [|v l IH]; intros c S I L; [destruct I|]. inversion_clear S as [|? ? Sv Sl]. unfold utf8_text in I. cbn [map concat] in I. apply in_app_or in I. destruct I as [I|I]; [left; apply utf8_ascii; auto|right; apply IH; auto].
Qed.
Lemma text_bytes : forall l, scalars l -> bytes (utf8_text l).
Proof. intros l S. induction S; [constructor|]. apply bytes_app. split; auto. apply utf8_bytes; auto. Qed.
Lemma text_nil : forall l, utf8_text l = [] -> l = [].
Proof. intros [|v l] E; auto. unfold utf8_text in E. cbn in E. apply app_eq_nil in E. destruct E as [E _]. pose proof (utf8_len v) as L. rewrite E in L. cbn in L. lia. Qed.
Lemma assign_text : forall l, scalars l -> assign8 (utf8_text l) = (Ok tt, l).
Proof.
  intros l S. unfold assign8. destruct (push8_spec (length (utf8_text l)) [] (utf8_text l)) as (p & r & P1 & P2 & P3 & P4); [lia|apply text_bytes; auto|].
  rewrite P3. cbn [app].
  assert (G: l = p /\ r = []).
  { clear P3. revert p P1 P2. induction S as [|v l Sv Sl IH]; intros p P1 P2.
    - cbn in P2. symmetry in P2. apply app_eq_nil in P2. destruct P2 as [E ->]. apply text_nil in E. auto.
    - destruct p as [|w p].
      + cbn [utf8_text map concat app] in P2. exfalso. assert (N: r <> []). { intros ->. change (utf8_text (v :: l) = []) in P2. apply text_nil in P2. discriminate. } apply (P4 N v (utf8_text l) Sv). symmetry. exact P2.
      + inversion_clear P1 as [|? ? Sw Sp]. change (utf8 v ++ utf8_text l = (utf8 w ++ utf8_text p) ++ r) in P2. rewrite <- app_assoc in P2.
        destruct (utf8_prefix_free v w _ _ Sv Sw P2) as [-> E]. destruct (IH p Sp E) as [-> ->]. auto. }
  destruct G as [-> ->]. reflexivity.
Qed.
Lemma span_app : forall p a r, (forall c, In c a -> p c = false) -> match r with [] => True | c :: _ => p c = true end -> span p (a ++ r) = (a, r).
Proof.
  induction a as [|c a IH]; intros r H R; cbn [app span].
  - destruct r as [|c r]; auto. cbn [span]. rewrite R. auto.
  - rewrite (H c) by (left; auto). rewrite IH; auto. intros d I. apply H. right. auto.
Qed.
Lemma span_spec : forall p l, let (a, r) := span p l in l = a ++ r /\ (forall c, In c a -> p c = false) /\ match r with [] => True | c :: _ => p c = true end.
Proof.
  induction l as [|c l IH]; cbn [span]; [repeat split; intros c []|]. destruct (p c) eqn:E; [repeat split; auto; intros d []|].
  destruct (span p l) as [a r]. destruct IH as (-> & A & B). repeat split; auto. intros d [<-|I]; auto.
Qed.

(** ** C102: lines *)
Definition line_text (delim : Z) (l : list (list Z)) : list Z := concat (map (fun s => utf8_text s ++ [delim]) l).
Lemma getline_mid : forall s delim r, scalars s -> ~ In delim s -> 0 <= delim < 128 -> getline (opened (utf8_text s ++ delim :: r)) delim = (Ok tt, s, opened r).
Proof.
  intros s delim r S N D. unfold getline, std_getline, opened, good. cbn [eofbit failbit left negb andb]. rewrite span_app.
  - rewrite assign_text by auto. reflexivity.
  - intros c I. apply Z.eqb_neq. intros ->. apply N. apply text_ascii; auto. lia.
  - apply Z.eqb_refl.
Qed.
Lemma getline_last : forall s delim, scalars s -> ~ In delim s -> 0 <= delim < 128 -> s <> [] -> getline (opened (utf8_text s)) delim = (Ok tt, s, mk_st [] true false).
Proof.
  intros s delim S N D Ne. unfold getline, std_getline, opened, good. cbn [eofbit failbit left negb andb]. rewrite <- (app_nil_r (utf8_text s)) at 1. rewrite span_app; [|intros c I; apply Z.eqb_neq; intros ->; apply N; apply text_ascii; auto; lia|exact I].
  rewrite assign_text by auto. destruct (utf8_text s) eqn:E; [apply text_nil in E; contradiction|]. reflexivity.
Qed.
(** the program that reads all lines gets exactly the lines, for every text: complete lines and, if it is not empty, what follows the last delimiter *)
Theorem C102_lines : forall delim lines end_, 0 <= delim < 128 -> Forall (fun s => is_text s /\ ~ In delim s) lines -> is_text end_ -> ~ In delim end_ ->
  all_lines (S (S (length lines))) (opened (line_text delim lines ++ utf8_text end_)) delim = Ok (lines ++ match end_ with [] => [] | _ => [end_] end).
Proof.
  intros delim lines end_ D F S N. induction lines as [|s lines IH].
  - cbn [line_text map concat app length]. cbn [all_lines]. destruct end_ as [|c e]; [reflexivity|]. rewrite getline_last by (auto; discriminate). cbn [failbit]. reflexivity.
  - inversion_clear F as [|? ? Fs Fl]. unfold line_text. cbn [map concat]. rewrite <- !app_assoc. cbn [app]. change (length (s :: lines)) with (Datatypes.S (length lines)). cbn [all_lines]. rewrite getline_mid by (auto; apply Fs).
    cbn [opened failbit]. change (concat (map (fun s => utf8_text s ++ [delim]) lines)) with (line_text delim lines). specialize (IH Fl). cbn [all_lines] in IH. fold (all_lines) in IH. rewrite IH. reflexivity.
Qed.

(** ** Words *)
Definition word (w : list Z) : Prop := is_text w /\ w <> [] /\ forall c, In c w -> ~ space c.
Definition blanks (e : list Z) : Prop := Forall space e.
(** words with the white space after each; only the last may have none *)
Fixpoint spaced (l : list (list Z * list Z)) : Prop :=
  match l with
  | [] => True
  | (w, e) :: r => word w /\ blanks e /\ (r <> [] -> e <> []) /\ spaced r
  end.
Definition word_text (l : list (list Z * list Z)) : list Z := concat (map (fun we => utf8_text (fst we) ++ snd we) l).
Lemma isspace_iff : forall c, isspace c = true <-> space c.
Proof.
  intros c. unfold isspace, space. rewrite orb_true_iff, andb_true_iff, !Z.leb_le, Z.eqb_eq. cbn [In]. change (str " ") with [32]. cbn [In]. split; [intros [H|H]; [right; auto|left; left; auto]|intros [[H|[]]|H]; [right; auto|left; auto]].
Qed.
Lemma extract_word : forall lead w r, blanks lead -> word w -> match r with [] => True | c :: _ => space c end ->
  extract (opened (lead ++ utf8_text w ++ r)) = (Ok tt, w, mk_st r (match r with [] => true | _ => false end) false).
Proof.
  intros lead w r L (S & N & W) R. unfold extract, std_extract, opened, good. cbn [eofbit failbit left negb andb].
  assert (W': forall c, In c (utf8_text w) -> isspace c = false).
  { intros c I. destruct (isspace c) eqn:E; auto. exfalso. apply isspace_iff in E. apply (W c); auto. apply text_ascii; auto. destruct E as [[E|[]]|E]; [change (32 = c) in E|]; lia. }
  rewrite span_app.
  - destruct (utf8_text w) as [|b t] eqn:E; [apply text_nil in E; contradiction|]. cbn [app]. change (b :: t ++ r) with ((b :: t) ++ r). rewrite span_app.
    + rewrite <- E, assign_text by auto. reflexivity.
    + exact W'.
    + destruct r; auto. apply isspace_iff. auto.
  - intros c I. unfold blanks in L. rewrite Forall_forall in L. apply L in I. apply isspace_iff in I. rewrite I. auto.
  - destruct (utf8_text w) as [|b t] eqn:E; [apply text_nil in E; contradiction|]. cbn [app]. rewrite W' by (left; auto). auto.
Qed.
Lemma extract_end : forall lead e, blanks lead -> e = true \/ e = false -> extract (mk_st lead false false) = (Ok tt, [], mk_st [] true true).
Proof.
  intros lead e L _. unfold extract, std_extract, good. cbn [eofbit failbit left negb andb]. rewrite <- (app_nil_r lead). rewrite span_app; [reflexivity| |exact I].
  intros c I. unfold blanks in L. rewrite Forall_forall in L. apply L in I. apply isspace_iff in I. rewrite I. auto.
Qed.
(** the program that reads all words gets exactly the words, whatever white space is between, before and after them *)
Theorem C102_words : forall lead l, blanks lead -> spaced l -> all_words (S (length l)) (opened (lead ++ word_text l)) = Ok (map fst l).
Proof.
  intros lead l. revert lead. induction l as [|[w e] l IH]; intros lead L Sp.
  - cbn [word_text map concat length all_words]. rewrite app_nil_r. unfold opened. rewrite (extract_end lead true) by auto. reflexivity.
  - destruct Sp as (W & E & Ne & Sp). change (length ((w, e) :: l)) with (Datatypes.S (length l)). unfold word_text. cbn [map concat fst snd]. fold (word_text l). rewrite <- app_assoc.
    assert (H: all_words (Datatypes.S (length l)) (mk_st (e ++ word_text l) (match e ++ word_text l with [] => true | _ => false end) false) = Ok (map fst l)).
    { destruct (e ++ word_text l) as [|c r] eqn:X; [|rewrite <- X; apply (IH e E Sp)]. assert (l = []). { destruct l as [|we l]; auto. exfalso. apply app_eq_nil in X. destruct X as [X _]. apply Ne; auto. discriminate. } subst l. reflexivity. }
    remember (Datatypes.S (length l)) as k. cbn [all_words]. rewrite extract_word; auto.
    + cbn [failbit]. rewrite H. reflexivity.
    + destruct (e ++ word_text l) as [|c r] eqn:X; auto. destruct e as [|x e].
      * destruct l as [|[w2 e2] l]; [discriminate X|]. exfalso. apply Ne; auto. discriminate.
      * injection X as <- _. inversion_clear E. auto.
Qed.

(** ** Writing *)
Theorem C102_insert : forall os s, (is_text s -> insert os s = (Ok tt, os ++ utf8_text s)) /\
  ((exists c, In c s /\ 0 <= c /\ ~ scalar c) -> Forall (fun c => 0 <= c) s -> insert os s = (Exn, os)).
Proof.
  intros os s. split.
  - intros S. unfold insert. destruct (C18_string s [] S) as (-> & _). reflexivity.
  - intros (c & I & P & B) NN. unfold insert. assert (G: forall out, String_toUtf8 s out = Exn); [|rewrite G; auto].
    induction s as [|d s IH]; intros out; [destruct I|]. inversion_clear NN as [|? ? Nd Ns]. cbn [String_toUtf8].
    assert (Sd: scalar d \/ ~ scalar d) by (unfold scalar; lia). destruct Sd as [Sd|Sd].
    + rewrite append8_utf8 by auto. apply IH; auto. destruct I as [->|I]; auto. contradiction.
    + destruct (C18_refuses out d Nd Sd) as (-> & _). reflexivity.
Qed.
Lemma put_all_text : forall l os, Forall (fun se => is_text (fst se)) l -> put_all os l = (Ok tt, os ++ concat (map (fun se => utf8_text (fst se) ++ snd se) l)).
Proof.
  induction l as [|[s e] l IH]; intros os F; cbn [put_all map concat]; [rewrite app_nil_r; auto|]. inversion_clear F as [|? ? Fs Fl]. rewrite (proj1 (C102_insert os s) Fs). rewrite IH by auto. cbn [fst snd]. rewrite <- !app_assoc. auto.
Qed.
(** what is written with << line by line, or word by word, is read back by getline, or >> *)
Theorem C102_round_trip : forall l,
  (forall delim os, 0 <= delim < 128 -> Forall (fun s => is_text s /\ ~ In delim s) l -> exists b, put_all os (map (fun s => (s, [delim])) l) = (Ok tt, os ++ b) /\ all_lines (S (S (length l))) (opened b) delim = Ok l) /\
  (forall os, Forall word l -> exists b, put_all os (map (fun s => (s, str " ")) l) = (Ok tt, os ++ b) /\ all_words (S (length l)) (opened b) = Ok l).
Proof.
  intros l. split.
  - intros delim os D F. exists (line_text delim l). split.
    + rewrite put_all_text by (apply Forall_map; eapply Forall_impl; [|exact F]; intros s [H _]; exact H). rewrite map_map. reflexivity.
    + pose proof (C102_lines delim l [] D F) as H. cbn [utf8_text map concat] in H. rewrite !app_nil_r in H. apply H; [constructor|intros []].
  - intros os F. exists (word_text (map (fun s => (s, str " ")) l)). split.
    + rewrite put_all_text by (apply Forall_map; eapply Forall_impl; [|exact F]; intros s (H & _); exact H). reflexivity.
    + pose proof (C102_words [] (map (fun s => (s, str " ")) l)) as H. rewrite map_map, map_length, map_id in H. apply H; [constructor|].
      clear H. induction F as [|w l W F IH]; cbn [map spaced]; auto. split; [auto|]. split; [repeat constructor; left; left; auto|]. split; [discriminate|auto].
Qed.
(** a line that is not UTF-8: getline throws, the string is the valid part before the first bad sequence, and the stream is after the line so that reading can go on *)
Theorem C102_bad : forall delim bad r, bytes bad -> ~ In delim bad -> (forall l, scalars l -> bad <> utf8_text l) -> exists p q,
  getline (opened (bad ++ delim :: r)) delim = (Exn, p, opened r) /\ scalars p /\ bad = utf8_text p ++ q /\ q <> [] /\ forall v t, scalar v -> q <> utf8 v ++ t.
Proof.
  intros delim bad r B N X. unfold getline, std_getline, opened, good. cbn [eofbit failbit left negb andb]. rewrite span_app; [|intros c I; apply Z.eqb_neq; intros ->; auto|apply Z.eqb_refl].
  unfold assign8. destruct (push8_spec (length bad) [] bad ltac:(lia) B) as (p & q & P1 & P2 & -> & P4). exists p, q. destruct q as [|c q]; [exfalso; apply (X p P1); rewrite P2, app_nil_r; auto|].
  split; [reflexivity|]. split; [auto|]. split; [auto|]. split; [discriminate|]. apply P4. discriminate.
Qed.
(** writing a + b writes a and then b *)
Theorem C102_plus : forall os a b, is_text a -> is_text b ->
  insert os (plus a b) = (Ok tt, os ++ utf8_text a ++ utf8_text b) /\
  (let (r, os1) := insert os a in let (r', os2) := insert os1 b in (r, r', os2)) = (Ok tt, Ok tt, os ++ utf8_text a ++ utf8_text b).
Proof.
  intros os a b A B. split.
  - assert (AB : is_text (plus a b)) by (unfold is_text, plus in *; apply Forall_app; split; assumption).
    rewrite (proj1 (C102_insert os (plus a b)) AB). unfold plus, utf8_text. rewrite map_app, concat_app. reflexivity.
  - rewrite (proj1 (C102_insert os a) A), (proj1 (C102_insert _ b) B), <- app_assoc. reflexivity.
Qed.
(** at the end of the stream both clear the string and set failbit *)
Theorem C102_end : forall delim st, left st = [] \/ eofbit st = true \/ failbit st = true -> exists st1 st2,
  getline st delim = (Ok tt, [], st1) /\ failbit st1 = true /\ left st1 = left st /\
  extract st = (Ok tt, [], st2) /\ failbit st2 = true /\ left st2 = left st.
Proof.
  intros delim [l e f] H. cbn [left eofbit failbit] in H. unfold getline, extract, std_getline, std_extract, good. cbn [left eofbit failbit].
  destruct e; [do 2 eexists; repeat split|]. destruct f; [do 2 eexists; repeat split|].
  destruct H as [H|[H|H]]; [|discriminate|discriminate]. subst l. do 2 eexists. repeat split.
Qed.
(** ** Finding: at the end of the stream operator>> clears the string, where operator>> of std::string leaves it as it was: the last word is lost after while (is >> s) *)
Theorem C102_clear_finding : exists st st1 st2, extract st = (Ok tt, str "last", st1) /\ failbit st1 = false /\ extract st1 = (Ok tt, [], st2) /\ failbit st2 = true.
Proof. exists (opened (str "last")). do 2 eexists. repeat split. Qed.
(** ** Finding: the delimiter is a char: a byte of 128 or more cuts characters in two, and both parts throw *)
Theorem C102_delim_finding : exists b d st1 st2 s1 s2, utf8_text [0x3042] = b /\ 128 <= d < 256 /\ getline (opened b) d = (Exn, s1, st1) /\ getline st1 d = (Exn, s2, st2).
Proof. exists [0xe3; 0x81; 0x82], 0x81. do 4 eexists. split; [reflexivity|]. split; [lia|]. split; reflexivity. Qed.
Example C102_ex :
  all_lines 4 (opened (str "ab" ++ [10; 10] ++ [0xe3; 0x81; 0x82])) 10 = Ok [str "ab"; []; [0x3042]] /\
  all_words 4 (opened (str "  ab " ++ [9; 0xe3; 0x81; 0x82; 32])) = Ok [str "ab"; [0x3042]] /\ word [0x3042] /\
  insert [7] [0x3042; 0xd800] = (Exn, [7]) /\ getline (opened [65; 0x80; 10; 66]) 10 = (Exn, [65], opened [66]).
Proof. repeat split; try discriminate; [repeat constructor; unfold scalar; lia|]. intros c [<-|[]] [[H|[]]|H]; [discriminate H|lia]. Qed.

(** ** Serializer *)
Definition chars (s : list Z) : Prop := Forall (fun c => - 2 ^ 31 <= c < 2 ^ 31) s.
Lemma raw_length : forall little s, zlen (raw little s) = 4 * zlen s.
Proof.
  intros little s. induction s as [|c s IH]; [reflexivity|]. unfold raw in *. cbn [map concat]. rewrite zlen_app, savePod_len, IH, zlen_cons. lia.
Qed.
Lemma unraw_raw : forall little s, chars s -> unraw little (length s) (raw little s) = s.
Proof.
  intros little s C. induction C as [|c s Hc C IH]; [reflexivity|]. cbn [length unraw]. unfold raw in *. cbn [map concat]. fold (raw little s) in *.
  set (p := savePod little 4 (to_u 32 c)). assert (Lp: length p = 4%nat). { pose proof (savePod_len little 4 (to_u 32 c)) as L. fold p in L. unfold zlen in L. lia. }
  rewrite firstn_app, skipn_app, Lp. rewrite firstn_all2, skipn_all2 by lia. cbn [Nat.sub firstn skipn app]. rewrite app_nil_r, IH. f_equal.
  assert (O: of_le (if little then p else rev p) = to_u 32 c).
  { unfold p, savePod. destruct little; rewrite ?rev_involutive; rewrite of_le_value, to_le_value; apply Z.mod_small; apply to_u_range; lia. }
  rewrite O, s_of_u by lia. unfold to_s. change (2 ^ (32 - 1)) with (2 ^ 31). rewrite Z.mod_small by lia. lia.
Qed.
(** load gives back what save wrote, however the stream delivers it, and takes no more; a stream that ends too early throws *)
Theorem C102_save : forall little s, chars s -> zlen s <= max_size -> exists enc, save little s = Ok enc /\
  (forall rest sched, exists sched', load little (mk_is (enc ++ rest) sched) = Ok (s, mk_is rest sched')) /\
  (forall pre t sched, enc = pre ++ t -> t <> [] -> load little (mk_is pre sched) = Exn).
Proof.
  intros little s C M. assert (OK: cint_ok size_t /\ c_signed size_t = false) by (split; [unfold cint_ok, size_t; cbn; lia|reflexivity]).
  assert (F: in_range size_t (zlen s)) by (unfold in_range; cbn [size_t c_signed c_size]; pose proof (zlen_nonneg s); unfold max_size in M; lia).
  destruct (C09_variable_int little size_t (zlen s) (proj1 OK) F) as (h & Sh & _ & L & Tr).
  unfold save. rewrite Sh. cbn [bind]. eexists. split; [reflexivity|]. split.
  - intros rest sched. unfold load. rewrite <- app_assoc. destruct (L ((if 0 <? zlen s then raw little s else []) ++ rest) sched) as (s1 & E). rewrite E. cbn [bind].
    destruct (Z.ltb_spec max_size (zlen s)); [lia|]. destruct (Z.ltb_spec 0 (zlen s)) as [P|P].
    + rewrite Z.mod_small by (unfold max_size in M; lia). destruct (C11_read_exact (zlen s * 4) (raw little s ++ rest) s1 ltac:(lia)) as [R _].
      destruct (R _ _ eq_refl ltac:(rewrite raw_length; lia)) as (s2 & Er). rewrite Er. cbn [bind]. exists s2. unfold zlen. rewrite Nat2Z.id, unraw_raw by auto. reflexivity.
    + destruct s as [|c s]; [exists s1; reflexivity|]. rewrite zlen_cons in P. pose proof (zlen_nonneg s). lia.
  - intros pre t sched E Nt. unfold load. apply app_eq_app in E. destruct E as (m & [[-> ->]|[-> E]]).
    + destruct m as [|c m]; [|rewrite (Tr pre (c :: m) sched eq_refl) by discriminate; reflexivity].
      rewrite app_nil_r in L. cbn [app] in Nt. destruct (L [] sched) as (s1 & El). rewrite app_nil_r in El. rewrite El. cbn [bind]. destruct (Z.ltb_spec max_size (zlen s)); [lia|].
      destruct (Z.ltb_spec 0 (zlen s)) as [P|P]; [|contradiction]. rewrite Z.mod_small by (unfold max_size in M; lia). destruct (C11_read_exact (zlen s * 4) [] s1 ltac:(lia)) as [_ R]. rewrite R by (rewrite zlen_nil; lia). reflexivity.
    + destruct (L m sched) as (s1 & El). rewrite El. cbn [bind]. destruct (Z.ltb_spec max_size (zlen s)); [lia|]. destruct (Z.ltb_spec 0 (zlen s)) as [P|P]; [|symmetry in E; apply app_eq_nil in E; destruct E; contradiction].
      rewrite Z.mod_small by (unfold max_size in M; lia). destruct (C11_read_exact (zlen s * 4) m s1 ltac:(lia)) as [_ R]. rewrite R; [reflexivity|]. pose proof (raw_length little s) as Lr. rewrite E, zlen_app in Lr.
      assert (0 < zlen t) by (destruct t; [contradiction|rewrite zlen_cons; pose proof (zlen_nonneg t); lia]). lia.
Qed.
(** whatever number of characters the stream announces, load throws unless they are all there: also for sizes whose bytes do not fit in size_t *)
Theorem C102_load_short : forall little size h body sched, 0 <= size < 2 ^ 64 -> saveVariableInt little size_t size = Ok h ->
  zlen body < 4 * size -> zlen body < 2 ^ 62 -> load little (mk_is (h ++ body) sched) = Exn.
Proof.
  intros little size h body sched R Sh B Bm. assert (OK: cint_ok size_t) by (unfold cint_ok, size_t; cbn; lia).
  assert (F: in_range size_t size) by (unfold in_range; cbn [size_t c_signed c_size]; exact R).
  destruct (C09_variable_int little size_t size OK F) as (h' & Sh' & _ & L & _). rewrite Sh in Sh'. injection Sh' as <-.
  unfold load. destruct (L body sched) as (s1 & E). rewrite E. cbn [bind]. pose proof (zlen_nonneg body).
  destruct (Z.ltb_spec max_size size) as [_|M]; [reflexivity|]. destruct (Z.ltb_spec 0 size) as [P|P]; [|lia].
  unfold max_size in M. rewrite Z.mod_small by lia. destruct (C11_read_exact (size * 4) body s1 ltac:(lia)) as [_ Rd]. rewrite Rd by lia. reflexivity.
Qed.
Example C102_load_short_ex : exists h, saveVariableInt true size_t (2 ^ 62) = Ok h /\ load true (mk_is (h ++ [1; 2; 3]) []) = Exn.
Proof. eexists. split; reflexivity. Qed.
(** pop_back removes the last character; of an empty string it throws *)
Theorem C102_pop : forall s c, zlen s < 2 ^ 61 -> pop_back (s ++ [c]) = Some s /\ pop_back [] = None.
Proof.
  intros s c L. split; [|reflexivity]. unfold pop_back, bs_erase, bs_replace. rewrite zlen_app. change (zlen [c]) with 1. pose proof (zlen_nonneg s).
  replace (zlen s + 1 - 1) with (zlen s) by lia. rewrite Z.mod_small by lia. destruct (Z.ltb_spec (zlen s + 1) (zlen s)); [lia|].
  replace (zlen s + Z.min 1 (zlen s + 1 - zlen s)) with (zlen s + 1) by lia. f_equal. cbn [app]. unfold zlen. rewrite Nat2Z.id, firstn_app_exact. rewrite skipn_all2; [apply app_nil_r|rewrite app_length; cbn; lia].
Qed.
Example C102_save_ex : save true [0x3042; -1] = Ok [2; 0x42; 0x30; 0; 0; 255; 255; 255; 255] /\ chars [0x3042; -1].
Proof. split; [reflexivity|repeat constructor; lia]. Qed.

Print Assumptions C102_lines.
Print Assumptions C102_words.
Print Assumptions C102_insert.
Print Assumptions C102_round_trip.
Print Assumptions C102_bad.
Print Assumptions C102_save.
Print Assumptions C102_pop.
Print Assumptions C102_plus.
Print Assumptions C102_end.
Print Assumptions C102_load_short.
Print Assumptions C102_clear_finding.
Print Assumptions C102_delim_finding.
