(** CSV reader and writer: properties C13, C14. *)
Require Import Verif.Common Verif.StreamModel Verif.StreamProps Verif.CsvModel Verif.Text.

(** ** Specification: CSV text *)
(** A field as it stands in a file: bare, or between double quotes (inner quotes doubled). *)
Inductive field := Plain (s : list Z) | Quoted (s : list Z).
Definition field_val (f : field) : list Z := match f with Plain s => s | Quoted s => s end.
Fixpoint doubled (s : list Z) : list Z :=
  match s with [] => [] | c :: t => if c =? 34 then 34 :: 34 :: doubled t else c :: doubled t end.
Definition field_text (f : field) : list Z :=
  match f with Plain s => s | Quoted s => [34] ++ doubled s ++ [34] end.
Fixpoint row_text (sep : Z) (row : list field) : list Z :=
  match row with [] => [] | [f] => field_text f | f :: t => field_text f ++ [sep] ++ row_text sep t end.
(** no CR (ignored by the reader) and no 0xFF (taken for end of file by the reader) *)
Definition chr (c : Z) : Prop := 0 <= c < 256 /\ c <> 13 /\ c <> 255.
Definition field_ok (sep : Z) (f : field) : Prop :=
  match f with
  | Plain s => Forall (fun c => chr c /\ c <> sep /\ c <> 10) s /\ hd 0 s <> 34
  | Quoted s => Forall chr s
  end.
(** what the reader makes of a row: an empty bare last field is dropped *)
Fixpoint row_val (row : list field) : list (list Z) :=
  match row with [] => [] | [Plain []] => [] | f :: t => field_val f :: row_val t end.
Definition row_size (row : list field) : Z := fold_right (fun f n => zlen (field_val f) + n) 0 row.
Definition rows_size (rows : list (list field)) : Z := fold_right (fun r n => row_size r + n) 0 rows.
Definition file_text (sep : Z) (rows : list (list field)) : list Z := concat (map (fun r => row_text sep r ++ [10]) rows).
(** the file with all CR deleted *)
Definition strip (s : list Z) : list Z := filter (fun c => negb (c =? 13)) s.

(** repeated calls of read: the outcomes *)
Fixpoint csv_reads (n : nat) (r : csv_reader) : list (res (bool * list (list Z))) :=
  match n with O => [] | S n => let '(o, r') := csv_read [] r in o :: csv_reads n r' end.

(** ** Proofs *)
Record pst := mk_p { p_ls : Z; p_rem : list Z; p_eof : bool }.
Definition padd (max ls : Z) : bool := negb ((ls + 1) mod 2 ^ 64 =? max).
Fixpoint pread (sep max : Z) (st : csv_state) (str : list Z) (out : list (list Z)) (ls : Z) (rem : list Z)
  : res (bool * list (list Z)) * pst :=
  let done o rem e := (o, mk_p ls rem e) in
  let ended rem e :=
    match str with
    | [] => done (Ok (false, out)) rem e
    | _ => match st with InQuote => done Exn rem e | _ => done (Ok (true, out ++ [str])) rem e end
    end in
  match rem with
  | [] => ended [] true
  | b :: t =>
    let c := schar b in
    if c =? -1 then ended t false else
    if c =? CR then pread sep max st str out ls t else
    let ls' := (ls + 1) mod 2 ^ 64 in
    match st with
    | Top =>
      if c =? LF then done (Ok (true, match str with [] => out | _ => out ++ [str] end)) t false
      else if c =? quote then pread sep max InQuote str out ls t
      else if c =? schar sep then pread sep max Top [] (out ++ [str]) ls t
      else if padd max ls then pread sep max SearchSep (str ++ [to_byte c]) out ls' t else (Exn, mk_p ls' t false)
    | InQuote =>
      if c =? quote then pread sep max NeedSepOrQuote str out ls t
      else if padd max ls then pread sep max InQuote (str ++ [to_byte c]) out ls' t else (Exn, mk_p ls' t false)
    | NeedSepOrQuote =>
      if c =? LF then done (Ok (true, out ++ [str])) t false
      else if c =? quote then
        if padd max ls then pread sep max InQuote (str ++ [to_byte quote]) out ls' t else (Exn, mk_p ls' t false)
      else if c =? schar sep then pread sep max Top [] (out ++ [str]) ls t
      else done Exn t false
    | SearchSep =>
      if c =? LF then done (Ok (true, out ++ [str])) t false
      else if c =? schar sep then pread sep max Top [] (out ++ [str]) ls t
      else if padd max ls then pread sep max SearchSep (str ++ [to_byte c]) out ls' t else (Exn, mk_p ls' t false)
    end
  end.

Definition rem_of (r : csv_reader) : list Z := cr_buf r ++ is_data (cr_is r).
Definition crel (r : csv_reader) (sep max : Z) (p : pst) : Prop :=
  cr_sep r = sep /\ cr_max r = max /\ cr_lineSize r = p_ls p /\ rem_of r = p_rem p /\ cr_eof r = p_eof p.

Lemma getchar_spec r : cr_eof r = false ->
  match rem_of r with
  | [] => exists r', my_getchar r = (EOF, r') /\ crel r' (cr_sep r) (cr_max r) (mk_p (cr_lineSize r) [] true)
  | b :: t => exists r', my_getchar r = (schar b, r') /\ crel r' (cr_sep r) (cr_max r) (mk_p (cr_lineSize r) t false)
  end.
Proof.
  intros He. destruct r as [sep max [data sched] ls buf eof]. unfold rem_of, my_getchar. cbn [cr_buf cr_is is_data cr_sep cr_max cr_lineSize cr_eof] in *. subst eof.
  destruct buf as [|b t]; cbn [app].
  - destruct (readSome_spec 2048 (mk_is data sched) ltac:(lia)) as (n & R & N1 & N2 & N3). rewrite R. cbn [is_data is_sched] in *.
    destruct data as [|b t].
    + rewrite firstn_nil, skipn_nil. eexists. split; [reflexivity|]. repeat split.
    + specialize (N3 ltac:(discriminate)). destruct n; [lia|]. cbn [firstn skipn]. eexists. split; [reflexivity|]. unfold crel, rem_of. cbn. rewrite firstn_skipn. auto.
  - eexists. split; [reflexivity|]. repeat split.
Qed.
Lemma schar_eof b : 0 <= b < 256 -> (schar b =? -1) = (b =? 255).
Proof. intros H. unfold schar. destruct (b <? 128) eqn:E; lia. Qed.

Lemma csv_loop_spec : forall fuel st str out r, cr_eof r = false -> (length (rem_of r) < fuel)%nat ->
  exists r', csv_loop fuel st str out r = (fst (pread (cr_sep r) (cr_max r) st str out (cr_lineSize r) (rem_of r)), r') /\
  crel r' (cr_sep r) (cr_max r) (snd (pread (cr_sep r) (cr_max r) st str out (cr_lineSize r) (rem_of r))).
Proof.
  induction fuel; intros st str out r He Hf; [lia|]. cbn [csv_loop]. pose proof (getchar_spec r He) as G.
  destruct (rem_of r) as [|b t].
  - destruct G as (r1 & G & C). rewrite G. change (EOF =? EOF) with true. change (EOF =? CR) with false. cbn [pread andb orb]. 
    destruct str as [|x str]; [eexists; split; [reflexivity|exact C]|].
    destruct st; eexists; (split; [reflexivity|exact C]).
  - destruct G as (r1 & G & C). rewrite G. cbn [pread length] in *. change EOF with (-1) in *. 
    destruct C as (C1 & C2 & C3 & C4 & C5). cbn [p_ls p_rem p_eof] in *.
    assert (REC: forall st str out, exists r', csv_loop fuel st str out r1 = (fst (pread (cr_sep r) (cr_max r) st str out (cr_lineSize r) t), r') /\ 
              crel r' (cr_sep r) (cr_max r) (snd (pread (cr_sep r) (cr_max r) st str out (cr_lineSize r) t))).
    { intros st' str' out'. destruct (IHfuel st' str' out' r1 C5 ltac:(rewrite C4; lia)) as (r' & E & C). rewrite C1, C2, C3, C4 in E, C. eauto. }
    assert (DONE: crel r1 (cr_sep r) (cr_max r) (mk_p (cr_lineSize r) t false)) by (repeat split; auto).
    assert (ADD: forall st str out c, exists r', 
      (let '(good, r, str) := addChar r1 str c in if good : bool then csv_loop fuel st str out r else (Exn, r)) =
      (fst (if padd (cr_max r) (cr_lineSize r) then pread (cr_sep r) (cr_max r) st (str ++ [to_byte c]) out ((cr_lineSize r + 1) mod 2 ^ 64) t
           else (Exn, mk_p ((cr_lineSize r + 1) mod 2 ^ 64) t false)), r') /\ crel r' (cr_sep r) (cr_max r)
      (snd (if padd (cr_max r) (cr_lineSize r) then pread (cr_sep r) (cr_max r) st (str ++ [to_byte c]) out ((cr_lineSize r + 1) mod 2 ^ 64) t
           else (Exn, mk_p ((cr_lineSize r + 1) mod 2 ^ 64) t false)))).
    { intros st' str' out' c. unfold addChar, padd. rewrite C1, C2, C3. destruct (negb _).
      - match goal with |- context [csv_loop fuel _ _ _ ?q] => destruct (IHfuel st' (str' ++ [to_byte c]) out' q) as (r' & E & C) end.
        { cbn. auto. } { unfold rem_of in *. cbn [cr_buf cr_is is_data] in *. rewrite C4. lia. }
        unfold rem_of in E, C, C4. cbn [cr_sep cr_max cr_lineSize cr_buf cr_is cr_eof] in *. rewrite C4 in E, C. eexists. split; [exact E|exact C].
      - eexists. split; [reflexivity|]. unfold crel, rem_of in *. cbn [cr_sep cr_max cr_lineSize cr_buf cr_is cr_eof p_ls p_rem p_eof] in *. auto. }
    destruct (schar b =? -1) eqn:Eeof.
    + assert (schar b =? CR = false) as -> by (unfold CR; lia).
      destruct str as [|x str]; cbn [andb orb]; [eexists; split; [reflexivity|exact DONE]|].
      destruct st; cbn [andb orb]; eexists; (split; [reflexivity|exact DONE]).
    + cbn [andb orb]. destruct (schar b =? CR); [apply REC|]. 
      rewrite C1. destruct st;
      repeat first [ match goal with |- context [schar b =? ?k] => destruct (schar b =? k) end ];
      first [ apply REC | apply ADD | (eexists; split; [reflexivity|exact DONE]) ].
Qed.

(** the reader as a function of the remaining bytes alone *)
Definition pcsv (sep max : Z) (p : pst) : res (bool * list (list Z)) * pst :=
  if p_eof p then (Ok (false, []), p) else pread sep max Top [] [] (p_ls p) (p_rem p).
Fixpoint preads (n : nat) (sep max : Z) (p : pst) : list (res (bool * list (list Z))) :=
  match n with O => [] | S n => let '(o, p') := pcsv sep max p in o :: preads n sep max p' end.
Lemma csv_reads_spec : forall n r sep max p, crel r sep max p -> csv_reads n r = preads n sep max p.
Proof.
  induction n; intros r sep max p C; auto. cbn [csv_reads preads]. unfold csv_read, pcsv. destruct C as (C1 & C2 & C3 & C4 & C5). rewrite <- C5.
  destruct (cr_eof r) eqn:He; [f_equal; apply IHn; repeat split; congruence|].
  destruct (csv_loop_spec (S (length (cr_buf r) + length (is_data (cr_is r)))) Top [] [] r He) as (r' & E & C); [unfold rem_of; rewrite app_length; lia|].
  rewrite E, C1, C2, C3, C4 in *. destruct (pread _ _ _ _ _ _ _) as [o p']. cbn [fst snd] in *. f_equal. apply IHn. rewrite <- C1, <- C2. rewrite C1, C2. exact C.
Qed.

Lemma schar_13 b : 0 <= b < 256 -> (schar b =? CR) = (b =? 13).
Proof. intros. unfold schar, CR. destruct (b <? 128) eqn:E; lia. Qed.

Lemma pread_strip sep max : forall rem st str out ls, bytes rem ->
  let a := pread sep max st str out ls rem in let b := pread sep max st str out ls (strip rem) in
  fst a = fst b /\ p_ls (snd a) = p_ls (snd b) /\ p_eof (snd a) = p_eof (snd b) /\ strip (p_rem (snd a)) = p_rem (snd b) /\ bytes (p_rem (snd a)).
Proof.
  induction rem as [|x rem IH]; intros st str out ls HB; cbn zeta.
  - cbn [strip filter pread]. destruct str; [cbn; auto|]. destruct st; cbn; auto.
  - inversion HB as [|? ? Hx HB']; subst. unfold is_byte in Hx. cbn [strip filter]. fold (strip rem). cbn zeta in IH.
    destruct (x =? 13) eqn:Ex; cbn [negb].
    + assert (schar x =? -1 = false) as E by (unfold schar; destruct (x <? 128) eqn:?; lia).
      replace (pread sep max st str out ls (x :: rem)) with (pread sep max st str out ls rem); [apply IH; auto|].
      cbn [pread]. rewrite E, schar_13, Ex by auto. auto.
    + cbn [pread]. rewrite schar_13, Ex by auto. destruct (schar x =? -1).
      * destruct str; [cbn; auto|]. destruct st; cbn; auto.
      * destruct st; repeat match goal with |- context [if ?b then _ else _] => destruct b end; try (apply IH; auto); cbn; auto.
Qed.
Definition srel (p q : pst) : Prop := p_ls p = p_ls q /\ p_eof p = p_eof q /\ strip (p_rem p) = p_rem q /\ bytes (p_rem p).
Lemma preads_strip sep max : forall n p q, srel p q -> preads n sep max p = preads n sep max q.
Proof.
  induction n; intros p q (H1 & H2 & H3 & H4); auto. cbn [preads]. unfold pcsv. rewrite H2.
  destruct (p_eof q) eqn:E; [f_equal; apply IHn; repeat split; auto; congruence|].
  rewrite H1, <- H3. pose proof (pread_strip sep max (p_rem p) Top [] [] (p_ls q) H4) as (P1 & P2 & P3 & P4 & P5).
  destruct (pread _ _ _ _ _ _ (p_rem p)) as [o p'], (pread _ _ _ _ _ _ (strip _)) as [o' q']. cbn [fst snd] in *. subst o'. f_equal. apply IHn. repeat split; auto.
Qed.

Definition good_sep (sep : Z) : Prop := sep = 44 \/ sep = 9 \/ sep = 59 \/ sep = 32.
Lemma good_sep_valid sep : good_sep sep <-> isValidSeparator sep = true.
Proof. unfold good_sep, isValidSeparator. lia. Qed.

Lemma chr_facts c : chr c -> (schar c =? -1) = false /\ (schar c =? CR) = false /\ to_byte (schar c) = c /\ (schar c =? LF) = (c =? 10)
  /\ (schar c =? quote) = (c =? 34).
Proof.
  intros (H & H1 & H2). unfold schar, CR, LF, quote, to_byte. destruct (c <? 128) eqn:E; repeat split; lia.
Qed.
Lemma sep_facts sep : good_sep sep -> chr sep /\ schar sep = sep /\ sep <> 10 /\ sep <> 34 /\ forall c, chr c -> (schar c =? schar sep) = (c =? sep).
Proof.
  intros H. assert (schar sep = sep) as E by (destruct H as [H|[H|[H|H]]]; subst; reflexivity). rewrite E.
  unfold chr. repeat split; try (destruct H as [H|[H|[H|H]]]; subst; lia).
  intros c (Hc & _). unfold schar. destruct (c <? 128) eqn:?; destruct H as [H|[H|[H|H]]]; subst; lia.
Qed.

Lemma row_size_nonneg row : 0 <= row_size row.
Proof. induction row; cbn [row_size fold_right]; [lia|]. fold (row_size row). pose proof (zlen_nonneg (field_val a)). lia. Qed.
Lemma rows_size_nonneg rows : 0 <= rows_size rows.
Proof. induction rows; cbn [rows_size fold_right]; [lia|]. fold (rows_size rows). pose proof (row_size_nonneg a). lia. Qed.
(** the last row of a file, without a line end *)
Definition last_empty (row : list field) : Prop := match rev row with f :: _ => field_val f = [] | [] => True end.
Lemma last_empty_cons f g row : last_empty (f :: g :: row) <-> last_empty (g :: row).
Proof. unfold last_empty. cbn [rev]. destruct (rev row) as [|x y]; cbn; tauto. Qed.
Section Reader.
Variables sep max : Z.
Hypothesis Hsep : good_sep sep.
Hypothesis Hmax : 0 < max < 2 ^ 64.
Let bare c := chr c /\ c <> sep /\ c <> 10.

Lemma padd_ok ls : 0 <= ls -> ls + 1 < max -> padd max ls = true /\ (ls + 1) mod 2 ^ 64 = ls + 1.
Proof. intros. unfold padd. rewrite Z.mod_small by lia. split; auto. destruct (_ =? max) eqn:E; auto. lia. Qed.
Lemma padd_bad ls : ls + 1 = max -> padd max ls = false.
Proof. intros. unfold padd. rewrite Z.mod_small by lia. destruct (_ =? max) eqn:E; auto. lia. Qed.

Lemma pread_bare s : forall str out ls t, Forall bare s -> 0 <= ls -> ls + zlen s < max ->
  pread sep max SearchSep str out ls (s ++ t) = pread sep max SearchSep (str ++ s) out (ls + zlen s) t.
Proof.
  destruct (sep_facts sep Hsep) as (_ & _ & _ & _ & SF).
  induction s as [|c s IH]; intros str out ls t HF H0 HM.
  - rewrite zlen_nil, Z.add_0_r, app_nil_r. auto.
  - inversion HF as [|? ? (Hc & Hc2 & Hc3) HF']; subst. destruct (chr_facts c Hc) as (F1 & F2 & F3 & F4 & F5).
    rewrite zlen_cons in *. pose proof (zlen_nonneg s). cbn [app pread]. rewrite F1, F2, F4, (SF c Hc), F3.
    destruct (c =? 10) eqn:E1; [lia|]. destruct (c =? sep) eqn:E2; [lia|].
    destruct (padd_ok ls H0 ltac:(lia)) as [-> ->]. rewrite IH by (auto; lia). rewrite <- app_assoc. cbn [app]. f_equal. lia.
Qed.
Lemma pread_bare_limit s : forall str out ls t, Forall bare s -> 0 <= ls < max -> max <= ls + zlen s ->
  fst (pread sep max SearchSep str out ls (s ++ t)) = Exn.
Proof.
  destruct (sep_facts sep Hsep) as (_ & _ & _ & _ & SF).
  induction s as [|c s IH]; intros str out ls t HF H0 HM.
  - rewrite zlen_nil in HM. lia.
  - inversion HF as [|? ? (Hc & Hc2 & Hc3) HF']; subst. destruct (chr_facts c Hc) as (F1 & F2 & F3 & F4 & F5).
    rewrite zlen_cons in *. pose proof (zlen_nonneg s). cbn [app pread]. rewrite F1, F2, F4, (SF c Hc), F3.
    destruct (c =? 10) eqn:E1; [lia|]. destruct (c =? sep) eqn:E2; [lia|].
    destruct (Z.eq_dec (ls + 1) max) as [E|E]; [rewrite padd_bad; auto|].
    destruct (padd_ok ls ltac:(lia) ltac:(lia)) as [-> ->]. apply IH; auto; lia.
Qed.
Lemma pread_quoted s : forall str out ls t, Forall chr s -> 0 <= ls -> ls + zlen s < max ->
  pread sep max InQuote str out ls (doubled s ++ 34 :: t) = pread sep max NeedSepOrQuote (str ++ s) out (ls + zlen s) t.
Proof.
  induction s as [|c s IH]; intros str out ls t HF H0 HM.
  - rewrite zlen_nil, Z.add_0_r, app_nil_r. reflexivity.
  - inversion HF as [|? ? Hc HF']; subst. destruct (chr_facts c Hc) as (F1 & F2 & F3 & F4 & F5).
    rewrite zlen_cons in *. pose proof (zlen_nonneg s). cbn [doubled].
    destruct (padd_ok ls H0 ltac:(lia)) as [P1 P2].
    destruct (c =? 34) eqn:E; cbn [app].
    + assert (c = 34) by lia. subst c. change (pread sep max InQuote str out ls (34 :: 34 :: doubled s ++ 34 :: t)) with
       (if padd max ls then pread sep max InQuote (str ++ [34]) out ((ls + 1) mod 2 ^ 64) (doubled s ++ 34 :: t) else (Exn, mk_p ((ls + 1) mod 2 ^ 64) (doubled s ++ 34 :: t) false)).
      rewrite P1, P2. rewrite IH by (auto; lia). rewrite <- app_assoc. cbn [app]. f_equal. lia.
    + cbn [pread]. rewrite F1, F2, F5, P1, P2, F3. rewrite IH by (auto; lia). rewrite <- app_assoc. cbn [app]. f_equal. lia.
Qed.
Lemma pread_quoted_limit s : forall str out ls t, Forall chr s -> 0 <= ls < max -> max <= ls + zlen s ->
  fst (pread sep max InQuote str out ls (doubled s ++ t)) = Exn.
Proof.
  induction s as [|c s IH]; intros str out ls t HF H0 HM.
  - rewrite zlen_nil in HM. lia.
  - inversion HF as [|? ? Hc HF']; subst. destruct (chr_facts c Hc) as (F1 & F2 & F3 & F4 & F5).
    rewrite zlen_cons in *. pose proof (zlen_nonneg s). cbn [doubled].
    assert (G: forall b t', b = false \/ ls + 1 < max /\ b = true -> (ls + 1 < max -> fst (pread sep max InQuote (str ++ [c]) out (ls + 1) t') = Exn) -> b = padd max ls -> 
      fst (if padd max ls then pread sep max InQuote (str ++ [c]) out ((ls + 1) mod 2 ^ 64) t' else (Exn, mk_p ((ls + 1) mod 2 ^ 64) t' false)) = Exn).
    { intros b t' [->|[A ->]] B <-; auto. rewrite Z.mod_small by lia. auto. }
    assert (D: padd max ls = false \/ ls + 1 < max /\ padd max ls = true).
    { destruct (Z.eq_dec (ls + 1) max) as [E|E]; [left; apply padd_bad; auto|right; split; [lia|apply padd_ok; lia]]. }
    destruct (c =? 34) eqn:E; cbn [app].
    + assert (c = 34) by lia. subst c. change (pread sep max InQuote str out ls (34 :: 34 :: doubled s ++ t)) with
       (if padd max ls then pread sep max InQuote (str ++ [34]) out ((ls + 1) mod 2 ^ 64) (doubled s ++ t) else (Exn, mk_p ((ls + 1) mod 2 ^ 64) (doubled s ++ t) false)).
      eapply G; [exact D| |reflexivity]. intros. apply IH; auto; lia.
    + cbn [pread]. rewrite F1, F2, F5, F3. eapply G; [exact D| |reflexivity]. intros. apply IH; auto; lia.
Qed.

(** after a field, at [Top] with nothing collected *)
Definition after (f : field) : csv_state := match f with Plain [] => Top | Plain _ => SearchSep | Quoted _ => NeedSepOrQuote end.
Lemma pread_field f out ls t : field_ok sep f -> 0 <= ls -> ls + zlen (field_val f) < max ->
  pread sep max Top [] out ls (field_text f ++ t) = pread sep max (after f) (field_val f) out (ls + zlen (field_val f)) t.
Proof.
  destruct (sep_facts sep Hsep) as (_ & _ & _ & _ & SF).
  intros HO H0 HM. destruct f as [s|s]; cbn [field_ok field_text field_val after] in *.
  - destruct s as [|c s]; [rewrite zlen_nil, Z.add_0_r; auto|]. destruct HO as (HO & HH). inversion HO as [|? ? (Hc & Hc2 & Hc3) HF']; subst.
    destruct (chr_facts c Hc) as (F1 & F2 & F3 & F4 & F5). cbn [hd] in HH. rewrite zlen_cons in *. pose proof (zlen_nonneg s).
    cbn [app pread]. rewrite F1, F2, F4, F5, (SF c Hc), F3.
    destruct (c =? 10) eqn:E1; [lia|]. destruct (c =? sep) eqn:E2; [lia|]. destruct (c =? 34) eqn:E3; [lia|].
    destruct (padd_ok ls H0 ltac:(lia)) as [-> ->]. rewrite pread_bare by (auto; lia). cbn [app]. f_equal. lia.
  - cbn [app]. rewrite <- app_assoc. cbn [app]. change (pread sep max Top [] out ls (34 :: doubled s ++ 34 :: t)) with (pread sep max InQuote [] out ls (doubled s ++ 34 :: t)).
    rewrite pread_quoted by auto. auto.
Qed.
Lemma pread_field_limit f out ls t : field_ok sep f -> 0 <= ls < max -> max <= ls + zlen (field_val f) ->
  fst (pread sep max Top [] out ls (field_text f ++ t)) = Exn.
Proof.
  destruct (sep_facts sep Hsep) as (_ & _ & _ & _ & SF).
  intros HO H0 HM. destruct f as [s|s]; cbn [field_ok field_text field_val] in *.
  - destruct s as [|c s]; [rewrite zlen_nil in HM; lia|]. destruct HO as (HO & HH). inversion HO as [|? ? (Hc & Hc2 & Hc3) HF']; subst.
    destruct (chr_facts c Hc) as (F1 & F2 & F3 & F4 & F5). cbn [hd] in HH. rewrite zlen_cons in *. pose proof (zlen_nonneg s).
    cbn [app pread]. rewrite F1, F2, F4, F5, (SF c Hc), F3.
    destruct (c =? 10) eqn:E1; [lia|]. destruct (c =? sep) eqn:E2; [lia|]. destruct (c =? 34) eqn:E3; [lia|].
    destruct (Z.eq_dec (ls + 1) max) as [E|E]; [rewrite padd_bad; auto|].
    destruct (padd_ok ls ltac:(lia) ltac:(lia)) as [-> ->]. apply pread_bare_limit; auto; lia.
  - cbn [app]. rewrite <- app_assoc. cbn [app]. change (pread sep max Top [] out ls (34 :: doubled s ++ 34 :: t)) with (pread sep max InQuote [] out ls (doubled s ++ 34 :: t)).
    apply pread_quoted_limit; auto.
Qed.
Lemma pread_sep f out ls t : field_ok sep f ->
  pread sep max (after f) (field_val f) out ls (sep :: t) = pread sep max Top [] (out ++ [field_val f]) ls t.
Proof.
  intros _. pose proof Hsep as H. destruct f as [[|c s]|s]; cbn [after field_val]; destruct H as [H|[H|[H|H]]]; rewrite H; reflexivity.
Qed.
Lemma pread_end f out ls t : field_ok sep f ->
  pread sep max (after f) (field_val f) out ls (10 :: t) = (Ok (true, out ++ row_val [f]), mk_p ls t false).
Proof. intros _. destruct f as [[|c s]|s]; cbn [after field_val row_val]; try rewrite app_nil_r; reflexivity. Qed.
Lemma pread_eof f out ls : field_ok sep f ->
  pread sep max (after f) (field_val f) out ls [] =
  match field_val f with [] => (Ok (false, out), mk_p ls [] true) | _ => (Ok (true, out ++ row_val [f]), mk_p ls [] true) end.
Proof. intros _. destruct f as [[|c s]|[|c s]]; cbn [after field_val row_val]; try rewrite app_nil_r; reflexivity. Qed.


Lemma pread_row : forall row out ls t, Forall (field_ok sep) row -> 0 <= ls -> ls + row_size row < max ->
  pread sep max Top [] out ls (row_text sep row ++ 10 :: t) = (Ok (true, out ++ row_val row), mk_p (ls + row_size row) t false).
Proof.
  induction row as [|f row IH]; intros out ls t HF H0 HM.
  - cbn [row_text app row_val row_size fold_right]. rewrite app_nil_r, Z.add_0_r. reflexivity.
  - inversion HF as [|? ? Hf HF']; subst. pose proof (row_size_nonneg row). pose proof (zlen_nonneg (field_val f)).
    cbn [row_size fold_right] in *. fold (row_size row) in *. destruct row as [|g row].
    + cbn [row_text row_size fold_right] in *. rewrite pread_field by (auto; lia). rewrite pread_end by auto. do 2 f_equal. lia.
    + change (row_text sep (f :: g :: row)) with (field_text f ++ [sep] ++ row_text sep (g :: row)).
      rewrite <- !app_assoc. rewrite pread_field by (auto; lia). cbn [app]. rewrite pread_sep by auto. rewrite IH by (auto; lia).
      assert (row_val (f :: g :: row) = field_val f :: row_val (g :: row)) as -> by (destruct f as [[|]|]; reflexivity).
      rewrite <- app_assoc. cbn [app]. do 2 f_equal. lia.
Qed.
Lemma pread_row_eof : forall row out ls, Forall (field_ok sep) row -> 0 <= ls -> ls + row_size row < max ->
  exists o, pread sep max Top [] out ls (row_text sep row) = (o, mk_p (ls + row_size row) [] true) /\
  (last_empty row -> exists v, o = Ok (false, v)) /\ (~ last_empty row -> o = Ok (true, out ++ row_val row)).
Proof.
  induction row as [|f row IH]; intros out ls HF H0 HM.
  - cbn [row_text row_size fold_right pread]. rewrite Z.add_0_r. eexists. split; [reflexivity|]. split; [eauto|]. intros C. exfalso. apply C. exact I.
  - inversion HF as [|? ? Hf HF']; subst. pose proof (row_size_nonneg row). pose proof (zlen_nonneg (field_val f)).
    cbn [row_size fold_right] in *. fold (row_size row) in *. destruct row as [|g row].
    + cbn [row_text row_size fold_right] in *. pose proof (pread_field f out ls [] Hf H0 ltac:(lia)) as E. rewrite app_nil_r in E. rewrite E, pread_eof by auto.
      unfold last_empty. cbn [rev app]. rewrite Z.add_0_r. destruct (field_val f).
      * eexists. split; [reflexivity|]. split; [eauto|congruence].
      * eexists. split; [reflexivity|]. split; [discriminate|auto].
    + change (row_text sep (f :: g :: row)) with (field_text f ++ [sep] ++ row_text sep (g :: row)).
      rewrite pread_field by (auto; lia). cbn [app]. rewrite pread_sep by auto. destruct (IH (out ++ [field_val f]) (ls + zlen (field_val f)) HF' ltac:(lia) ltac:(lia)) as (o & E & O1 & O2).
      rewrite E. exists o. split; [do 2 f_equal; lia|]. rewrite last_empty_cons. split; auto. intros L. rewrite (O2 L), <- app_assoc.
      assert (row_val (f :: g :: row) = field_val f :: row_val (g :: row)) as -> by (destruct f as [[|]|]; reflexivity). auto.
Qed.
Lemma pread_row_limit : forall row out ls t, Forall (field_ok sep) row -> 0 <= ls < max -> max <= ls + row_size row ->
  fst (pread sep max Top [] out ls (row_text sep row ++ t)) = Exn.
Proof.
  induction row as [|f row IH]; intros out ls t HF H0 HM.
  - cbn in HM. lia.
  - inversion HF as [|? ? Hf HF']; subst. pose proof (row_size_nonneg row). pose proof (zlen_nonneg (field_val f)).
    cbn [row_size fold_right] in *. fold (row_size row) in *. destruct row as [|g row].
    + cbn [row_text row_size fold_right] in *. apply pread_field_limit; auto; lia.
    + change (row_text sep (f :: g :: row)) with (field_text f ++ [sep] ++ row_text sep (g :: row)).
      rewrite <- !app_assoc. destruct (Z_lt_le_dec (ls + zlen (field_val f)) max).
      * rewrite pread_field by (auto; lia). cbn [app]. rewrite pread_sep by auto. apply IH; auto; lia.
      * apply pread_field_limit; auto.
Qed.
Lemma preads_eof n ls t : preads n sep max (mk_p ls t true) = repeat (Ok (false, [])) n.
Proof. induction n; auto. cbn [preads repeat]. unfold pcsv. cbn [p_eof]. f_equal. auto. Qed.
Lemma preads_rows : forall rows ls t n, Forall (Forall (field_ok sep)) rows -> 0 <= ls -> ls + rows_size rows < max ->
  preads (length rows + n) sep max (mk_p ls (file_text sep rows ++ t) false) =
  map (fun r => Ok (true, row_val r)) rows ++ preads n sep max (mk_p (ls + rows_size rows) t false).
Proof.
  induction rows as [|row rows IH]; intros ls t n HF H0 HM.
  - cbn. rewrite Z.add_0_r. auto.
  - inversion HF; subst. cbn [rows_size fold_right] in *. fold (rows_size rows) in *. pose proof (row_size_nonneg row). pose proof (rows_size_nonneg rows).
    cbn [length plus preads map app]. unfold pcsv at 1. cbn [p_eof p_ls p_rem].
    unfold file_text. cbn [map concat]. fold (file_text sep rows). rewrite <- !app_assoc. cbn [app]. rewrite pread_row by (auto; lia). cbn [app]. f_equal.
    rewrite IH by (auto; lia). do 3 f_equal. lia.
Qed.
End Reader.

(** ** C14: what the reader returns *)
(** a reader is made for the separators comma, tab, semicolon and space; any other is refused with an exception, and nothing is read *)
Theorem C14_separator : forall sep max is,
  (In sep [44; 9; 59; 32] -> exists r, csv_open max is sep = Ok r /\ cr_is r = is) /\ (~ In sep [44; 9; 59; 32] -> csv_open max is sep = Exn).
Proof.
  intros sep max is. unfold csv_open, isValidSeparator. split; intros H.
  - cbn in H. destruct H as [<-|[<-|[<-|[<-|[]]]]]; eexists; split; reflexivity.
  - cbn in H. repeat match goal with |- context [?a =? ?b] => destruct (Z.eqb_spec a b); [exfalso; intuition congruence|] end. reflexivity.
Qed.
(** a file of complete rows (CR anywhere ignored), any separator, any delivery: its rows, then false forever *)
Theorem C14_reads_rows : forall sep max rows file sched n r,
  csv_open max (mk_is file sched) sep = Ok r -> bytes file -> strip file = file_text sep rows ->
  Forall (Forall (field_ok sep)) rows -> rows_size rows < max < 2 ^ 64 ->
  csv_reads (length rows + n) r = map (fun row => Ok (true, row_val row)) rows ++ repeat (Ok (false, [])) n.
Proof.
  intros sep max rows file sched n r HO HB HS HF HM. unfold csv_open in HO. destruct (isValidSeparator sep) eqn:V; [|discriminate]. injection HO as <-.
  pose proof (rows_size_nonneg rows). assert (G: good_sep sep) by (apply good_sep_valid; auto).
  rewrite (csv_reads_spec _ _ sep max (mk_p 0 file false)) by (repeat split).
  rewrite (preads_strip sep max _ _ (mk_p 0 (file_text sep rows) false)) by (repeat split; auto).
  pose proof (preads_rows sep max G ltac:(lia) rows 0 [] n HF ltac:(lia) ltac:(lia)) as E. rewrite app_nil_r in E. rewrite E. f_equal.
  destruct n; auto. cbn [preads repeat]. unfold pcsv. cbn [p_eof p_rem p_ls pread]. rewrite (preads_eof sep max). auto.
Qed.
(** ... and a last row without line end: a row when its last field is not empty, else lost *)
Theorem C14_last_row : forall sep max rows row file sched r,
  csv_open max (mk_is file sched) sep = Ok r -> bytes file -> strip file = file_text sep rows ++ row_text sep row ->
  Forall (Forall (field_ok sep)) (row :: rows) -> rows_size rows + row_size row < max < 2 ^ 64 ->
  exists o, csv_reads (length rows + 1) r = map (fun row => Ok (true, row_val row)) rows ++ [o] /\
    (~ last_empty row -> o = Ok (true, row_val row)) /\ (last_empty row -> exists v, o = Ok (false, v)).
Proof.
  intros sep max rows row file sched r HO HB HS HF HM. unfold csv_open in HO. destruct (isValidSeparator sep) eqn:V; [|discriminate]. injection HO as <-.
  pose proof (rows_size_nonneg rows). assert (G: good_sep sep) by (apply good_sep_valid; auto). inversion HF; subst. pose proof (row_size_nonneg row).
  rewrite (csv_reads_spec _ _ sep max (mk_p 0 file false)) by (repeat split).
  rewrite (preads_strip sep max _ _ (mk_p 0 (file_text sep rows ++ row_text sep row) false)) by (repeat split; auto).
  rewrite (preads_rows sep max G ltac:(lia) rows 0 (row_text sep row) 1) by (auto; lia).
  destruct (pread_row_eof sep max G ltac:(lia) row [] (0 + rows_size rows)) as (o & E & O1 & O2); auto; try lia.
  exists o. cbn [preads]. unfold pcsv. cbn [p_eof p_ls p_rem]. rewrite E. split; auto.
Qed.
(** the size limit counts the characters of all fields of all rows read so far *)
Theorem C14_limit_cumulative : forall sep max rows row file sched rest r,
  csv_open max (mk_is file sched) sep = Ok r -> bytes file -> strip file = file_text sep rows ++ row_text sep row ++ rest ->
  Forall (Forall (field_ok sep)) (row :: rows) -> rows_size rows < max < 2 ^ 64 -> max <= rows_size rows + row_size row ->
  csv_reads (length rows + 1) r = map (fun row => Ok (true, row_val row)) rows ++ [Exn].
Proof.
  intros sep max rows row file sched rest r HO HB HS HF HM HM2. unfold csv_open in HO. destruct (isValidSeparator sep) eqn:V; [|discriminate]. injection HO as <-.
  pose proof (rows_size_nonneg rows). assert (G: good_sep sep) by (apply good_sep_valid; auto). inversion HF; subst. pose proof (row_size_nonneg row).
  rewrite (csv_reads_spec _ _ sep max (mk_p 0 file false)) by (repeat split).
  rewrite (preads_strip sep max _ _ (mk_p 0 (file_text sep rows ++ row_text sep row ++ rest) false)) by (repeat split; auto).
  rewrite (preads_rows sep max G ltac:(lia) rows 0 (row_text sep row ++ rest) 1) by (auto; lia). f_equal.
  cbn [preads]. unfold pcsv. cbn [p_eof p_ls p_rem]. pose proof (pread_row_limit sep max G ltac:(lia) row [] (0 + rows_size rows) rest) as E.
  destruct (pread _ _ _ _ _ _ _) as [o p]. cbn [fst] in E. rewrite E; auto; lia.
Qed.
(** the outcomes depend on the bytes alone, not on how they arrive, and every call returns or throws *)
Theorem C14_chunking : forall sep max data sched1 sched2 n r1 r2,
  csv_open max (mk_is data sched1) sep = Ok r1 -> csv_open max (mk_is data sched2) sep = Ok r2 ->
  csv_reads n r1 = csv_reads n r2.
Proof.
  intros sep max data s1 s2 n r1 r2 H1 H2. unfold csv_open in *. destruct (isValidSeparator sep); [|discriminate]. injection H1 as <-. injection H2 as <-.
  rewrite !(csv_reads_spec n _ sep max (mk_p 0 data false)) by (repeat split). auto.
Qed.
Lemma pread_total sep max : forall rem st str out ls, exists v p, pread sep max st str out ls rem = (v, p) /\ (v = Exn \/ exists x, v = Ok x) /\
  exists used, rem = used ++ p_rem p /\ (p_eof p = false -> used <> []).
Proof.
  induction rem as [|b t IH]; intros st s out ls; cbn [pread].
  - destruct s; [|destruct st]; do 2 eexists; (split; [reflexivity|]); (split; [eauto|]); exists []; split; auto; discriminate.
  - assert (R: forall st str out ls, exists v p, pread sep max st str out ls t = (v, p) /\ (v = Exn \/ exists x, v = Ok x) /\
  exists used, b :: t = used ++ p_rem p /\ (p_eof p = false -> used <> [])).
    { intros st0 s0 out0 ls0. destruct (IH st0 s0 out0 ls0) as (v & p & E & V & u & U & _). exists v, p. split; auto. split; auto. exists (b :: u). split; [cbn; congruence|discriminate]. }
    repeat match goal with |- context [if ?b then _ else _] => destruct b end; try (destruct s); try (destruct st); try (apply R);
    repeat match goal with |- context [if ?b then _ else _] => destruct b end; try (apply R);
    do 2 eexists; (split; [reflexivity|]); (split; [eauto|]); exists [b]; split; auto; discriminate.
Qed.
Theorem C14_total : forall out r, exists o r', csv_read out r = (o, r') /\ (o = Exn \/ exists x, o = Ok x) /\
  exists used, rem_of r = used ++ rem_of r' /\ (cr_eof r' = false -> used <> []).
Proof.
  intros out r. unfold csv_read. destruct (cr_eof r) eqn:E.
  - do 2 eexists. split; [reflexivity|]. split; [eauto|]. exists []. split; auto. congruence.
  - destruct (csv_loop_spec (S (length (cr_buf r) + length (is_data (cr_is r)))) Top [] [] r E) as (r' & L & C); [unfold rem_of; rewrite app_length; lia|].
    destruct (pread_total (cr_sep r) (cr_max r) (rem_of r) Top [] [] (cr_lineSize r)) as (v & p & P & V & U). rewrite P in L, C. cbn [fst snd] in *.
    do 2 eexists. split; [exact L|]. split; auto. destruct C as (_ & _ & _ & C4 & C5). rewrite C4, C5. auto.
Qed.
Definition demo_sched := [1; 2; 3; 1; 1].
Example C14_nonvacuous : let file := str "a,""b""""c"",
" in bytes file /\ strip file = file_text 44 [[Plain (str "a"); Quoted (str "b""c"); Plain []]] /\
  (let! r := csv_open 100 (mk_is file demo_sched) 44 in Ok (csv_reads 2 r)) = Ok [Ok (true, [str "a"; str "b""c"]); Ok (false, [])].
Proof. cbn zeta. split; [repeat constructor; unfold is_byte; cbn; lia|]. split; reflexivity. Qed.
(** findings *)
(** a 0xFF byte is taken for the end of the file *)
Theorem C14_ff_finding : (let! r := csv_open 100 (mk_is [97; 255; 98; 10] []) 44 in Ok (csv_reads 3 r)) =
  Ok [Ok (true, [[97]]); Ok (true, [[98]]); Ok (false, [])].
Proof. reflexivity. Qed.
(** an unterminated quote holding nothing is reported as end of file instead of an error, the row read so far is lost *)
Theorem C14_open_quote_finding : (let! r := csv_open 100 (mk_is (str "a,""") []) 44 in Ok (csv_reads 1 r)) = Ok [Ok (false, [str "a"])] /\
  (let! r := csv_open 100 (mk_is (str "a,""x") []) 44 in Ok (csv_reads 1 r)) = Ok [Exn].
Proof. split; reflexivity. Qed.
(** a CR inside quotes is lost *)
Theorem C14_cr_finding : (let! r := csv_open 100 (mk_is (csv_write 44 [] [[97; 13; 98]]) []) 44 in Ok (csv_reads 1 r)) = Ok [Ok (true, [[97; 98]])].
Proof. reflexivity. Qed.

(** ** C13 *)
Lemma csv_quote_doubled s : csv_quote s = doubled s.
Proof. induction s as [|c s IH]; auto. cbn [csv_quote doubled]. rewrite IH. destruct (c =? 34) eqn:E; cbn [app]; auto. assert (c = 34) by lia. subst. auto. Qed.
Lemma strip_app a b : strip (a ++ b) = strip a ++ strip b.
Proof. apply filter_app. Qed.
Lemma strip_id s : Forall (fun c => c <> 13) s -> strip s = s.
Proof. induction 1; auto. unfold strip in *. cbn [filter]. destruct (x =? 13) eqn:E; [lia|]. cbn. congruence. Qed.
Lemma no13_doubled s : Forall chr s -> Forall (fun c => c <> 13) (doubled s) /\ bytes (doubled s).
Proof.
  induction 1 as [|c s (H1 & H2 & H3) HF [IH1 IH2]]; [split; constructor|]. cbn [doubled]. destruct (c =? 34) eqn:E.
  - split; repeat constructor; auto; try lia.
  - split; repeat constructor; auto; try lia.
Qed.
Lemma csv_fields_text sep : good_sep sep -> forall row, Forall (Forall chr) row ->
  csv_fields sep true row = row_text sep (map Quoted row) /\
  (row <> [] -> csv_fields sep false row = sep :: row_text sep (map Quoted row)) /\
  strip (csv_fields sep true row) = csv_fields sep true row /\ bytes (csv_fields sep true row).
Proof.
  intros G. destruct (sep_facts sep G) as ((S1 & S2 & _) & _).
  assert (FT: forall f, Forall chr f -> csv_field f = field_text (Quoted f) /\ Forall (fun c => c <> 13) (csv_field f) /\ bytes (csv_field f)).
  { intros f Hf. unfold csv_field. rewrite csv_quote_doubled. destruct (no13_doubled f Hf) as [D1 D2]. split; auto. split.
    - constructor; [lia|]. apply Forall_app. split; auto. constructor; [lia|constructor].
    - constructor; [unfold is_byte; lia|]. apply bytes_app. split; auto. constructor; [unfold is_byte; lia|constructor]. }
  assert (N: forall row, Forall (Forall chr) row -> forall b, Forall (fun c => c <> 13) (csv_fields sep b row) /\ bytes (csv_fields sep b row)).
  { induction 1 as [|f row Hf HF IH]; intros b; [split; constructor|]. cbn [csv_fields]. destruct (FT f Hf) as (_ & F1 & F2). destruct (IH false) as [I1 I2].
    destruct b; cbn [app].
    - split; [apply Forall_app; auto|apply bytes_app; auto].
    - split; constructor; auto; [apply Forall_app; auto|apply bytes_app; auto]. }
  intros row HF. destruct (N row HF true) as [N1 N2]. split; [|split; [|split; [apply strip_id; auto|auto]]].
  - clear N1 N2. destruct HF as [|f row Hf HF]; auto. cbn [csv_fields map app]. destruct (FT f Hf) as (-> & _).
    assert (Q: forall row, Forall (Forall chr) row -> forall p, p ++ csv_fields sep false row = match row with [] => p | _ => p ++ [sep] ++ row_text sep (map Quoted row) end).
    { clear row HF. intros row HF. induction HF as [|g row Hg HF IH]; intros p; cbn [csv_fields map].
      - rewrite app_nil_r. auto.
      - destruct (FT g Hg) as (-> & _). specialize (IH (field_text (Quoted g))). cbn [app] in *. rewrite IH. destruct row; auto. }
    rewrite (Q row HF). destruct row; auto.
  - intros NE. clear N1 N2. destruct HF as [|f row Hf HF]; [congruence|]. cbn [csv_fields map app].
    f_equal. clear NE. revert f Hf. induction HF as [|g row Hg HF IH]; intros f Hf.
    + cbn [csv_fields row_text map]. rewrite app_nil_r. apply FT; auto.
    + cbn [csv_fields map]. destruct (FT f Hf) as (-> & _). cbn [app]. specialize (IH g Hg). cbn [map] in IH. rewrite IH.
      reflexivity.
Qed.
Theorem C13_round_trip : forall sep max rows sched n r,
  csv_open max (mk_is (fold_left (csv_write sep) rows []) sched) sep = Ok r ->
  Forall (Forall (Forall chr)) rows ->
  rows_size (map (map Quoted) rows) < max < 2 ^ 64 ->
  csv_reads (length rows + n) r = map (fun row => Ok (true, row)) rows ++ repeat (Ok (false, [])) n.
Proof.
  intros sep max rows sched n r HO HF HM.
  assert (G: good_sep sep). { unfold csv_open in HO. destruct (isValidSeparator sep) eqn:V; [|discriminate]. apply good_sep_valid; auto. }
  assert (W: forall os, bytes os -> bytes (fold_left (csv_write sep) rows os) /\ 
     strip (fold_left (csv_write sep) rows os) = strip os ++ file_text sep (map (map Quoted) rows)).
  { clear HO HM. induction HF as [|row rows Hr HF IH]; intros os Hos; [split; auto; cbn; rewrite app_nil_r; auto|].
    cbn [fold_left map]. destruct (csv_fields_text sep G row Hr) as (T1 & _ & T3 & T4).
    destruct (IH (csv_write sep os row)) as [I1 I2].
    - unfold csv_write. rewrite !bytes_app. repeat split; auto. repeat constructor; unfold is_byte; lia.
    - split; auto. rewrite I2. unfold csv_write. rewrite !strip_app, T3, T1. change (strip [13; 10]) with [10].
      unfold file_text. cbn [map concat]. rewrite !app_assoc. auto. }
  destruct (W [] ltac:(constructor)) as [W1 W2].
  pose proof (C14_reads_rows sep max (map (map Quoted) rows) _ sched n r HO W1 W2) as E. rewrite map_length, map_map in E. rewrite E; auto.
  - f_equal. apply map_ext. intros row. f_equal. f_equal. induction row as [|f row IH]; auto. cbn [map row_val field_val]. rewrite IH. auto.
  - rewrite Forall_map. eapply Forall_impl; [|exact HF]. intros row Hr. rewrite Forall_map. auto.
Qed.
Definition demo_rows := [[str "a,b"; []; str "say ""hi"""]; []; [[10; 10]]].
Example C13_nonvacuous : (exists r, csv_open 1000 (mk_is (fold_left (csv_write 44) demo_rows []) demo_sched) 44 = Ok r) /\
  Forall (Forall (Forall chr)) demo_rows /\ rows_size (map (map Quoted) demo_rows) = 13.
Proof. split; [eexists; reflexivity|]. split; [|reflexivity]. repeat constructor; cbn; lia. Qed.

Print Assumptions C13_round_trip.
Print Assumptions C14_separator.
Print Assumptions C14_reads_rows.
Print Assumptions C14_last_row.
Print Assumptions C14_limit_cumulative.
Print Assumptions C14_total.
