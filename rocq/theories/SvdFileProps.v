(** C92: the text files of nlp/svd.hpp.  What a Save function writes is read back by the Load functions with every number rounded to
    its text, and no file makes a Load function leave a matrix. *)
Require Import Verif.Common Verif.Text Verif.PlsiModel Verif.PlsiProps Verif.SvdModel Verif.SvdProps Verif.SvdFileModel Verif.AtoiSpec.
Require Verif.ExceptionModel Verif.ExceptionProps Verif.DesymbolModel.
Import ListNotations.
Local Open Scope Z_scope.

(** ** Specification *)
Notation blank := DesymbolModel.isspace.
(** number texts: a number for which [ok] holds has a text without white space, which reads as [val] of the number when a space, a
    newline or the end follows; reading never invents input *)
Record number_format {F} (num : list Z -> F * bool * list Z) (show : F -> list Z) (val : F -> F) (ok : F -> Prop) : Prop := {
  nf_text : forall x, ok x -> show x <> [] /\ Forall (fun c => blank c = false) (show x);
  nf_read : forall x rest, ok x -> (rest = [] \/ hd 0 rest = 32 \/ hd 0 rest = 10) -> num (show x ++ rest) = (val x, false, rest);
  nf_rest : forall d v bad rest, num d = (v, bad, rest) -> (length rest <= length d)%nat
}.
(** the columns of a sparse row increase within [0, c) *)
Fixpoint increasing {F} (lo c : Z) (r : list (Z * F)) : Prop :=
  match r with [] => True | (k, _) :: r => lo <= k < c /\ increasing (k + 1) c r end.
Definition well_formed {F} (S : smat (F := F)) : Prop :=
  1 <= srows S < 2 ^ 31 /\ 1 <= scols S < 2 ^ 31 /\ zlen (lines S) = srows S /\ Forall (increasing 0 (scols S)) (lines S).
(** the entry at column j of a sparse row *)
Fixpoint entry_at {F} (d : F) (r : list (Z * F)) (j : Z) : F :=
  match r with [] => d | (k, v) :: r => if k =? j then v else entry_at d r j end.
(** the dense matrix M and the sparse matrix S are the same *)
Definition same_matrix {F} (d : F) (M : mat F) (S : smat (F := F)) : Prop :=
  rows M = srows S /\ cols M = scols S /\ zlen (lines S) = srows S /\
  forall i j, 0 <= i < rows M -> 0 <= j < cols M -> at_ M i j = entry_at d (nth (Z.to_nat i) (lines S) []) j.
(** the first line has a visible character *)
Definition visible_top (bytes : list Z) : Prop := bytes = [] \/ exists a c b, bytes = a ++ c :: b /\ ~ In 10 a /\ blank c = false.

(** ** Streams *)
Lemma is_digit_b c : (48 <=? c) && (c <=? 57) = true <-> is_digit c.
Proof. unfold is_digit. rewrite andb_true_iff, !Z.leb_le. tauto. Qed.
Definition stops (r : list Z) : Prop := match r with [] => True | c :: _ => ~ is_digit c end.
Lemma digits_app ds rest : Forall is_digit ds -> stops rest -> digits (ds ++ rest) = (ds, rest).
Proof.
  intros H S. induction H as [|c ds Hc H IH]; cbn [app].
  - destruct rest as [|c r]; [reflexivity|]. cbn [digits]. destruct ((48 <=? c) && (c <=? 57)) eqn:E; [|reflexivity]. apply is_digit_b in E. destruct (S E).
  - cbn [digits]. rewrite (proj2 (is_digit_b c) Hc), IH. reflexivity.
Qed.
Lemma dec_value_fold s : fold_left (fun a c => a * 10 + (c - 48)) s 0 = dec_value s.
Proof. unfold dec_value, value. generalize 0. induction s as [|c s IH]; intros a; cbn [fold_left map]; auto. Qed.
Lemma int_at_dec x rest : - 2 ^ 31 <= x < 2 ^ 31 -> stops rest -> int_at (dec x ++ rest) = (x, false, rest, is_nil rest).
Proof.
  intros Hx S. pose proof (ExceptionProps.d_text x Hx) as D. unfold dec. destruct D as [(P & D)|(P & d & -> & D)].
  - destruct D as (N & F & V & _). set (s := ExceptionModel.printf_d x) in *. destruct s as [|c s]; [congruence|]. unfold int_at. cbn [app].
    assert (Hc : is_digit c) by now inversion F. unfold is_digit in Hc. destruct (Z.eqb_spec c 45); [lia|]. destruct (Z.eqb_spec c 43); [lia|].
    change (c :: s ++ rest) with ((c :: s) ++ rest). rewrite digits_app by auto. cbv zeta. rewrite dec_value_fold. unfold dec_value. rewrite V.
    destruct (Z.leb_spec (2 ^ 31) x); [lia|]. destruct (Z.ltb_spec x (- 2 ^ 31)); [lia|]. reflexivity.
  - destruct D as (N & F & V & _). unfold int_at. cbn [app]. rewrite Z.eqb_refl. rewrite digits_app by auto. cbv zeta. rewrite dec_value_fold. unfold dec_value. rewrite V.
    destruct d as [|c d]; [congruence|]. replace (- - x) with x by lia. destruct (Z.leb_spec (2 ^ 31) x); [lia|]. destruct (Z.ltb_spec x (- 2 ^ 31)); [lia|]. reflexivity.
Qed.
Lemma digit_blank c : is_digit c -> blank c = false.
Proof. unfold is_digit, DesymbolModel.isspace. intros H. destruct (Z.eqb_spec c 32); [lia|]. destruct (Z.leb_spec c 13); [lia|]. now rewrite andb_false_r. Qed.
Lemma dec_text x : - 2 ^ 31 <= x < 2 ^ 31 -> dec x <> [] /\ Forall (fun c => blank c = false) (dec x).
Proof.
  intros Hx. pose proof (ExceptionProps.d_text x Hx) as D. unfold dec. destruct D as [(P & D)|(P & d & -> & D)]; destruct D as (N & F & _).
  - split; auto. eapply Forall_impl; [|exact F]. apply digit_blank.
  - split; [discriminate|]. constructor; [reflexivity|]. eapply Forall_impl; [|exact F]. apply digit_blank.
Qed.
Lemma blank_nl l : Forall (fun c => blank c = false) l -> ~ In 10 l.
Proof. intros F I. rewrite Forall_forall in F. specialize (F 10 I). discriminate. Qed.
(** extraction of a word after white space *)
Lemma skip_blanks p d : Forall (fun c => blank c = true) p -> DesymbolModel.skip_ws (p ++ d) = DesymbolModel.skip_ws d.
Proof. induction 1 as [|c p H _ IH]; cbn [app DesymbolModel.skip_ws]; [auto|]. now rewrite H. Qed.
Lemma skip_word w d : w <> [] -> Forall (fun c => blank c = false) w -> DesymbolModel.skip_ws (w ++ d) = w ++ d.
Proof. intros N F. destruct F as [|c w H _]; [congruence|]. cbn [app DesymbolModel.skip_ws]. now rewrite H. Qed.
Lemma extract_word {A} (f : list Z -> A * bool * list Z * bool) p w rest x e : Forall (fun c => blank c = true) p -> w <> [] -> Forall (fun c => blank c = false) w ->
  f (w ++ rest) = (x, false, rest, e) -> extract f (mk_st (p ++ w ++ rest) false false) = (Some x, mk_st rest e false).
Proof. intros P N F E. unfold extract. cbn [failed eof orb left]. rewrite skip_blanks, skip_word by auto. destruct w as [|c w]; [congruence|]. cbn [app] in *. now rewrite E. Qed.
Lemma extract_fail {A} (f : list Z -> A * bool * list Z * bool) s : failed s = true -> extract f s = (None, mk_st (left s) (eof s) true).
Proof. intros H. unfold extract. now rewrite H. Qed.
Lemma extract_end {A} (f : list Z -> A * bool * list Z * bool) e : extract f (mk_st [] e false) = (None, mk_st [] true true).
Proof. unfold extract. cbn [failed eof orb left]. destruct e; reflexivity. Qed.
Lemma upto_nl_line line rest : ~ In 10 line -> upto_nl (line ++ 10 :: rest) = (line, Some rest).
Proof. induction line as [|c l IH]; intros N; cbn [app upto_nl]; [reflexivity|]. destruct (Z.eqb_spec c 10); [subst; destruct N; now left|]. rewrite IH; [reflexivity|]. intros I. apply N. now right. Qed.
Lemma getline_line line rest : ~ In 10 line -> getline (mk_st (line ++ 10 :: rest) false false) = Some (line, mk_st rest false false).
Proof.
  intros N. unfold getline. cbn [failed eof orb left]. pose proof (upto_nl_line line rest N) as U. destruct (line ++ 10 :: rest) eqn:E; [destruct line; discriminate|]. now rewrite U.
Qed.
Lemma span_cons b e : b < e -> span b e = b :: span (b + 1) e.
Proof. intros H. rewrite (span_split b (b + 1) e) by lia. unfold span at 1. replace (b + 1 - b) with 1 by lia. change (upto 1) with [0]. cbn [map app]. f_equal. lia. Qed.
Lemma span_nil b : span b b = [].
Proof. unfold span. rewrite Z.sub_diag. reflexivity. Qed.
(** loops that may return false: if every step keeps the invariant or returns false, so does the loop; if no step returns false, neither
    does the loop *)
Lemma loopRO {S} (P : Z -> S -> Prop) (may : Prop) (f : S -> Z -> res (option S)) n s : 0 <= n -> P 0 s ->
  (forall i s, 0 <= i < n -> P i s -> (exists s', f s i = Ok (Some s') /\ P (i + 1) s') \/ (may /\ f s i = Ok None)) ->
  (exists s', foldRO f (upto n) s = Ok (Some s') /\ P n s') \/ (may /\ foldRO f (upto n) s = Ok None).
Proof.
  intros Hn P0 St. rewrite <- span_0. set (k := Z.to_nat n). assert (K : 0 + Z.of_nat k = n) by (unfold k; lia). revert P0 K. generalize (Z.le_refl 0). generalize 0 at 2 3 4 5 6. revert s.
  induction k as [|k IH]; intros s i Hi Pi K.
  - replace i with n by lia. rewrite span_nil. left. exists s. split; [reflexivity|]. now replace n with i by lia.
  - rewrite span_cons by lia. cbn [foldRO]. destruct (St i s ltac:(lia) Pi) as [(s' & -> & P')|(Y & ->)]; cbn [bind]; [|now right]. apply IH; [lia|auto|lia].
Qed.
Lemma loopRO_all {S} (P : Z -> S -> Prop) (f : S -> Z -> res (option S)) n s : 0 <= n -> P 0 s ->
  (forall i s, 0 <= i < n -> P i s -> exists s', f s i = Ok (Some s') /\ P (i + 1) s') -> exists s', foldRO f (upto n) s = Ok (Some s') /\ P n s'.
Proof. intros Hn P0 St. destruct (loopRO P False f n s) as [G|(C & _)]; auto. destruct C. Qed.
Lemma foldRO_ext {S X} (f g : S -> X -> res (option S)) : (forall s x, f s x = g s x) -> forall l s, foldRO f l s = foldRO g l s.
Proof. intros H. induction l as [|x l IH]; intros s; cbn [foldRO]; [auto|]. rewrite H. destruct (g s x) as [[s'|]| | |]; cbn [bind]; auto. Qed.
Lemma firstn_snoc {A} (l : list A) n x : nth_error l n = Some x -> firstn (S n) l = firstn n l ++ [x].
Proof. revert n. induction l as [|y l IH]; intros [|n] E; try discriminate; cbn in *; [congruence|]. f_equal. auto. Qed.

(** ** Headers *)
Definition header (c v t : Z) (r k : Z) : list Z := [c; 32; v; 32; t; 32] ++ dec r ++ [32] ++ dec k.
Lemma header_line c v t r k body : blank c = false -> blank v = false -> blank t = false -> - 2 ^ 31 <= r < 2 ^ 31 -> - 2 ^ 31 <= k < 2 ^ 31 ->
  LoadHeader (mk_st (header c v t r k ++ 10 :: body) false false) =
    Ok (if (c =? 35) && (0 <? r) && ((t =? 83) || (t =? 68)) then
          if (v =? 77) && (0 <? k) then Some (true, t =? 83, r, k, mk_st body false false)
          else if v =? 86 then Some (false, t =? 83, r, 1, mk_st body false false) else None
        else None).
Proof.
  intros Hc Hv Ht Hr Hk. destruct (dec_text r Hr) as (Nr & Fr). destruct (dec_text k Hk) as (Nk & Fk).
  assert (NL : ~ In 10 (header c v t r k)).
  { unfold header. rewrite !in_app_iff. cbn [In]. pose proof (blank_nl _ Fr). pose proof (blank_nl _ Fk).
    intros [I|[I|[I|I]]]; try tauto; [|destruct I as [I|[]]; lia]. destruct I as [I|[I|[I|[I|[I|[I|[]]]]]]]; try lia; subst; discriminate. }
  unfold LoadHeader. rewrite getline_line by auto. unfold header.
  change ([c; 32; v; 32; t; 32] ++ dec r ++ [32] ++ dec k) with ([] ++ [c] ++ ([32] ++ [v] ++ ([32] ++ [t] ++ ([32] ++ dec r ++ [32] ++ dec k)))).
  rewrite (extract_word char_at [] [c] _ c false) by (try reflexivity; try discriminate; auto).
  rewrite (extract_word char_at [32] [v] _ v false) by (try reflexivity; try discriminate; auto).
  rewrite (extract_word char_at [32] [t] _ t false) by (try reflexivity; try discriminate; auto).
  change ([32] ++ dec r ++ [32] ++ dec k) with ([32] ++ dec r ++ (32 :: dec k)).
  rewrite (extract_word int_at [32] (dec r) (32 :: dec k) r false); [|auto|auto|auto|rewrite int_at_dec; [reflexivity|auto|unfold stops, is_digit; lia]].
  change (32 :: dec k) with ([32] ++ dec k). rewrite <- (app_nil_r (dec k)).
  rewrite (extract_word int_at [32] (dec k) [] k true); [|auto|auto|auto|rewrite int_at_dec; [reflexivity|auto|exact I]].
  cbn [dflt]. destruct (Z.eqb_spec c 35); cbn [negb andb]; [|reflexivity]. rewrite (Z.leb_antisym 0 r), (Z.leb_antisym 0 k). destruct (Z.ltb_spec 0 r); cbn [negb andb]; [|reflexivity].
  destruct (Z.eqb_spec t 83); destruct (Z.eqb_spec t 68); cbn [negb andb orb]; try reflexivity; destruct (Z.eqb_spec v 77); cbn [andb]; try reflexivity;
    destruct (Z.ltb_spec 0 k); cbn [negb]; try reflexivity; destruct (Z.eqb_spec v 86); try reflexivity; lia.
Qed.
(** "# V D n" *)
Lemma vector_line r body : 1 <= r < 2 ^ 31 -> LoadHeader (mk_st ((str "# V D " ++ dec r) ++ 10 :: body) false false) = Ok (Some (false, false, r, 1, mk_st body false false)).
Proof.
  intros Hr. destruct (dec_text r) as (Nr & Fr); [lia|].
  assert (NL : ~ In 10 (str "# V D " ++ dec r)).
  { rewrite !in_app_iff. pose proof (blank_nl _ Fr). intros [I|I]; [|tauto]. cbn in I. repeat (destruct I as [I|I]; [lia|]). destruct I. }
  unfold LoadHeader. rewrite getline_line by auto. change (str "# V D " ++ dec r) with ([] ++ [35] ++ ([32] ++ [86] ++ ([32] ++ [68] ++ ([32] ++ dec r)))).
  rewrite (extract_word char_at [] [35] _ 35 false) by (try reflexivity; try discriminate; auto).
  rewrite (extract_word char_at [32] [86] _ 86 false) by (try reflexivity; try discriminate; auto).
  rewrite (extract_word char_at [32] [68] _ 68 false) by (try reflexivity; try discriminate; auto).
  rewrite <- (app_nil_r (dec r)).
  rewrite (extract_word int_at [32] (dec r) [] r true); [|auto|auto|auto|rewrite int_at_dec; [reflexivity|lia|exact I]].
  cbn [extract failed eof orb]. destruct (Z.leb_spec r 0); [lia|]. cbn [dflt]. destruct (Z.leb_spec r 0); [lia|]. reflexivity.
Qed.

(** ** What was saved is loaded *)
Section RoundTrip.
Context {F : Type}.
Variables (fz : Z -> F) (cast : F -> F) (num : list Z -> F * bool * list Z) (show : F -> list Z) (val : F -> F) (ok : F -> Prop).
Hypothesis NF : number_format num show val ok.
Lemma num_word p x rest : Forall (fun c => blank c = true) p -> ok x -> (rest = [] \/ hd 0 rest = 32 \/ hd 0 rest = 10) ->
  extract (num_at num) (mk_st (p ++ show x ++ rest) false false) = (Some (val x), mk_st rest (is_nil rest) false).
Proof. intros P O R. destruct (nf_text _ _ _ _ NF x O) as (N & B). apply extract_word; auto. unfold num_at. now rewrite (nf_read _ _ _ _ NF x rest O R). Qed.

(** ** C92: a dense matrix comes back *)
Definition item (M : mat F) (i j : Z) : list Z := (if 0 <? j then str " " else []) ++ show (at_ M i j).
Definition rowt (M : mat F) (i : Z) : list Z := concat (map (item M i) (upto (cols M))) ++ [10].
Theorem C92_dense old (M : mat F) : 1 <= rows M < 2 ^ 31 -> 1 <= cols M < 2 ^ 31 -> (forall i j, 0 <= i < rows M -> 0 <= j < cols M -> ok (at_ M i j)) ->
  exists M', LoadMatrix fz cast num old (Some (SaveMatrix show M)) = Ok (Some M') /\ rows M' = rows M /\ cols M' = cols M /\
    forall i j, 0 <= i < rows M -> 0 <= j < cols M -> at_ M' i j = cast (val (at_ M i j)).
Proof.
  intros HR HC OK. unfold LoadMatrix, SaveMatrix.
  replace (str "# M D " ++ dec (rows M) ++ str " " ++ dec (cols M) ++ [10] ++ concat (map (fun i => concat (map (fun j => (if 0 <? j then str " " else []) ++ show (at_ M i j)) (upto (cols M))) ++ [10]) (upto (rows M))))
    with (header 35 77 68 (rows M) (cols M) ++ 10 :: concat (map (rowt M) (upto (rows M)))) by (unfold header; rewrite <- !app_assoc; reflexivity).
  rewrite header_line by (try reflexivity; lia). destruct (Z.ltb_spec 0 (rows M)); [|lia]. destruct (Z.ltb_spec 0 (cols M)); [|lia]. cbn [Z.eqb Pos.eqb andb orb bind].
  set (P := fun i (s : mat F * st) => rows (fst s) = rows M /\ cols (fst s) = cols M /\
     (exists p, (p = [] \/ p = [10]) /\ snd s = mk_st (p ++ concat (map (rowt M) (span i (rows M)))) false false) /\
     forall a b, 0 <= a < i -> 0 <= b < cols M -> at_ (fst s) a b = cast (val (at_ M a b))).
  edestruct (loopRO_all P) as ((M' & ifs) & -> & E1 & E2 & _ & E3); [lia| | |cbn [bind]; exists M'; auto].
  - split; [reflexivity|]. split; [reflexivity|]. split; [exists []; rewrite span_0; auto|]. intros; lia.
  - clear old. intros i (M1 & s1) Hi (R1 & C1 & (p & Hp & Es) & A1). cbn [fst snd] in *. subst s1. cbv beta.
    set (more := concat (map (rowt M) (span (i + 1) (rows M)))).
    set (Q := fun j (s : mat F * st) => rows (fst s) = rows M /\ cols (fst s) = cols M /\
      (exists q, (q = [] \/ q = [10]) /\ (j = 0 \/ q = []) /\ snd s = mk_st (q ++ concat (map (item M i) (span j (cols M))) ++ 10 :: more) false false) /\
      forall a b, (0 <= a < i \/ (a = i /\ 0 <= b < j)) -> 0 <= b < cols M -> at_ (fst s) a b = cast (val (at_ M a b))).
    edestruct (loopRO_all Q) as ((M2 & s2) & -> & E1 & E2 & (q & Hq & Hq' & E4) & E3); [lia| | |].
    + split; [auto|]. split; [auto|]. split; [|intros a b [|] ?; [auto|lia]]. exists p. split; [auto|]. split; [auto|]. cbn [snd]. f_equal. f_equal.
      rewrite (span_cons i) by lia. cbn [map concat]. unfold rowt at 1. rewrite span_0, <- app_assoc. reflexivity.
    + clear M1 p R1 C1 A1 Hp. intros j (M1 & s1) Hj (R1 & C1 & (q & Hq & Hq' & Es) & A1). cbn [fst snd] in *. subst s1.
      rewrite (span_cons j) by lia. cbn [map concat]. set (w := concat (map (item M i) (span (j + 1) (cols M))) ++ 10 :: more).
      replace (q ++ (item M i j ++ concat (map (item M i) (span (j + 1) (cols M)))) ++ 10 :: more) with ((q ++ if 0 <? j then str " " else []) ++ show (at_ M i j) ++ w)
        by (unfold w; change (item M i j) with ((if 0 <? j then str " " else []) ++ show (at_ M i j)); rewrite <- !app_assoc; reflexivity).
      assert (W : hd 0 w = 32 \/ hd 0 w = 10).
      { unfold w. destruct (Z.eq_dec (j + 1) (cols M)) as [->|]; [rewrite span_nil; cbn; auto|]. rewrite span_cons by lia. cbn [map concat]. unfold item. destruct (Z.ltb_spec 0 (j + 1)); [|lia]. left. reflexivity. }
      rewrite num_word; [|destruct Hq as [-> | ->], (0 <? j); repeat constructor|apply OK; lia|auto].
      assert (is_nil w = false) as -> by (destruct w; [cbn in W; lia|reflexivity]). cbn [failed].
      destruct (put_ok M1 i j (cast (val (at_ M i j)))) as (M2 & -> & R2 & C2 & A2); [lia|lia|]. cbn [bind]. eexists. split; [reflexivity|].
      split; [cbn [fst]; lia|]. split; [cbn [fst]; lia|]. split; [exists []; auto|].
      intros a b Hab Hb. cbn [fst]. rewrite A2. destruct (Z.eqb_spec a i), (Z.eqb_spec b j); cbn [andb]; subst; auto; apply A1; lia.
    + eexists. split; [reflexivity|]. cbn [fst snd] in *. split; [auto|]. split; [auto|]. split.
      * exists (q ++ [10]). split; [destruct Hq' as [?| ->]; [lia|now right]|]. cbn [snd]. rewrite E4, span_nil. cbn [map concat app]. rewrite <- app_assoc. reflexivity.
      * intros a b Ha Hb. cbn [fst]. apply E3; [|auto]. destruct (Z.eq_dec a i); [right|left]; lia.
Qed.

(** ** C92: a vector comes back *)
Theorem C92_vector (V : list F) : 1 <= zlen V < 2 ^ 31 -> Forall ok V -> LoadVector cast num (Some (SaveVector show V)) = Ok (Some (map (fun v => cast (val v)) V)).
Proof.
  intros HV OK. unfold LoadVector, SaveVector.
  replace (str "# V D " ++ dec (zlen V) ++ [10] ++ concat (map (fun v => show v ++ [10]) V)) with ((str "# V D " ++ dec (zlen V)) ++ 10 :: concat (map (fun v => show v ++ [10]) V)) by (rewrite <- !app_assoc; reflexivity).
  rewrite vector_line by auto. cbn [bind].
  set (P := fun i (s : list F * st) => exists p, (p = [] \/ p = [10]) /\
     snd s = mk_st (p ++ concat (map (fun v => show v ++ [10]) (skipn (Z.to_nat i) V))) false false /\ fst s = map (fun v => cast (val v)) (firstn (Z.to_nat i) V)).
  edestruct (loopRO_all P) as ((V' & ifs) & -> & p & _ & _ & E); [unfold zlen; lia| | |cbn [bind fst] in *; rewrite E, firstn_all2; [reflexivity|unfold zlen; lia]].
  - exists []. auto.
  - intros i (V1 & s1) Hi (p & Hp & E1 & E2). cbn [fst snd] in *. subst.
    assert (L : (Z.to_nat i < length V)%nat) by (unfold zlen in Hi; lia). destruct (nth_error V (Z.to_nat i)) as [x|] eqn:EX; [|apply nth_error_None in EX; lia].
    destruct (nth_error_split _ _ EX) as (l1 & l2 & EV & EL). assert (O : ok x) by (rewrite Forall_forall in OK; apply OK; eapply nth_error_In; eauto).
    assert (S1 : skipn (Z.to_nat i) V = x :: l2) by (rewrite EV, <- EL, skipn_app, skipn_all, Nat.sub_diag; reflexivity).
    assert (S2 : skipn (Z.to_nat (i + 1)) V = l2) by (replace (Z.to_nat (i + 1)) with (S (length l1)) by lia; rewrite EV, skipn_app, skipn_all2 by lia; replace (S (length l1) - length l1)%nat with 1%nat by lia; reflexivity).
    assert (S3 : firstn (Z.to_nat (i + 1)) V = firstn (Z.to_nat i) V ++ [x]).
    { replace (Z.to_nat (i + 1)) with (S (length l1)) by lia. rewrite EV, <- EL, !firstn_app, firstn_all2 by lia. replace (S (length l1) - length l1)%nat with 1%nat by lia. rewrite firstn_all, Nat.sub_diag. cbn [firstn]. now rewrite app_nil_r. }
    rewrite S1. cbn [map concat]. rewrite <- app_assoc. rewrite num_word; [|destruct Hp as [-> | ->]; repeat constructor|auto|right; right; reflexivity].
    cbn [app is_nil failed]. eexists. split; [reflexivity|]. exists [10]. split; [auto|]. cbn [fst snd]. rewrite S2, S3, map_app. auto.
Qed.

(** ** Sparse rows *)
Definition ent (e : Z * F) : list Z := dec (fst e) ++ 58 :: show (snd e).
Definition sline (r : list (Z * F)) : list Z := match r with [] => [] | e :: r => ent e ++ concat (map (fun e => 32 :: ent e) r) end.
Definition fits (col : Z) (e : Z * F) : Prop := 0 <= fst e < col /\ ok (snd e).
Lemma sline_text r : fst (fold_left (fun '(t, first) (e : Z * F) => (t ++ (if first : bool then [] else str " ") ++ dec (fst e) ++ str ":" ++ show (snd e), false)) r ([], true)) = sline r.
Proof.
  destruct r as [|e r]; [reflexivity|]. cbn [fold_left sline app].
  assert (G : forall r t, fst (fold_left (fun '(t, first) (e : Z * F) => (t ++ (if first : bool then [] else str " ") ++ dec (fst e) ++ str ":" ++ show (snd e), false)) r (t, false)) = t ++ concat (map (fun e => 32 :: ent e) r)).
  { clear. induction r as [|e r IH]; intros t; cbn [fold_left map concat]; [now rewrite app_nil_r|]. rewrite IH. unfold ent. change (str " ") with [32]. change (str ":") with [58]. rewrite <- !app_assoc. cbn [app]. rewrite <- app_assoc. reflexivity. }
  rewrite G. reflexivity.
Qed.
Lemma sparse_line_ok {M} (store : M -> Z -> F -> res M) col r : col < 2 ^ 31 -> forall fuel p e m, Forall (fits col) r -> (p = [] \/ p = [32]) -> (e = true -> r = []) -> (length r < fuel)%nat ->
  sparse_line cast num store col fuel (mk_st (match r with [] => [] | _ => p ++ sline r end) e false) m = let! m := foldM (fun m e => store m (fst e) (cast (val (snd e)))) r m in Ok (Some m).
Proof.
  intros HC. induction r as [|(k, v) r IH]; intros fuel p e m FR Hp He Hf; (destruct fuel as [|fuel]; [cbn in Hf; lia|]); cbn [sparse_line].
  - rewrite extract_end. rewrite !extract_fail by reflexivity. reflexivity.
  - assert (e = false) as -> by (destruct e; [now specialize (He eq_refl)|reflexivity]). inversion FR as [|x l (Hk & Hv) FR']. subst. cbn [fst snd] in Hk, Hv.
    set (rest := match r with [] => [] | _ => [32] ++ sline r end).
    assert (ER : concat (map (fun e => 32 :: ent e) r) = rest) by (unfold rest; destruct r; reflexivity).
    cbn [sline]. rewrite ER. unfold ent. cbn [fst snd]. destruct (dec_text k) as (Nk & Bk); [lia|].
    replace (p ++ (dec k ++ 58 :: show v) ++ rest) with (p ++ dec k ++ ([] ++ [58] ++ ([] ++ show v ++ rest))) by (rewrite <- !app_assoc; reflexivity).
    rewrite (extract_word int_at p (dec k) _ k false); [|destruct Hp as [-> | ->]; repeat constructor|auto|auto|rewrite int_at_dec; [reflexivity|lia|unfold stops, is_digit; cbn [app]; lia]].
    rewrite (extract_word char_at [] [58] _ 58 false) by (try reflexivity; try discriminate; auto).
    rewrite num_word; [|constructor|auto|unfold rest; destruct r; [auto|right; left; reflexivity]].
    cbn [failed]. destruct (Z.ltb_spec k 0); [lia|]. destruct (Z.leb_spec col k); [lia|]. cbn [Z.eqb Pos.eqb negb orb foldM fst snd].
    destruct (store m k (cast (val v))) as [m1| | |]; cbn [bind]; try reflexivity. unfold rest. rewrite IH; [reflexivity|auto|auto|intros X; destruct r; [reflexivity|discriminate X]|cbn in Hf; lia].
Qed.
Lemma sline_fuel r : (length r < S (length (sline r)))%nat.
Proof. destruct r as [|e r]; [cbn; lia|]. cbn [sline length]. rewrite app_length. unfold ent at 1. rewrite app_length. cbn [length]. assert (length r <= length (concat (map (fun e => 32%Z :: ent e) r)))%nat; [|lia]. induction r as [|x r IH]; [cbn; lia|]. cbn [map concat length app]. rewrite app_length. lia. Qed.
Lemma sline_nl col r : col < 2 ^ 31 -> Forall (fits col) r -> ~ In 10 (sline r).
Proof.
  intros HC FR. assert (G : forall e, fits col e -> ~ In 10 (ent e)).
  { intros (k, v) (Hk & Hv). cbn [fst snd] in *. unfold ent. cbn [fst snd]. rewrite in_app_iff. cbn [In]. destruct (dec_text k) as (_ & Bk); [lia|]. apply blank_nl in Bk. destruct (nf_text _ _ _ _ NF v Hv) as (_ & Bv). apply blank_nl in Bv. intros [I|[I|I]]; try tauto. lia. }
  destruct FR as [|e r He FR]; [auto|]. cbn [sline]. rewrite in_app_iff. intros [I|I]; [now apply (G e)|]. apply in_concat in I. destruct I as (l & I1 & I2). apply in_map_iff in I1. destruct I1 as (x & <- & I1). rewrite Forall_forall in FR. destruct I2 as [I2|I2]; [lia|]. apply (G x); auto.
Qed.
Lemma increasing_weak lo lo' c (r : list (Z * F)) : lo' <= lo -> increasing lo c r -> increasing lo' c r.
Proof. destruct r as [|(k, v) r]; cbn [increasing]; auto. intros H (A & B). split; [lia|auto]. Qed.
Lemma increasing_fits c r : forall lo, 0 <= lo -> increasing lo c r -> Forall (fun e => ok (snd e)) r -> Forall (fits c) r.
Proof. induction r as [|(k, v) r IH]; intros lo Hlo I O; constructor; cbn [increasing] in I; inversion O; subst. - split; [cbn; lia|auto]. - apply (IH (k + 1)); [lia|tauto|auto]. Qed.
Lemma insert_all c r : forall lo done, increasing lo c r -> (forall d, fst (last done (-1, d)) < lo) ->
  foldM (fun m e => insert_back m (fst e) (cast (val (snd e)))) r done = Ok (done ++ map (fun e => (fst e, cast (val (snd e)))) r).
Proof.
  induction r as [|(k, v) r IH]; intros lo done I L; cbn [foldM map]; [now rewrite app_nil_r|]. cbn [increasing] in I. destruct I as (Hk & I). cbn [fst snd].
  unfold insert_back at 1. specialize (L (cast (val v))). destruct (last done (-1, cast (val v))) as (k0 & v0). cbn [fst] in L. destruct (Z.ltb_spec k0 k); [|lia]. cbn [bind].
  rewrite (IH (k + 1)); [|auto|intros d; rewrite last_last; cbn; lia]. rewrite <- app_assoc. reflexivity.
Qed.
Definition put_all (i : Z) r (M : mat F) := foldM (fun m e => put m i (fst e) (cast (val (snd e)))) r M.
Lemma put_all_ok i c r : forall lo M, increasing lo c r -> 0 <= lo -> cols M = c -> 0 <= i < rows M -> (forall j, lo <= j < c -> at_ M i j = fz 0) ->
  exists M', put_all i r M = Ok M' /\ rows M' = rows M /\ cols M' = c /\ (forall a b, a <> i \/ b < lo -> at_ M' a b = at_ M a b) /\
    forall j, lo <= j < c -> at_ M' i j = entry_at (fz 0) (map (fun e => (fst e, cast (val (snd e)))) r) j.
Proof.
  induction r as [|(k, v) r IH]; intros lo M I Hlo HC Hi Z0; unfold put_all; cbn [foldM map entry_at].
  - exists M. auto.
  - cbn [increasing] in I. destruct I as (Hk & I). cbn [fst snd]. destruct (put_ok M i k (cast (val v))) as (M1 & -> & R1 & C1 & A1); [lia|lia|]. cbn [bind]. fold (put_all i r M1).
    destruct (IH (k + 1) M1 I) as (M2 & E & R2 & C2 & A2 & A3); [lia|lia|lia| |].
    { intros j Hj. rewrite A1. destruct (Z.eqb_spec j k); [lia|]. rewrite andb_false_r. apply Z0. lia. }
    exists M2. split; [auto|]. split; [lia|]. split; [lia|]. split.
    + intros a b H. rewrite A2 by lia. rewrite A1. destruct (Z.eqb_spec a i), (Z.eqb_spec b k); cbn [andb]; auto. lia.
    + intros j Hj. destruct (Z.le_gt_cases (k + 1) j).
      * rewrite A3 by lia. destruct (Z.eqb_spec k j); [lia|reflexivity].
      * rewrite A2 by lia. rewrite A1, Z.eqb_refl. cbn [andb]. destruct (Z.eqb_spec j k), (Z.eqb_spec k j); try lia; auto. rewrite Z0 by lia.
        clear - I H n. assert (j < k) by lia. assert (G : forall r lo, increasing lo c r -> j < lo -> entry_at (fz 0) (map (fun e => (fst e, cast (val (snd e)))) r) j = fz 0).
        { clear r I. induction r as [|(k', v') r IH]; intros lo I Hl; cbn [map entry_at fst snd]; [reflexivity|]. cbn [increasing] in I. destruct (Z.eqb_spec k' j); [lia|]. apply (IH (k' + 1)); [tauto|lia]. }
        symmetry. apply (G r (k + 1)); [auto|lia].
Qed.
Definition loaded (S : smat (F := F)) : smat := mk_smat (srows S) (scols S) (map (map (fun e => (fst e, cast (val (snd e))))) (lines S)).
Lemma sparse_text S : SaveSparseMatrix show S = header 35 77 83 (srows S) (scols S) ++ 10 :: concat (map (fun r => sline r ++ [10]) (lines S)).
Proof.
  unfold SaveSparseMatrix, header. rewrite <- !app_assoc. change (str " ") with [32]. change (str "# M S ") with [35; 32; 77; 32; 83; 32]. cbn [app].
  rewrite (map_ext _ (fun r => sline r ++ [10])); [reflexivity|]. intros r. f_equal. apply sline_text.
Qed.
(** reading the lines one after another *)
Lemma rows_loop {T} (P : Z -> T -> Prop) (body : list Z -> T -> Z -> res (option T)) S t0 : well_formed S -> Forall (Forall (fun e => ok (snd e))) (lines S) -> P 0 t0 ->
  (forall i t r, 0 <= i < srows S -> P i t -> nth_error (lines S) (Z.to_nat i) = Some r -> exists t', body (sline r) t i = Ok (Some t') /\ P (i + 1) t') ->
  exists t ifs, foldRO (fun '(t, ifs) i => match getline ifs with None => Ok None | Some (line, ifs) => let! o := body line t i in match o with None => Ok None | Some t => Ok (Some (t, ifs)) end end)
    (upto (srows S)) (t0, mk_st (concat (map (fun r => sline r ++ [10]) (lines S))) false false) = Ok (Some (t, ifs)) /\ P (srows S) t.
Proof.
  intros (HR & HC & HL & HI) OK P0 St.
  set (Q := fun i (s : T * st) => P i (fst s) /\ snd s = mk_st (concat (map (fun r => sline r ++ [10]) (skipn (Z.to_nat i) (lines S)))) false false).
  edestruct (loopRO_all Q) as ((t & ifs) & E & Pn & _); [| | |exists t, ifs; split; [exact E|exact Pn]].
  - lia.
  - split; auto.
  - intros i (t & s) Hi (Pi & Es). cbn [fst snd] in *. subst s.
    destruct (nth_error (lines S) (Z.to_nat i)) as [r|] eqn:EX; [|apply nth_error_None in EX; unfold zlen in HL; lia].
    destruct (nth_error_split _ _ EX) as (l1 & l2 & EV & EL).
    assert (S1 : skipn (Z.to_nat i) (lines S) = r :: l2) by (rewrite EV, <- EL, skipn_app, skipn_all, Nat.sub_diag; reflexivity).
    assert (S2 : skipn (Z.to_nat (i + 1)) (lines S) = l2) by (replace (Z.to_nat (i + 1)) with (Datatypes.S (length l1)) by lia; rewrite EV, skipn_app, skipn_all2 by lia; replace (Datatypes.S (length l1) - length l1)%nat with 1%nat by lia; reflexivity).
    assert (I : In r (lines S)) by (eapply nth_error_In; eauto). rewrite Forall_forall in HI, OK.
    rewrite S1. cbn [map concat]. rewrite <- app_assoc. cbn [app]. rewrite getline_line by (apply (sline_nl (scols S)); [lia|]; apply (increasing_fits _ _ 0); [lia|apply HI; auto|apply OK; auto]).
    destruct (St i t r Hi Pi EX) as (t' & -> & P'). cbn [bind]. eexists. split; [reflexivity|]. split; [auto|]. cbn [snd]. now rewrite S2.
Qed.
(** ** C92: a sparse matrix comes back, as a sparse or as a dense matrix *)
Theorem C92_sparse S : well_formed S -> Forall (Forall (fun e => ok (snd e))) (lines S) -> LoadSparseMatrix cast num (Some (SaveSparseMatrix show S)) = Ok (Some (loaded S)).
Proof.
  intros W OK. pose proof W as (HR & HC & HL & HI). unfold LoadSparseMatrix. rewrite sparse_text. rewrite header_line by (try reflexivity; lia).
  destruct (Z.ltb_spec 0 (srows S)); [|lia]. destruct (Z.ltb_spec 0 (scols S)); [|lia]. cbn [Z.eqb Pos.eqb andb orb bind negb].
  set (P := fun i (ls : list (list (Z * F))) => ls = map (map (fun e => (fst e, cast (val (snd e))))) (firstn (Z.to_nat i) (lines S))).
  destruct (rows_loop P (fun line ls i => let! o := sparse_line cast num insert_back (scols S) (Datatypes.S (length line)) (mk_st line false false) [] in match o with None => Ok None | Some r => Ok (Some (ls ++ [r])) end) S []) as (ls & ifs & E & Pn); auto.
  - reflexivity.
  - intros i ls r Hi -> EX. assert (I : In r (lines S)) by (eapply nth_error_In; eauto). rewrite Forall_forall in HI, OK.
    pose proof (sparse_line_ok insert_back (scols S) r ltac:(lia) (Datatypes.S (length (sline r))) [] false []) as L. cbn [app] in L.
    replace (match r with [] => [] | _ :: _ => sline r end) with (sline r) in L by (destruct r; reflexivity). rewrite L; [|apply (increasing_fits _ _ 0); [lia|apply HI; auto|apply OK; auto]|auto|discriminate|apply sline_fuel].
    rewrite (insert_all (scols S) r 0 []); [|apply HI; auto|intros; cbn; lia]. cbn [bind app]. eexists. split; [reflexivity|]. unfold P.
    replace (Z.to_nat (i + 1)) with (Datatypes.S (Z.to_nat i)) by lia. rewrite (firstn_snoc _ _ _ EX), map_app. reflexivity.
  - rewrite (foldRO_ext _ (fun '(t, ifs) i => match getline ifs with None => Ok None | Some (line, ifs) => let! o := (let! o := sparse_line cast num insert_back (scols S) (Datatypes.S (length line)) (mk_st line false false) [] in match o with None => Ok None | Some r => Ok (Some (t ++ [r])) end) in match o with None => Ok None | Some t => Ok (Some (t, ifs)) end end)).
    + rewrite E. cbn [bind]. unfold P in Pn. rewrite Pn, firstn_all2 by (unfold zlen in HL; lia). reflexivity.
    + intros (t & s) i. destruct (getline s) as [(line & s')|]; [|reflexivity]. destruct (sparse_line cast num insert_back (scols S) (Datatypes.S (length line)) (mk_st line false false) []) as [[r|]| | |]; reflexivity.
Qed.
Theorem C92_sparse_dense old S : well_formed S -> Forall (Forall (fun e => ok (snd e))) (lines S) ->
  exists M, LoadMatrix fz cast num old (Some (SaveSparseMatrix show S)) = Ok (Some M) /\ same_matrix (fz 0) M (loaded S).
Proof.
  intros W OK. pose proof W as (HR & HC & HL & HI). unfold LoadMatrix. rewrite sparse_text. rewrite header_line by (try reflexivity; lia).
  destruct (Z.ltb_spec 0 (srows S)); [|lia]. destruct (Z.ltb_spec 0 (scols S)); [|lia]. cbn [Z.eqb Pos.eqb andb orb bind negb].
  set (P := fun i (M : mat F) => rows M = srows S /\ cols M = scols S /\ forall a b, 0 <= a < i -> 0 <= b < scols S -> at_ M a b = entry_at (fz 0) (nth (Z.to_nat a) (lines (loaded S)) []) b).
  destruct (rows_loop P (fun line M i => sparse_line cast num (fun M idx v => put M i idx v) (scols S) (Datatypes.S (length line)) (mk_st line false false)
     (mk_mat (srows S) (scols S) (fun a b => if a =? i then fz 0 else at_ M a b))) S (mk_mat (srows S) (scols S) old)) as (M & ifs & E & E1 & E2 & E3); auto.
  - split; [reflexivity|]. split; [reflexivity|]. intros; lia.
  - intros i M r Hi (R1 & C1 & A1) EX. assert (I : In r (lines S)) by (eapply nth_error_In; eauto). rewrite Forall_forall in HI, OK.
    pose proof (sparse_line_ok (fun M idx v => put M i idx v) (scols S) r ltac:(lia) (Datatypes.S (length (sline r))) [] false) as L. cbn [app] in L.
    replace (match r with [] => [] | _ :: _ => sline r end) with (sline r) in L by (destruct r; reflexivity). rewrite L; [|apply (increasing_fits _ _ 0); [lia|apply HI; auto|apply OK; auto]|auto|discriminate|apply sline_fuel]. clear L.
    edestruct (put_all_ok i (scols S) r 0) as (M' & E' & R2 & C2 & A2 & A3); [apply HI; auto|lia| | | |unfold put_all in E'; rewrite E'; cbn [bind]; exists M'; split; [reflexivity|]].
    + reflexivity.
    + cbn [rows]. lia.
    + intros j _. cbn [at_]. now rewrite Z.eqb_refl.
    + split; [auto|]. split; [auto|]. intros a b Ha Hb. destruct (Z.eq_dec a i) as [->|].
      * rewrite A3 by auto. f_equal. cbn [loaded lines]. symmetry. apply nth_error_nth. rewrite nth_error_map, EX. reflexivity.
      * rewrite A2 by auto. cbn [at_]. destruct (Z.eqb_spec a i); [lia|]. apply A1; lia.
  - rewrite E. cbn [bind]. exists M. split; [reflexivity|]. split; [auto|]. split; [auto|]. split; [cbn [loaded lines srows]; unfold zlen in *; rewrite map_length; auto|].
    intros i j Hi Hj. apply E3; lia.
Qed.
End RoundTrip.

(** ** Every file *)
Lemma digits_len d : forall a b, digits d = (a, b) -> (length b <= length d)%nat.
Proof.
  induction d as [|c d IH]; intros a b E; cbn [digits] in E; [injection E as <- <-; cbn; lia|].
  destruct ((48 <=? c) && (c <=? 57)); [|injection E as <- <-; lia]. destruct (digits d) as (a' & b'). injection E as <- <-. specialize (IH a' b' eq_refl). cbn [length]. lia.
Qed.
Lemma int_at_len d v bad rest e : int_at d = (v, bad, rest, e) -> (length rest <= length d)%nat /\ - 2 ^ 31 <= v < 2 ^ 31.
Proof.
  unfold int_at. intros E.
  assert (G : forall neg d', (let '(ds, rest0) := digits d' in
    let e0 := is_nil rest0 in match ds with [] => (0, true, rest0, e0) | _ => let v0 := fold_left (fun a c => a * 10 + (c - 48)) ds 0 in let v1 := if neg : bool then - v0 else v0 in
      if 2 ^ 31 <=? v1 then (2 ^ 31 - 1, true, rest0, e0) else if v1 <? - 2 ^ 31 then (- 2 ^ 31, true, rest0, e0) else (v1, false, rest0, e0) end) = (v, bad, rest, e) -> (length rest <= length d')%nat /\ - 2 ^ 31 <= v < 2 ^ 31).
  { clear. intros neg d E. destruct (digits d) as (ds & r) eqn:D. apply digits_len in D. cbv zeta in E. destruct ds as [|c ds]; [injection E as <- <- <- <-; lia|].
    set (w := fold_left _ (c :: ds) 0) in E. set (w' := if neg then - w else w) in E. destruct (Z.leb_spec (2 ^ 31) w'); [injection E as <- <- <- <-; lia|]. destruct (Z.ltb_spec w' (- 2 ^ 31)); injection E as <- <- <- <-; lia. }
  destruct d as [|c d]; [apply (G false []); exact E|]. destruct (c =? 45); [apply (G true d) in E; cbn [length]; lia|]. destruct (c =? 43); [apply (G false d) in E; cbn [length]; lia|]. apply (G false (c :: d)) in E. exact E.
Qed.
Lemma skip_ws_len d : (length (DesymbolModel.skip_ws d) <= length d)%nat.
Proof. induction d as [|c d IH]; cbn [DesymbolModel.skip_ws]; [lia|]. destruct (blank c); cbn [length]; lia. Qed.
Lemma extract_cases {A} (f : list Z -> A * bool * list Z * bool) s o s' : extract f s = (o, s') ->
  (o = None /\ failed s' = true /\ (length (left s') <= length (left s))%nat) \/
  (exists x bad rest e c d, o = Some x /\ failed s = false /\ eof s = false /\ DesymbolModel.skip_ws (left s) = c :: d /\ f (c :: d) = (x, bad, rest, e) /\ s' = mk_st rest e bad).
Proof.
  unfold extract. destruct (failed s) eqn:E1, (eof s) eqn:E2; cbn [orb]; intros H; try (injection H as <- <-; left; cbn [failed left]; auto).
  destruct (DesymbolModel.skip_ws (left s)) as [|c d] eqn:E3; [injection H as <- <-; left; cbn [failed left length]; repeat split; lia|].
  destruct (f (c :: d)) as (((x & bad) & rest) & e) eqn:E4. injection H as <- <-. right. exists x, bad, rest, e, c, d. auto 10.
Qed.
Lemma visible_skip a c b : blank c = false -> exists x d, DesymbolModel.skip_ws (a ++ c :: b) = x :: d.
Proof. intros H. induction a as [|y a IH]; cbn [app DesymbolModel.skip_ws]; [rewrite H; eauto|]. destruct (blank y); eauto. Qed.
Lemma upto_nl_vis a c b : ~ In 10 a -> blank c = false -> exists b' o, upto_nl (a ++ c :: b) = (a ++ c :: b', o).
Proof.
  intros N B. induction a as [|y a IH]; cbn [app upto_nl].
  - destruct (Z.eqb_spec c 10); [subst; discriminate|]. destruct (upto_nl b) as (b' & o). eauto.
  - destruct (Z.eqb_spec y 10); [subst; destruct N; now left|]. destruct IH as (b' & o & ->); [intros I; apply N; now right|]. eauto.
Qed.
Lemma header_safe bytes : visible_top bytes -> exists h, LoadHeader (mk_st bytes false false) = Ok h /\
  forall m sp r k ifs, h = Some (m, sp, r, k, ifs) -> 1 <= r < 2 ^ 31 /\ 1 <= k < 2 ^ 31 /\ failed ifs = false.
Proof.
  intros V. unfold LoadHeader. destruct V as [->|(a & c0 & b & -> & N & B)]; [eexists; split; [reflexivity|discriminate]|].
  destruct (upto_nl_vis a c0 b N B) as (b' & o & E).
  assert (G : exists ifs, failed ifs = false /\ getline (mk_st (a ++ c0 :: b) false false) = Some (a ++ c0 :: b', ifs)).
  { unfold getline. cbn [failed eof orb left]. destruct (a ++ c0 :: b) eqn:E'; [destruct a; discriminate|]. rewrite E. destruct o; eexists; (split; [|reflexivity]); reflexivity. }
  destruct G as (ifs & NF & G). rewrite G. clear G E. destruct (visible_skip a c0 b' B) as (x & d & SK).
  destruct (extract char_at (mk_st (a ++ c0 :: b') false false)) as (c & s1) eqn:X1.
  destruct (extract char_at s1) as (v & s2) eqn:X2. destruct (extract char_at s2) as (t & s3) eqn:X3. destruct (extract int_at s3) as (r & s4) eqn:X4. destruct (extract int_at s4) as (k & s5) eqn:X5.
  assert (exists c1, c = Some c1) as (c1 & ->). { unfold extract in X1. cbn [failed eof orb left] in X1. rewrite SK in X1. cbn [char_at] in X1. injection X1 as <- _. eauto. }
  destruct (negb (c1 =? 35)); [eexists; split; [reflexivity|discriminate]|]. destruct (Z.leb_spec (dflt 0 r) 0) as [|R0]; [eexists; split; [reflexivity|discriminate]|].
  destruct r as [r|]; cbn [dflt] in *; [|lia].
  apply extract_cases in X4. destruct X4 as [(? & _)|(x4 & bad4 & rest4 & e4 & c4 & d4 & Er & F3 & _ & _ & I4 & _)]; [discriminate|]. injection Er as ->. apply int_at_len in I4.
  apply extract_cases in X3. destruct X3 as [(_ & F & _)|(t' & bad3 & rest3 & e3 & c3 & d3 & -> & F2 & _ & _ & _ & E3)]; [congruence|].
  apply extract_cases in X2. destruct X2 as [(_ & F & _)|(v' & bad2 & rest2 & e2 & c2 & d2 & -> & F1 & _ & _ & _ & E2)]; [congruence|].
  assert (HK : - 2 ^ 31 <= dflt 0 k < 2 ^ 31). { apply extract_cases in X5. destruct X5 as [(-> & _)|(x5 & bad5 & rest5 & e5 & c5 & d5 & -> & _ & _ & _ & I5 & _)]; [cbn; lia|]. apply int_at_len in I5. cbn [dflt]. lia. }
  destruct (negb (t' =? 83) && negb (t' =? 68)); [eexists; split; [reflexivity|discriminate]|].
  destruct (v' =? 77); [destruct (Z.leb_spec (dflt 0 k) 0); [eexists; split; [reflexivity|discriminate]|]; eexists; split; [reflexivity|]; intros m sp r' k' ifs' Eq; injection Eq as <- <- <- <- <-; repeat split; auto; lia|].
  destruct (v' =? 86); [|eexists; split; [reflexivity|discriminate]]. eexists. split; [reflexivity|]. intros m sp r' k' ifs' Eq. injection Eq as <- <- <- <- <-. repeat split; auto; lia.
Qed.

Section AnyFile.
Context {F : Type}.
Variables (fz : Z -> F) (cast : F -> F) (num : list Z -> F * bool * list Z).
Hypothesis NL : forall d v bad rest, num d = (v, bad, rest) -> (length rest <= length d)%nat.
(** one entry of a sparse line: the rest of the line, if there is one *)
Lemma entry_cases s idx s1 sep s2 v s3 : extract int_at s = (idx, s1) -> extract char_at s1 = (sep, s2) -> extract (num_at num) s2 = (v, s3) -> failed s3 = false ->
  exists k c x, idx = Some k /\ sep = Some c /\ v = Some x /\ (length (left s3) < length (left s))%nat.
Proof.
  intros X1 X2 X3 F3. apply extract_cases in X3. destruct X3 as [(_ & F' & _)|(x & bad & rest & e & c3 & d3 & -> & F2 & _ & S3 & N3 & E3)]; [congruence|].
  apply extract_cases in X2. destruct X2 as [(_ & F' & _)|(c & bad2 & rest2 & e2 & c2 & d2 & -> & F1 & _ & S2 & N2 & E2)]; [congruence|].
  apply extract_cases in X1. destruct X1 as [(_ & F' & _)|(k & bad1 & rest1 & e1 & c1 & d1 & -> & F0 & _ & S1 & N1 & E1)]; [congruence|].
  exists k, c, x. repeat split; auto. subst. cbn [left failed] in *. injection N2 as <- <- <- <-. unfold num_at in N3. destruct (num (c3 :: d3)) as ((v' & b') & r') eqn:N. apply NL in N. injection N3 as <- <- <- <-.
  apply int_at_len in N1. pose proof (skip_ws_len (left s)) as L1. pose proof (skip_ws_len rest1) as L2. pose proof (skip_ws_len d2) as L3. rewrite S1 in L1. rewrite S2 in L2. rewrite S3 in L3. cbn [length] in *. lia.
Qed.
Lemma sparse_line_safe {M} (I : M -> Prop) (store : M -> Z -> F -> res M) col : (forall m k v, I m -> 0 <= k < col -> exists m', store m k v = Ok m' /\ I m') ->
  forall fuel s m, I m -> (length (left s) < fuel)%nat -> sparse_line cast num store col fuel s m = Ok None \/ exists m', sparse_line cast num store col fuel s m = Ok (Some m') /\ I m'.
Proof.
  intros St. induction fuel as [|fuel IH]; intros s m Im Hf; [lia|]. cbn [sparse_line].
  destruct (extract int_at s) as (idx & s1) eqn:X1. destruct (extract char_at s1) as (sep & s2) eqn:X2. destruct (extract (num_at num) s2) as (v & s3) eqn:X3.
  destruct (failed s3) eqn:F3; [right; eauto|]. destruct (entry_cases _ _ _ _ _ _ _ X1 X2 X3 F3) as (k & c & x & -> & -> & -> & L).
  destruct (negb (c =? 58) || (k <? 0) || (col <=? k)) eqn:B; [now left|]. apply orb_false_iff in B. destruct B as (B & B3). apply orb_false_iff in B. destruct B as (_ & B2). apply Z.ltb_ge in B2. apply Z.leb_gt in B3.
  destruct (St m k (cast x) Im ltac:(lia)) as (m' & -> & Im'). cbn [bind]. apply IH; [auto|lia].
Qed.
(** the two loaders on the same line *)
Lemma increasing_snoc c k v (r : list (Z * F)) : forall lo, increasing lo c r -> lo <= k < c -> fst (last r (lo - 1, v)) < k ->
  increasing lo c (r ++ [(k, v)]) /\ forall d j, entry_at d (r ++ [(k, v)]) j = if j =? k then v else entry_at d r j.
Proof.
  induction r as [|(k0, v0) r IH]; intros lo I Hk L; cbn [app increasing entry_at] in *.
  - split; [split; [lia|auto]|]. intros d j. rewrite (Z.eqb_sym j k). reflexivity.
  - destruct I as (H0 & I).
    assert (KK : k0 < k /\ fst (last r (k0 + 1 - 1, v)) < k).
    { destruct r as [|(k1, v1) r]; [cbn in *; lia|]. replace (last ((k0, v0) :: (k1, v1) :: r) (lo - 1, v)) with (last ((k1, v1) :: r) (k0 + 1 - 1, v)) in L.
      - split; [|exact L]. clear - I L. assert (G : forall (r : list (Z * F)) lo d, increasing lo c r -> r <> [] -> lo <= fst (last r d)).
        { clear. induction r as [|(a, b) r IH]; intros lo d I N; [congruence|]. cbn [increasing] in I. destruct r as [|(a', b') r]; [cbn; lia|]. specialize (IH (a + 1) d (proj2 I) ltac:(discriminate)).
          change (last ((a, b) :: (a', b') :: r) d) with (last ((a', b') :: r) d). lia. }
        specialize (G ((k1, v1) :: r) (k0 + 1) (k0 + 1 - 1, v) I ltac:(discriminate)). lia.
      - change (last ((k0, v0) :: (k1, v1) :: r) (lo - 1, v)) with (last ((k1, v1) :: r) (lo - 1, v)). clear. revert k1 v1. induction r as [|(a, b) r IH]; intros; [reflexivity|]. cbn [last] in *. apply (IH a b). }
    destruct (IH (k0 + 1) I ltac:(lia) (proj2 KK)) as (I' & A). split; [split; [lia|auto]|]. intros d j. rewrite A. destruct (Z.eqb_spec k0 j), (Z.eqb_spec j k); try lia; auto.
Qed.
Definition row_is (col i : Z) (r : list (Z * F)) (M0 M : mat F) : Prop :=
  increasing 0 col r /\ rows M = rows M0 /\ cols M = col /\ (forall a b, a <> i -> at_ M a b = at_ M0 a b) /\ forall j, 0 <= j < col -> at_ M i j = entry_at (fz 0) r j.
Lemma line_agree col i M0 : 0 <= i < rows M0 -> forall fuel s r M, (length (left s) < fuel)%nat -> row_is col i r M0 M ->
  (sparse_line cast num insert_back col fuel s r = Ok None /\ sparse_line cast num (fun M idx v => put M i idx v) col fuel s M = Ok None) \/
  (exists r' M', sparse_line cast num insert_back col fuel s r = Ok (Some r') /\ sparse_line cast num (fun M idx v => put M i idx v) col fuel s M = Ok (Some M') /\ row_is col i r' M0 M') \/
  sparse_line cast num insert_back col fuel s r = UB.
Proof.
  intros Hi. induction fuel as [|fuel IH]; intros s r M Hf R; [lia|]. cbn [sparse_line].
  destruct (extract int_at s) as (idx & s1) eqn:X1. destruct (extract char_at s1) as (sep & s2) eqn:X2. destruct (extract (num_at num) s2) as (v & s3) eqn:X3.
  destruct (failed s3) eqn:F3; [right; left; eauto|]. destruct (entry_cases _ _ _ _ _ _ _ X1 X2 X3 F3) as (k & c & x & -> & -> & -> & L).
  destruct (negb (c =? 58) || (k <? 0) || (col <=? k)) eqn:B; [now left|]. apply orb_false_iff in B. destruct B as (B & B3). apply orb_false_iff in B. destruct B as (_ & B2). apply Z.ltb_ge in B2. apply Z.leb_gt in B3.
  destruct R as (I & R1 & R2 & R3 & R4). destruct (put_ok M i k (cast x)) as (M1 & -> & P1 & P2 & P3); [lia|lia|]. cbn [bind].
  unfold insert_back. destruct (last r (-1, cast x)) as (k0 & v0) eqn:EL. destruct (Z.ltb_spec k0 k); [|cbn [bind]; auto]. cbn [bind]. apply IH; [lia|].
  destruct (increasing_snoc col k (cast x) r 0 I) as (I' & A); [lia|cbn [Z.sub]; change (0 - 1) with (-1); rewrite EL; cbn; lia|].
  split; [auto|]. split; [lia|]. split; [lia|]. split; [intros a b N; rewrite P3; destruct (Z.eqb_spec a i); [lia|]; cbn [andb]; auto|].
  intros j Hj. rewrite P3, A, Z.eqb_refl. cbn [andb]. destruct (j =? k); auto.
Qed.

(** ** C92: whatever the file holds, loading stays in the matrix and ends: false or a matrix of positive size *)
Theorem C92_safe old bytes : visible_top bytes ->
  (LoadMatrix fz cast num old (Some bytes) = Ok None \/ exists M, LoadMatrix fz cast num old (Some bytes) = Ok (Some M) /\ 1 <= rows M < 2 ^ 31 /\ 1 <= cols M < 2 ^ 31) /\
  (LoadVector cast num (Some bytes) = Ok None \/ exists V, LoadVector cast num (Some bytes) = Ok (Some V) /\ 1 <= zlen V < 2 ^ 31).
Proof.
  intros V. destruct (header_safe bytes V) as (h & E & H). unfold LoadMatrix, LoadVector. rewrite E. cbn [bind]. clear E V.
  destruct h as [((((m & sp) & r) & k) & ifs)|]; [|split; now left]. destruct (H _ _ _ _ _ eq_refl) as (Hr & Hk & Hf). clear H. destruct m; [split; [|now left]|split; [now left|]].
  - destruct sp.
    + edestruct (loopRO (fun _ (s : mat F * st) => rows (fst s) = r /\ cols (fst s) = k) True) as [((M & s) & -> & R & C)|(_ & ->)]; [lia| | |right; exists M; cbn [bind fst] in *; repeat split; auto; lia|now left].
      * split; reflexivity.
      * intros i (M & s) Hi (R & C). cbn [fst] in *. destruct (getline s) as [(line & s')|]; [|right; auto].
        edestruct (sparse_line_safe (fun M : mat F => rows M = r /\ cols M = k) (fun M idx v => put M i idx v) k) as [->|(M' & -> & R' & C')]; [| | |right; cbn [bind]; auto|left; cbn [bind]; eexists; split; [reflexivity|auto]].
        -- intros m idx v (R1 & C1) Hidx. destruct (put_ok m i idx v) as (m' & -> & R2 & C2 & _); [lia|lia|]. exists m'. repeat split; lia.
        -- split; reflexivity.
        -- cbn [left]. lia.
    + edestruct (loopRO (fun _ (s : mat F * st) => rows (fst s) = r /\ cols (fst s) = k) True) as [((M & s) & -> & R & C)|(_ & ->)]; [lia| | |right; exists M; cbn [bind fst] in *; repeat split; auto; lia|now left].
      * split; reflexivity.
      * intros i s0 Hi P0. apply (loopRO (fun _ (s : mat F * st) => rows (fst s) = r /\ cols (fst s) = k)); [lia|auto|]. clear s0 P0. intros j (M & s) Hj (R & C). cbn [fst] in *.
        destruct (extract (num_at num) s) as (v & s') eqn:X. destruct (failed s') eqn:FS; [right; auto|]. apply extract_cases in X. destruct X as [(_ & F' & _)|(x & _ & _ & _ & _ & _ & -> & _)]; [congruence|].
        destruct (put_ok M i j (cast x)) as (M' & -> & R2 & C2 & _); [lia|lia|]. left. cbn [bind]. eexists. split; [reflexivity|]. cbn [fst]. lia.
  - edestruct (loopRO (fun i (s : list F * st) => zlen (fst s) = i) True) as [((W & s) & -> & L)|(_ & ->)]; [lia| | |right; exists W; cbn [bind fst] in *; repeat split; auto; lia|now left].
    + reflexivity.
    + intros i (W & s) Hi L. cbn [fst] in *. destruct (extract (num_at num) s) as (v & s') eqn:X. destruct (failed s') eqn:FS; [right; auto|]. apply extract_cases in X. destruct X as [(_ & F' & _)|(x & _ & _ & _ & _ & _ & -> & _)]; [congruence|].
      left. eexists. split; [reflexivity|]. cbn [fst]. unfold zlen in *. rewrite app_length. cbn [length]. lia.
Qed.
(** ** C92: a sparse file is the same matrix for both loaders; the sparse one may stop at a row whose columns do not increase *)
Theorem C92_agree old bytes : visible_top bytes ->
  (LoadSparseMatrix cast num (Some bytes) = Ok None) \/
  (exists S M, LoadSparseMatrix cast num (Some bytes) = Ok (Some S) /\ well_formed S /\ LoadMatrix fz cast num old (Some bytes) = Ok (Some M) /\ same_matrix (fz 0) M S) \/
  LoadSparseMatrix cast num (Some bytes) = UB.
Proof.
  intros V. destruct (header_safe bytes V) as (h & E & H). unfold LoadMatrix, LoadSparseMatrix. rewrite E. cbn [bind]. clear E V.
  destruct h as [((((m & sp) & r) & k) & ifs)|]; [|now left]. destruct (H _ _ _ _ _ eq_refl) as (Hr & Hk & Hf). clear H. destruct m; [|now left]. destruct sp; cbn [negb]; [|now left].
  set (fs := fun '(ls, ifs) (_ : Z) => _). set (fd := fun '(M, ifs) (i : Z) => _).
  assert (FS : forall ls ifs i, fs (ls, ifs) i = match getline ifs with None => Ok None | Some (line, ifs) =>
      let! o := sparse_line cast num insert_back k (S (length line)) (mk_st line false false) [] in match o with None => Ok None | Some r => Ok (Some (ls ++ [r], ifs)) end end) by reflexivity.
  assert (FD : forall M ifs i, fd (M, ifs) i = match getline ifs with None => Ok None | Some (line, ifs) =>
      let! o := sparse_line cast num (fun M idx v => put M i idx v) k (S (length line)) (mk_st line false false) (mk_mat r k (fun a b => if a =? i then fz 0 else at_ M a b)) in match o with None => Ok None | Some M => Ok (Some (M, ifs)) end end) by reflexivity.
  clearbody fs fd.
  assert (G : forall n i ls ifs M, 0 <= i -> i + Z.of_nat n = r -> zlen ls = i -> Forall (increasing 0 k) ls -> rows M = r -> cols M = k ->
    (forall a b, 0 <= a < i -> 0 <= b < k -> at_ M a b = entry_at (fz 0) (nth (Z.to_nat a) ls []) b) ->
    foldRO fs (span i r) (ls, ifs) = Ok None \/
    (exists ls' M' ifs', foldRO fs (span i r) (ls, ifs) = Ok (Some (ls', ifs')) /\ foldRO fd (span i r) (M, ifs) = Ok (Some (M', ifs')) /\
       zlen ls' = r /\ Forall (increasing 0 k) ls' /\ rows M' = r /\ cols M' = k /\ forall a b, 0 <= a < r -> 0 <= b < k -> at_ M' a b = entry_at (fz 0) (nth (Z.to_nat a) ls' []) b) \/
    foldRO fs (span i r) (ls, ifs) = UB).
  { clear ifs Hf. induction n as [|n IH]; intros i ls ifs M Hi En Li Inc RM CM A.
    - assert (i = r) as E by lia. rewrite E in *. rewrite span_nil. right. left. exists ls, M, ifs. repeat split; auto.
    - rewrite span_cons by lia. cbn [foldRO]. rewrite FS, FD. destruct (getline ifs) as [(line & ifs')|]; [|now left].
      destruct (line_agree k i (mk_mat r k (fun a b => if a =? i then fz 0 else at_ M a b)) ltac:(cbn; lia) (S (length line)) (mk_st line false false) [] (mk_mat r k (fun a b => if a =? i then fz 0 else at_ M a b)))
        as [(E1 & E2)|[(r' & M' & E1 & E2 & I1 & R1 & C1 & A1 & A2)|E1]].
      + cbn [left]. lia.
      + split; [exact I|]. split; [reflexivity|]. split; [reflexivity|]. split; [auto|]. intros j _. cbn [at_ entry_at]. now rewrite Z.eqb_refl.
      + rewrite E1. left. reflexivity.
      + rewrite E1, E2. cbn [bind]. cbn [rows] in R1. apply IH; auto; try lia.
        * unfold zlen in *. rewrite app_length. cbn [length]. lia.
        * apply Forall_app. auto.
        * intros a b Ha Hb. destruct (Z.eq_dec a i) as [->|].
          -- rewrite A2 by auto. rewrite app_nth2 by (unfold zlen in Li; lia). replace (Z.to_nat i - length ls)%nat with O by (unfold zlen in Li; lia). reflexivity.
          -- rewrite A1 by auto. cbn [at_]. destruct (Z.eqb_spec a i); [lia|]. rewrite app_nth1 by (unfold zlen in Li; lia). apply A; lia.
      + rewrite E1. right. right. reflexivity. }
  rewrite <- span_0. destruct (G (Z.to_nat r) 0 [] ifs (mk_mat r k old)) as [->|[(ls & M & ifs' & -> & -> & L & Inc & RM & CM & A)| ->]]; [lia|lia|reflexivity|constructor|reflexivity|reflexivity|intros; lia|now left| |right; right; reflexivity].
  - right. left. cbn [bind]. eexists. exists M. split; [reflexivity|]. split; [split; [auto|]; split; [auto|]; split; auto|]. split; [reflexivity|]. split; [auto|]. split; [auto|]. split; [auto|]. cbn [lines]. intros; apply A; lia.
Qed.
End AnyFile.
(** ** C92: the first line decides who accepts the file and the size of the result *)
Section Headers.
Context {F : Type}.
Variables (fz : Z -> F) (cast : F -> F) (num : list Z -> F * bool * list Z).
Hypothesis NL : forall d v bad rest, num d = (v, bad, rest) -> (length rest <= length d)%nat.
Lemma header_visible c v t r k body : blank c = false -> visible_top (header c v t r k ++ 10 :: body).
Proof. intros B. right. exists [], c, (skipn 1 (header c v t r k) ++ 10 :: body). split; [reflexivity|]. split; auto. Qed.
Theorem C92_header old c v t r k body : blank c = false -> blank v = false -> blank t = false -> - 2 ^ 31 <= r < 2 ^ 31 -> - 2 ^ 31 <= k < 2 ^ 31 ->
  let file := Some (header c v t r k ++ 10 :: body) in
  (forall M, LoadMatrix fz cast num old file = Ok (Some M) -> [c; v] = str "#M" /\ ([t] = str "D" \/ [t] = str "S") /\ 1 <= r /\ 1 <= k /\ rows M = r /\ cols M = k) /\
  (forall S, LoadSparseMatrix cast num file = Ok (Some S) -> [c; v; t] = str "#MS" /\ 1 <= r /\ 1 <= k /\ srows S = r /\ scols S = k) /\
  (forall V, LoadVector cast num file = Ok (Some V) -> [c; v] = str "#V" /\ ([t] = str "D" \/ [t] = str "S") /\ 1 <= r /\ zlen V = r).
Proof.
  intros Hc Hv Ht Hr Hk file. pose proof (header_line c v t r k body Hc Hv Ht Hr Hk) as HL.
  change (str "#M") with [35; 77]. change (str "#V") with [35; 86]. change (str "#MS") with [35; 77; 83]. change (str "D") with [68]. change (str "S") with [83].
  split; [|split].
  - intros M E. unfold LoadMatrix, file in E. rewrite HL in E. cbn [bind] in E.
    destruct (Z.eqb_spec c 35); cbn [andb] in E; [|discriminate]. destruct (Z.ltb_spec 0 r); cbn [andb] in E; [|discriminate].
    destruct ((t =? 83) || (t =? 68)) eqn:ET; [|discriminate]. apply orb_true_iff in ET. rewrite !Z.eqb_eq in ET.
    destruct (Z.eqb_spec v 77); cbn [andb] in E; [|destruct (v =? 86); discriminate]. destruct (Z.ltb_spec 0 k); [|subst v; cbn in E; discriminate].
    subst c v. split; [reflexivity|]. split; [destruct ET; subst; auto|]. split; [lia|]. split; [lia|].
    destruct (t =? 83).
    + edestruct (loopRO (fun _ (s : mat F * st) => rows (fst s) = r /\ cols (fst s) = k) True) as [((M' & s) & E' & R & C)|(_ & E')]; [| | |rewrite E' in E; cbn [bind] in E; injection E as <-; auto|rewrite E' in E; discriminate].
      * lia.
      * split; reflexivity.
      * intros i (M1 & s) Hi (R & C). cbn [fst] in *. destruct (getline s) as [(line & s')|]; [|right; auto].
        edestruct (sparse_line_safe fz cast num NL (fun M : mat F => rows M = r /\ cols M = k) (fun M idx v => put M i idx v) k) as [->|(M' & -> & R' & C')]; [| | |right; cbn [bind]; auto|left; cbn [bind]; eexists; split; [reflexivity|auto]].
        -- intros m idx v (R1 & C1) Hidx. destruct (put_ok m i idx v) as (m' & -> & R2 & C2 & _); [lia|lia|]. exists m'. repeat split; lia.
        -- split; reflexivity.
        -- cbn [left]. lia.
    + edestruct (loopRO (fun _ (s : mat F * st) => rows (fst s) = r /\ cols (fst s) = k) True) as [((M' & s) & E' & R & C)|(_ & E')]; [| | |rewrite E' in E; cbn [bind] in E; injection E as <-; auto|rewrite E' in E; discriminate].
      * lia.
      * split; reflexivity.
      * intros i s0 Hi P0. apply (loopRO (fun _ (s : mat F * st) => rows (fst s) = r /\ cols (fst s) = k)); [lia|auto|]. clear s0 P0. intros j (M1 & s) Hj (R & C). cbn [fst] in *.
        destruct (extract (num_at num) s) as (x & s') eqn:X. destruct (failed s') eqn:FS; [right; auto|]. apply extract_cases in X. destruct X as [(_ & F' & _)|(x' & _ & _ & _ & _ & _ & -> & _)]; [congruence|].
        destruct (put_ok M1 i j (cast x')) as (M' & -> & R2 & C2 & _); [lia|lia|]. left. cbn [bind]. eexists. split; [reflexivity|]. cbn [fst]. lia.
  - intros S E. assert (H : [c; v; t] = [35; 77; 83] /\ 1 <= r /\ 1 <= k).
    { unfold LoadSparseMatrix, file in E. rewrite HL in E. cbn [bind] in E.
      destruct (Z.eqb_spec c 35); cbn [andb] in E; [|discriminate]. destruct (Z.ltb_spec 0 r); cbn [andb] in E; [|discriminate].
      destruct ((t =? 83) || (t =? 68)); [|discriminate]. destruct (Z.eqb_spec v 77); cbn [andb] in E; [|destruct (v =? 86); discriminate]. destruct (Z.ltb_spec 0 k); [|subst v; cbn in E; discriminate].
      destruct (Z.eqb_spec t 83); [|discriminate]. subst. repeat split; lia. }
    destruct H as (H & H1 & H2). split; [auto|]. split; [auto|]. split; [auto|]. injection H as -> -> ->.
    unfold LoadSparseMatrix, file in E. rewrite HL in E. destruct (Z.ltb_spec 0 r); [|lia]. destruct (Z.ltb_spec 0 k); [|lia]. cbn [Z.eqb Pos.eqb andb orb bind negb] in E.
    match type of E with context [foldRO ?f ?l ?s] => destruct (foldRO f l s) as [[(ls & s')|]| | |]; try discriminate end. cbn [bind] in E. injection E as <-. auto.
  - intros V E. unfold LoadVector, file in E. rewrite HL in E. cbn [bind] in E.
    destruct (Z.eqb_spec c 35); cbn [andb] in E; [|discriminate]. destruct (Z.ltb_spec 0 r); cbn [andb] in E; [|discriminate].
    destruct ((t =? 83) || (t =? 68)) eqn:ET; [|discriminate]. apply orb_true_iff in ET. rewrite !Z.eqb_eq in ET.
    destruct ((v =? 77) && (0 <? k)); [discriminate|]. destruct (Z.eqb_spec v 86); [|discriminate]. subst c v. split; [reflexivity|]. split; [destruct ET; subst; auto|]. split; [lia|].
    edestruct (loopRO (fun i (s : list F * st) => zlen (fst s) = i) True) as [((W & s) & E' & L)|(_ & E')]; [| | |rewrite E' in E; cbn [bind] in E; injection E as <-; exact L|rewrite E' in E; discriminate].
    + lia.
    + reflexivity.
    + intros i (W & s) Hi L. cbn [fst] in *. destruct (extract (num_at num) s) as (x & s') eqn:X. destruct (failed s') eqn:FS; [right; auto|]. apply extract_cases in X. destruct X as [(_ & F' & _)|(x' & _ & _ & _ & _ & _ & -> & _)]; [congruence|].
      left. eexists. split; [reflexivity|]. cbn [fst]. unfold zlen in *. rewrite app_length. cbn [length]. lia.
Qed.
End Headers.

(** ** Instance: matrices of int, written and read as int *)
Definition numZ (d : list Z) : Z * bool * list Z := let '(v, bad, rest, _) := int_at d in (v, bad, rest).
Lemma Z_format : number_format numZ dec (fun z => z) (fun z => - 2 ^ 31 <= z < 2 ^ 31).
Proof.
  split.
  - apply dec_text.
  - intros x rest Hx R. unfold numZ. rewrite int_at_dec; [reflexivity|auto|]. destruct R as [-> |R]; [exact I|]. destruct rest as [|c r]; [exact I|]. cbn in *. unfold is_digit. lia.
  - intros d v bad rest E. unfold numZ in E. destruct (int_at d) as (((v' & b') & r') & e') eqn:D. apply int_at_len in D. injection E as <- <- <-. tauto.
Qed.
Definition nlZ := nf_rest _ _ _ _ Z_format.
Definition idz (z : Z) := z.
Definition text (l : list (list Z)) : list Z := concat (map (fun s => s ++ [10]) l).
Definition entries (M : mat Z) : list (list Z) := map (fun i => map (at_ M i) (upto (cols M))) (upto (rows M)).
Example C92_example : exists M', LoadMatrix idz idz numZ (fun _ _ => 9) (Some (SaveMatrix dec (mk_mat 2 3 (fun i j => 10 * i - j)))) = Ok (Some M') /\ entries M' = [[0; -1; -2]; [10; 9; 8]] /\
  SaveMatrix dec (mk_mat 2 3 (fun i j => 10 * i - j)) = text [str "# M D 2 3"; str "0 -1 -2"; str "10 9 8"].
Proof. eexists. split; [vm_compute; reflexivity|]. split; reflexivity. Qed.
Definition S_example : smat := mk_smat 3 4 [[(1, 5); (3, -7)]; []; [(0, 2)]].
Example C92_sparse_example : well_formed S_example /\ SaveSparseMatrix dec S_example = text [str "# M S 3 4"; str "1:5 3:-7"; []; str "0:2"] /\ exists M, LoadMatrix idz idz numZ (fun _ _ => 9) (Some (SaveSparseMatrix dec S_example)) = Ok (Some M) /\
  entries M = [[0; 5; 0; -7]; [0; 0; 0; 0]; [2; 0; 0; 0]].
Proof. split; [|split; [reflexivity|]]. - unfold well_formed, S_example. cbn. repeat constructor; lia. - eexists. split; [vm_compute; reflexivity|]. reflexivity. Qed.
Example C92_vector_example : SaveVector dec [4; -5] = text [str "# V D 2"; str "4"; str "-5"] /\ LoadVector idz numZ (Some (SaveVector dec [4; -5])) = Ok (Some [4; -5]).
Proof. split; reflexivity. Qed.
Example C92_agree_example : visible_top (text [str "# M S 1 3"; str "0:1  2 : 4"]) /\ exists S, LoadSparseMatrix idz numZ (Some (text [str "# M S 1 3"; str "0:1  2 : 4"])) = Ok (Some S) /\ lines S = [[(0, 1); (2, 4)]].
Proof. split; [right; exists [], 35, (str " M S 1 3" ++ [10] ++ str "0:1  2 : 4" ++ [10]); repeat split; auto|]. eexists. split; [vm_compute; reflexivity|]. reflexivity. Qed.

(** ** Finding: a file whose first line is blank makes LoadHeader compare a char that was never read *)
Theorem C92_blank_finding {F} (fz : Z -> F) cast num old : LoadMatrix fz cast num old (Some [10]) = UB /\ LoadSparseMatrix cast num (Some [32; 10]) = UB /\ LoadVector cast num (Some [10; 35]) = UB.
Proof. repeat split. Qed.
(** ** Finding: an entry that cannot be read ends a sparse row silently: the rest of the row is lost and loading succeeds *)
Theorem C92_lost_finding : exists M S, LoadMatrix idz idz numZ (fun _ _ => 9) (Some (text [str "# M S 1 3"; str "0:1 1:x 2:3"])) = Ok (Some M) /\ entries M = [[1; 0; 0]] /\
  LoadSparseMatrix idz numZ (Some (text [str "# M S 1 3"; str "0:1 1:x 2:3"])) = Ok (Some S) /\ lines S = [[(0, 1)]].
Proof. eexists. eexists. split; [vm_compute; reflexivity|]. split; [reflexivity|]. split; [vm_compute; reflexivity|]. reflexivity. Qed.
(** ** Finding: LoadSparseMatrix inserts the columns of a row in file order, which Eigen only allows when they increase; LoadMatrix accepts any order *)
Theorem C92_order_finding : LoadSparseMatrix idz numZ (Some (text [str "# M S 1 3"; str "2:3 0:1"])) = UB /\ exists M, LoadMatrix idz idz numZ (fun _ _ => 9) (Some (text [str "# M S 1 3"; str "2:3 0:1"])) = Ok (Some M) /\ entries M = [[1; 0; 3]].
Proof. split; [vm_compute; reflexivity|]. eexists. split; [vm_compute; reflexivity|]. reflexivity. Qed.
(** ** Finding: LoadVector ignores the sparse mark and reads the index of a sparse entry as the value *)
Theorem C92_sparse_vector_finding : LoadVector idz numZ (Some (text [str "# V S 1"; str "0:5"])) = Ok (Some [0]).
Proof. vm_compute. reflexivity. Qed.
(** ** Finding: the lines of a dense file need not be its rows, and what follows the last number is ignored *)
Theorem C92_shape_finding : exists M, LoadMatrix idz idz numZ (fun _ _ => 9) (Some (text [str "# M D 2 2 7"; str "1"; str "2 3 4 5"; str "x"])) = Ok (Some M) /\ entries M = [[1; 2]; [3; 4]].
Proof. eexists. split; [vm_compute; reflexivity|]. reflexivity. Qed.
(** ** Finding: a number whose text does not read as a number (nan, inf) is saved, and the file cannot be loaded *)
Theorem C92_nan_finding {F} (fz : Z -> F) cast num (show : F -> list Z) old x v rest : show x <> [] -> Forall (fun c => blank c = false) (show x) -> num (show x ++ [10]) = (v, true, rest) ->
  LoadMatrix fz cast num old (Some (SaveMatrix show (mk_mat 1 1 (fun _ _ => x)))) = Ok None.
Proof.
  intros N B E. unfold LoadMatrix.
  replace (SaveMatrix show (mk_mat 1 1 (fun _ _ => x))) with (header 35 77 68 1 1 ++ 10 :: show x ++ [10]) by (unfold SaveMatrix, header; cbn [rows cols at_]; change (upto 1) with [0]; cbn [map concat app Z.ltb Z.compare]; rewrite !app_nil_r; reflexivity).
  rewrite header_line by (try reflexivity; lia). cbn [Z.eqb Pos.eqb andb orb bind Z.ltb Z.compare]. change (upto 1) with [0]. cbn [foldRO].
  unfold extract. cbn [failed eof orb left]. rewrite skip_word by auto. destruct (show x ++ [10]) as [|c d] eqn:EQ; [destruct (show x); discriminate|]. unfold num_at. rewrite E. reflexivity.
Qed.
Example C92_nan_example : LoadMatrix idz idz numZ (fun _ _ => 9) (Some (SaveMatrix (fun _ => str "nan") (mk_mat 1 1 (fun _ _ => 5)))) = Ok None.
Proof. apply (C92_nan_finding idz idz numZ _ _ 5 0 (str "nan" ++ [10])); [discriminate|repeat constructor|reflexivity]. Qed.
Print Assumptions C92_dense. Print Assumptions C92_vector. Print Assumptions C92_sparse. Print Assumptions C92_sparse_dense. Print Assumptions C92_safe. Print Assumptions C92_agree. Print Assumptions C92_header.
Print Assumptions C92_blank_finding. Print Assumptions C92_lost_finding. Print Assumptions C92_order_finding. Print Assumptions C92_sparse_vector_finding. Print Assumptions C92_shape_finding. Print Assumptions C92_nan_finding.
