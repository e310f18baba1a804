(** C47, C48: time.hpp. *)
Require Import Verif.Common Verif.AtoiModel Verif.AtoiSpec Verif.AtoiProof Verif.NumProps Verif.ItoaModel Verif.Text Verif.TimeModel.
From Coq Require String.

(** * Specification: the Gregorian calendar *)
Definition leap_year (y : Z) : bool := if y mod 400 =? 0 then true else if y mod 100 =? 0 then false else y mod 4 =? 0.
Definition days_in_month (y m : Z) : Z :=
  if m =? 2 then (if leap_year y then 29 else 28) else if (m =? 4) || (m =? 6) || (m =? 9) || (m =? 11) then 30 else 31.
Fixpoint days_of_months (y : Z) (m : nat) : Z := match m with O => 0 | S k => days_of_months y k + days_in_month y (Z.of_nat m) end.
Fixpoint days_of_years (n : nat) : Z := match n with O => 0 | S k => days_of_years k + days_of_months (1970 + Z.of_nat k) 12 end.
(** seconds from 1970-01-01 00:00:00 to the given instant *)
Definition instant (y m d h mi s : Z) : Z :=
  (((days_of_years (Z.to_nat (y - 1970)) + days_of_months y (Z.to_nat (m - 1)) + (d - 1)) * 24 + h) * 60 + mi) * 60 + s.
(** a numeral of fixed width: digits, or (a quirk) '-' and zeros *)
Definition number (w : list Z) (v : Z) : Prop := (Forall is_digit w /\ v = dec_value w) \/ (v = 0 /\ exists z, (0 < z)%nat /\ w = 45 :: repeat 48 z).
Definition number_in (n : nat) (lo hi : Z) (w : list Z) (v : Z) : Prop := length w = n /\ number w v /\ lo <= v <= hi.
Definition month_names : list (list Z) :=
  [str "Jan"; str "Feb"; str "Mar"; str "Apr"; str "May"; str "Jun"; str "Jul"; str "Aug"; str "Sep"; str "Oct"; str "Nov"; str "Dec"].
Definition named_month (w : list Z) (m : Z) : Prop := 1 <= m /\ nth_error month_names (Z.to_nat (m - 1)) = Some w.
(** the end of the text: nothing, "Z", ".mmm" or ".mmmZ" *)
Inductive ending : list Z -> Z -> Prop :=
| end_none : ending [] 0
| end_z : ending (str "Z") 0
| end_ms w ms : number_in 3 0 999 w ms -> ending (46 :: w) ms
| end_msz w ms : number_in 3 0 999 w ms -> ending (46 :: w ++ str "Z") ms.
(** accepted texts *)
Inductive date_text : list Z -> Z -> Z -> Z -> Z -> Z -> Z -> Z -> Prop :=
| date_text_intro Y M D H MI S sep t e y m d h mi s ms :
    number_in 4 1970 3000 Y y -> (sep = 45 \/ sep = 47) -> (named_month M m \/ number_in 2 1 12 M m) -> number_in 2 1 31 D d -> (t = 32 \/ t = 84) ->
    number_in 2 0 23 H h -> number_in 2 0 59 MI mi -> number_in 2 0 59 S s -> ending e ms ->
    date_text (Y ++ [sep] ++ M ++ [sep] ++ D ++ [t] ++ H ++ [58] ++ MI ++ [58] ++ S ++ e) y m d h mi s ms.
(** the text on which the code reads behind its end: a month name and a one-digit second *)
Inductive short_text : list Z -> Prop :=
| short_text_intro Y M D H MI S sep t y m d h mi s :
    number_in 4 1970 3000 Y y -> (sep = 45 \/ sep = 47) -> named_month M m -> number_in 2 1 31 D d -> (t = 32 \/ t = 84) ->
    number_in 2 0 23 H h -> number_in 2 0 59 MI mi -> number_in 1 0 59 S s ->
    short_text (Y ++ [sep] ++ M ++ [sep] ++ D ++ [t] ++ H ++ [58] ++ MI ++ [58] ++ S).
Definition no_nul (s : list Z) : Prop := Forall (fun c => c <> 0) s.

(** * Calendar *)
Lemma isleap_eq y : isleap y = leap_year y.
Proof.
  unfold isleap, leap_year. destruct (y mod 400 =? 0) eqn:E1, (y mod 100 =? 0) eqn:E2, (y mod 4 =? 0) eqn:E3; cbn; auto; exfalso;
  rewrite ?Z.eqb_eq, ?Z.eqb_neq in *; lia.
Qed.
Lemma mon_yday_nat y n : (n <= 12)%nat -> mon_yday (leap_year y) (Z.of_nat n) = days_of_months y n.
Proof.
  intros H. do 13 (destruct n as [|n]; [cbn [days_of_months]; unfold days_in_month; destruct (leap_year y); reflexivity|]). lia.
Qed.
Lemma mon_yday_eq y m : 1 <= m <= 13 -> mon_yday (leap_year y) (m - 1) = days_of_months y (Z.to_nat (m - 1)).
Proof. intros H. rewrite <- mon_yday_nat by lia. now rewrite Z2Nat.id by lia. Qed.
Lemma year_len y : days_of_months y 12 = if leap_year y then 366 else 365.
Proof. cbn [days_of_months]. unfold days_in_month. destruct (leap_year y); reflexivity. Qed.
Lemma days_of_years_eq n : days_of_years n = Z.of_nat n * 365 + (Z.of_nat n + 1) / 4 - (Z.of_nat n + 69) / 100 + (Z.of_nat n + 369) / 400.
Proof.
  induction n as [|n IH]; [reflexivity|]. cbn [days_of_years]. rewrite IH, year_len. unfold leap_year.
  destruct ((1970 + Z.of_nat n) mod 400 =? 0) eqn:E1, ((1970 + Z.of_nat n) mod 100 =? 0) eqn:E2, ((1970 + Z.of_nat n) mod 4 =? 0) eqn:E3;
  rewrite ?Z.eqb_eq, ?Z.eqb_neq in *; lia.
Qed.
Lemma timegm_eq y m d h mi s : 1970 <= y -> 1 <= m <= 12 -> timegm (y - 1900) (m - 1) d h mi s = instant y m d h mi s.
Proof.
  intros Hy Hm. unfold timegm, instant. rewrite days_of_years_eq. replace (y - 1900 + 1900) with y by lia. rewrite isleap_eq, mon_yday_eq by lia.
  rewrite Z2Nat.id by lia. replace (y - 1900 - 69) with (y - 1970 + 1) by lia. replace (y - 1900 - 1) with (y - 1970 + 69) by lia. replace (y - 1900 + 299) with (y - 1970 + 369) by lia. lia.
Qed.

(** * Fields *)
Lemma visible_app w rest : no_nul w -> forall n, zlen w = n -> visible (w ++ rest) n = w.
Proof.
  intros H. induction H as [|c w H1 H2 IH]; intros n L.
  - rewrite zlen_nil in L. subst n. destruct rest; reflexivity.
  - rewrite zlen_cons in L. pose proof (zlen_nonneg w). cbn [app visible]. destruct (Z.leb_spec n 0); [lia|]. destruct (Z.eqb_spec c 0); [contradiction|].
    f_equal. apply IH. lia.
Qed.
Lemma visible_nul w rest : no_nul w -> forall n, zlen w < n -> visible (w ++ 0 :: rest) n = w.
Proof.
  intros H. induction H as [|c w H1 H2 IH]; intros n L.
  - rewrite zlen_nil in L. cbn [app visible]. destruct (Z.leb_spec n 0); [lia|]. reflexivity.
  - rewrite zlen_cons in L. pose proof (zlen_nonneg w). cbn [app visible]. destruct (Z.leb_spec n 0); [lia|]. destruct (Z.eqb_spec c 0); [contradiction|].
    f_equal. apply IH. lia.
Qed.
Lemma digits_range s : Forall is_digit s -> Forall (fun d => 0 <= d < 10) (map dec_digit s).
Proof. intros H. apply Forall_map. eapply Forall_impl; [|exact H]. intros c Hc. unfold is_digit, dec_digit in *. lia. Qed.
Lemma dec_value_lt s : Forall is_digit s -> 0 <= dec_value s < 10 ^ zlen s.
Proof.
  intros H. pose proof (value_bounds 10 (map dec_digit s) ltac:(lia) (digits_range s H)) as B.
  unfold zlen in *. rewrite map_length in B. exact B.
Qed.
Lemma dec_value_0 s : Forall is_digit s -> dec_value s = 0 -> s = repeat 48 (length s).
Proof.
  induction 1 as [|c s H1 H2 IH]; [reflexivity|]. intros E. unfold dec_value in E. cbn [map] in E. rewrite value_cons in E.
  pose proof (value_bounds 10 (map dec_digit s) ltac:(lia) (digits_range s H2)) as B. unfold is_digit, dec_digit in *.
  assert (0 < 10 ^ zlen (map (fun c => c - 48) s)) by (apply Z.pow_pos_nonneg; [lia|apply zlen_nonneg]).
  assert (c = 48) by nia. subst c. cbn [length repeat]. f_equal. apply IH. unfold dec_value. unfold dec_digit. lia.
Qed.
Lemma dec_value_repeat0 k : dec_value (repeat 48 k) = 0.
Proof. pose proof (dec_value_zeros k []). now rewrite app_nil_r in H. Qed.
Lemma number_language w v : w <> [] -> zlen w <= 9 -> number w v -> language (- 2 ^ 31) (2 ^ 31 - 1) w v.
Proof.
  intros NE L N. unfold language. cbn [Z.ltb]. change (- 2 ^ 31 <? 0) with true. cbv iota. unfold signed_language. left.
  destruct N as [(H & ->)|(-> & z & Hz & ->)].
  - pose proof (dec_value_lt w H) as B. assert (10 ^ zlen w <= 10 ^ 9) by (apply Z.pow_le_mono_r; lia). split; [|lia]. left. repeat split; auto.
  - split; [|lia]. right. exists (repeat 48 z), 0. split; auto. split; [|lia]. split; [destruct z; [lia|discriminate]|]. split; [|now rewrite dec_value_repeat0].
    apply Forall_forall. intros x Hx. apply repeat_spec in Hx. subst. unfold is_digit. lia.
Qed.
Lemma language_number w v : 0 <= v -> language (- 2 ^ 31) (2 ^ 31 - 1) w v -> number w v /\ w <> [].
Proof.
  intros Hv. unfold language. change (- 2 ^ 31 <? 0) with true. cbv iota. intros [[[(N & D & ->)|(d & u & -> & (N & D & ->) & E)] _]|(k & d & j & -> & _ & E)]; [| |lia].
  - split; auto. left. auto.
  - pose proof (dec_value_lt d D). split; [|discriminate]. right. split; [lia|]. exists (length d). split; [destruct d; [congruence|cbn [length]; lia]|]. f_equal. apply dec_value_0; auto. lia.
Qed.
Lemma number_fun w v v' : w <> [] -> zlen w <= 9 -> number w v -> number w v' -> v = v'.
Proof.
  intros NE L [(H & ->)|(-> & z & Hz & ->)] [(H' & ->)|(-> & z' & Hz' & E)]; auto.
  - subst w. inversion H as [|? ? Q]. unfold is_digit in Q. lia.
  - inversion H' as [|? ? Q]. unfold is_digit in Q. lia.
Qed.
(** getNum on the text w of the field, which fills the width or is cut by a NUL *)
Lemma getNum_spec a w rest n lo hi : bytes (w ++ rest) -> no_nul w -> w <> [] -> (zlen w = n \/ (zlen w < n /\ exists r, rest = 0 :: r /\ n <= zlen (w ++ rest))) -> zlen w <= 9 -> 0 <= lo ->
  (exists v, number w v /\ lo <= v <= hi /\ getNum (a ++ w ++ rest) (length a) n lo hi = Ok (true, v)) \/
  ((forall v, ~ (number w v /\ lo <= v <= hi)) /\ getNum (a ++ w ++ rest) (length a) n lo hi = Ok (false, 0)).
Proof.
  intros B NN NE W L LO. unfold getNum. rewrite skipn_app, skipn_all, Nat.sub_diag. cbn [app skipn].
  assert (ZR : n <= zlen (w ++ rest)).
  { destruct W as [W|(_ & r & _ & Q)]; auto. rewrite zlen_app. pose proof (zlen_nonneg rest). lia. }
  assert (V : visible (w ++ rest) n = w).
  { destruct W as [W|(W & r & -> & _)]; [now apply visible_app|now apply visible_nul]. }
  assert (N0 : 0 <= n) by (pose proof (zlen_nonneg w); destruct W as [W|[W _]]; lia).
  destruct (C02_atoi_exact ty_i32 (- 2 ^ 31) (2 ^ 31 - 1) (w ++ rest) n) as [(v & A1 & A2 & A3 & _)|(A1 & A2 & _)]; auto.
  - cbn. tauto.
  - left. auto.
  - intros _. right. left. auto.
  - rewrite V in A1, A2. rewrite A3. cbn [bind]. destruct ((lo <=? v) && (v <=? hi)) eqn:R.
    + left. exists v. apply andb_true_iff in R. destruct R as [R1 R2]. apply Z.leb_le in R1, R2. split; [|split; [lia|auto]]. apply (language_number w v); [lia|auto].
    + right. split; auto. intros u [Nu Ru]. apply number_language in Nu; auto. apply A2 in Nu. subst u.
      apply andb_false_iff in R. rewrite !Z.leb_gt in R. lia.
  - rewrite V in A1. rewrite A2. cbn [bind]. right. split.
    + intros u [Nu Ru]. apply number_language in Nu; auto. now apply A1 in Nu.
    + destruct ((lo <=? 0) && (0 <=? hi)); auto.
Qed.
Lemma getNum_full mem a w rest n lo hi : mem = a ++ w ++ rest -> bytes (w ++ rest) -> no_nul w -> length w = n -> (0 < n <= 9)%nat -> 0 <= lo ->
  (exists v, number_in n lo hi w v /\ getNum mem (length a) (Z.of_nat n) lo hi = Ok (true, v)) \/
  ((forall v, ~ number_in n lo hi w v) /\ getNum mem (length a) (Z.of_nat n) lo hi = Ok (false, 0)).
Proof.
  intros -> B NN L N LO. assert (zlen w = Z.of_nat n) by (unfold zlen; lia).
  destruct (getNum_spec a w rest (Z.of_nat n) lo hi) as [(v & H1 & H2 & H3)|(H1 & H2)]; auto; try lia; try (destruct w; [cbn in L; lia|discriminate]).
  - left. exists v. split; auto. split; auto.
  - right. split; auto. intros v (_ & Q1 & Q2). apply (H1 v). auto.
Qed.
Lemma getNum_ok mem a w rest n lo hi v : mem = a ++ w ++ rest -> bytes (w ++ rest) -> no_nul w -> number_in n lo hi w v -> (0 < n <= 9)%nat -> 0 <= lo ->
  getNum mem (length a) (Z.of_nat n) lo hi = Ok (true, v).
Proof.
  intros E B NN H N LO. destruct (getNum_full mem a w rest n lo hi E B NN (proj1 H) N LO) as [(v' & H1 & ->)|(H1 & _)].
  - do 2 f_equal. destruct H1 as (L1 & N1 & _), H as (L2 & N2 & _). eapply number_fun; eauto; [destruct w; [cbn in *; lia|discriminate]|unfold zlen; lia].
  - now apply H1 in H.
Qed.
Lemma getMonth_named mem a M rest m : mem = a ++ M ++ rest -> named_month M m -> getMonth mem (length a) = Ok (Some (m - 1, (length a + 3)%nat)).
Proof.
  intros -> [Hm H]. unfold getMonth. rewrite skipn_app, skipn_all, Nat.sub_diag. cbn [app skipn].
  assert (C : (Z.to_nat (m - 1) < 12)%nat) by (change 12%nat with (length month_names); apply nth_error_Some; congruence).
  assert (m = 1 \/ m = 2 \/ m = 3 \/ m = 4 \/ m = 5 \/ m = 6 \/ m = 7 \/ m = 8 \/ m = 9 \/ m = 10 \/ m = 11 \/ m = 12) as D by lia.
  repeat (destruct D as [->|D]; [injection H as <-; reflexivity|]). subst. injection H as <-. reflexivity.
Qed.
Lemma month_loop_spec p : (3 <= length p)%nat -> forall tbl i, Forall (fun m => length m = 3%nat) tbl ->
  (exists k, nth_error tbl k = Some (firstn 3 p) /\ month_loop tbl i p = Ok (Some (i + Z.of_nat k))) \/
  (~ In (firstn 3 p) tbl /\ month_loop tbl i p = Ok None).
Proof.
  intros L. induction tbl as [|m r IH]; intros i F; [right; auto|]. inversion F as [|? ? L3 F']; subst. cbn [month_loop].
  unfold memcmp_eq. rewrite L3. destruct (Nat.ltb_spec (length p) 3); [lia|]. cbn [bind].
  destruct (list_eqb m (firstn 3 p)) eqn:E.
  - left. exists 0%nat. apply list_eqb_eq in E. subst m. split; auto. do 2 f_equal. lia.
  - destruct (IH (i + 1) F') as [(k & H1 & H2)|(H1 & H2)].
    + left. exists (S k). split; auto. rewrite H2. do 2 f_equal. lia.
    + right. split; auto. intros [->|Q]; auto. assert (list_eqb (firstn 3 p) (firstn 3 p) = true) by now apply list_eqb_eq. congruence.
Qed.
Lemma getMonth_cases mem a c1 c2 c3 rest : mem = a ++ c1 :: c2 :: c3 :: rest -> bytes (c1 :: c2 :: c3 :: rest) -> no_nul [c1; c2] ->
  (exists m, named_month [c1; c2; c3] m /\ getMonth mem (length a) = Ok (Some (m - 1, (length a + 3)%nat))) \/
  (exists m, number_in 2 1 12 [c1; c2] m /\ getMonth mem (length a) = Ok (Some (m - 1, (length a + 2)%nat))) \/
  getMonth mem (length a) = Ok None.
Proof.
  intros -> B NN. unfold getMonth. rewrite skipn_app, skipn_all, Nat.sub_diag. cbn [app skipn].
  destruct (month_loop_spec (c1 :: c2 :: c3 :: rest) ltac:(cbn [length]; lia) monthTbl 0) as [(k & H1 & ->)|(H1 & ->)]; [repeat constructor| |]; cbn [bind].
  - left. exists (Z.of_nat k + 1). split; [split; [lia|]|]; [replace (Z.to_nat (Z.of_nat k + 1 - 1)) with k by lia; exact H1|]. do 3 f_equal. lia.
  - right. destruct (getNum_full (a ++ c1 :: c2 :: c3 :: rest) a [c1; c2] (c3 :: rest) 2 1 12) as [(v & H2 & H3)|(_ & H3)]; auto; try lia; change (Z.of_nat 2) with 2 in H3; rewrite H3; cbn [bind]; eauto.
Qed.
Lemma getMonth_num mem a M c3 rest m : mem = a ++ M ++ c3 :: rest -> bytes (M ++ c3 :: rest) -> no_nul M -> number_in 2 1 12 M m -> getMonth mem (length a) = Ok (Some (m - 1, (length a + 2)%nat)).
Proof.
  intros -> B NN H. pose proof (proj1 H) as L. destruct M as [|c1 [|c2 [|? ?]]]; try discriminate L.
  unfold getMonth. rewrite skipn_app, skipn_all, Nat.sub_diag. cbn [app skipn].
  destruct (month_loop_spec (c1 :: c2 :: c3 :: rest) ltac:(cbn [length]; lia) monthTbl 0) as [(k & H1 & _)|(_ & ->)]; [repeat constructor| |]; cbn [bind].
  - exfalso. assert (D : c1 <= 57).
    { destruct H as (_ & [(D & _)|(_ & z & _ & E)] & _); [inversion D as [|? ? Q]; unfold is_digit in Q; lia|]. injection E as -> _. lia. }
    assert (G : forall w, In w monthTbl -> 65 <= hd 0 w) by (intros w Hw; cbn in Hw; repeat (destruct Hw as [<-|Hw]; [cbn; lia|]); contradiction).
    apply nth_error_In in H1. apply G in H1. cbn in H1. lia.
  - pose proof (getNum_ok (a ++ c1 :: c2 :: c3 :: rest) a [c1; c2] (c3 :: rest) 2 1 12 m eq_refl) as Q. change (Z.of_nat 2) with 2 in Q. rewrite Q by (auto; lia). reflexivity.
Qed.

(** * C47 *)
Lemma rd_at (a : list Z) c rest : rd (a ++ c :: rest) (Z.of_nat (length a)) = Ok c.
Proof. unfold rd. destruct (Z.ltb_spec (Z.of_nat (length a)) 0); [lia|]. rewrite Nat2Z.id, nth_error_app2 by lia. now rewrite Nat.sub_diag. Qed.
Lemma parse_tail_cases pb a r st time : bytes (a ++ r) -> no_nul r ->
  (exists ms, ending r ms /\ parse_tail pb (a ++ r ++ [0]) (length a) (zlen (a ++ r)) st time = Ok (true, (time, ms))) \/
  ((forall ms, ~ ending r ms) /\ exists st', parse_tail pb (a ++ r ++ [0]) (length a) (zlen (a ++ r)) st time = err pb (a ++ r ++ [0]) st').
Proof.
  intros B NN. unfold parse_tail. rewrite zlen_app. set (la := Z.of_nat (length a)). change (zlen a) with la.
  assert (BR : bytes (r ++ [0])). { apply bytes_app in B. apply bytes_app. split; [tauto|]. repeat constructor; lia. }
  destruct r as [|c r].
  { rewrite zlen_nil, Z.add_0_r, Z.eqb_refl. left. exists 0. split; auto. constructor. }
  rewrite zlen_cons. pose proof (zlen_nonneg r) as LR. destruct (Z.eqb_spec la (la + (1 + zlen r))); [lia|].
  assert (R : rd (a ++ (c :: r) ++ [0]) la = Ok c) by (cbn [app]; apply rd_at). rewrite R. cbn [bind].
  destruct r as [|c1 r].
  { rewrite zlen_nil. replace (la + (1 + 0)) with (la + 1) by lia. rewrite Z.eqb_refl. cbn [bind]. destruct (Z.eqb_spec c 90) as [->|NZ].
    - left. exists 0. split; auto. apply end_z.
    - right. split.
      + intros ms H. inversion H as [|E|w ms' (L & _)|w ms' (L & _) E]; subst; [congruence|discriminate L|destruct w; discriminate].
      + destruct (c =? 46); cbn [bind]; eauto. destruct (Z.eqb_spec (la + 4) (la + 1)); [lia|]. destruct (Z.eqb_spec (la + 5) (la + 1)); [lia|]. cbn [bind]. eauto. }
  rewrite zlen_cons in *. pose proof (zlen_nonneg r) as LR'. destruct (Z.eqb_spec (la + 1) (la + (1 + (1 + zlen r)))); [lia|]. cbn [bind].
  destruct (Z.eqb_spec c 46) as [->|N46]; cbn [bind].
  2:{ right. split; [|eauto]. intros ms H. inversion H; subst; congruence. }
  assert (NUM : forall w z, c1 :: r = w ++ z -> length w = 3%nat -> (z = [] \/ z = [90]) ->
    (exists ms, ending (46 :: c1 :: r) ms /\ (let! (b, ms) := getNum (a ++ (46 :: c1 :: r) ++ [0]) (S (length a)) 3 0 999 in
      if negb b then err pb (a ++ (46 :: c1 :: r) ++ [0]) (fst st, ms) else Ok (true, (time, ms))) = Ok (true, (time, ms))) \/
    ((forall ms, ~ ending (46 :: c1 :: r) ms) /\ exists st', (let! (b, ms) := getNum (a ++ (46 :: c1 :: r) ++ [0]) (S (length a)) 3 0 999 in
      if negb b then err pb (a ++ (46 :: c1 :: r) ++ [0]) (fst st, ms) else Ok (true, (time, ms))) = err pb (a ++ (46 :: c1 :: r) ++ [0]) st')).
  { intros w z E L Z'. destruct (getNum_full (a ++ (46 :: c1 :: r) ++ [0]) (a ++ [46]) w (z ++ [0]) 3 0 999) as [(v & H & G)|(H & G)]; try lia; auto.
    - cbn [app]. rewrite <- app_assoc. cbn [app]. f_equal. f_equal. rewrite app_comm_cons, E, <- app_assoc. reflexivity.
    - rewrite app_assoc, <- E. now inversion BR.
    - inversion NN as [|? ? _ NN']; subst. rewrite E in NN'. now apply Forall_app in NN'.
    - rewrite app_length in G. cbn [length] in G. rewrite Nat.add_1_r in G. change (Z.of_nat 3) with 3 in G. rewrite G. cbn [bind negb].
      left. exists v. split; auto. rewrite E. destruct Z' as [-> | ->]; [rewrite app_nil_r; now constructor|exact (end_msz w v H)].
    - rewrite app_length in G. cbn [length] in G. rewrite Nat.add_1_r in G. change (Z.of_nat 3) with 3 in G. rewrite G. cbn [bind negb].
      right. split; [|eauto]. intros ms HE. rewrite E in HE. inversion HE as [| |w' ms' H' E'|w' ms' H' E']; subst.
      + pose proof (proj1 H') as L'. destruct Z' as [-> | ->]; [rewrite app_nil_r in H'; now apply H in H'|]. rewrite app_length in L'. cbn in L'. lia.
      + pose proof (proj1 H') as L'. destruct Z' as [-> | ->].
        * rewrite app_nil_r in E'. rewrite <- E' in L. rewrite app_length in L. cbn in L. lia.
        * apply app_inj_tail in E'. destruct E' as [-> _]. now apply H in H'. }
  destruct (Z.eqb_spec (la + 4) (la + (1 + (1 + zlen r)))) as [E4|N4]; cbn [bind].
  { apply (NUM (c1 :: r) []); [now rewrite app_nil_r|unfold zlen in *; cbn [length]; lia|auto]. }
  assert (NOEND : (forall w ms, c1 :: r <> w ++ [90] \/ ~ number_in 3 0 999 w ms) -> forall ms, ~ ending (46 :: c1 :: r) ms).
  { intros Q ms H. inversion H as [| |w' ms' H' E'|w' ms' H' E']; subst.
    - pose proof (proj1 H') as L'. cbn [length] in L'. unfold zlen in N4. lia.
    - destruct (Q w' ms) as [Q1|Q1]; auto. }
  destruct (Z.eqb_spec (la + 5) (la + (1 + (1 + zlen r)))) as [E5|N5]; cbn [bind].
  - assert (exists d1 d2 d3, r = [d1; d2; d3]) as (d1 & d2 & d3 & ->).
    { unfold zlen in *. destruct r as [|d1 [|d2 [|d3 [|? ?]]]]; cbn [length] in *; try lia. eauto. }
    assert (RD : rd (a ++ (46 :: c1 :: [d1; d2; d3]) ++ [0]) (la + 4) = Ok d3).
    { replace (la + 4) with (Z.of_nat (length (a ++ [46; c1; d1; d2]))) by (rewrite app_length; cbn [length]; unfold la; lia).
      replace (a ++ (46 :: c1 :: [d1; d2; d3]) ++ [0]) with ((a ++ [46; c1; d1; d2]) ++ d3 :: [0]) by (rewrite <- app_assoc; reflexivity). apply rd_at. }
    rewrite RD. cbn [bind]. destruct (Z.eqb_spec d3 90) as [->|N90].
    + apply (NUM [c1; d1; d2] [90]); auto.
    + right. split; [|eauto]. apply NOEND. intros w ms. left. intros Q. change [c1; d1; d2; d3] with ([c1; d1; d2] ++ [d3]) in Q. apply app_inj_tail in Q. destruct Q. congruence.
  - right. split; [|eauto]. apply NOEND. intros w ms. destruct (Nat.eq_dec (length w) 3) as [L|N]; [left|right; intros (Q & _); auto].
    intros Q. apply (f_equal (@length Z)) in Q. rewrite app_length in Q. cbn [length] in Q. unfold zlen in N5. lia.
Qed.
Lemma ending_fun r ms : no_nul r -> bytes r -> ending r ms -> forall pb a st time, bytes a ->
  parse_tail pb (a ++ r ++ [0]) (length a) (zlen (a ++ r)) st time = Ok (true, (time, ms)).
Proof.
  intros NN B H pb a st time BA. destruct (parse_tail_cases pb a r st time) as [(ms' & H' & E)|(N & _)]; auto.
  - apply bytes_app. auto.
  - rewrite E. do 3 f_equal.
    assert (F : forall w v v', number_in 3 0 999 w v -> number_in 3 0 999 w v' -> v = v').
    { intros w v v' (L & N1 & _) (_ & N2 & _). eapply number_fun; eauto; [destruct w; discriminate|unfold zlen; lia]. }
    inversion H as [|E1|w m1 H1 E1|w m1 H1 E1]; subst; inversion H' as [|E2|w' m2 H2 E2|w' m2 H2 E2]; subst; auto; try discriminate; eauto.
    + exfalso. destruct H1 as (L1 & _), H2 as (L2 & _). rewrite app_length in L1. cbn in L1. lia.
    + exfalso. destruct H1 as (L1 & _), H2 as (L2 & _). rewrite app_length in L2. cbn in L2. lia.
    + apply app_inj_tail in E2. destruct E2 as [-> _]. eauto.
  - now apply N in H.
Qed.
Lemma forall_sub {A} (P : A -> Prop) k n l : Forall P l -> Forall P (firstn n (skipn k l)).
Proof.
  intros H. rewrite Forall_forall in *. intros x Hx. apply H. rewrite <- (firstn_skipn k l). apply in_or_app. right.
  rewrite <- (firstn_skipn n (skipn k l)). apply in_or_app. auto.
Qed.
Lemma forall_skip {A} (P : A -> Prop) k l : Forall P l -> Forall P (skipn k l).
Proof. intros H. rewrite Forall_forall in *. intros x Hx. apply H. rewrite <- (firstn_skipn k l). apply in_or_app. auto. Qed.
Lemma forall_first {A} (P : A -> Prop) k l : Forall P l -> Forall P (firstn k l).
Proof. intros H. rewrite Forall_forall in *. intros x Hx. apply H. rewrite <- (firstn_skipn k l). apply in_or_app. auto. Qed.
Ltac do_rd := match goal with |- context [rd ?mem ?i] => let r := eval vm_compute in (rd mem i) in change (rd mem i) with r end; cbn [bind].
Ltac gn text HB HN w v H := match goal with |- context [getNum ?mem ?off ?n ?lo ?hi] =>
  let Q := fresh in
  assert (Q : getNum mem off n lo hi = Ok (true, v))
    by (refine (getNum_ok mem (firstn off mem) w (skipn (off + length w) mem) (length w) lo hi v eq_refl (bytes_skipn off mem HB) (forall_sub _ off (length w) text HN) H _ _); cbn [length]; lia);
  rewrite Q; clear Q; cbn [bind negb] end.

Lemma accepts pb text y m d h mi s ms st : bytes text -> no_nul text -> date_text text y m d h mi s ms ->
  fromString_str pb text st = Ok (true, (instant y m d h mi s, ms)).
Proof.
  intros B NN DT. destruct DT as [Y M D H MI SS sep t e y m d h mi s ms HY HS HM HD HT HH HMI HSS HE].
  pose proof (proj1 HY) as LY. destruct Y as [|y0 [|y1 [|y2 [|y3 [|? ?]]]]]; try discriminate LY.
  pose proof (proj1 HD) as LD. destruct D as [|d0 [|d1 [|? ?]]]; try discriminate LD.
  pose proof (proj1 HH) as LH. destruct H as [|h0 [|h1 [|? ?]]]; try discriminate LH.
  pose proof (proj1 HMI) as LMI. destruct MI as [|i0 [|i1 [|? ?]]]; try discriminate LMI.
  pose proof (proj1 HSS) as LSS. destruct SS as [|s0 [|s1 [|? ?]]]; try discriminate LSS.
  assert (SEP : negb (sep =? 45) && negb (sep =? 47) = false) by (destruct HS as [-> | ->]; reflexivity).
  assert (TT : negb (t =? 32) && negb (t =? 84) = false) by (destruct HT as [-> | ->]; reflexivity).
  assert (HB : bytes ((([y0; y1; y2; y3] ++ [sep] ++ M ++ [sep] ++ [d0; d1] ++ [t] ++ [h0; h1] ++ [58] ++ [i0; i1] ++ [58] ++ [s0; s1] ++ e)) ++ [0])).
  { apply bytes_app. split; auto. repeat constructor; lia. }
  assert (Y70 : 1970 <= y) by (destruct HY as (_ & _ & ?); lia).
  assert (M12 : 1 <= m <= 12).
  { destruct HM as [[? Q]|(_ & _ & ?)]; auto. assert (C : (Z.to_nat (m - 1) < 12)%nat) by (change 12%nat with (length month_names); apply nth_error_Some; congruence). lia. }
  assert (L2 : M = firstn 2 M /\ length M = 2%nat \/ length M = 3%nat).
  { destruct HM as [[? Q]|(Q & _)]; [right|left; split; auto; now rewrite <- Q, firstn_all].
    assert (G : forall w, In w month_names -> length w = 3%nat) by (intros w Hw; cbn in Hw; repeat (destruct Hw as [<-|Hw]; [reflexivity|]); contradiction).
    apply G. eapply nth_error_In; eauto. }
  rewrite <- timegm_eq by auto.
  destruct HM as [HM|HM].
  - assert (L3 : length M = 3%nat).
    { destruct HM as [? Q]. assert (G : forall w, In w month_names -> length w = 3%nat) by (intros w Hw; cbn in Hw; repeat (destruct Hw as [<-|Hw]; [reflexivity|]); contradiction).
      apply G. eapply nth_error_In; eauto. }
    clear L2. destruct M as [|m0 [|m1 [|m2 [|? ?]]]]; try discriminate L3.
    cbn [app] in *. set (text := y0 :: y1 :: y2 :: y3 :: sep :: m0 :: m1 :: m2 :: sep :: d0 :: d1 :: t :: h0 :: h1 :: 58 :: i0 :: i1 :: 58 :: s0 :: s1 :: e) in *.
    unfold fromString_str, fromString. assert (L19 : 19 <=? zlen text = true) by (apply Z.leb_le; unfold text, zlen; cbn [length]; lia). rewrite L19. cbn [negb].
    gn text HB NN [y0; y1; y2; y3] y HY. do_rd. rewrite SEP.
    assert (Q : getMonth (text ++ [0]) 5 = Ok (Some (m - 1, 8%nat))) by exact (getMonth_named (text ++ [0]) [y0; y1; y2; y3; sep] [m0; m1; m2] (skipn 8 (text ++ [0])) m eq_refl HM).
    rewrite Q. clear Q. cbn [bind]. do_rd. rewrite Z.eqb_refl. cbn [negb].
    gn text HB NN [d0; d1] d HD. cbn [Nat.add]. do_rd. rewrite TT. gn text HB NN [h0; h1] h HH. cbn [Nat.add]. do_rd. gn text HB NN [i0; i1] mi HMI. cbn [Nat.add]. do_rd. gn text HB NN [s0; s1] s HSS. cbn [Nat.add].
    exact (ending_fun e ms (forall_skip _ 20 text NN) (forall_skip _ 20 text B) HE pb (firstn 20 text) st _ (forall_first _ 20 text B)).
  - assert (L3 : length M = 2%nat) by apply HM.
    clear L2. destruct M as [|m0 [|m1 [|? ?]]]; try discriminate L3.
    cbn [app] in *. set (text := y0 :: y1 :: y2 :: y3 :: sep :: m0 :: m1 :: sep :: d0 :: d1 :: t :: h0 :: h1 :: 58 :: i0 :: i1 :: 58 :: s0 :: s1 :: e) in *.
    unfold fromString_str, fromString. assert (L19 : 19 <=? zlen text = true) by (apply Z.leb_le; unfold text, zlen; cbn [length]; lia). rewrite L19. cbn [negb].
    gn text HB NN [y0; y1; y2; y3] y HY. do_rd. rewrite SEP.
    assert (Q : getMonth (text ++ [0]) 5 = Ok (Some (m - 1, 7%nat))).
    { refine (getMonth_num (text ++ [0]) [y0; y1; y2; y3; sep] [m0; m1] sep (skipn 8 (text ++ [0])) m eq_refl (bytes_skipn 5 _ HB) (forall_sub _ 5 2 text NN) HM). }
    rewrite Q. clear Q. cbn [bind]. do_rd. rewrite Z.eqb_refl. cbn [negb].
    gn text HB NN [d0; d1] d HD. cbn [Nat.add]. do_rd. rewrite TT. gn text HB NN [h0; h1] h HH. cbn [Nat.add]. do_rd. gn text HB NN [i0; i1] mi HMI. cbn [Nat.add]. do_rd. gn text HB NN [s0; s1] s HSS. cbn [Nat.add].
    exact (ending_fun e ms (forall_skip _ 19 text NN) (forall_skip _ 19 text B) HE pb (firstn 19 text) st _ (forall_first _ 19 text B)).
Qed.
Lemma named_len M m : named_month M m -> length M = 3%nat.
Proof.
  intros [? Q]. assert (G : forall w, In w month_names -> length w = 3%nat) by (intros w Hw; cbn in Hw; repeat (destruct Hw as [<-|Hw]; [reflexivity|]); contradiction).
  apply G. eapply nth_error_In; eauto.
Qed.
Lemma overreads pb text st : bytes text -> no_nul text -> short_text text -> fromString_str pb text st = UB.
Proof.
  intros B NN DT. destruct DT as [Y M D H MI SS sep t y m d h mi s HY HS HM HD HT HH HMI HSS].
  pose proof (proj1 HY) as LY. destruct Y as [|y0 [|y1 [|y2 [|y3 [|? ?]]]]]; try discriminate LY.
  pose proof (proj1 HD) as LD. destruct D as [|d0 [|d1 [|? ?]]]; try discriminate LD.
  pose proof (proj1 HH) as LH. destruct H as [|h0 [|h1 [|? ?]]]; try discriminate LH.
  pose proof (proj1 HMI) as LMI. destruct MI as [|i0 [|i1 [|? ?]]]; try discriminate LMI.
  pose proof (proj1 HSS) as LSS. destruct SS as [|s0 [|? ?]]; try discriminate LSS.
  assert (SEP : negb (sep =? 45) && negb (sep =? 47) = false) by (destruct HS as [-> | ->]; reflexivity).
  assert (TT : negb (t =? 32) && negb (t =? 84) = false) by (destruct HT as [-> | ->]; reflexivity).
  assert (HB : bytes ((([y0; y1; y2; y3] ++ [sep] ++ M ++ [sep] ++ [d0; d1] ++ [t] ++ [h0; h1] ++ [58] ++ [i0; i1] ++ [58] ++ [s0])) ++ [0])).
  { apply bytes_app. split; auto. repeat constructor; lia. }
  pose proof (named_len _ _ HM) as L3. destruct M as [|m0 [|m1 [|m2 [|? ?]]]]; try discriminate L3.
  cbn [app] in *. set (text := [y0; y1; y2; y3; sep; m0; m1; m2; sep; d0; d1; t; h0; h1; 58; i0; i1; 58; s0]) in *.
  unfold fromString_str, fromString. change (19 <=? zlen text) with true. cbn [negb].
  gn text HB NN [y0; y1; y2; y3] y HY. do_rd. rewrite SEP.
  assert (Q : getMonth (text ++ [0]) 5 = Ok (Some (m - 1, 8%nat))) by exact (getMonth_named (text ++ [0]) [y0; y1; y2; y3; sep] [m0; m1; m2] (skipn 8 (text ++ [0])) m eq_refl HM).
  rewrite Q. clear Q. cbn [bind]. do_rd. rewrite Z.eqb_refl. cbn [negb].
  gn text HB NN [d0; d1] d HD. cbn [Nat.add]. do_rd. rewrite TT. gn text HB NN [h0; h1] h HH. cbn [Nat.add]. do_rd. gn text HB NN [i0; i1] mi HMI. cbn [Nat.add]. do_rd.
  destruct (getNum_spec (firstn 18 text) [s0] [0] 2 0 59) as [(v & H1 & H2 & H3)|(H1 & _)]; try lia.
  - exact (bytes_skipn 18 _ HB).
  - exact (forall_skip _ 18 text NN).
  - discriminate.
  - right. split; [reflexivity|]. exists []. split; [auto|unfold zlen; cbn; lia].
  - unfold zlen; cbn; lia.
  - change (firstn 18 text ++ [s0] ++ [0]) with (text ++ [0]) in H3. change (length (firstn 18 text)) with 18%nat in H3. rewrite H3. cbn [bind negb Nat.add]. reflexivity.
  - exfalso. destruct HSS as (_ & Q1 & Q2). apply (H1 s). auto.
Qed.

Ltac gc text HB NN w := match goal with |- context [getNum ?mem ?off ?n ?lo ?hi] =>
  let v := fresh "v" in let H := fresh "H" in let G := fresh "G" in
  assert (G : (exists v, number_in (length w) lo hi w v /\ getNum mem off n lo hi = Ok (true, v)) \/ ((forall v, ~ number_in (length w) lo hi w v) /\ getNum mem off n lo hi = Ok (false, 0)))
    by (refine (getNum_full mem (firstn off mem) w (skipn (off + length w) mem) (length w) lo hi eq_refl (bytes_skipn off mem HB) (forall_sub _ off (length w) text NN) eq_refl _ _); cbn [length]; lia);
  destruct G as [(v & H & G)|(H & G)]; rewrite G; clear G; cbn [bind negb]; [|solve [eauto 6]] end.
Lemma orb2 c x y : negb (c =? x) && negb (c =? y) = false -> c = x \/ c = y.
Proof. destruct (Z.eqb_spec c x), (Z.eqb_spec c y); auto. discriminate. Qed.
Lemma from_cases pb text st : bytes text -> no_nul text ->
  (exists y m d h mi s ms, date_text text y m d h mi s ms) \/ short_text text \/ (exists st', fromString_str pb text st = err pb (text ++ [0]) st').
Proof.
  intros B NN. destruct (19 <=? zlen text) eqn:L19.
  2:{ right. right. exists st. unfold fromString_str, fromString. now rewrite L19. }
  assert (HB : bytes (text ++ [0])) by (apply bytes_app; split; auto; repeat constructor; lia).
  pose proof L19 as LL. apply Z.leb_le in LL. unfold zlen in LL.
  destruct text as [|y0 [|y1 [|y2 [|y3 [|sep [|m0 [|m1 [|m2 [|c8 [|c9 [|c10 [|c11 [|c12 [|c13 [|c14 [|c15 [|c16 [|c17 [|c18 r]]]]]]]]]]]]]]]]]]]; try (exfalso; cbn [length] in LL; lia).
  set (text := y0 :: y1 :: y2 :: y3 :: sep :: m0 :: m1 :: m2 :: c8 :: c9 :: c10 :: c11 :: c12 :: c13 :: c14 :: c15 :: c16 :: c17 :: c18 :: r) in *.
  unfold fromString_str, fromString. rewrite L19. cbn [negb].
  gc text HB NN [y0; y1; y2; y3]. do_rd. destruct (negb (sep =? 45) && negb (sep =? 47)) eqn:SEP; [solve [eauto 6]|]. apply orb2 in SEP.
  assert (GM := getMonth_cases (text ++ [0]) [y0; y1; y2; y3; sep] m0 m1 m2 (skipn 8 (text ++ [0])) eq_refl (bytes_skipn 5 _ HB) (forall_sub _ 5 2 text NN)).
  change (length [y0; y1; y2; y3; sep]) with 5%nat in GM. cbn [Nat.add] in GM.
  destruct GM as [(m & HM & G)|[(m & HM & G)|G]]; rewrite G; clear G; cbn [bind]; [| |solve [eauto 6]].
  - do_rd. destruct (Z.eqb_spec c8 sep) as [->|]; cbn [negb]; [|solve [eauto 6]].
    gc text HB NN [c9; c10]. cbn [Nat.add]. do_rd. destruct (negb (c11 =? 32) && negb (c11 =? 84)) eqn:TT; [solve [eauto 6]|]. apply orb2 in TT.
    gc text HB NN [c12; c13]. cbn [Nat.add]. do_rd. destruct (Z.eqb_spec c14 58) as [->|]; cbn [negb]; [|solve [eauto 6]].
    gc text HB NN [c15; c16]. cbn [Nat.add]. do_rd. destruct (Z.eqb_spec c17 58) as [->|]; cbn [negb]; [|solve [eauto 6]].
    destruct r as [|c19 r].
    + destruct (getNum_spec (firstn 18 text) [c18] [0] 2 0 59) as [(v3 & Q1 & Q2 & Q3)|(Q1 & Q2)]; try lia.
      * exact (bytes_skipn 18 _ HB).
      * exact (forall_skip _ 18 text NN).
      * discriminate.
      * right. split; [reflexivity|]. exists []. split; [auto|unfold zlen; cbn; lia].
      * unfold zlen; cbn; lia.
      * right. left. exact (short_text_intro [y0; y1; y2; y3] [m0; m1; m2] [c9; c10] [c12; c13] [c15; c16] [c18] sep c11 _ _ _ _ _ _ H SEP HM H0 TT H1 H2 (conj eq_refl (conj Q1 Q2))).
      * change (firstn 18 text ++ [c18] ++ [0]) with (text ++ [0]) in Q2. change (length (firstn 18 text)) with 18%nat in Q2. rewrite Q2. cbn [bind negb]. eauto.
    + gc text HB NN [c18; c19]. cbn [Nat.add].
      destruct (parse_tail_cases pb (firstn 20 text) r st (timegm (v - 1900) (m - 1) v0 v1 v2 v3)) as [(ms & HE & _)|(_ & st' & E)].
      * exact B.
      * exact (forall_skip _ 20 text NN).
      * left. exists v, m, v0, v1, v2, v3, ms. exact (date_text_intro [y0; y1; y2; y3] [m0; m1; m2] [c9; c10] [c12; c13] [c15; c16] [c18; c19] sep c11 r _ _ _ _ _ _ _ H SEP (or_introl HM) H0 TT H1 H2 H3 HE).
      * right. right. exists st'. exact E.
  - do_rd. destruct (Z.eqb_spec m2 sep) as [->|]; cbn [negb]; [|solve [eauto 6]].
    gc text HB NN [c8; c9]. cbn [Nat.add]. do_rd. destruct (negb (c10 =? 32) && negb (c10 =? 84)) eqn:TT; [solve [eauto 6]|]. apply orb2 in TT.
    gc text HB NN [c11; c12]. cbn [Nat.add]. do_rd. destruct (Z.eqb_spec c13 58) as [->|]; cbn [negb]; [|solve [eauto 6]].
    gc text HB NN [c14; c15]. cbn [Nat.add]. do_rd. destruct (Z.eqb_spec c16 58) as [->|]; cbn [negb]; [|solve [eauto 6]].
    gc text HB NN [c17; c18]. cbn [Nat.add].
    destruct (parse_tail_cases pb (firstn 19 text) r st (timegm (v - 1900) (m - 1) v0 v1 v2 v3)) as [(ms & HE & _)|(_ & st' & E)].
    + exact B.
    + exact (forall_skip _ 19 text NN).
    + left. exists v, m, v0, v1, v2, v3, ms. exact (date_text_intro [y0; y1; y2; y3] [m0; m1] [c8; c9] [c11; c12] [c14; c15] [c17; c18] sep c10 r _ _ _ _ _ _ _ H SEP (or_intror HM) H0 TT H1 H2 H3 HE).
    + right. right. exists st'. exact E.
Qed.

(** C47: for every text without NUL given as a std::string: a text of the language is taken to be the instant the calendar says
    (days of a month count on, see below), with its milliseconds; the one-digit-second texts are read behind their end; every other
    text is rejected: *pb = false, or an exception, whose construction reads 24 bytes whatever the length of the text. *)
Theorem C47_parse text st : bytes text -> no_nul text ->
  (exists y m d h mi s ms, date_text text y m d h mi s ms /\ forall pb, fromString_str pb text st = Ok (true, (instant y m d h mi s, ms))) \/
  (short_text text /\ forall pb, fromString_str pb text st = UB) \/
  ((forall y m d h mi s ms, ~ date_text text y m d h mi s ms) /\ ~ short_text text /\
   (exists st', fromString_str true text st = Ok (false, st')) /\ fromString_str false text st = if zlen text <? 23 then UB else Exn).
Proof.
  intros B NN. destruct (from_cases true text st B NN) as [(y & m & d & h & mi & s & ms & DT)|[SH|(st' & E)]].
  - left. do 7 eexists. split; eauto. intros. now apply accepts.
  - right. left. split; auto. intros. now apply overreads.
  - right. right. assert (ND : forall y m d h mi s ms, ~ date_text text y m d h mi s ms).
    { intros y m d h mi s ms DT. apply (accepts true _ _ _ _ _ _ _ _ st B NN) in DT. rewrite E in DT. discriminate. }
    assert (NS : ~ short_text text).
    { intros DT. apply (overreads true _ st B NN) in DT. rewrite E in DT. discriminate. }
    split; auto. split; auto. split; [exists st'; exact E|].
    destruct (from_cases false text st B NN) as [(y & m & d & h & mi & s & ms & DT)|[SH|(st2 & E2)]]; [now apply ND in DT|contradiction|].
    rewrite E2. unfold err. rewrite zlen_app, zlen_cons, zlen_nil. destruct (Z.ltb_spec (zlen text + (1 + 0)) 24), (Z.ltb_spec (zlen text) 23); auto; lia.
Qed.
Definition valid_date (y m d h mi s : Z) : Prop :=
  1970 <= y /\ 1 <= m <= 12 /\ 1 <= d <= days_in_month y m /\ 0 <= h <= 23 /\ 0 <= mi <= 59 /\ 0 <= s <= 59.
Lemma find_year_spec f : forall y days, 1970 <= y -> 0 <= days <= Z.of_nat f -> exists y' r, find_year f y days = (y', r) /\ y <= y' /\ 0 <= r < days_of_months y' 12 /\
  days_of_years (Z.to_nat (y' - 1970)) + r = days_of_years (Z.to_nat (y - 1970)) + days.
Proof.
  induction f as [|f IH]; intros y days Hy Hd; cbn [find_year].
  - exists y, days. rewrite year_len. split; auto. split; [lia|]. split; [|lia]. destruct (leap_year y); lia.
  - rewrite isleap_eq, <- year_len. pose proof (year_len y) as YL. destruct (Z.ltb_spec days (days_of_months y 12)) as [L|L].
    + exists y, days. split; auto. split; [lia|]. split; [lia|lia].
    + destruct (IH (y + 1) (days - days_of_months y 12)) as (y' & r & E & H1 & H2 & H3); [lia|destruct (leap_year y); lia|].
      exists y', r. split; auto. split; [lia|]. split; auto. rewrite H3. replace (Z.to_nat (y + 1 - 1970)) with (S (Z.to_nat (y - 1970))) by lia.
      cbn [days_of_years]. replace (1970 + Z.of_nat (Z.to_nat (y - 1970))) with y by lia. lia.
Qed.
Lemma find_month_spec y days : 0 <= days -> forall k, (k <= 11)%nat -> days < days_of_months y (S k) -> exists m, find_month k (leap_year y) days = Z.of_nat m /\ (m <= k)%nat /\ days_of_months y m <= days < days_of_months y (S m).
Proof.
  intros Hd. induction k as [|k IH]; intros Hk L; cbn [find_month].
  - exists 0%nat. split; [auto|]. split; [auto|]. split; [cbn [days_of_months]; lia|auto].
  - rewrite mon_yday_nat by lia. destruct (Z.leb_spec (days_of_months y (S k)) days) as [G|G].
    + exists (S k). split; auto.
    + destruct IH as (m & H1 & H2 & H3); [lia|auto|]. exists m. split; auto.
Qed.
Lemma days_of_years_mono a b : (a <= b)%nat -> days_of_years a <= days_of_years b.
Proof.
  induction 1 as [|b H IH]; [lia|]. cbn [days_of_years]. rewrite year_len. destruct (leap_year _); lia.
Qed.
(** gmtime gives the date that the calendar names *)
Lemma gmtime_ok t : 0 <= t -> exists y m d h mi s, gmtime t = mk_tm (y - 1900) (m - 1) d h mi s /\ valid_date y m d h mi s /\ instant y m d h mi s = t.
Proof.
  intros Ht. unfold gmtime. assert (D : 0 <= t / 86400) by (apply Z.div_pos; lia). assert (R : 0 <= t mod 86400 < 86400) by (apply Z.mod_pos_bound; lia).
  assert (E : t = 86400 * (t / 86400) + t mod 86400) by (apply Z.div_mod; lia).
  generalize dependent (t mod 86400). generalize dependent (t / 86400). intros days D rem R E. subst t.
  destruct (find_year_spec (Z.to_nat days) 1970 days) as (y & yd & F & H1 & H2 & H3); [lia|lia|]. rewrite F. rewrite isleap_eq.
  destruct (find_month_spec y yd (proj1 H2) 11 ltac:(lia) (proj2 H2)) as (m & M1 & M2 & M3). rewrite M1. rewrite mon_yday_nat by lia.
  exists y, (Z.of_nat m + 1), (yd - days_of_months y m + 1), (rem / 3600), (rem mod 3600 / 60), (rem mod 60).
  split; [f_equal; lia|]. cbn [days_of_months] in M3. replace (Z.of_nat (S m)) with (Z.of_nat m + 1) in M3 by lia. split.
  - unfold valid_date. repeat split; try lia.
  - unfold instant. replace (Z.to_nat (Z.of_nat m + 1 - 1)) with m by lia.
    replace (days_of_years (Z.to_nat (1970 - 1970))) with 0 in H3 by reflexivity. 
    replace (days_of_years (Z.to_nat (y - 1970)) + days_of_months y m + (yd - days_of_months y m + 1 - 1)) with days by lia.
    assert (rem = 3600 * (rem / 3600) + rem mod 3600) by (apply Z.div_mod; lia). assert (rem mod 3600 = 60 * (rem mod 3600 / 60) + (rem mod 3600) mod 60) by (apply Z.div_mod; lia).
    assert (Q : (rem mod 3600) mod 60 = rem mod 60) by lia. lia.
Qed.
Lemma two_number lo hi x : 0 <= x <= 99 -> lo <= x <= hi -> number_in 2 lo hi (two x) x.
Proof.
  intros H R. unfold two. assert (E : x = 10 * (x / 10) + x mod 10) by (apply Z.div_mod; lia). assert (M : 0 <= x mod 10 < 10) by (apply Z.mod_pos_bound; lia).
  assert (D : 0 <= x / 10 <= 9) by lia. split; [reflexivity|]. split; auto. left. split; [repeat constructor; unfold is_digit; lia|].
  unfold dec_value, value, dec_digit. cbn [map fold_left]. lia.
Qed.
Lemma year_number y : 1970 <= y <= 3000 -> number_in 4 1970 3000 (two (y / 100) ++ two (y mod 100)) y.
Proof.
  intros R. unfold two. cbn [app]. assert (E : y = 100 * (y / 100) + y mod 100) by (apply Z.div_mod; lia). assert (M : 0 <= y mod 100 < 100) by (apply Z.mod_pos_bound; lia).
  generalize dependent (y mod 100). generalize (y / 100). intros a b E M. assert (A : 19 <= a <= 30) by lia.
  assert (Ea : a = 10 * (a / 10) + a mod 10) by (apply Z.div_mod; lia). assert (Eb : b = 10 * (b / 10) + b mod 10) by (apply Z.div_mod; lia).
  assert (0 <= a mod 10 < 10) by (apply Z.mod_pos_bound; lia). assert (0 <= b mod 10 < 10) by (apply Z.mod_pos_bound; lia).
  split; [reflexivity|]. split; auto. left. split; [repeat constructor; unfold is_digit; lia|].
  unfold dec_value, value, dec_digit. cbn [map fold_left]. lia.
Qed.
Lemma canonical_short d x k : canonical_dec d x -> 0 <= x < 10 ^ k -> 0 < k -> zlen d <= k.
Proof.
  intros (NE & D & V & Z0) Hx Hk. destruct d as [|c d]; [congruence|]. destruct (Z_le_gt_dec (zlen (c :: d)) k) as [|G]; auto. exfalso.
  cbn [map] in V. rewrite value_cons in V. inversion D as [|? ? D0 D1]; subst. pose proof (value_bounds 10 (map dec_digit d) ltac:(lia) (digits_range d D1)) as B.
  assert (NZ : c <> 48).
  { intros ->. rewrite (Z0 d eq_refl) in G. rewrite zlen_cons, zlen_nil in G. lia. }
  unfold is_digit in D0. unfold dec_digit at 1 in Hx.
  assert (LE : 10 ^ k <= 10 ^ zlen (map dec_digit d)).
  { apply Z.pow_le_mono_r; [lia|]. rewrite zlen_cons in G. unfold zlen in *. rewrite map_length. lia. }
  change (dec_digit c) with (c - 48) in Hx. generalize dependent (10 ^ zlen (map dec_digit d)). intros P. nia.
Qed.
Lemma msec_number ms : 0 <= ms <= 999 -> exists w, itoaWithZero true (repeat 0 40) ms 3 48 = Ok w /\ number_in 3 0 999 w ms.
Proof.
  intros H. destruct (C04_itoaWithZero true (repeat 0 40) ms 3 48 eq_refl ltac:(cbn beta iota; lia) ltac:(lia)) as (sg & d & pad & SS & SG & C & P & E).
  rewrite Z.abs_eq in C by lia. assert (sg = []) as -> by (destruct SS as [|Q]; auto; apply SG in Q; lia). cbn [app] in *.
  exists (pad ++ d). split; auto. pose proof (canonical_short d ms 3 C ltac:(lia) ltac:(lia)) as L. destruct C as (NE & D & V & _). split; [|split].
  - rewrite P, app_length, repeat_length. unfold zlen in *. lia.
  - left. rewrite P. split; [apply Forall_app; split; auto; apply Forall_forall; intros x Hx; apply repeat_spec in Hx; subst; unfold is_digit; lia|].
    rewrite dec_value_zeros. now rewrite <- V.
  - auto.
Qed.
Lemma Forall_app_2 {A} (P : A -> Prop) a b : Forall P a -> Forall P b -> Forall P (a ++ b).
Proof. intros. apply Forall_app. auto. Qed.
Lemma digits_ok w : Forall is_digit w -> bytes w /\ no_nul w.
Proof. intros H. split; (eapply Forall_impl; [|exact H]); intros c Hc; unfold is_digit, is_byte in *; cbn; lia. Qed.
Lemma two_digits x : 0 <= x <= 99 -> Forall is_digit (two x).
Proof.
  intros H. unfold two. assert (x = 10 * (x / 10) + x mod 10) by (apply Z.div_mod; lia). assert (0 <= x mod 10 < 10) by (apply Z.mod_pos_bound; lia).
  repeat constructor; unfold is_digit; lia.
Qed.
Lemma days_in_month_le y m : days_in_month y m <= 31.
Proof. unfold days_in_month. destruct (m =? 2), (leap_year y), ((m =? 4) || (m =? 6) || (m =? 9) || (m =? 11)); lia. Qed.
Lemma days_of_months_nonneg y n : 0 <= days_of_months y n.
Proof.
  induction n as [|n IH]; cbn [days_of_months]; [lia|]. assert (0 <= days_in_month y (Z.of_nat (S n))); [|lia].
  unfold days_in_month. repeat match goal with |- context [if ?b then _ else _] => destruct b end; lia.
Qed.
Lemma instant_year Y y m d h mi s : 1970 <= Y <= y -> valid_date y m d h mi s -> instant Y 1 1 0 0 0 <= instant y m d h mi s.
Proof.
  intros HY (V1 & V2 & V3 & V4 & V5 & V6). unfold instant. pose proof (days_of_years_mono (Z.to_nat (Y - 1970)) (Z.to_nat (y - 1970)) ltac:(lia)).
  pose proof (days_of_months_nonneg y (Z.to_nat (m - 1))). cbn [days_of_months Z.sub Z.opp Z.add Z.pos_sub Z.to_nat]. lia.
Qed.
Lemma two_ok x : 0 <= x <= 99 -> Forall (fun c => is_byte c /\ c <> 0) (two x).
Proof. intros Hx. eapply Forall_impl; [|exact (two_digits x Hx)]. intros c Hc. unfold is_digit, is_byte in *. lia. Qed.
Lemma text_bytes a b c d e f g w : 0 <= a <= 99 -> 0 <= b <= 99 -> 0 <= c <= 99 -> 0 <= d <= 99 -> 0 <= e <= 99 -> 0 <= f <= 99 -> 0 <= g <= 99 ->
  Forall (fun c => is_byte c /\ c <> 0) w ->
  let text := (two a ++ two b) ++ [45] ++ two c ++ [45] ++ two d ++ [32] ++ two e ++ [58] ++ two f ++ [58] ++ two g ++ w in bytes text /\ no_nul text.
Proof.
  intros A B C D E F G W. apply two_ok in A, B, C, D, E, F, G.
  assert (O : forall c l, is_byte c /\ c <> 0 -> Forall (fun c => is_byte c /\ c <> 0) l -> Forall (fun c => is_byte c /\ c <> 0) ([c] ++ l)) by (intros; constructor; auto).
  assert (P45 : is_byte 45 /\ 45 <> 0) by (unfold is_byte; lia). assert (P32 : is_byte 32 /\ 32 <> 0) by (unfold is_byte; lia). assert (P58 : is_byte 58 /\ 58 <> 0) by (unfold is_byte; lia).
  intros text. assert (Q : Forall (fun c => is_byte c /\ c <> 0) text).
  { subst text. apply Forall_app_2; [apply Forall_app_2; auto|]. apply O; [auto|]. apply Forall_app_2; [auto|]. apply O; [auto|]. apply Forall_app_2; [auto|].
    apply O; [auto|]. apply Forall_app_2; [auto|]. apply O; [auto|]. apply Forall_app_2; [auto|]. apply O; [auto|]. apply Forall_app_2; auto. }
  clearbody text. split; (eapply Forall_impl; [|exact Q]); cbn; tauto.
Qed.
(** Every time from 1970 up to the end of the year 3000 with its milliseconds is written to a text that reads back as the same time. *)
Theorem C47_round_trip t ms : 0 <= t < instant 3001 1 1 0 0 0 -> 0 <= ms <= 999 ->
  exists text text', toString (t, ms) true = Ok text /\ toString (t, ms) false = Ok text' /\
    forall pb st, fromString_str pb text st = Ok (true, (t, ms)) /\ fromString_str pb text' st = Ok (true, (t, 0)).
Proof.
  intros Ht Hms. destruct (gmtime_ok t) as (y & m & d & h & mi & s & G & (V1 & V2 & V3 & V4 & V5 & V6) & I); [lia|].
  pose proof (days_in_month_le y m) as DM.
  assert (Y : y <= 3000).
  { destruct (Z_le_gt_dec y 3000) as [|Q]; auto. exfalso.
    assert (VD : valid_date y m d h mi s) by (unfold valid_date; tauto).
    pose proof (instant_year 3001 y m d h mi s ltac:(lia) VD). lia. }
  destruct (msec_number ms Hms) as (w & W1 & W2).
  unfold toString. cbn [fst snd]. rewrite G. cbn [tm_year tm_mon tm_mday tm_hour tm_min tm_sec].
  replace (y - 1900 + 1900) with y by lia. replace (m - 1 + 1) with m by lia. unfold year4.
  destruct (Z.leb_spec 1000 y); [|lia]. destruct (Z.leb_spec y 9999); [|lia]. cbn [andb bind]. rewrite W1. cbn [bind]. do 2 eexists. split; [reflexivity|]. split; [reflexivity|].
  pose proof (year_number y ltac:(lia)) as NY. assert (M99 : 0 <= m <= 99) by lia. assert (D99 : 0 <= d <= 99) by lia.
  assert (YC : 0 <= y / 100 <= 99) by lia. assert (YD : 0 <= y mod 100 <= 99) by lia.
  assert (DW : Forall (fun c => is_byte c /\ c <> 0) w).
  { destruct W2 as (_ & [[DW _]|(_ & z & _ & ->)] & _); [eapply Forall_impl; [|exact DW]; intros c Hc; unfold is_digit, is_byte in *; lia|].
    constructor; [unfold is_byte; lia|]. apply Forall_forall. intros x Hx. apply repeat_spec in Hx. subst. unfold is_byte; lia. }
  assert (OK : forall e, Forall (fun c => is_byte c /\ c <> 0) e ->
     let text := (two (y / 100) ++ two (y mod 100)) ++ [45] ++ two m ++ [45] ++ two d ++ [32] ++ two h ++ [58] ++ two mi ++ [58] ++ two s ++ e in bytes text /\ no_nul text).
  { intros e He. apply text_bytes; auto; lia. }
  assert (N : forall e ms, ending e ms -> date_text ((two (y / 100) ++ two (y mod 100)) ++ [45] ++ two m ++ [45] ++ two d ++ [32] ++ two h ++ [58] ++ two mi ++ [58] ++ two s ++ e) y m d h mi s ms).
  { intros e ms' He. constructor; auto; try (right; apply two_number; lia); apply two_number; lia. }
  intros pb st. split.
  - destruct (OK (46 :: w)) as [O1 O2]; [constructor; [unfold is_byte; lia|auto]|].
    rewrite <- I. match goal with |- fromString_str _ ?X _ = _ => replace X with ((two (y / 100) ++ two (y mod 100)) ++ [45] ++ two m ++ [45] ++ two d ++ [32] ++ two h ++ [58] ++ two mi ++ [58] ++ two s ++ 46 :: w) by (rewrite <- !app_assoc; reflexivity) end.
    apply accepts; auto. apply N. now constructor.
  - destruct (OK []) as [O1 O2]; [constructor|]. rewrite <- I. apply accepts; auto. apply N. constructor.
Qed.
(** Dates are distinct instants: different valid dates are different times, and gmtime finds the date of every time. *)
Theorem C47_calendar t : 0 <= t -> exists y m d h mi s, gmtime t = mk_tm (y - 1900) (m - 1) d h mi s /\ valid_date y m d h mi s /\ instant y m d h mi s = t.
Proof. apply gmtime_ok. Qed.
Example C47_case :
  toString (1232679224, 78) true = Ok (str "2009-01-23 02:53:44.078") /\
  fromString_str true (str "2009-Jan-23T02:53:44.078Z") (0, 0) = Ok (true, (1232679224, 78)) /\
  instant 2009 1 23 2 53 44 = 1232679224 /\ instant 2000 2 29 0 0 0 = 951782400 /\ instant 3001 1 1 0 0 0 = 32535216000 /\
  fromString_str true (str "2009/02/28 23:59:59") (7, 7) = Ok (true, (instant 2009 2 28 23 59 59, 0)) /\
  fromString_str true (str "2009/02/28 23:59:60") (7, 7) = Ok (false, (7, 7)).
Proof. repeat split; vm_compute; reflexivity. Qed.
(** Findings: *)
(** February 30 is accepted and means March 2 (or 1); a "-0" is accepted as a number *)
Theorem C47_feb30_finding : fromString_str true (str "2009-02-30 00:00:00") (0, 0) = Ok (true, (instant 2009 3 2 0 0 0, 0)) /\
  fromString_str true (str "2009-02-01 -0:-0:-0.-00") (0, 0) = Ok (true, (instant 2009 2 1 0 0 0, 0)).
Proof. split; vm_compute; reflexivity. Qed.
(** a 19-character text with a month name is read behind its end; a rejected text shorter than 23 characters is read behind its end when no pb is given;
    a failing call may already have changed the milliseconds *)
Theorem C47_overread_finding : fromString_str true (str "2009-Jan-23T02:53:4") (0, 0) = UB /\ fromString_str false (str "hello") (0, 0) = UB /\
  fromString_str true (str "2009-01-23T02:53:44.x78") (5, 6) = Ok (false, (5, 0)).
Proof. repeat split; vm_compute; reflexivity. Qed.
(** a NUL ends a number: "1\0" is taken as 1 *)
Theorem C47_nul_finding : fromString_str true (str "2009-01-" ++ [49; 0] ++ str " 00:00:00") (0, 0) = Ok (true, (instant 2009 1 1 0 0 0, 0)).
Proof. vm_compute; reflexivity. Qed.

(** * C48: FILETIME counts 100 ns from 1601-01-01. *)
Definition filetime_of (t ms : Z) : Z := (11644473600 + t) * 10000000 + ms * 10000.
(** 11644473600 s = 369 years with 89 leap days, 1601..1969 *)
Example C48_epoch : 11644473600 = (369 * 365 + 89) * 86400. Proof. reflexivity. Qed.
Theorem C48_round_trip w t ms : w = 32 \/ w = 64 -> 0 <= t -> 0 <= ms <= 999 -> (t * 1000 + ms) * 10000 < 2 ^ 63 ->
  exists low high, getFILETIME w (t, ms) = Ok (low, high) /\ (low mod 2 ^ 32) + (high mod 2 ^ 32) * 2 ^ 32 = filetime_of t ms /\ setByFILETIME low high = (t, ms).
Proof.
  intros Hw Ht Hms Hb. unfold getFILETIME, in_i64.
  assert (C : forall x, 0 <= x < 2 ^ 63 -> negb ((- 2 ^ 63 <=? x) && (x <? 2 ^ 63)) = false).
  { intros x Hx. destruct (Z.leb_spec (- 2 ^ 63) x); [|lia]. destruct (Z.ltb_spec x (2 ^ 63)); [reflexivity|lia]. }
  rewrite !C by lia. unfold epochBias. set (ft := (t * 1000 + ms) * 10000 + 116444736000000000).
  assert (F : 0 <= ft < 2 ^ 64) by (unfold ft; lia). rewrite (Z.mod_small ft) by auto.
  assert (FE : ft = (t * 1000 + ms) * 10000 + 116444736000000000) by reflexivity. clearbody ft.
  assert (L : (ft mod 2 ^ w) mod 2 ^ 32 = ft mod 2 ^ 32) by (destruct Hw as [-> | ->]; [now rewrite Z.mod_mod by lia|now rewrite (Z.mod_small ft (2 ^ 64)) by auto]).
  assert (DB : 0 <= ft / 2 ^ 32 < 2 ^ 32) by (split; [apply Z.div_pos; lia|apply Z.div_lt_upper_bound; lia]).
  assert (Hh : ((ft / 2 ^ 32) mod 2 ^ w) mod 2 ^ 32 = ft / 2 ^ 32).
  { destruct Hw as [-> | ->]; rewrite !Z.mod_small; auto; lia. }
  assert (DMf : ft = 2 ^ 32 * (ft / 2 ^ 32) + ft mod 2 ^ 32) by (apply Z.div_mod; lia).
  do 2 eexists. split; [reflexivity|]. rewrite L, Hh. split; [unfold filetime_of; lia|].
  unfold setByFILETIME. rewrite L, Hh. unfold epochBias.
  replace (ft / 2 ^ 32 * 2 ^ 32 + ft mod 2 ^ 32) with ft by lia.
  replace (ft - 116444736000000000) with ((t * 1000 + ms) * 10000) by lia. rewrite Z.mod_small by lia.
  rewrite Z.div_mul by lia. f_equal.
  - rewrite (Z.add_comm (t * 1000)), Z.div_add by lia. rewrite Z.div_small; lia.
  - rewrite (Z.add_comm (t * 1000)), Z.mod_add by lia. apply Z.mod_small; lia.
Qed.
(** the other direction: a FILETIME not before 1970 is rounded down to the millisecond *)
Theorem C48_reverse low high : 0 <= low < 2 ^ 32 -> 0 <= high < 2 ^ 32 -> filetime_of 0 0 <= high * 2 ^ 32 + low -> high * 2 ^ 32 + low - filetime_of 0 0 < 2 ^ 63 ->
  let ft := high * 2 ^ 32 + low in
  exists t ms, setByFILETIME low high = (t, ms) /\ 0 <= t /\ 0 <= ms <= 999 /\ filetime_of t ms = ft - ft mod 10000 /\
    exists low' high', getFILETIME 32 (t, ms) = Ok (low', high') /\ high' * 2 ^ 32 + low' = ft - ft mod 10000.
Proof.
  intros Hl Hh H70 Hb ft. unfold setByFILETIME. rewrite (Z.mod_small low), (Z.mod_small high) by lia. fold ft. unfold filetime_of in *. unfold epochBias.
  fold ft in H70, Hb. clearbody ft. rewrite (Z.mod_small (ft - _)) by lia. set (q := (ft - 116444736000000000) / 10000).
  assert (Q : 0 <= q) by (apply Z.div_pos; lia). assert (Q2 : ft - ft mod 10000 = q * 10000 + 116444736000000000) by (unfold q; lia).
  assert (Q3 : q = 1000 * (q / 1000) + q mod 1000) by (apply Z.div_mod; lia). assert (Q4 : 0 <= q mod 1000 < 1000) by (apply Z.mod_pos_bound; lia).
  assert (Q5 : q * 10000 < 2 ^ 63) by lia. clearbody q.
  exists (q / 1000), (q mod 1000). split; auto. split; [lia|]. split; [lia|]. split; [lia|].
  destruct (C48_round_trip 32 (q / 1000) (q mod 1000)) as (l & h & G & E & _); [auto|lia|lia|lia|].
  exists l, h. split; auto. unfold getFILETIME in G. repeat match type of G with context [if ?b then _ else _] => destruct b; [discriminate|] end.
  match type of G with Ok (?A mod _, ?B mod _) = _ => assert (El : l = A mod 2 ^ 32) by congruence; assert (Eh : h = B mod 2 ^ 32) by congruence end.
  rewrite El, Eh. rewrite El, Eh in E.
  rewrite !Z.mod_mod in E by lia. unfold filetime_of in E. lia.
Qed.
Example C48_case : getFILETIME 32 (1232679224, 78) = Ok (3455701728, 29981957) /\ setByFILETIME 3455701728 29981957 = (1232679224, 78).
Proof. split; vm_compute; reflexivity. Qed.
(** before 1970 the way back gives a time far in the future *)
Theorem C48_before_1970_finding : exists low high, getFILETIME 32 (-1, 0) = Ok (low, high) /\ setByFILETIME low high = (1844674407369, 955).
Proof. exists 3567643008, 27111902. split; vm_compute; reflexivity. Qed.
(** operator< and operator== : the order of the instants in milliseconds *)
Theorem C48_order a b : 0 <= snd a <= 999 -> 0 <= snd b <= 999 ->
  (time_lt a b = true <-> fst a * 1000 + snd a < fst b * 1000 + snd b) /\ (time_eq a b = true <-> a = b).
Proof.
  destruct a as [t1 m1], b as [t2 m2]. cbn [fst snd]. intros H1 H2. unfold time_lt, time_eq. cbn [fst snd].
  rewrite orb_true_iff, !andb_true_iff, !Z.ltb_lt, !Z.eqb_eq. split; [lia|]. split; [intros []; congruence|intros E; injection E; auto].
Qed.

Print Assumptions C47_parse. Print Assumptions C47_round_trip. Print Assumptions C47_calendar. Print Assumptions C47_overread_finding.
Print Assumptions C48_round_trip. Print Assumptions C48_reverse. Print Assumptions C48_order.
