(** C125: times taken from the clock (time.hpp). *)
Require Import Verif.Common Verif.AtoiModel Verif.AtoiSpec Verif.AtoiProof Verif.NumProps Verif.ItoaModel Verif.Text Verif.TimeModel Verif.TimeProps Verif.ClockModel.
From Coq Require Import QArith Qabs Lqa.
Open Scope Z_scope.

(** * Specification *)
(** what a clock shows, in microseconds, and what a Time says, in milliseconds *)
Definition microseconds (sec usec : Z) : Z := sec * 1000000 + usec.
Definition milliseconds (st : Z * Z) : Z := fst st * 1000 + snd st.
Definition shows (sec usec : Z) : Prop := 0 <= usec < 1000000.
(** the order of std::string *)
Fixpoint text_lt (a b : list Z) : Prop :=
  match a, b with
  | _, [] => False
  | [], _ :: _ => True
  | x :: a, y :: b => x < y \/ x = y /\ text_lt a b
  end.

(** C125: a Time taken from the clock is the clock's value cut to milliseconds *)
Theorem C125_reading sec usec : shows sec usec ->
  0 <= snd (setCurrentTime sec usec) <= 999 /\
  milliseconds (setCurrentTime sec usec) * 1000 <= microseconds sec usec < (milliseconds (setCurrentTime sec usec) + 1) * 1000.
Proof.
  intros H. unfold shows, setCurrentTime, milliseconds, microseconds in *. cbn [fst snd]. rewrite Z.quot_div_nonneg by lia. lia.
Qed.
Example C125_reading_case : setCurrentTime 1232679224 78999 = (1232679224, 78). Proof. reflexivity. Qed.
(** C125: of two readings of a clock that does not go back, the later Time is never before the earlier; it is after it if a millisecond has passed *)
Theorem C125_clock_order sec usec sec' usec' : shows sec usec -> shows sec' usec' -> microseconds sec usec <= microseconds sec' usec' ->
  let a := setCurrentTime sec usec in let b := setCurrentTime sec' usec' in
  time_lt b a = false /\ (time_lt a b = true \/ time_eq a b = true) /\ (microseconds sec usec + 1000 <= microseconds sec' usec' -> time_lt a b = true).
Proof.
  intros H H' L a b. destruct (C125_reading _ _ H) as [Ma Ra]. destruct (C125_reading _ _ H') as [Mb Rb]. fold a in Ma, Ra. fold b in Mb, Rb.
  destruct (C48_order a b Ma Mb) as [O E]. destruct (C48_order b a Mb Ma) as [O' _]. unfold milliseconds in *.
  assert (N : time_lt b a = false) by (destruct (time_lt b a); auto; pose proof (proj1 O' eq_refl); lia).
  split; [exact N|]. split.
  - destruct (Z_lt_le_dec (fst a * 1000 + snd a) (fst b * 1000 + snd b)) as [G|G]; [left; now apply O|right; apply E].
    destruct a as [x y], b as [x' y']. cbn [fst snd] in *. assert (x = x' /\ y = y') as [-> ->] by lia. reflexivity.
  - intros F. apply O. lia.
Qed.
Example C125_clock_order_case : time_lt (setCurrentTime 5 999999) (setCurrentTime 6 0) = true /\ time_eq (setCurrentTime 5 1000) (setCurrentTime 5 1999) = true.
Proof. split; reflexivity. Qed.
(** C125: addSec moves a Time by exactly that many seconds, back again by the opposite, and is undefined exactly if the result is no time_t *)
Theorem C125_addSec st n : - 2 ^ 63 <= fst st < 2 ^ 63 -> - 2 ^ 31 < n < 2 ^ 31 ->
  (addSec st n = UB <-> ~ (- 2 ^ 63 <= fst st + n < 2 ^ 63)) /\
  (forall st', addSec st n = Ok st' -> milliseconds st' = milliseconds st + 1000 * n /\ snd st' = snd st /\ addSec st' (- n) = Ok st).
Proof.
  destruct st as [t ms]. unfold addSec, in_i64, milliseconds. cbn [fst snd]. intros H Hn.
  destruct (Z.leb_spec (- 2 ^ 63) (t + n)); destruct (Z.ltb_spec (t + n) (2 ^ 63)); cbn [andb]; (split; [split; [discriminate || lia|lia || reflexivity]|]);
    try (intros st' E; discriminate E). all: try (intros st' E; injection E as <-; cbn [fst snd]).
  split; [lia|]. split; [reflexivity|]. replace (t + n + - n) with t by lia. destruct (Z.leb_spec (- 2 ^ 63) t); destruct (Z.ltb_spec t (2 ^ 63)); try lia. reflexivity.
Qed.
Example C125_addSec_case : addSec (10, 500) (-3) = Ok (7, 500) /\ addSec (2 ^ 63 - 1, 0) 1 = UB. Proof. split; reflexivity. Qed.

(** * The texts of times sort like the times *)
Lemma lt_app a : forall a' x x', length a = length a' -> text_lt a a' -> text_lt (a ++ x) (a' ++ x').
Proof. induction a as [|c a IH]; intros [|c' a'] x x' L H; cbn in *; try discriminate; try tauto. destruct H as [H|[E H]]; [now left|right; split; auto]. Qed.
Lemma eq_app a : forall x x', text_lt x x' -> text_lt (a ++ x) (a ++ x').
Proof. induction a as [|c a IH]; intros x x' H; cbn; auto. Qed.
Lemma text_lt_irrefl a : ~ text_lt a a.
Proof. induction a as [|c a IH]; cbn; [tauto|]. intros [H|[_ H]]; [lia|tauto]. Qed.
Lemma text_lt_asym a : forall b, text_lt a b -> ~ text_lt b a.
Proof. induction a as [|c a IH]; intros [|d b] H; cbn in *; try tauto. intros [G|[E G]]; destruct H as [H|[E' H]]; try lia. now apply (IH b). Qed.
Lemma two_lt x y : 0 <= x -> x < y <= 99 -> text_lt (two x) (two y).
Proof. intros H0 H. unfold two. cbn [text_lt]. lia. Qed.
Lemma year_lt x y : 0 <= x -> x < y <= 9999 -> text_lt (two (x / 100) ++ two (x mod 100)) (two (y / 100) ++ two (y mod 100)).
Proof.
  intros H0 H. assert (C : x / 100 < y / 100 \/ x / 100 = y / 100 /\ x mod 100 < y mod 100) by lia. destruct C as [C|[-> C]].
  - apply lt_app; [reflexivity|]. apply two_lt; lia.
  - apply eq_app. apply two_lt; lia.
Qed.
Lemma msec_digits ms : 0 <= ms <= 999 -> exists a b c, itoaWithZero true (repeat 0 40) ms 3 48 = Ok [48 + a; 48 + b; 48 + c] /\
  0 <= a <= 9 /\ 0 <= b <= 9 /\ 0 <= c <= 9 /\ ms = 100 * a + 10 * b + c.
Proof.
  intros H. destruct (C04_itoaWithZero true (repeat 0 40) ms 3 48 eq_refl ltac:(cbn beta iota; lia) ltac:(lia)) as (sg & d & pad & SS & SG & C & P & E).
  rewrite Z.abs_eq in C by lia. assert (sg = []) as -> by (destruct SS as [|Q]; auto; apply SG in Q; lia). cbn [app] in *.
  pose proof (canonical_short d ms 3 C ltac:(lia) ltac:(lia)) as L. destruct C as (NE & D & V & _).
  assert (LN : length (pad ++ d) = 3%nat) by (rewrite P, app_length, repeat_length; unfold zlen in *; lia).
  assert (DG : Forall is_digit (pad ++ d)) by (rewrite P; apply Forall_app; split; auto; apply Forall_forall; intros x Hx; apply repeat_spec in Hx; subst; unfold is_digit; lia).
  assert (DV : dec_value (pad ++ d) = ms) by (rewrite P, dec_value_zeros; now rewrite <- V).
  rewrite E. destruct (pad ++ d) as [|a [|b [|c [|]]]]; try discriminate LN.
  apply Forall_cons_iff in DG. destruct DG as [Da DG]. apply Forall_cons_iff in DG. destruct DG as [Db DG]. apply Forall_cons_iff in DG. destruct DG as [Dc _].
  unfold is_digit in *. unfold dec_value, value, dec_digit in DV. cbn [map fold_left] in DV.
  exists (a - 48), (b - 48), (c - 48). split; [repeat f_equal; lia|]. lia.
Qed.
Lemma months_mono y a b : (a <= b)%nat -> days_of_months y a <= days_of_months y b.
Proof.
  induction 1 as [|b H IH]; [lia|]. cbn [days_of_months]. assert (0 <= days_in_month y (Z.of_nat (S b))); [|lia].
  unfold days_in_month. repeat match goal with |- context [if ?b then _ else _] => destruct b end; lia.
Qed.
(** the end of a date's month is not behind the start of a later month *)
Lemma month_end y m d m' : 1 <= m -> d <= days_in_month y m -> m < m' -> days_of_months y (Z.to_nat (m - 1)) + d <= days_of_months y (Z.to_nat (m' - 1)).
Proof.
  intros Hm Hd L. pose proof (months_mono y (S (Z.to_nat (m - 1))) (Z.to_nat (m' - 1)) ltac:(lia)) as M. cbn [days_of_months] in M.
  replace (Z.of_nat (S (Z.to_nat (m - 1)))) with m in M by lia. lia.
Qed.
Lemma year_end y m d y' : 1970 <= y -> 1 <= m <= 12 -> d <= days_in_month y m -> y < y' ->
  days_of_years (Z.to_nat (y - 1970)) + days_of_months y (Z.to_nat (m - 1)) + d <= days_of_years (Z.to_nat (y' - 1970)).
Proof.
  intros Hy Hm Hd L. pose proof (month_end y m d 13 ltac:(lia) Hd ltac:(lia)) as M. change (Z.to_nat (13 - 1)) with 12%nat in M.
  pose proof (days_of_years_mono (S (Z.to_nat (y - 1970))) (Z.to_nat (y' - 1970)) ltac:(lia)) as Y. cbn [days_of_years] in Y.
  replace (1970 + Z.of_nat (Z.to_nat (y - 1970))) with y in Y by lia. lia.
Qed.
(** an earlier instant has the earlier date *)
Lemma date_order y m d h mi s y' m' d' h' mi' s' : valid_date y m d h mi s -> valid_date y' m' d' h' mi' s' ->
  instant y m d h mi s < instant y' m' d' h' mi' s' ->
  y < y' \/ y = y' /\ (m < m' \/ m = m' /\ (d < d' \/ d = d' /\ (h < h' \/ h = h' /\ (mi < mi' \/ mi = mi' /\ s < s')))).
Proof.
  intros (Y & M & D & H & MI & S) (Y' & M' & D' & H' & MI' & S') L. unfold instant in L.
  destruct (Z.lt_trichotomy y y') as [C|[C|C]]; [now left| |].
  - right. split; auto. subst y'. destruct (Z.lt_trichotomy m m') as [C|[C|C]]; [now left| |].
    + right. split; auto. subst m'. nia.
    + pose proof (month_end y m' d' m ltac:(lia) ltac:(lia) C). nia.
  - pose proof (year_end y' m' d' y ltac:(lia) ltac:(lia) ltac:(lia) C). pose proof (days_of_months_nonneg y (Z.to_nat (m - 1))). nia.
Qed.
(** the text of a time *)
Definition date_of (y m d h mi s : Z) : list Z :=
  (two (y / 100) ++ two (y mod 100)) ++ [45] ++ two m ++ [45] ++ two d ++ [32] ++ two h ++ [58] ++ two mi ++ [58] ++ two s.
Definition day_text (t : Z) : list Z :=
  let g := gmtime t in date_of (tm_year g + 1900) (tm_mon g + 1) (tm_mday g) (tm_hour g) (tm_min g) (tm_sec g).
Lemma toString_text t ms : 0 <= t < instant 10000 1 1 0 0 0 -> 0 <= ms <= 999 -> exists y m d h mi s a b c,
  valid_date y m d h mi s /\ y <= 9999 /\ instant y m d h mi s = t /\ 0 <= a <= 9 /\ 0 <= b <= 9 /\ 0 <= c <= 9 /\ ms = 100 * a + 10 * b + c /\
  day_text t = date_of y m d h mi s /\ toString (t, ms) true = Ok (day_text t ++ [46; 48 + a; 48 + b; 48 + c]).
Proof.
  intros Ht Hms. destruct (gmtime_ok t) as (y & m & d & h & mi & s & G & V & I); [lia|].
  assert (Y : y <= 9999).
  { destruct (Z_le_gt_dec y 9999) as [|Q]; auto. exfalso. pose proof (instant_year 10000 y m d h mi s ltac:(lia) V). lia. }
  destruct (msec_digits ms Hms) as (a & b & c & W & A & B & C & E). exists y, m, d, h, mi, s, a, b, c.
  split; [exact V|]. split; [exact Y|]. split; [exact I|]. split; [exact A|]. split; [exact B|]. split; [exact C|]. split; [exact E|].
  assert (D : day_text t = date_of y m d h mi s).
  { unfold day_text. rewrite G. cbn [tm_year tm_mon tm_mday tm_hour tm_min tm_sec]. replace (y - 1900 + 1900) with y by lia. now replace (m - 1 + 1) with m by lia. }
  split; [exact D|]. rewrite D.
  unfold toString. cbn [fst snd]. rewrite G. cbn [tm_year tm_mon tm_mday tm_hour tm_min tm_sec].
  replace (y - 1900 + 1900) with y by lia. replace (m - 1 + 1) with m by lia. unfold year4. destruct V as (V1 & _).
  destruct (Z.leb_spec 1000 y); [|lia]. destruct (Z.leb_spec y 9999); [|lia]. cbn [andb bind]. rewrite W. cbn [bind]. unfold date_of.
  f_equal.
Qed.
Lemma earlier_text t ms t' ms' text text' : 0 <= t < instant 10000 1 1 0 0 0 -> 0 <= ms <= 999 -> 0 <= t' < instant 10000 1 1 0 0 0 -> 0 <= ms' <= 999 ->
  milliseconds (t, ms) < milliseconds (t', ms') -> toString (t, ms) true = Ok text -> toString (t', ms') true = Ok text' -> text_lt text text'.
Proof.
  intros Ht Hm Ht' Hm' L E E'. unfold milliseconds in L. cbn [fst snd] in L.
  destruct (toString_text t ms Ht Hm) as (y & m & d & h & mi & s & a & b & c & V & Y & I & A & B & C & M & D & W).
  destruct (toString_text t' ms' Ht' Hm') as (y' & m' & d' & h' & mi' & s' & a' & b' & c' & V' & Y' & I' & A' & B' & C' & M' & D' & W').
  assert (X : text = day_text t ++ [46; 48 + a; 48 + b; 48 + c]) by congruence. assert (X' : text' = day_text t' ++ [46; 48 + a'; 48 + b'; 48 + c']) by congruence. subst text text'.
  assert (T : t < t' \/ t = t' /\ ms < ms') by lia. destruct T as [T|[-> T]].
  - rewrite D, D'. apply lt_app; [reflexivity|]. pose proof (days_in_month_le y m). pose proof (days_in_month_le y' m'). rewrite <- I, <- I' in T.
    pose proof (date_order _ _ _ _ _ _ _ _ _ _ _ _ V V' T) as O. destruct V as (V1 & V2 & V3 & V4 & V5 & V6). destruct V' as (V1' & V2' & V3' & V4' & V5' & V6').
    clear W W' D D' I I' T Ht Ht' L Hm Hm' M M'.
    unfold date_of. destruct O as [O|[<- O]]; [apply lt_app; [reflexivity|]; apply year_lt; lia|]. apply eq_app. apply eq_app.
    destruct O as [O|[<- O]]; [apply lt_app; [reflexivity|]; apply two_lt; lia|]. apply eq_app. apply eq_app.
    destruct O as [O|[<- O]]; [apply lt_app; [reflexivity|]; apply two_lt; lia|]. apply eq_app. apply eq_app.
    destruct O as [O|[<- O]]; [apply lt_app; [reflexivity|]; apply two_lt; lia|]. apply eq_app. apply eq_app.
    destruct O as [O|[<- O]]; [apply lt_app; [reflexivity|]; apply two_lt; lia|]. apply eq_app. apply eq_app. apply two_lt; lia.
  - apply eq_app. cbn [text_lt]. lia.
Qed.
(** C125: from 1970 to the end of the year 9999 every time has a text of 23 characters, and one time is before another exactly if its text is
    before the other's in the order of strings: sorting log lines as text sorts them by time *)
Theorem C125_text_order a b : 0 <= fst a < instant 10000 1 1 0 0 0 -> 0 <= snd a <= 999 -> 0 <= fst b < instant 10000 1 1 0 0 0 -> 0 <= snd b <= 999 ->
  exists ta tb, toString a true = Ok ta /\ toString b true = Ok tb /\ zlen ta = 23 /\ zlen tb = 23 /\
    (text_lt ta tb <-> time_lt a b = true) /\ (ta = tb <-> time_eq a b = true).
Proof.
  destruct a as [t ms], b as [t' ms']. cbn [fst snd]. intros Ht Hm Ht' Hm'.
  destruct (toString_text t ms Ht Hm) as (y & m & d & h & mi & s & a & b & c & _ & _ & _ & _ & _ & _ & _ & D & W).
  destruct (toString_text t' ms' Ht' Hm') as (y' & m' & d' & h' & mi' & s' & a' & b' & c' & _ & _ & _ & _ & _ & _ & _ & D' & W').
  exists (day_text t ++ [46; 48 + a; 48 + b; 48 + c]), (day_text t' ++ [46; 48 + a'; 48 + b'; 48 + c']). split; [exact W|]. split; [exact W'|].
  split; [rewrite D; reflexivity|]. split; [rewrite D'; reflexivity|].
  destruct (C48_order (t, ms) (t', ms') Hm Hm') as [O Q]. change (fst (t, ms) * 1000 + snd (t, ms)) with (milliseconds (t, ms)) in O.
  change (fst (t', ms') * 1000 + snd (t', ms')) with (milliseconds (t', ms')) in O.

  assert (F1 : milliseconds (t, ms) < milliseconds (t', ms') -> text_lt (day_text t ++ [46; 48 + a; 48 + b; 48 + c]) (day_text t' ++ [46; 48 + a'; 48 + b'; 48 + c'])).
  { intros L. exact (earlier_text t ms t' ms' _ _ Ht Hm Ht' Hm' L W W'). }
  assert (F2 : milliseconds (t', ms') < milliseconds (t, ms) -> text_lt (day_text t' ++ [46; 48 + a'; 48 + b'; 48 + c']) (day_text t ++ [46; 48 + a; 48 + b; 48 + c])).
  { intros L. exact (earlier_text t' ms' t ms _ _ Ht' Hm' Ht Hm L W' W). }
  rewrite Q. assert (K : milliseconds (t, ms) = milliseconds (t', ms') -> (t, ms) = (t', ms')).
  { unfold milliseconds. cbn [fst snd]. intros K. assert (t = t' /\ ms = ms') as [-> ->] by lia. reflexivity. }
  split; split; intros X.
  - apply O. destruct (Z.lt_trichotomy (milliseconds (t, ms)) (milliseconds (t', ms'))) as [G|[G|G]]; auto; exfalso.
    + apply K in G. injection G as <- <-. assert (Y : day_text t ++ [46; 48 + a; 48 + b; 48 + c] = day_text t ++ [46; 48 + a'; 48 + b'; 48 + c']) by congruence. rewrite Y in X. now apply text_lt_irrefl in X.
    + now apply (text_lt_asym _ _ X); apply F2.
  - now apply F1; apply O.
  - destruct (Z.lt_trichotomy (milliseconds (t, ms)) (milliseconds (t', ms'))) as [G|[G|G]]; auto; exfalso.
    + apply F1 in G. rewrite X in G. now apply text_lt_irrefl in G.
    + apply F2 in G. rewrite X in G. now apply text_lt_irrefl in G.
  - injection X as <- <-. congruence.
Qed.
Example C125_text_order_case : toString (951782399, 999) true = Ok (str "2000-02-28 23:59:59.999") /\ toString (951782400, 0) true = Ok (str "2000-02-29 00:00:00.000") /\
  time_lt (951782399, 999) (951782400, 0) = true /\ text_lt (str "2000-02-28 23:59:59.999") (str "2000-02-29 00:00:00.000").
Proof. split; [vm_compute; reflexivity|]. split; [vm_compute; reflexivity|]. split; [reflexivity|]. vm_compute. tauto. Qed.

(** * The time as a double *)
Lemma rne_err n d : 0 < d -> 2 * Z.abs (rne n d * d - n) <= d.
Proof.
  intros Hd. unfold rne. pose proof (Z.div_mod n d ltac:(lia)) as E. pose proof (Z.mod_pos_bound n d Hd) as B.
  generalize dependent (n mod d). generalize (n / d). intros q r E B. subst n.
  destruct (Z.ltb_spec (2 * r) d); [|destruct (Z.ltb_spec d (2 * r)); [|destruct (Z.even q)]].
  - replace (q * d - (d * q + r)) with (- r) by ring. lia.
  - replace ((q + 1) * d - (d * q + r)) with (d - r) by ring. lia.
  - replace (q * d - (d * q + r)) with (- r) by ring. lia.
  - replace ((q + 1) * d - (d * q + r)) with (d - r) by ring. lia.
Qed.
Lemma up_pos e : 0 < up e. Proof. unfold up. apply Z.pow_pos_nonneg; lia. Qed.
Lemma dn_pos e : 0 < dn e. Proof. unfold dn. apply Z.pow_pos_nonneg; lia. Qed.
Lemma expo_spec n d : 0 < n -> 0 < d -> d * up (expo n d) <= n * dn (expo n d).
Proof.
  intros Hn Hd. unfold expo. pose proof (Z.log2_spec n Hn) as A. pose proof (Z.log2_spec d Hd) as B.
  pose proof (Z.log2_nonneg n) as PA. pose proof (Z.log2_nonneg d) as PB. generalize dependent (Z.log2 n). generalize dependent (Z.log2 d). intros b B PB a A PA.
  destruct (Z.ltb_spec (n * dn (a - b)) (d * up (a - b))) as [L|L]; [|exact L]. unfold up, dn. clear L.
  destruct (Z_le_gt_dec 1 (a - b)) as [K|K].
  - rewrite (Z.max_l (a - b - 1)), (Z.max_r (- (a - b - 1))) by lia. change (2 ^ 0) with 1.
    assert (d * 2 ^ (a - b - 1) <= 2 ^ (b + 1) * 2 ^ (a - b - 1)) as M by (apply Z.mul_le_mono_nonneg_r; [apply Z.pow_nonneg; lia|]; replace (b + 1) with (Z.succ b) by lia; lia).
    rewrite <- Z.pow_add_r in M by lia. replace (b + 1 + (a - b - 1)) with a in M by lia. lia.
  - rewrite (Z.max_r (a - b - 1)), (Z.max_l (- (a - b - 1))) by lia. change (2 ^ 0) with 1.
    assert (2 ^ a * 2 ^ (- (a - b - 1)) <= n * 2 ^ (- (a - b - 1))) as M by (apply Z.mul_le_mono_nonneg_r; [apply Z.pow_nonneg; lia|lia]).
    rewrite <- Z.pow_add_r in M by lia. replace (a + - (a - b - 1)) with (Z.succ b) in M by lia. lia.
Qed.
Lemma shift52 e : up (e - 52) * dn e * 2 ^ 52 = up e * dn (e - 52).
Proof.
  unfold up, dn. destruct (Z_le_gt_dec 52 e) as [K|K]; [|destruct (Z_le_gt_dec 0 e) as [K'|K']].
  - rewrite !Z.max_l, !Z.max_r by lia. rewrite <- !Z.pow_add_r by lia. f_equal. lia.
  - rewrite (Z.max_r (e - 52)), (Z.max_r (- e)), (Z.max_l e), (Z.max_l (- (e - 52))) by lia. rewrite <- !Z.pow_add_r by lia. f_equal. lia.
  - rewrite (Z.max_r (e - 52)), (Z.max_l (- e)), (Z.max_r e), (Z.max_l (- (e - 52))) by lia. rewrite <- !Z.pow_add_r by lia. f_equal. lia.
Qed.
Lemma round_pos_err n d : 0 < n -> let q := (n # d)%Q in (- (q * (1 # 9007199254740992)) <= round_pos n (Zpos d) - q <= q * (1 # 9007199254740992))%Q.
Proof.
  intros Hn q. unfold round_pos. set (u := expo n (Zpos d) - 52).
  pose proof (up_pos u) as U. pose proof (dn_pos u) as N. pose proof (rne_err (n * dn u) (Zpos d * up u) ltac:(nia)) as R.
  pose proof (expo_spec n (Zpos d) Hn ltac:(lia)) as X. pose proof (shift52 (expo n (Zpos d))) as S. fold u in S. pose proof (dn_pos (expo n (Zpos d))) as NE.
  assert (D : Zpos d * up u * 2 ^ 52 <= n * dn u) by nia. clear X S NE.
  set (m := rne (n * dn u) (Zpos d * up u)) in *. clearbody m. clearbody u. generalize dependent (dn u). generalize dependent (up u). intros U HU N HN R D.
  destruct N as [|p|p]; try lia.
  assert (E : (inject_Z (m * U) / inject_Z (Zpos p) == (m * U # p))%Q).
  { unfold Qdiv, Qinv, inject_Z, Qeq, Qmult. cbn [Qnum Qden]. lia. }
  rewrite E. unfold q. assert (P53 : 2 ^ 53 * Z.abs (m * (Zpos d * U) - n * Zpos p) <= n * Zpos p) by lia. change (2 ^ 53) with 9007199254740992 in P53.
  clear R D E. unfold Qle, Qminus, Qplus, Qopp, Qmult. cbn [Qnum Qden]. rewrite !Pos2Z.inj_mul. split; nia.
Qed.
Lemma round_err q : (0 <= q)%Q -> (- (q * (1 # 9007199254740992)) <= round q - q <= q * (1 # 9007199254740992))%Q.
Proof.
  destruct q as [n d]. intros H. unfold round. cbn [Qnum Qden]. assert (Hn : 0 <= n) by (unfold Qle in H; cbn in H; lia).
  destruct (Z.eqb_spec n 0) as [->|Z0]; [|destruct (Z.ltb_spec 0 n); [now apply round_pos_err|lia]].
  unfold Qle, Qminus, Qplus, Qopp, Qmult. cbn. lia.
Qed.
Lemma round_int n : 0 <= n < 2 ^ 53 -> (round (inject_Z n) == inject_Z n)%Q.
Proof.
  intros H. unfold round. cbn [Qnum Qden inject_Z]. destruct (Z.eqb_spec n 0) as [->|Z0]; [reflexivity|]. destruct (Z.ltb_spec 0 n); [|lia].
  unfold round_pos. assert (L : expo n 1 - 52 <= 0).
  { unfold expo. change (Z.log2 1) with 0. assert (Z.log2 n < 53) by (apply Z.log2_lt_pow2; lia). destruct (_ <? _); lia. }
  set (u := expo n 1 - 52) in *. clearbody u. assert (U : up u = 1) by (unfold up; rewrite Z.max_r by lia; reflexivity). rewrite U.
  pose proof (dn_pos u). generalize dependent (dn u). intros N HN. unfold rne. change (1 * 1) with 1. rewrite Z.div_1_r, Z.mod_1_r. cbn [Z.mul Z.ltb Z.compare].
  destruct N as [|p|p]; try lia. unfold Qdiv, Qinv, inject_Z, Qeq, Qmult. cbn [Qnum Qden]. lia.
Qed.
(** C125: up to the year 2242 the time as a double is within a microsecond of the time, so that different times have different doubles, in the
    order of the times *)
Definition seconds (st : Z * Z) : Q := (milliseconds st # 1000)%Q.
Definition near (x y e : Q) : Prop := (y - e < x < y + e)%Q.
Theorem C125_double st : 0 <= fst st < 2 ^ 33 -> 0 <= snd st <= 999 -> near (getTimeSec st) (seconds st) (1 # 1000000).
Proof.
  destruct st as [t ms]. cbn [fst snd]. intros Ht Hm. unfold getTimeSec, seconds, milliseconds, near. cbn [fst snd].
  pose proof (round_int t ltac:(lia)) as Rt. pose proof (round_int ms ltac:(lia)) as Rm. pose proof (round_err (1 # 1000) ltac:(discriminate)) as Rc.
  set (T := round (inject_Z t)) in *. set (M := round (inject_Z ms)) in *. set (c := round (1 # 1000)) in *.
  assert (Qt : (0 <= inject_Z t <= 8589934591)%Q) by (unfold Qle, inject_Z; cbn [Qnum Qden]; lia).
  assert (Qm : (0 <= inject_Z ms <= 999)%Q) by (unfold Qle, inject_Z; cbn [Qnum Qden]; lia).
  assert (E : ((t * 1000 + ms # 1000) == inject_Z t + inject_Z ms * (1 # 1000))%Q) by (unfold Qeq, Qplus, Qmult, inject_Z; cbn [Qnum Qden]; lia).
  rewrite E. clear E. assert (C0 : (0 <= c)%Q) by lra.
  assert (P0 : (0 <= M * c)%Q) by (apply Qmult_le_0_compat; lra).
  assert (PE : (- ((1 # 9007199254740992)) <= M * c - inject_Z ms * (1 # 1000) <= (1 # 9007199254740992))%Q).
  { rewrite Rm. set (x := inject_Z ms) in *. clearbody x. assert (D : (- (1 # 9007199254740992000) <= c - (1 # 1000) <= (1 # 9007199254740992000))%Q) by lra.
    clear Rc. set (dd := (c - (1 # 1000))%Q) in *. assert (X : (x * c - x * (1 # 1000) == x * dd)%Q) by (unfold dd; ring). rewrite X. clear X. clearbody dd. split; nra. }
  pose proof (round_err (M * c) P0) as Rp. set (p := (M * c)%Q) in *. set (P := round p) in *.
  assert (S0 : (0 <= T + P)%Q) by lra. pose proof (round_err (T + P) S0) as Rs. set (s := round (T + P)) in *.
  clearbody s P p c M T. clear C0 P0. rewrite Rt in *. lra.
Qed.
Example C125_double_case : (getTimeSec (1232679224, 78)%Z == 1292557850066813 # 1048576)%Q /\ (seconds (1232679224, 78)%Z == 1232679224078 # 1000)%Q.
Proof. split; vm_compute; reflexivity. Qed.
Theorem C125_double_order a b : 0 <= fst a < 2 ^ 33 -> 0 <= snd a <= 999 -> 0 <= fst b < 2 ^ 33 -> 0 <= snd b <= 999 ->
  ((getTimeSec a < getTimeSec b)%Q <-> time_lt a b = true) /\ ((getTimeSec a == getTimeSec b)%Q <-> time_eq a b = true).
Proof.
  intros A1 A2 B1 B2. pose proof (C125_double a A1 A2) as A. pose proof (C125_double b B1 B2) as B. destruct (C48_order a b A2 B2) as [O E].
  fold (milliseconds a) in O. fold (milliseconds b) in O. unfold near, seconds in A, B. rewrite E.
  assert (K : milliseconds a = milliseconds b -> a = b).
  { unfold milliseconds. destruct a as [t m], b as [t' m']. cbn [fst snd] in *. intros K. assert (t = t' /\ m = m') as [-> ->] by lia. reflexivity. }
  assert (G : forall x y : Z, x < y -> ((x # 1000) + (1 # 1000) <= (y # 1000))%Q).
  { intros x y L. unfold Qle, Qplus. cbn [Qnum Qden]. lia. }
  destruct (Z.lt_trichotomy (milliseconds a) (milliseconds b)) as [C|[C|C]].
  - pose proof (G _ _ C). split; split; intros X; auto; [now apply O|lra|exfalso; lra|exfalso; subst; lia].
  - apply K in C. subst b. split; split; intros X; auto; [exfalso; lra|apply O in X; lia|reflexivity].
  - pose proof (G _ _ C). split; split; intros X; [exfalso; lra|apply O in X; lia|exfalso; lra|exfalso; subst; lia].
Qed.
(** C125: the difference of two readings of GetCurrentTimeSec is the time that passed on the clock, to 1.002 milliseconds *)
Theorem C125_elapsed sec usec sec' usec' : shows sec usec -> shows sec' usec' -> 0 <= sec < 2 ^ 33 -> 0 <= sec' < 2 ^ 33 ->
  near (GetCurrentTimeSec sec' usec' - GetCurrentTimeSec sec usec) (microseconds sec' usec' - microseconds sec usec # 1000000) (1002 # 1000000).
Proof.
  intros H H' S S'. destruct (C125_reading _ _ H) as [M R]. destruct (C125_reading _ _ H') as [M' R'].
  pose proof (C125_double (setCurrentTime sec usec) S M) as D. pose proof (C125_double (setCurrentTime sec' usec') S' M') as D'.
  unfold near, seconds, GetCurrentTimeSec in *. generalize dependent (getTimeSec (setCurrentTime sec usec)). generalize dependent (getTimeSec (setCurrentTime sec' usec')). intros g' D' g D.
  generalize dependent (milliseconds (setCurrentTime sec usec)). generalize dependent (milliseconds (setCurrentTime sec' usec')). intros m' R' D' m R D.
  generalize dependent (microseconds sec usec). generalize dependent (microseconds sec' usec'). intros u' R' u R.
  assert (A : ((m # 1000) <= (u # 1000000) <= (m # 1000) + (999 # 1000000))%Q) by (unfold Qle, Qplus; cbn [Qnum Qden]; lia).
  assert (A' : ((m' # 1000) <= (u' # 1000000) <= (m' # 1000) + (999 # 1000000))%Q) by (unfold Qle, Qplus; cbn [Qnum Qden]; lia).
  assert (E : ((u' - u # 1000000) == (u' # 1000000) - (u # 1000000))%Q) by (unfold Qeq, Qminus, Qplus, Qopp; cbn [Qnum Qden]; lia).
  rewrite E. lra.
Qed.
Example C125_elapsed_case : shows 1700000000 999999 /\ shows 1700000001 0 /\
  (GetCurrentTimeSec 1700000001 0 - GetCurrentTimeSec 1700000000 999999 == 2097 # 2097152)%Q.
Proof. split; [split; lia|]. split; [split; lia|]. vm_compute. reflexivity. Qed.

(** ** Finding: Time(false) leaves the time uninitialised; reading it is undefined *)
Theorem C125_uninitialised_finding sec usec : getTime (Time_bool false sec usec) = UB /\ getMsec (Time_bool false sec usec) = UB /\
  getTime (Time_bool true sec usec) = Ok sec.
Proof. repeat split. Qed.
(** ** Finding: setTime and the constructor take any number of milliseconds, and with 1000 or more a Time is before times that precede it *)
Theorem C125_msec_finding st t ms : 1000 < ms -> time_lt (setTime st t ms) (mkTime (t + 1) 0) = true /\ milliseconds (mkTime (t + 1) 0) < milliseconds (setTime st t ms).
Proof.
  intros H. unfold time_lt, setTime, mkTime, milliseconds. cbn [fst snd]. split; [|lia]. destruct (Z.ltb_spec t (t + 1)); [reflexivity|lia].
Qed.

Print Assumptions C125_reading.
Print Assumptions C125_clock_order.
Print Assumptions C125_addSec.
Print Assumptions C125_text_order.
Print Assumptions C125_double.
Print Assumptions C125_double_order.
Print Assumptions C125_elapsed.
Print Assumptions C125_uninitialised_finding.
Print Assumptions C125_msec_finding.
