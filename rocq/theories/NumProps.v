(** Properties C01-C04 (itoa.hpp, atoi.hpp). *)
Require Import Verif.Common Verif.AtoiSpec Verif.AtoiModel Verif.ItoaModel Verif.AtoiProof Verif.ItoaProof.

(** The integer types with the ranges the C++ standard gives them. *)
Definition type_ranges : list (ityp * (Z * Z)) :=
  [ (ty_i8,  (- 2 ^ 7, 2 ^ 7 - 1));   (ty_u8,  (0, 2 ^ 8 - 1));
    (ty_i16, (- 2 ^ 15, 2 ^ 15 - 1)); (ty_u16, (0, 2 ^ 16 - 1));
    (ty_i32, (- 2 ^ 31, 2 ^ 31 - 1)); (ty_u32, (0, 2 ^ 32 - 1));
    (ty_i64, (- 2 ^ 63, 2 ^ 63 - 1)); (ty_u64, (0, 2 ^ 64 - 1)) ].

(** accepted texts: see AtoiSpec *)
Definition language (lo hi : Z) : list Z -> Z -> Prop :=
  if lo <? 0 then signed_language lo hi else unsigned_language hi.

Lemma types_facts t lo hi : In (t, (lo, hi)) type_ranges ->
  t_min t = lo /\ t_max t = hi /\ t_signed t = (lo <? 0) /\ wf_ty t /\ (t_signed t = true -> wf_sty t)
  /\ t_max t mod 16 = 15 /\ 0 <= t_max t.
Proof.
  assert (D: forall l, forallb digitb l = true -> Forall is_digit l) by (intros l; apply forallb_digit).
  intros H. simpl in H.
  repeat (destruct H as [H|H]; [injection H as <- <- <-; repeat split; try reflexivity; try discriminate;
    try (apply D; reflexivity); try (unfold wf_ty; simpl; lia) |]); try contradiction.
Qed.

Lemma language_eq t lo hi s v : In (t, (lo, hi)) type_ranges ->
  language lo hi s v <-> if t_signed t then signed_accepts t s v else unsigned_text s v /\ v <= t_max t.
Proof.
  intros H. destruct (types_facts _ _ _ H) as (E1 & E2 & E3 & _). unfold language, signed_accepts, unsigned_language.
  rewrite E3, E1, E2. destruct (lo <? 0); tauto.
Qed.

Lemma atoi_core t lo hi b p size : In (t, (lo, hi)) type_ranges -> bytes p -> readable p size -> 0 <= size ->
  (lo < 0 -> minus_slack p size) ->
  exists r, atoi t b p size = out_of b p size r /\
    match r with
    | Some v => language lo hi (visible p size) v /\ forall v', language lo hi (visible p size) v' -> v' = v
    | None => forall v', ~ language lo hi (visible p size) v'
    end.
Proof.
  intros Hin Hb Hr Hs Hm. destruct (types_facts _ _ _ Hin) as (E1 & E2 & E3 & W & Ws & _).
  unfold atoi. destruct (t_signed t) eqn:Et.
  - destruct (convertToInt_spec t b p size (Ws eq_refl) Hb Hr Hs) as (r & R1 & R2); [apply Hm; lia|].
    exists r. split; auto. destruct r as [v|]; simpl in R2.
    + rewrite (language_eq t lo hi) by auto. rewrite Et. destruct R2 as [R2 R3]. split; auto.
      intros v' Hv. rewrite (language_eq t lo hi) in Hv by auto. rewrite Et in Hv. auto.
    + intros v' Hv. rewrite (language_eq t lo hi) in Hv by auto. rewrite Et in Hv. eapply R2; eauto.
  - rewrite convertToUint_spec by auto.
    exists (uint_result t (visible p size)). split; [reflexivity|].
    destruct (uint_result _ _) as [v|] eqn:Eu.
    + apply uint_result_spec in Eu. rewrite (language_eq t lo hi) by auto. rewrite Et. split; auto.
      intros v' Hv. rewrite (language_eq t lo hi) in Hv by auto. rewrite Et in Hv.
      apply uint_result_spec in Hv. apply uint_result_spec in Eu. congruence.
    + intros v' Hv. rewrite (language_eq t lo hi) in Hv by auto. rewrite Et in Hv.
      apply uint_result_spec in Hv. congruence.
Qed.

Lemma throw_exn p size : throw_slack p size -> fail_exit false p size = Exn.
Proof. unfold throw_slack, fail_exit, throw_with. intros H. destruct (_ <? _) eqn:E; auto. lia. Qed.

(** C02: atoi(p, size) for every type: it succeeds exactly on the accepted language and returns the
    value; otherwise it reports failure through *b, or throws when no b is given. *)
Theorem C02_atoi_exact : forall t lo hi p size,
  In (t, (lo, hi)) type_ranges -> bytes p -> 0 <= size -> readable p size ->
  (lo < 0 -> minus_slack p size) ->
  (exists v, language lo hi (visible p size) v /\
     (forall v', language lo hi (visible p size) v' -> v' = v) /\
     atoi t true p size = Ok (true, v) /\ atoi t false p size = Ok (true, v))
  \/ ((forall v, ~ language lo hi (visible p size) v) /\
     atoi t true p size = Ok (false, 0) /\
     (throw_slack p size -> atoi t false p size = Exn)).
Proof.
  intros t lo hi p size Hin Hb Hs Hr Hm.
  destruct (atoi_core t lo hi true p size Hin Hb Hr Hs Hm) as (r & R1 & R2).
  destruct (atoi_core t lo hi false p size Hin Hb Hr Hs Hm) as (r' & R1' & R2').
  destruct r as [v|], r' as [v'|].
  - left. exists v. destruct R2 as [R2 R3]. repeat split; auto.
    rewrite R1'. simpl. do 2 f_equal. apply R3. apply R2'.
  - exfalso. eapply R2'. apply R2.
  - exfalso. eapply R2. apply R2'.
  - right. split; auto. split; [exact R1|]. intros Ht. rewrite R1'. apply throw_exn; auto.
Qed.

(** the language is what one expects for unsigned types ... *)
Theorem C02_unsigned_language : forall hi s v,
  language 0 hi s v <-> s <> [] /\ Forall is_digit s /\ v = dec_value s /\ dec_value s <= hi.
Proof.
  intros. unfold language, unsigned_language, unsigned_text. cbn [Z.ltb Z.compare].
  split; [intros [(A & B & C) D]; subst|intros (A & B & C & D); subst]; tauto.
Qed.
(** ... and for the std::string form of atoi, without side conditions. *)
Theorem C02_atoi_string_exact : forall t lo hi s,
  In (t, (lo, hi)) type_ranges -> bytes s ->
  (exists v, language lo hi (visible s (zlen s)) v /\
     atoi_str t true s = Ok (true, v) /\ atoi_str t false s = Ok (true, v))
  \/ ((forall v, ~ language lo hi (visible s (zlen s)) v) /\
     atoi_str t true s = Ok (false, 0) /\ atoi_str t false s = Exn).
Proof.
  intros t lo hi s Hin Hb. unfold atoi_str.
  assert (V: visible (s ++ [0]) (zlen s) = visible s (zlen s)).
  { clear. induction s as [|c s IH]; [reflexivity|]. rewrite zlen_cons. cbn [visible app].
    replace (1 + zlen s - 1) with (zlen s) by lia. rewrite IH. reflexivity. }
  destruct (C02_atoi_exact t lo hi (s ++ [0]) (zlen s)) as [(v & A & B & C & D)|(A & B & C)]; auto.
  - apply bytes_app. split; auto. repeat constructor; lia.
  - apply zlen_nonneg.
  - right. apply in_or_app. simpl; auto.
  - intros _. right. left. rewrite zlen_app, zlen_cons, zlen_nil. lia.
  - left. exists v. rewrite V in A. auto.
  - right. rewrite V in A. repeat split; auto. apply C. unfold throw_slack.
    rewrite zlen_app, zlen_cons, zlen_nil. lia.
Qed.

Example C02_nonvacuous :
  atoi_str ty_i64 true [45;57;50;50;51;51;55;50;48;51;54;56;53;52;55;55;53;56;48;56] = Ok (true, - 2 ^ 63) /\
  atoi_str ty_u64 true [49;56;52;52;54;55;52;52;48;55;51;55;48;57;53;53;49;54;49;54] = Ok (false, 0) /\
  atoi_str ty_i8 false [49;50;56] = Exn /\
  readable [49;50;0] size_max /\ minus_slack [49;50;0] size_max /\
  atoi ty_u8 true [49;50;0] size_max = Ok (true, 12).
Proof. repeat split; try reflexivity. right. simpl; auto. left. discriminate. Qed.

(** C02 findings: the deviation is reachable ("-128xyz" is accepted as -128), and the side conditions
    on readable bytes cannot be dropped (NUL-terminated "-1" and "x"). *)
Theorem C02_minus_junk_finding :
  atoi_str ty_i8 true [45;49;50;56;120;121;122] = Ok (true, -128) /\
  ~ (exists v, signed_text [45;49;50;56;120;121;122] v).
Proof.
  split; [reflexivity|]. intros [v [H|(d & w & H & (_ & D & _) & _)]].
  - eapply unsigned_head; eauto.
  - injection H as <-. apply Forall_forall with (x := 120) in D; [unfold is_digit in D; lia|simpl; auto].
Qed.
Theorem C02_nul_overread_finding :
  atoi ty_i32 true [45;49;0] size_max = UB /\ atoi ty_u32 false [120;0] size_max = UB.
Proof. split; reflexivity. Qed.

(** C01: parsing the printed text gives the value back, for every type that can hold it. *)
Theorem C01_itoa_atoi : forall (signed : bool) garbage x,
  zlen garbage = 40 ->
  (if signed then - 2 ^ 63 <= x < 2 ^ 63 else 0 <= x < 2 ^ 64) ->
  exists s, itoa signed garbage x = Ok s /\ canonical_int s x /\
    forall t lo hi b, In (t, (lo, hi)) type_ranges -> lo <= x <= hi -> atoi_str t b s = Ok (true, x).
Proof.
  intros signed garbage x Hg Hx. destruct (itoa_spec signed garbage x Hg Hx) as (s & E & C).
  exists s. split; auto. split; auto. intros t lo hi b Hin Hr.
  assert (N: Forall (fun c => c <> 0 /\ is_byte c) s).
  { unfold is_byte. destruct C as [[_ (_ & D & _)]|(_ & d & -> & (_ & D & _))]; [|constructor; [lia|]];
    (eapply Forall_impl; [|exact D]); unfold is_digit; simpl; lia. }
  assert (Hb: bytes s) by (eapply Forall_impl; [|exact N]; simpl; tauto).
  assert (V: visible s (zlen s) = s).
  { rewrite <- (app_nil_r s) at 1. apply visible_all. eapply Forall_impl; [|exact N]; simpl; tauto. }
  assert (S: signed_text s x).
  { destruct C as [[Hp (A & D & F & _)]|(Hn & d & -> & (A & D & F & _))].
    - left. repeat split; auto.
    - right. exists d, (- x). repeat split; auto. lia. }
  assert (L: language lo hi s x).
  { unfold language. destruct (lo <? 0) eqn:El.
    - left. split; auto.
    - split; [|lia]. destruct S as [S|(d & w & Hd & (A & D & F) & G)]; auto.
      exfalso. pose proof (dec_value_nonneg d D). assert (x = 0) by lia. subst x.
      destruct C as [[_ C]|[C _]]; [|lia].
      subst s. destruct C as (_ & C & _). apply Forall_cons_iff in C as [C _]. unfold is_digit in C. lia. }
  destruct (C02_atoi_exact t lo hi (s ++ [0]) (zlen s)) as [(v & A & B & D & F)|(A & _)]; auto.
  - apply bytes_app. split; auto. repeat constructor; lia.
  - apply zlen_nonneg.
  - right. apply in_or_app. simpl; auto.
  - intros _. right. left. rewrite zlen_app, zlen_cons, zlen_nil. lia.
  - unfold atoi_str. rewrite visible_all in B by (eapply Forall_impl; [|exact N]; simpl; tauto).
    rewrite <- (B x) in D, F by auto. destruct b; auto.
  - exfalso. apply (A x). rewrite visible_all; auto. eapply Forall_impl; [|exact N]; simpl; tauto.
Qed.

Example C01_nonvacuous : itoa true (repeat 7 40) (- 2 ^ 63) = Ok minStr /\
  itoa false (repeat 7 40) (2 ^ 64 - 1) = Ok [49;56;52;52;54;55;52;52;48;55;51;55;48;57;53;53;49;54;49;53].
Proof. split; vm_compute; reflexivity. Qed.

(** the canonical text is unique, so printing is injective *)
Theorem C01_text_unique : forall s1 s2 x, canonical_int s1 x -> canonical_int s2 x -> s1 = s2.
Proof.
  assert (P: forall s1 s2 x, 0 <= x -> canonical_dec s1 x -> canonical_dec s2 x -> s1 = s2).
  { intros s1 s2 x Hx C1 C2. destruct (Z.eq_dec x 0) as [->|]; [|eapply (canonical_dec_unique _ _ x); eauto; lia].
    assert (Q: forall s, canonical_dec s 0 -> s = [48]).
    { intros s (N & F & V & C). destruct s as [|c s]; [congruence|]. apply Forall_cons_iff in F as [Fc F].
      simpl in V. rewrite value_cons in V. pose proof (dec_value_nonneg s F) as B. unfold dec_value in B.
      assert (0 < 10 ^ zlen (map dec_digit s)) by (apply Z.pow_pos_nonneg; unfold zlen; lia).
      unfold is_digit in Fc. assert (c = 48) by (unfold dec_digit in V at 1; nia). subst c.
      f_equal. apply C. reflexivity. }
    rewrite (Q s1), (Q s2); auto. }
  intros s1 s2 x [[H1 C1]|(H1 & d1 & -> & C1)] [[H2 C2]|(H2 & d2 & -> & C2)]; try lia.
  - eapply P; eauto.
  - f_equal. eapply (P _ _ (- x)); eauto. lia.
Qed.

(** finding: with a 4-byte long, itoa(unsigned long) prints the value as a signed int *)
Theorem C01_ulong4_finding :
  itoa_ulong false (repeat 0 40) (2 ^ 32 - 1) = Ok [45;49] /\
  itoa_ulong true (repeat 0 40) (2 ^ 32 - 1) = Ok [52;50;57;52;57;54;55;50;57;53].
Proof. split; vm_compute; reflexivity. Qed.

(** C03: hexadecimal parsing is exact ... *)
Theorem C03_hextoi_exact : forall t lo hi p size,
  In (t, (lo, hi)) type_ranges -> bytes p -> 0 <= size -> readable p size ->
  let s := visible p size in
  ((s <> [] /\ Forall is_xdigit s /\ hex_value s <= hi) ->
     hextoi t true p size = Ok (true, hex_value s) /\ hextoi t false p size = Ok (true, hex_value s)) /\
  (~ (s <> [] /\ Forall is_xdigit s /\ hex_value s <= hi) ->
     hextoi t true p size = Ok (false, 0) /\ (throw_slack p size -> hextoi t false p size = Exn)).
Proof.
  intros t lo hi p size Hin Hb Hs Hr s. destruct (types_facts _ _ _ Hin) as (_ & E2 & _ & _ & _ & M & P).
  unfold hextoi. rewrite !convertHexToInt_spec by auto. fold s.
  destruct (hex_result t s) as [v|] eqn:E.
  - apply hex_result_spec in E as [(A & B & C) D]. rewrite E2 in D. subst v. split; intros H.
    + split; reflexivity.
    + exfalso. apply H. auto.
  - split; intros H.
    + exfalso. destruct H as (A & B & C).
      assert (hex_result t s = Some (hex_value s)) by (apply hex_result_spec; repeat split; auto; lia). congruence.
    + split; [reflexivity|]. intros Ht. apply throw_exn; auto.
Qed.

Lemma hextoi_of_digits t lo hi b s x : In (t, (lo, hi)) type_ranges -> s <> [] -> Forall is_xdigit s ->
  hex_value s = x -> x <= hi -> hextoi_str t b s = Ok (true, x).
Proof.
  intros Hin N F V H.
  assert (Q: Forall (fun c => c <> 0 /\ is_byte c) s).
  { eapply Forall_impl; [|exact F]. unfold is_xdigit, is_byte. simpl. lia. }
  destruct (C03_hextoi_exact t lo hi (s ++ [0]) (zlen s)) as [A _]; auto.
  - apply bytes_app. split; [eapply Forall_impl; [|exact Q]; simpl; tauto|]. repeat constructor; lia.
  - apply zlen_nonneg.
  - right. apply in_or_app. simpl; auto.
  - rewrite visible_all in A by (eapply Forall_impl; [|exact Q]; simpl; tauto).
    rewrite V in A. unfold hextoi_str. destruct b; apply A; repeat split; auto.
Qed.

Lemma alphabet_xdigit u s : Forall (hex_alphabet u) s -> Forall is_xdigit s.
Proof.
  intros H. eapply Forall_impl; [|exact H]. intros c. destruct u; unfold hex_alphabet, upper_or_digit, lower_or_digit, is_xdigit; lia.
Qed.

(** ... itohex(x) with zero padding has exactly 2*sizeof(T) digits of the chosen case and x is read back;
    without padding it is the canonical (shortest) text, and x is read back ... *)
Theorem C03_itohex_hextoi : forall t hi u x,
  In (t, (0, hi)) type_ranges -> 0 <= x <= hi ->
  let nbytes := (Z.log2 (hi + 1)) / 8 in
  (exists s, itohexLocal nbytes x u true = Ok s /\ zlen s = nbytes * 2 /\ Forall (hex_alphabet u) s /\
     hex_value s = x /\ forall b, hextoi_str t b s = Ok (true, x)) /\
  (exists s, itohexLocal nbytes x u false = Ok s /\ canonical_hex (hex_alphabet u) s x /\
     forall b, hextoi_str t b s = Ok (true, x)).
Proof.
  intros t hi u x Hin Hx nbytes.
  assert (Hn: 1 <= nbytes /\ hi + 1 = 16 ^ (nbytes * 2)).
  { unfold nbytes. simpl in Hin. repeat (destruct Hin as [Hin|Hin]; [try discriminate Hin; injection Hin as <- <-; split; vm_compute; congruence|]). contradiction. }
  split.
  - rewrite itohexLocal_fixed by lia. set (k := Z.to_nat (nbytes * 2)).
    exists (low_digits 16 (hex_char u) k x).
    assert (L := low_digits_length 16 (hex_char u) k x).
    assert (O: Forall (hex_alphabet u) (low_digits 16 (hex_char u) k x)).
    { apply low_digits_ok; [lia|]. intros d Hd. apply hex_ch; auto. }
    assert (V: hex_value (low_digits 16 (hex_char u) k x) = x).
    { unfold hex_value. rewrite low_digits_value by (try lia; intros d Hd; apply hex_ch; auto).
      apply Z.mod_small. unfold k. rewrite Z2Nat.id by lia. lia. }
    repeat split; auto.
    + unfold zlen. rewrite L. unfold k. lia.
    + intros b. eapply hextoi_of_digits; eauto; [|eapply alphabet_xdigit; eauto|lia].
      intros E. rewrite E in L. simpl in L. unfold k in L. lia.
  - destruct (itohexLocal_min nbytes x u ltac:(lia)) as (s & E & C). exists s. repeat split; auto; try apply C.
    intros b. destruct C as (N & F & V & _). eapply hextoi_of_digits; eauto; [|lia]. eapply alphabet_xdigit; eauto.
Qed.

(** ... and itobin gives the 8*sizeof(T) binary digits, or the canonical text without padding. *)
Theorem C03_itobin : forall nbytes x, 0 <= nbytes -> 0 <= x < 2 ^ (8 * nbytes) ->
  (exists s, itobinLocal nbytes x true = Ok s /\ zlen s = nbytes * 8 /\ Forall is_bit_char s /\
     value 2 (map dec_digit s) = x) /\
  (exists s, itobinLocal nbytes x false = Ok s /\ canonical_bin s x).
Proof.
  intros nbytes x Hn Hx. split.
  - rewrite itobinLocal_fixed by lia. set (k := Z.to_nat (nbytes * 8)).
    exists (low_digits 2 (fun d => 48 + d) k x). repeat split; auto.
    + unfold zlen. rewrite low_digits_length. unfold k. lia.
    + apply low_digits_ok; [lia|]. intros d Hd. apply bin_ch; auto.
    + rewrite low_digits_value by (try lia; intros d Hd; apply bin_ch; auto).
      apply Z.mod_small. unfold k. rewrite Z2Nat.id by lia. rewrite (Z.mul_comm nbytes). lia.
  - apply itobinLocal_min. lia.
Qed.

Example C03_nonvacuous : itohexLocal 4 48879 true true = Ok [48;48;48;48;66;69;69;70] /\
  itohexLocal 4 48879 false false = Ok [98;101;101;102] /\ itobinLocal 1 5 true = Ok [48;48;48;48;48;49;48;49] /\
  hextoi_str ty_u16 true [66;69;101;102] = Ok (true, 48879) /\ hextoi_str ty_u8 true [49;48;48] = Ok (false, 0).
Proof. repeat split; reflexivity. Qed.

(** C04: conversion into a caller buffer [buf] of any size. *)
Definition fills (canon : list Z -> Prop) (buf : list Z) (r : res (list Z * Z)) : Prop :=
  exists s, canon s /\
  ((zlen s <= zlen buf /\ exists pre rest, buf = pre ++ rest /\ zlen rest = zlen s /\ r = Ok (pre ++ s, zlen s))
   \/ (zlen buf < zlen s /\ exists buf', r = Ok (buf', 0) /\ zlen buf' = zlen buf)).

Lemma fills_of (canon : list Z -> Prop) buf r s : canon s -> put_result buf s r -> fills canon buf r.
Proof.
  intros C P. exists s. split; auto. unfold put_result in P. destruct (zlen s <=? zlen buf) eqn:E.
  - left. split; [lia|]. exists (firstn (length buf - length s) buf), (skipn (length buf - length s) buf).
    rewrite firstn_skipn. repeat split; auto. unfold zlen in *. rewrite skipn_length. lia.
  - right. split; [lia|]. destruct P as (buf' & P & L). exists buf'. split; auto. unfold zlen. lia.
Qed.

Theorem C04_uintToDec : forall buf x, 0 <= x -> fills (fun s => canonical_dec s x) buf (uintToDec buf (zlen buf) x).
Proof. intros buf x Hx. destruct (uintToDec_spec buf x Hx) as (s & _ & C & P). eapply fills_of; eauto. Qed.
Theorem C04_intToDec : forall buf x, - 2 ^ 63 <= x < 2 ^ 63 ->
  fills (fun s => canonical_int s x) buf (intToDec buf (zlen buf) x).
Proof. intros buf x Hx. destruct (intToDec_spec buf x Hx) as (s & C & P). eapply fills_of; eauto. Qed.
Theorem C04_uintToHex : forall buf x u, 0 <= x ->
  fills (fun s => canonical_hex (hex_alphabet u) s x) buf (uintToHex buf (zlen buf) x u).
Proof. intros buf x u Hx. destruct (uintToHex_spec buf x u Hx) as (s & C & P). eapply fills_of; eauto. Qed.
Theorem C04_uintToBin : forall buf x, 0 <= x -> fills (fun s => canonical_bin s x) buf (uintToBin buf (zlen buf) x).
Proof. intros buf x Hx. destruct (uintToBin_spec buf x Hx) as (s & C & P). eapply fills_of; eauto. Qed.

(** zero padding: sign first, then padding, then the digits; never shortens *)
Theorem C04_itoaWithZero : forall (signed : bool) garbage x len c,
  zlen garbage = 40 -> (if signed then - 2 ^ 63 <= x < 2 ^ 63 else 0 <= x < 2 ^ 64) -> 0 <= len ->
  exists sign d pad, (sign = [] \/ sign = [45]) /\ (sign = [45] <-> x < 0) /\
    canonical_dec d (Z.abs x) /\ pad = repeat c (Z.to_nat (len - zlen (sign ++ d))) /\
    itoaWithZero signed garbage x len c = Ok (sign ++ pad ++ d).
Proof.
  intros signed garbage x len c Hg Hx Hl. destruct (itoa_spec signed garbage x Hg Hx) as (s & E & C).
  unfold itoaWithZero. rewrite E. cbn [bind].
  destruct C as [[Hp C]|(Hn & d & -> & C)].
  - exists [], s. eexists. split; [auto|]. split; [split; [discriminate|lia]|].
    split; [rewrite Z.abs_eq by lia; auto|]. split; [reflexivity|]. cbn [app].
    destruct (zlen s <? len) eqn:El.
    + destruct (0 <=? x) eqn:E0; [reflexivity|lia].
    + replace (Z.to_nat (len - zlen s)) with O by lia. reflexivity.
  - exists [45], d. eexists. split; [auto|]. split; [split; [lia|auto]|].
    split; [rewrite Z.abs_neq by lia; auto|]. split; [reflexivity|]. cbn [app].
    destruct (zlen (45 :: d) <? len) eqn:El.
    + destruct (0 <=? x) eqn:E0; [lia|reflexivity].
    + replace (Z.to_nat (len - zlen (45 :: d))) with O by lia. reflexivity.
Qed.

Example C04_nonvacuous : intToDec [1;2;3;4;5] 5 (-123) = Ok ([1;45;49;50;51], 4) /\
  intToDec [1;2;3] 3 (-123) = Ok ([49;50;51], 0) /\ uintToHex [9;9] 2 255 false = Ok ([102;102], 2) /\
  itoaWithZero true (repeat 0 40) (-12) 4 48 = Ok [45;48;49;50].
Proof. repeat split; reflexivity. Qed.

Print Assumptions C01_itoa_atoi.
Print Assumptions C02_atoi_exact.
Print Assumptions C02_atoi_string_exact.
Print Assumptions C03_hextoi_exact.
Print Assumptions C03_itohex_hextoi.
Print Assumptions C03_itobin.
Print Assumptions C04_intToDec.
Print Assumptions C04_itoaWithZero.
