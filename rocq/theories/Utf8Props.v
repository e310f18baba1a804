(** Properties C17, C18, C19 (string.hpp, Unicode conversions). *)
Require Import Verif.Common Verif.EndianProps Verif.Base64Proof Verif.Utf8Model Verif.Utf8Spec.

Lemma in_rng_byte c a b : is_byte c -> 0 <= a -> a <= b -> b < 256 -> in_rng c a b = (a <=? c) && (c <=? b).
Proof.
  unfold is_byte, in_rng. intros. rewrite (Z.mod_small (b - a)) by lia.
  destruct (Z_lt_le_dec c a).
  - replace ((c - a) mod 2 ^ 32) with (c - a + 2 ^ 32); [lia|]. symmetry. rewrite <- (Z_mod_plus_full _ 1). apply Z.mod_small. lia.
  - rewrite Z.mod_small by lia. lia.
Qed.

Lemma low6 c : Z.land c 63 = c mod 64.
Proof. change 63 with (Z.ones 6). rewrite Z.land_ones by lia. reflexivity. Qed.
Lemma lor_hi a n b : 0 <= n -> 0 <= a -> 0 <= b < 2 ^ n -> Z.lor (Z.shiftl a n) b = a * 2 ^ n + b.
Proof. intros. rewrite Z.shiftl_mul_pow2 by lia. rewrite (Z.mul_comm a). rewrite lor_low by lia. lia. Qed.
Lemma dec2 c0 c1 : 0 <= c0 -> Z.lor (Z.shiftl c0 6) (Z.land c1 63) = c0 * 64 + c1 mod 64.
Proof. intros. rewrite low6, lor_hi by (simpl; lia). reflexivity. Qed.
Lemma dec3 c0 c1 c2 : 0 <= c0 ->
  Z.lor (Z.lor (Z.shiftl c0 12) (Z.shiftl (Z.land c1 63) 6)) (Z.land c2 63) = c0 * 4096 + c1 mod 64 * 64 + c2 mod 64.
Proof.
  intros. rewrite !low6. rewrite (Z.shiftl_mul_pow2 (c1 mod 64)) by lia. rewrite lor_hi by (simpl; lia).
  replace (c0 * 2 ^ 12 + c1 mod 64 * 2 ^ 6) with (2 ^ 6 * (c0 * 64 + c1 mod 64)) by lia. rewrite lor_low by (simpl; lia). lia.
Qed.
Lemma dec4 c0 c1 c2 c3 : 0 <= c0 ->
  Z.lor (Z.lor (Z.lor (Z.shiftl c0 18) (Z.shiftl (Z.land c1 63) 12)) (Z.shiftl (Z.land c2 63) 6)) (Z.land c3 63)
  = c0 * 262144 + c1 mod 64 * 4096 + c2 mod 64 * 64 + c3 mod 64.
Proof.
  intros. rewrite !low6. rewrite (Z.shiftl_mul_pow2 (c1 mod 64)), (Z.shiftl_mul_pow2 (c2 mod 64)) by lia. rewrite lor_hi by (simpl; lia).
  replace (c0 * 2 ^ 18 + c1 mod 64 * 2 ^ 12) with (2 ^ 12 * (c0 * 64 + c1 mod 64)) by lia. rewrite lor_low by (simpl; lia).
  replace (2 ^ 12 * (c0 * 64 + c1 mod 64) + c2 mod 64 * 2 ^ 6) with (2 ^ 6 * (c0 * 4096 + c1 mod 64 * 64 + c2 mod 64)) by lia.
  rewrite lor_low by (simpl; lia). lia.
Qed.

Ltac utf8_cases v := unfold utf8; destruct (v <? 128) eqn:?; [|destruct (v <? 2048) eqn:?; [|destruct (v <? 65536) eqn:?]].

Lemma utf8_len v : (1 <= length (utf8 v) <= 4)%nat.
Proof. utf8_cases v; simpl; lia. Qed.

(** the two possible outcomes *)
Inductive get_spec (s : list Z) : res (option Z * list Z) -> Prop :=
| get_good v rest : scalar v -> s = utf8 v ++ rest -> get_spec s (Ok (Some v, rest))
| get_bad skipped rest : (1 <= length skipped <= 4)%nat -> s = skipped ++ rest -> (forall v r, scalar v -> s <> utf8 v ++ r) ->
    get_spec s (Ok (None, rest)).

Lemma cons_inj {A} (a b : A) l m : a :: l = b :: m -> a = b /\ l = m.
Proof. intros E. injection E. auto. Qed.
Ltac conses := repeat match goal with
  | E : _ :: _ = _ :: _ |- _ => apply cons_inj in E as [? E]
  | E : _ :: _ = [] |- _ => discriminate
  | E : [] = _ :: _ |- _ => discriminate
  end.
Ltac no_utf8 := intros v r Hs E; revert E; unfold scalar in Hs; utf8_cases v; cbn [app]; intros E; conses; lia.

Lemma get8_spec s : bytes s -> s <> [] -> get_spec s (GetCharFromUtf8 s).
Proof.
  intros B N. destruct s as [|c0 s]; [congruence|]. inversion B as [|? ? B0 B']; subst. clear B N. pose proof B0 as B0'. unfold is_byte in B0'.
  unfold GetCharFromUtf8. destruct (c0 <=? 127) eqn:E0.
  { apply get_good; [left; lia|]. utf8_cases c0; try lia; reflexivity. }
  rewrite in_rng_byte by (auto; lia). destruct ((194 <=? c0) && (c0 <=? 223)) eqn:E1.
  { destruct s as [|c1 s].
    { apply get_bad with [c0]; [simpl; lia|auto|]. no_utf8. }
    inversion B' as [|? ? B1 B'']; subst. pose proof B1 as B1'. unfold is_byte in B1'.
    rewrite in_rng_byte by (auto; lia). destruct ((128 <=? c1) && (c1 <=? 191)) eqn:E2.
    - rewrite dec2 by lia. set (v := c0 * 64 + c1 mod 64 - 12288).
      assert (V: 128 <= v < 2048) by (unfold v; lia). apply get_good; [left; lia|].
      utf8_cases v; try lia. cbn [app]. unfold v. f_equal; [lia|]. f_equal. lia.
    - apply get_bad with [c0; c1]; [simpl; lia|auto|]. no_utf8. }
  destruct (c0 <=? 239) eqn:E2.
  { destruct s as [|c1 s].
    { apply get_bad with [c0]; [simpl; lia|auto|]. no_utf8. }
    inversion B' as [|? ? B1 B'']; subst. pose proof B1 as B1'. unfold is_byte in B1'.
    destruct s as [|c2 s].
    { apply get_bad with [c0; c1]; [simpl; lia|auto|]. no_utf8. }
    inversion B'' as [|? ? B2 B3]; subst. pose proof B2 as B2'. unfold is_byte in B2'.
    rewrite !in_rng_byte by (auto; lia). destruct ((128 <=? c2) && (c2 <=? 191)) eqn:E3.
    2: { apply get_bad with [c0; c1; c2]; [simpl; lia|auto|]. no_utf8. }
    match goal with |- context [if ?b then _ else _] => destruct b eqn:E4 end.
    - rewrite dec3 by lia. set (v := c0 * 4096 + c1 mod 64 * 64 + c2 mod 64 - 917504).
      assert (V: 2048 <= v < 65536 /\ scalar v) by (unfold v, scalar; lia). apply get_good; [tauto|].
      utf8_cases v; try lia. cbn [app]. unfold v. f_equal; [lia|]. f_equal; [lia|]. f_equal. lia.
    - apply get_bad with [c0; c1; c2]; [simpl; lia|auto|]. no_utf8. }
  rewrite in_rng_byte by (auto; lia). destruct ((240 <=? c0) && (c0 <=? 244)) eqn:E3.
  { destruct s as [|c1 s].
    { apply get_bad with [c0]; [simpl; lia|auto|]. no_utf8. }
    inversion B' as [|? ? B1 B'']; subst. pose proof B1 as B1'. unfold is_byte in B1'.
    destruct s as [|c2 s].
    { apply get_bad with [c0; c1]; [simpl; lia|auto|]. no_utf8. }
    inversion B'' as [|? ? B2 B3]; subst. pose proof B2 as B2'. unfold is_byte in B2'.
    destruct s as [|c3 s].
    { apply get_bad with [c0; c1; c2]; [simpl; lia|auto|]. no_utf8. }
    inversion B3 as [|? ? B3' B4]; subst. pose proof B3' as B3''. unfold is_byte in B3''.
    rewrite !in_rng_byte by (auto; lia). destruct ((128 <=? c2) && (c2 <=? 191) && ((128 <=? c3) && (c3 <=? 191))) eqn:E4.
    2: { apply get_bad with [c0; c1; c2; c3]; [simpl; lia|auto|]. no_utf8. }
    match goal with |- context [if ?b then _ else _] => destruct b eqn:E5 end.
    - rewrite dec4 by lia. set (v := c0 * 262144 + c1 mod 64 * 4096 + c2 mod 64 * 64 + c3 mod 64 - 62914560).
      assert (V: 65536 <= v <= 1114111) by (unfold v; lia). apply get_good; [right; lia|].
      utf8_cases v; try lia. cbn [app]. unfold v. f_equal; [lia|]. f_equal; [lia|]. f_equal; [lia|]. f_equal. lia.
    - apply get_bad with [c0; c1; c2; c3]; [simpl; lia|auto|]. no_utf8. }
  apply get_bad with [c0]; [simpl; lia|auto|]. no_utf8.
Qed.

Lemma utf8_prefix_free v v' r r' : scalar v -> scalar v' -> utf8 v ++ r = utf8 v' ++ r' -> v = v' /\ r = r'.
Proof.
  unfold scalar. intros Hv Hv'. utf8_cases v; utf8_cases v'; cbn [app]; intros E; conses; try (exfalso; lia); (split; [lia|auto]).
Qed.
Lemma utf8_bytes v : scalar v -> bytes (utf8 v).
Proof. unfold scalar. intros H. utf8_cases v; repeat constructor; unfold is_byte; lia. Qed.

(** C17 *)
(** a well-formed sequence at the front is decoded, and exactly it is consumed *)
Theorem C17_accepts : forall v rest, scalar v -> bytes rest -> GetCharFromUtf8 (utf8 v ++ rest) = Ok (Some v, rest).
Proof.
  intros v rest Hv Hr. assert (B: bytes (utf8 v ++ rest)) by (apply bytes_app; auto using utf8_bytes).
  assert (N: utf8 v ++ rest <> []) by (pose proof (utf8_len v); destruct (utf8 v); [simpl in *; lia|discriminate]).
  destruct (get8_spec _ B N) as [v' rest' Hv' E|sk rest' _ _ H].
  - destruct (utf8_prefix_free v v' rest rest' Hv Hv' E) as [-> ->]. reflexivity.
  - exfalso. eapply H; eauto.
Qed.
(** nothing else is: success means the consumed bytes were the encoding of the returned scalar value *)
Theorem C17_sound : forall s v rest, bytes s -> GetCharFromUtf8 s = Ok (Some v, rest) -> scalar v /\ s = utf8 v ++ rest.
Proof.
  intros s v rest B E. destruct s as [|c s]; [discriminate|].
  destruct (get8_spec (c :: s) B ltac:(congruence)) as [v' rest' Hv' H|]; [|discriminate]. injection E as <- <-. auto.
Qed.
(** no input is undefined behaviour, and a failed decode consumes one to four of the bytes *)
Theorem C17_total : forall s, bytes s -> s <> [] ->
  (exists v rest, GetCharFromUtf8 s = Ok (Some v, rest)) \/
  (exists skipped rest, GetCharFromUtf8 s = Ok (None, rest) /\ s = skipped ++ rest /\ (1 <= length skipped <= 4)%nat /\
     ~ exists v r, scalar v /\ s = utf8 v ++ r).
Proof.
  intros s B N. destruct (get8_spec s B N) as [v rest Hv H|sk rest L E H]; [left; eauto|right].
  exists sk, rest. repeat split; auto; try lia. intros (v & r & Hv & Hs). eapply H; eauto.
Qed.
Example C17_nonvacuous : GetCharFromUtf8 [0xe3; 0x81; 0x82; 65] = Ok (Some 0x3042, [65]) /\ utf8 0x3042 = [0xe3; 0x81; 0x82] /\ scalar 0x3042
  /\ GetCharFromUtf8 [0xed; 0xa0; 0x80] = Ok (None, []) /\ GetCharFromUtf8 [0xc0; 0x80] = Ok (None, [])
  /\ GetCharFromUtf8 [0xf4; 0x90; 0x80; 0x80] = Ok (None, []).
Proof. repeat split; try reflexivity. unfold scalar. lia. Qed.
(** finding: a byte that cannot start a character swallows the next two bytes even if they are valid
    characters, so Utf8ref with ignoreBadChar loses them *)
Theorem C17_bad_lead_finding :
  GetCharFromUtf8 [0x80; 65; 66; 67] = Ok (None, [67]) /\ Utf8ref_next true [0x80; 65; 66; 67] = Ok (Some 67, []).
Proof. split; reflexivity. Qed.

(** Utf8ref *)
Lemma append8_step f acc v rest : scalar v -> bytes rest -> append8 (S f) acc (utf8 v ++ rest) = append8 f (acc ++ [v]) rest.
Proof.
  intros Hv Hr. assert (N: utf8 v ++ rest <> []) by (pose proof (utf8_len v); destruct (utf8 v); [simpl in *; lia|discriminate]).
  cbn [append8]. destruct (utf8 v ++ rest) eqn:E; [congruence|]. rewrite <- E, C17_accepts by auto. reflexivity.
Qed.
Theorem C17_ref_next : forall ign s, bytes s ->
  (s = [] -> Utf8ref_next ign s = Ok (None, [])) /\
  (forall v rest, scalar v -> s = utf8 v ++ rest -> Utf8ref_next ign s = Ok (Some v, rest)) /\
  (s <> [] -> (forall v rest, scalar v -> s <> utf8 v ++ rest) -> ign = false -> Utf8ref_next ign s = Exn) /\
  (exists r, Utf8ref_next ign s = Ok r \/ Utf8ref_next ign s = Exn).
Proof.
  intros ign s B. split; [intros ->; reflexivity|]. split; [|split].
  - intros v rest Hv ->. apply bytes_app in B as [_ Br]. unfold Utf8ref_next. pose proof (utf8_len v).
    destruct (utf8 v ++ rest) eqn:E; [destruct (utf8 v); simpl in *; [lia|discriminate]|]. rewrite <- E.
    rewrite E. cbn [ref_next length]. rewrite <- E. rewrite C17_accepts by auto. reflexivity.
  - intros N H ->. destruct s as [|c s]; [congruence|]. unfold Utf8ref_next. cbn [ref_next length].
    destruct (get8_spec (c :: s) B N) as [v' rest' Hv' E|sk rest' _ _ _]; [exfalso; eapply H; eauto|]. reflexivity.
  - unfold Utf8ref_next. enough (G: forall f s, (length s <= f)%nat -> bytes s -> exists r, ref_next f ign s = Ok r \/ ref_next f ign s = Exn).
    { apply G; auto. }
    clear. induction f; intros s L B.
    + destruct s; [|simpl in L; lia]. exists (None, []). auto.
    + destruct s as [|c s]; [exists (None, []); auto|]. cbn [ref_next].
      destruct (get8_spec (c :: s) B ltac:(congruence)) as [v' rest' Hv' E|sk rest' Hl E _]; cbn [bind].
      * eauto.
      * destruct ign; [|exists (None, []); auto]. apply IHf.
        -- assert (length (c :: s) = length sk + length rest')%nat by (rewrite E, app_length; auto). simpl in *. lia.
        -- rewrite E in B. apply bytes_app in B. tauto.
Qed.

(** with ignoreBadChar the result is that of the first position, reached by failed decodes only, where
    a character can be decoded; the end is reported only if there is none *)
Inductive skipped_to : list Z -> list Z -> Prop :=
| sk_here s : skipped_to s s
| sk_bad s rest t : s <> [] -> GetCharFromUtf8 s = Ok (None, rest) -> skipped_to rest t -> skipped_to s t.
Theorem C17_ref_skip : forall s, bytes s ->
  (exists t v rest, skipped_to s t /\ scalar v /\ t = utf8 v ++ rest /\ Utf8ref_next true s = Ok (Some v, rest)) \/
  (skipped_to s [] /\ Utf8ref_next true s = Ok (None, [])).
Proof.
  unfold Utf8ref_next. enough (G: forall f s, (length s <= f)%nat -> bytes s ->
    (exists t v rest, skipped_to s t /\ scalar v /\ t = utf8 v ++ rest /\ ref_next f true s = Ok (Some v, rest)) \/
    (skipped_to s [] /\ ref_next f true s = Ok (None, []))) by (intros; apply G; auto).
  induction f; intros s L B.
  - destruct s; [|simpl in L; lia]. right. split; [constructor|auto].
  - destruct s as [|c s]; [right; split; [constructor|auto]|]. cbn [ref_next].
    destruct (C17_total (c :: s) B ltac:(congruence)) as [(v & r & G)|(sk & r & G & E & Hl & X)]; rewrite G; cbn [bind].
    + destruct (C17_sound _ _ _ B G). left. exists (c :: s), v, r. repeat split; auto. constructor.
    + assert (Hs: (length (c :: s) = length sk + length r)%nat) by (rewrite E, app_length; auto). cbn [length] in Hs, L.
      destruct (IHf r) as [(t & v & rest & P1 & P2 & P3 & P4)|(P1 & P2)]; [lia|rewrite E in B; apply bytes_app in B; tauto| |].
      * left. exists t, v, rest. repeat split; auto. eapply sk_bad; eauto. congruence.
      * right. split; auto. eapply sk_bad; eauto. congruence.
Qed.

(** ** C18 *)
Lemma mod256 x : 0 <= x < 256 -> to_c8 x = x.
Proof. apply Z.mod_small. Qed.
Lemma or80 x : 0 <= x < 64 -> Z.lor x 128 = 128 + x.
Proof. intros. rewrite Z.lor_comm. apply (lor_low 1 7); simpl; lia. Qed.
Lemma toUtf8_utf8 v : scalar v -> toUtf8 v = utf8 v.
Proof.
  unfold scalar. intros H. unfold toUtf8. utf8_cases v; rewrite ?Z.shiftr_div_pow2 by lia; rewrite ?low6.
  - destruct (v <=? 127) eqn:E; [|lia]. rewrite mod256 by lia. auto.
  - destruct (v <=? 127) eqn:E; [lia|]. destruct (v <=? 2047) eqn:E2; [|lia]. rewrite or80 by lia.
    rewrite Z.lor_comm. change 192 with (2 ^ 6 * 3). rewrite lor_low by (simpl; lia). change (2 ^ 6) with 64. rewrite !mod256 by lia. auto.
  - destruct (v <=? 127) eqn:E; [lia|]. destruct (v <=? 2047) eqn:E2; [lia|]. destruct (v <=? 65535) eqn:E3; [|lia].
    destruct ((55295 <? v) && (v <=? 57343)) eqn:E4; [lia|]. rewrite !or80 by lia.
    rewrite Z.lor_comm. change 224 with (2 ^ 4 * 14). change (2 ^ 12) with 4096. rewrite lor_low by (simpl; lia). change (2 ^ 4) with 16. change (2 ^ 6) with 64.
    rewrite !mod256 by lia. auto.
  - destruct (v <=? 127) eqn:E; [lia|]. destruct (v <=? 2047) eqn:E2; [lia|]. destruct (v <=? 65535) eqn:E3; [lia|].
    destruct (v <=? 1114111) eqn:E4; [|lia]. rewrite !or80 by lia.
    rewrite Z.lor_comm. change 240 with (2 ^ 3 * 30). change (2 ^ 18) with 262144. rewrite lor_low by (simpl; lia).
    change (2 ^ 3) with 8. change (2 ^ 6) with 64. change (2 ^ 12) with 4096.
    rewrite !mod256 by lia. auto.
Qed.
Lemma toUtf8_bad v : 0 <= v -> ~ scalar v -> toUtf8 v = [].
Proof.
  unfold scalar. intros H0 H. unfold toUtf8.
  repeat match goal with |- context [if ?b then _ else _] => destruct b eqn:? end; auto; lia.
Qed.
Lemma append8_utf8 out v : scalar v -> AppendUtf8 out v = (true, out ++ utf8 v).
Proof.
  intros H. unfold AppendUtf8. rewrite toUtf8_utf8 by auto. pose proof (utf8_len v). unfold zlen.
  destruct (0 <? _) eqn:E; [auto|lia].
Qed.

(** appending one character: the exact bytes, the announced size, and decoding gives it back *)
Theorem C18_append : forall out v rest, scalar v -> bytes rest ->
  AppendUtf8 out v = (true, out ++ utf8 v) /\ GetCharSize v = zlen (utf8 v) /\ GetCharFromUtf8 (utf8 v ++ rest) = Ok (Some v, rest).
Proof.
  intros out v rest Hv Hr. split; [apply append8_utf8; auto|]. split; [|apply C17_accepts; auto].
  unfold GetCharSize. unfold scalar in Hv. utf8_cases v; unfold zlen; cbn [length];
  repeat match goal with |- context [if ?b then _ else _] => destruct b eqn:? end; lia.
Qed.
Theorem C18_refuses : forall out v, 0 <= v -> ~ scalar v -> AppendUtf8 out v = (false, out) /\ IsValidChar v = false /\ GetCharSize v = 0.
Proof.
  intros out v H0 H. unfold AppendUtf8. rewrite toUtf8_bad by auto. split; [auto|].
  assert (GetCharSize v = 0). { unfold GetCharSize, scalar in *. repeat match goal with |- context [if ?b then _ else _] => destruct b eqn:? end; lia. }
  unfold IsValidChar. rewrite H1. auto.
Qed.
(** finding: Char is signed on x86-64 Linux, and negative values count as valid one-byte characters *)
Theorem C18_negative_finding : IsValidChar (-1) = true /\ AppendUtf8 [] (-191) = (true, [65]).
Proof. split; reflexivity. Qed.

(** whole strings *)
Theorem C18_string : forall l out, scalars l ->
  String_toUtf8 l out = Ok (out ++ utf8_text l) /\ (forall str, String_append8 str (utf8_text l) = Ok (str ++ l)) /\ String_isValid l = true.
Proof.
  intros l out Hl. repeat split.
  - revert out. induction Hl as [|v l Hv Hl IH]; intros out.
    + cbn. rewrite app_nil_r. auto.
    + cbn [String_toUtf8]. rewrite append8_utf8 by auto. rewrite IH. unfold utf8_text. cbn [map concat]. rewrite app_assoc. auto.
  - intros str. unfold String_append8.
    assert (B: bytes (utf8_text l)). { induction Hl; [constructor|]. apply bytes_app; split; auto. apply utf8_bytes; auto. }
    enough (G: forall f str, (length (utf8_text l) <= f)%nat -> append8 f str (utf8_text l) = Ok (str ++ l)) by (apply G; auto).
    induction Hl as [|v l Hv Hl IH]; intros f acc Hf.
    + destruct f; cbn; rewrite app_nil_r; auto.
    + change (utf8_text (v :: l)) with (utf8 v ++ utf8_text l) in *. apply bytes_app in B as [_ B]. rewrite app_length in Hf. pose proof (utf8_len v).
      destruct f; [lia|]. rewrite append8_step by auto. rewrite IH by (auto; lia). rewrite <- app_assoc. auto.
  - unfold String_isValid. apply forallb_forall. intros v Hv. unfold scalars in Hl. rewrite Forall_forall in Hl. specialize (Hl v Hv).
    unfold IsValidChar. destruct (C18_append [] v [] Hl ltac:(constructor)) as (_ & -> & _). pose proof (utf8_len v). unfold zlen. destruct (_ =? 0) eqn:E; auto; lia.
Qed.
(** decoding a byte string succeeds only on encodings, and then re-encoding gives the same bytes *)
Theorem C18_string_decode : forall s l, bytes s -> String_append8 [] s = Ok l -> scalars l /\ s = utf8_text l /\ String_toUtf8 l [] = Ok s.
Proof.
  intros s l B E. assert (G: scalars l /\ s = utf8_text l).
  { unfold String_append8 in E.
    enough (G: forall f acc s, bytes s -> append8 f acc s = Ok l -> exists l', l = acc ++ l' /\ scalars l' /\ s = utf8_text l').
    { destruct (G _ _ _ B E) as (l' & -> & H). auto. }
    clear. induction f; intros acc s B E.
    - destruct s; [|discriminate]. injection E as <-. exists []. rewrite app_nil_r. repeat constructor.
    - destruct s as [|c s]; [injection E as <-; exists []; rewrite app_nil_r; repeat constructor|].
      cbn [append8] in E. destruct (get8_spec (c :: s) B ltac:(congruence)) as [v rest Hv Hs|]; cbn [bind] in E; [|discriminate].
      assert (Br: bytes rest) by (rewrite Hs in B; apply bytes_app in B; tauto).
      destruct (IHf _ _ Br E) as (l' & -> & Hl' & ->). exists (v :: l'). rewrite <- app_assoc. repeat split; auto. constructor; auto. }
  destruct G as [G1 G2]. repeat split; auto. destruct (C18_string l [] G1) as [-> _]. rewrite G2. auto.
Qed.
Example C18_nonvacuous : scalars [0x3042; 65; 0x1f600] /\ utf8_text [0x3042; 65; 0x1f600] = [0xe3;0x81;0x82; 65; 0xf0;0x9f;0x98;0x80]
  /\ String_append8 [] [0xe3;0x81;0x82; 65; 0xf0;0x9f;0x98;0x80] = Ok [0x3042; 65; 0x1f600].
Proof. repeat split; try reflexivity. repeat constructor; unfold scalar; lia. Qed.

(** ** C19 *)
Lemma land_hi c : 0 <= c < 65536 -> Z.land c 0xfffffc00 = c / 1024 * 1024.
Proof.
  intros H. change 0xfffffc00 with (Z.land (Z.ones 32) (Z.lnot (Z.ones 10))). rewrite Z.land_assoc, Z.land_ones by lia.
  rewrite Z.mod_small by lia. rewrite <- Z.ldiff_land. rewrite Z.ldiff_ones_r by lia. rewrite Z.shiftl_mul_pow2, Z.shiftr_div_pow2 by lia. reflexivity.
Qed.
Lemma isLead_iff c : 0 <= c < 65536 -> isLead c = (0xd800 <=? c) && (c <? 0xdc00).
Proof. intros H. unfold isLead. rewrite land_hi by auto. lia. Qed.
Lemma isTrail_iff c : 0 <= c < 65536 -> isTrail c = (0xdc00 <=? c) && (c <? 0xe000).
Proof. intros H. unfold isTrail. rewrite land_hi by auto. lia. Qed.
Lemma utf16_len v : (1 <= length (utf16 v) <= 2)%nat.
Proof. unfold utf16. destruct (v <? 65536); simpl; lia. Qed.
Lemma utf16_units v : scalar v -> code_units16 (utf16 v).
Proof. unfold scalar, utf16. intros H. destruct (v <? 65536) eqn:E; repeat constructor; lia. Qed.

(** success: a scalar and its encoding, or a lone trail surrogate *)
Inductive get16_spec (s : list Z) : res (option Z * list Z) -> Prop :=
| g16_good v rest : scalar v -> s = utf16 v ++ rest -> get16_spec s (Ok (Some v, rest))
| g16_trail v rest : 0xdc00 <= v < 0xe000 -> s = v :: rest -> get16_spec s (Ok (Some v, rest))
| g16_bad rest : (forall v r, scalar v -> s <> utf16 v ++ r) -> get16_spec s (Ok (None, rest)).

Lemma get16_ok s : code_units16 s -> s <> [] -> get16_spec s (GetCharFromUtf16 s).
Proof.
  intros B N. destruct s as [|c0 s]; [congruence|]. inversion B as [|? ? B0 B']; subst. unfold GetCharFromUtf16.
  rewrite isLead_iff by auto. destruct ((55296 <=? c0) && (c0 <? 56320)) eqn:E; cbn [negb].
  - destruct s as [|c1 s].
    { apply g16_bad. intros v r Hv. unfold utf16, scalar in *. destruct (v <? 65536) eqn:?; cbn [app]; intros Ev; conses; lia. }
    inversion B' as [|? ? B1 B'']; subst. rewrite isTrail_iff by auto. destruct ((56320 <=? c1) && (c1 <? 57344)) eqn:E1.
    + rewrite !Z.shiftl_mul_pow2 by lia. apply g16_good.
      * right. lia.
      * unfold utf16. match goal with |- context [if ?b then _ else _] => destruct b eqn:Eb end; [lia|]. cbn [app]. f_equal; [lia|]. f_equal; lia.
    + apply g16_bad. intros v r Hv. unfold utf16, scalar in *. destruct (v <? 65536) eqn:?; cbn [app]; intros Ev; conses; lia.
  - destruct (Z_lt_le_dec c0 0xd800); [|destruct (Z_lt_le_dec c0 0xe000)].
    + apply g16_good; [left; lia|]. unfold utf16. destruct (c0 <? 65536) eqn:?; [reflexivity|lia].
    + apply g16_trail; auto; lia.
    + apply g16_good; [right; lia|]. unfold utf16. destruct (c0 <? 65536) eqn:?; [reflexivity|lia].
Qed.
Lemma utf16_prefix_free v v' r r' : scalar v -> scalar v' -> utf16 v ++ r = utf16 v' ++ r' -> v = v' /\ r = r'.
Proof.
  unfold scalar, utf16. intros Hv Hv'. destruct (v <? 65536) eqn:?, (v' <? 65536) eqn:?; cbn [app]; intros E; conses; try (exfalso; lia); (split; [lia|auto]).
Qed.
Lemma get16_utf16 v rest : scalar v -> code_units16 rest -> GetCharFromUtf16 (utf16 v ++ rest) = Ok (Some v, rest).
Proof.
  intros Hv Hr. assert (B: code_units16 (utf16 v ++ rest)) by (apply Forall_app; split; auto; apply utf16_units; auto).
  assert (N: utf16 v ++ rest <> []) by (pose proof (utf16_len v); destruct (utf16 v); [simpl in *; lia|discriminate]).
  destruct (get16_ok _ B N) as [v' rest' Hv' E|v' rest' Hv' E|rest' H].
  - destruct (utf16_prefix_free v v' rest rest' Hv Hv' E) as [-> ->]. reflexivity.
  - exfalso. unfold utf16, scalar in *. destruct (v <? 65536) eqn:?; cbn [app] in E; conses; lia.
  - exfalso. eapply H; eauto.
Qed.
Lemma toUtf16_utf16 v : scalar v -> toUtf16 v = utf16 v.
Proof.
  unfold scalar, toUtf16, utf16, to_c16. intros H. destruct (v <=? 65535) eqn:E, (v <? 65536) eqn:E2; try lia.
  - rewrite Z.mod_small by lia. auto.
  - destruct (v <=? 1114111) eqn:E3; [|lia]. rewrite Z.shiftr_div_pow2 by lia. change 0x3ff with (Z.ones 10). rewrite Z.land_ones by lia.
    rewrite Z.lor_comm. change 0xdc00 with (2 ^ 10 * 55) at 1. rewrite lor_low by (simpl; lia). change (2 ^ 10) with 1024.
    rewrite !Z.mod_small by lia. f_equal; [lia|]. f_equal. lia.
Qed.
Lemma append16_utf16 out v : scalar v -> AppendUtf16 out v = (true, out ++ utf16 v).
Proof.
  intros H. unfold AppendUtf16. rewrite toUtf16_utf16 by auto. pose proof (utf16_len v). unfold zlen. destruct (0 <? _) eqn:E; [auto|lia].
Qed.

Lemma conv8_ok l : scalars l -> forall f out, (length (utf8_text l) <= f)%nat -> conv8 f out (utf8_text l) = Ok (true, out ++ utf16_text l).
Proof.
  induction 1 as [|v l Hv Hl IH]; intros f out Hf.
  - destruct f; cbn; rewrite app_nil_r; auto.
  - change (utf8_text (v :: l)) with (utf8 v ++ utf8_text l) in *. change (utf16_text (v :: l)) with (utf16 v ++ utf16_text l).
    rewrite app_length in Hf. pose proof (utf8_len v). destruct f; [lia|].
    assert (B: bytes (utf8_text l)). { clear - Hl. induction Hl; [constructor|]. apply bytes_app; split; auto. apply utf8_bytes; auto. }
    cbn [conv8]. destruct (utf8 v ++ utf8_text l) eqn:E; [destruct (utf8 v); simpl in *; [lia|discriminate]|]. rewrite <- E, C17_accepts by auto.
    cbn [bind]. rewrite append16_utf16 by auto. rewrite IH by lia. rewrite app_assoc. auto.
Qed.
Lemma conv16_ok l : scalars l -> forall f out, (length (utf16_text l) <= f)%nat -> conv16 f out (utf16_text l) = Ok (true, out ++ utf8_text l).
Proof.
  induction 1 as [|v l Hv Hl IH]; intros f out Hf.
  - destruct f; cbn; rewrite app_nil_r; auto.
  - change (utf8_text (v :: l)) with (utf8 v ++ utf8_text l) in *. change (utf16_text (v :: l)) with (utf16 v ++ utf16_text l) in *.
    rewrite app_length in Hf. pose proof (utf16_len v). destruct f; [lia|].
    assert (B: code_units16 (utf16_text l)). { clear - Hl. induction Hl; [constructor|]. apply Forall_app; split; auto. apply utf16_units; auto. }
    cbn [conv16]. destruct (utf16 v ++ utf16_text l) eqn:E; [destruct (utf16 v); simpl in *; [lia|discriminate]|]. rewrite <- E, get16_utf16 by auto.
    cbn [bind]. rewrite append8_utf8 by auto. rewrite IH by lia. rewrite app_assoc. auto.
Qed.

(** mutually inverse on well-formed texts *)
Theorem C19_inverse : forall l, scalars l ->
  ConvertUtf8ToUtf16 (utf8_text l) = Ok (true, utf16_text l) /\ ConvertUtf16ToUtf8 (utf16_text l) = Ok (true, utf8_text l) /\
  ToUtf16 (utf8_text l) = Ok (utf16_text l) /\ ToUtf8 (utf16_text l) = Ok (utf8_text l).
Proof.
  intros l Hl. unfold ToUtf16, ToUtf8, ConvertUtf8ToUtf16, ConvertUtf16ToUtf8. rewrite conv8_ok, conv16_ok by auto. auto.
Qed.
(** UTF-16 that is not the encoding of scalar values (an unpaired lead or trail surrogate) is refused *)
Theorem C19_utf16_exact : forall s, code_units16 s ->
  (exists l, scalars l /\ s = utf16_text l /\ ConvertUtf16ToUtf8 s = Ok (true, utf8_text l)) \/
  ((~ exists l, scalars l /\ s = utf16_text l) /\ exists out, ConvertUtf16ToUtf8 s = Ok (false, out) /\ ToUtf8 s = Exn).
Proof.
  intros s B. unfold ToUtf8, ConvertUtf16ToUtf8.
  enough (G: forall f out s, code_units16 s -> (length s <= f)%nat ->
    (exists l, scalars l /\ s = utf16_text l) \/ ((~ exists l, scalars l /\ s = utf16_text l) /\ exists out', conv16 f out s = Ok (false, out'))).
  { destruct (G (length s) [] s B ltac:(lia)) as [(l & Hl & ->)|(N & out & E)].
    - left. exists l. rewrite conv16_ok by auto. auto.
    - right. split; auto. exists out. rewrite E. auto. }
  clear. induction f; intros out s B L.
  - destruct s; [|simpl in L; lia]. left. exists []. repeat constructor.
  - destruct s as [|c s]; [left; exists []; repeat constructor|]. cbn [conv16].
    assert (NIL: forall l, scalars l -> c :: s = utf16_text l -> exists v l', l = v :: l' /\ scalar v /\ scalars l' /\ c :: s = utf16 v ++ utf16_text l').
    { intros l Hl E. inversion Hl; subst; [discriminate|]. eauto 6. }
    destruct (get16_ok (c :: s) B ltac:(congruence)) as [v rest Hv E|v rest Hv E|rest H]; cbn [bind].
    + rewrite append8_utf8 by auto. assert (Br: code_units16 rest /\ (length rest <= f)%nat).
      { split; [rewrite E in B; apply Forall_app in B; tauto|]. assert (length (c :: s) = length (utf16 v) + length rest)%nat by (rewrite E, app_length; auto).
        pose proof (utf16_len v). simpl in *. lia. }
      destruct (IHf (out ++ utf8 v) rest) as [(l & Hl & ->)|(N & o & Eo)]; try tauto.
      * left. exists (v :: l). split; [constructor; auto|auto].
      * right. split; [|eauto]. intros (l & Hl & El). destruct (NIL l Hl El) as (v' & l' & -> & Hv' & Hl' & El').
        rewrite E in El'. apply utf16_prefix_free in El' as [_ ->]; auto. apply N. eauto.
    + right. split.
      * intros (l & Hl & El). destruct (NIL l Hl El) as (v' & l' & -> & Hv' & Hl' & El'). rewrite E in El'.
        unfold utf16, scalar in *. destruct (v' <? 65536) eqn:?; cbn [app] in El'; conses; lia.
      * unfold AppendUtf8. rewrite toUtf8_bad by (unfold scalar; lia). cbn. eauto.
    + right. split; [|eauto]. intros (l & Hl & El). destruct (NIL l Hl El) as (v' & l' & -> & Hv' & Hl' & El'). eapply H; eauto.
Qed.
(** same for ill-formed UTF-8 *)
Theorem C19_utf8_exact : forall s, bytes s ->
  (exists l, scalars l /\ s = utf8_text l /\ ConvertUtf8ToUtf16 s = Ok (true, utf16_text l)) \/
  ((~ exists l, scalars l /\ s = utf8_text l) /\ exists out, ConvertUtf8ToUtf16 s = Ok (false, out) /\ ToUtf16 s = Exn).
Proof.
  intros s B. unfold ToUtf16, ConvertUtf8ToUtf16.
  enough (G: forall f out s, bytes s -> (length s <= f)%nat ->
    (exists l, scalars l /\ s = utf8_text l) \/ ((~ exists l, scalars l /\ s = utf8_text l) /\ exists out', conv8 f out s = Ok (false, out'))).
  { destruct (G (length s) [] s B ltac:(lia)) as [(l & Hl & ->)|(N & out & E)].
    - left. exists l. rewrite conv8_ok by auto. auto.
    - right. split; auto. exists out. rewrite E. auto. }
  clear. induction f; intros out s B L.
  - destruct s; [|simpl in L; lia]. left. exists []. repeat constructor.
  - destruct s as [|c s]; [left; exists []; repeat constructor|]. cbn [conv8].
    assert (NIL: forall l, scalars l -> c :: s = utf8_text l -> exists v l', l = v :: l' /\ scalar v /\ scalars l' /\ c :: s = utf8 v ++ utf8_text l').
    { intros l Hl E. inversion Hl; subst; [discriminate|]. eauto 6. }
    destruct (get8_spec (c :: s) B ltac:(congruence)) as [v rest Hv E|sk rest _ _ H]; cbn [bind].
    + rewrite append16_utf16 by auto. assert (Br: bytes rest /\ (length rest <= f)%nat).
      { split; [rewrite E in B; apply Forall_app in B; tauto|]. assert (length (c :: s) = length (utf8 v) + length rest)%nat by (rewrite E, app_length; auto).
        pose proof (utf8_len v). simpl in *. lia. }
      destruct (IHf (out ++ utf16 v) rest) as [(l & Hl & ->)|(N & o & Eo)]; try tauto.
      * left. exists (v :: l). split; [constructor; auto|auto].
      * right. split; [|eauto]. intros (l & Hl & El). destruct (NIL l Hl El) as (v' & l' & -> & Hv' & Hl' & El').
        rewrite E in El'. apply utf8_prefix_free in El' as [_ ->]; auto. apply N. eauto.
    + right. split; [|eauto]. intros (l & Hl & El). destruct (NIL l Hl El) as (v' & l' & -> & Hv' & Hl' & El'). eapply H; eauto.
Qed.
Example C19_nonvacuous : utf16_text [0x1f600; 65] = [0xd83d; 0xde00; 65] /\ ConvertUtf16ToUtf8 [0xd83d; 0xde00; 65] = Ok (true, [0xf0;0x9f;0x98;0x80; 65])
  /\ ConvertUtf16ToUtf8 [65; 0xde00] = Ok (false, [65]) /\ ConvertUtf16ToUtf8 [65; 0xd83d; 65] = Ok (false, [65]).
Proof. repeat split; reflexivity. Qed.
(** finding: String::toUtf16 lets surrogate code points through, and String::append(Char16) accepts an
    unpaired trail surrogate *)
Theorem C19_surrogate_finding : String_toUtf16 [0xd800] [] = Ok [0xd800] /\ String_append16 [] [0xdc00] = Ok [0xdc00]
  /\ String_isValid [0xdc00] = false.
Proof. repeat split; reflexivity. Qed.

Print Assumptions C17_total.
Print Assumptions C17_ref_next.
Print Assumptions C18_string.
Print Assumptions C19_utf16_exact.
