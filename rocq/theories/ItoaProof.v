(** Lemmas about ItoaModel. *)
Require Import Verif.Common Verif.AtoiSpec Verif.AtoiProof Verif.ItoaModel.

Section Digits.
Variable b : Z.
Variable ch : Z -> Z.
Hypothesis b2 : 2 <= b.

Inductive digs : Z -> list Z -> Prop :=
| digs1 x : 0 <= x < b -> digs x [ch x]
| digsS x s : b <= x -> digs (x / b) s -> digs x (s ++ [ch (x mod b)]).

Lemma digs_exists x : 0 <= x -> exists s, digs x s.
Proof.
  intros Hx. generalize Hx. revert x Hx. apply (Z_lt_induction (fun x => 0 <= x -> exists s, digs x s)).
  intros x IH Hx. destruct (Z_lt_ge_dec x b).
  - exists [ch x]. constructor. lia.
  - assert (0 <= x / b < x).
    { split; [apply Z.div_pos; lia|apply Z.div_lt; lia]. }
    destruct (IH (x / b) H) as [s Hs]; [lia|]. exists (s ++ [ch (x mod b)]). constructor; auto. lia.
Qed.

Lemma digs_len x s : digs x s -> (1 <= length s)%nat.
Proof. induction 1; rewrite ?app_length; simpl; lia. Qed.

Variables dig nxt : Z -> Z.
Hypothesis dig_eq : forall x, 0 <= x -> dig x = ch (x mod b).
Hypothesis nxt_eq : forall x, 0 <= x -> nxt x = x / b.

Lemma put_loop_spec x s : digs x s -> forall A B i,
  exists A', length A' = length A /\
  put_loop dig nxt (A ++ B) (length A) i x =
  if (length s <=? length A)%nat
  then Ok (firstn (length A - length s) A ++ s ++ B, i + zlen s)
  else Ok (A' ++ B, 0).
Proof.
  assert (W: forall A a (B : list Z) c, wr ((A ++ [a]) ++ B) (Z.of_nat (length A)) c = Ok (A ++ c :: B)).
  { intros. rewrite wr_ok by (unfold zlen; rewrite !app_length; simpl; lia).
    rewrite Nat2Z.id, <- app_assoc. simpl. rewrite upd_app_exact. auto. }
  assert (LA: forall (A : list Z), length A = O \/ exists A0 a, A = A0 ++ [a] /\ length A = S (length A0)).
  { intros A. destruct A as [|a0 A0] using rev_ind; auto. right. exists A0, a0. rewrite app_length. simpl. split; auto. lia. }
  induction 1 as [x Hx|x s Hx Hd IH]; intros A B i.
  - destruct (LA A) as [E|(A0 & a & -> & E)].
    + exists A. split; auto. rewrite E. simpl. destruct A; [reflexivity|discriminate].
    + exists (A0 ++ [a]). split; auto. rewrite E. cbn [put_loop].
      rewrite W. cbn [bind]. rewrite dig_eq, nxt_eq by lia. rewrite Z.div_small, Z.mod_small by lia.
      cbn [Z.eqb length Nat.leb]. rewrite firstn_app.
      replace (S (length A0) - 1)%nat with (length A0) by lia.
      rewrite firstn_all, Nat.sub_diag. cbn [firstn]. rewrite app_nil_r. reflexivity.
  - pose proof (digs_len _ _ Hd) as Hl.
    destruct (LA A) as [E|(A0 & a & -> & E)].
    + exists A. split; auto. rewrite E, app_length. simpl.
      replace (length s + 1)%nat with (S (length s)) by lia. cbn [Nat.leb]. destruct A; [reflexivity|discriminate].
    + destruct (IH A0 (ch (x mod b) :: B) (i + 1)) as (A' & L' & P).
      exists (A' ++ [ch (x mod b)]). split; [rewrite app_length; simpl; lia|].
      rewrite E. cbn [put_loop]. rewrite W. cbn [bind].
      rewrite dig_eq, nxt_eq by lia.
      destruct (x / b =? 0) eqn:Ez.
      { exfalso. assert (0 < x / b) by (apply Z.div_str_pos; lia). lia. }
      rewrite P. rewrite app_length. cbn [length].
      replace (length s + 1)%nat with (S (length s)) by lia. cbn [Nat.leb].
      destruct (length s <=? length A0)%nat eqn:El.
      * apply Nat.leb_le in El. f_equal. f_equal.
        { rewrite firstn_app. replace (S (length A0) - S (length s))%nat with (length A0 - length s)%nat by lia.
          replace (length A0 - length s - length A0)%nat with O by lia. cbn [firstn].
          rewrite app_nil_r, <- app_assoc. reflexivity. }
        { unfold zlen. rewrite app_length. simpl. lia. }
      * rewrite <- app_assoc. reflexivity.
Qed.

End Digits.

Section DigitsCanonical.
Variable b : Z.
Variable ch : Z -> Z.
Variable ok : Z -> Prop.
Variable dg : Z -> Z.
Hypothesis b2 : 2 <= b.
Hypothesis ch_ok : forall d, 0 <= d < b -> ok (ch d).
Hypothesis ch_dg : forall d, 0 <= d < b -> dg (ch d) = d.
Hypothesis dg48 : dg 48 = 0.
Lemma digs_canonical x s : digs b ch x s -> canonical b ok dg s x /\ (0 < x -> forall t, s <> 48 :: t).
Proof.
  induction 1 as [x Hx|x s Hx Hd [IH IH2]].
  - split.
    + split; [congruence|]. split; [auto|]. split.
      * unfold value. simpl. rewrite ch_dg; lia.
      * intros t Ht. inversion Ht. auto.
    + intros Hp t Ht. inversion Ht. subst. assert (dg (ch x) = 0) by congruence. rewrite ch_dg in H; lia.
  - assert (Hm: 0 <= x mod b < b) by (apply Z.mod_pos_bound; lia).
    assert (Hq: 0 < x / b) by (apply Z.div_str_pos; lia).
    specialize (IH2 Hq). destruct IH as (N & F & V & _).
    assert (HH: forall t, s ++ [ch (x mod b)] <> 48 :: t).
    { intros t Ht. destruct s as [|c s]; [congruence|]. inversion Ht; subst. eapply IH2; eauto. }
    split; [|intros _; exact HH]. repeat split.
    + intros E. apply app_eq_nil in E. destruct E; congruence.
    + apply Forall_app. auto.
    + rewrite map_app. simpl. rewrite value_snoc, V, ch_dg by auto.
      rewrite (Z.div_mod x b) at 3 by lia. lia.
    + intros t Ht. exfalso. eapply HH; eauto.
Qed.

End DigitsCanonical.


(** ** instances *)
Lemma dec_ch d : 0 <= d < 10 -> is_digit (48 + d) /\ dec_digit (48 + d) = d.
Proof. unfold is_digit, dec_digit. lia. Qed.

Lemma hex_ch u d : 0 <= d < 16 -> hex_alphabet u (hex_char u d) /\ xdigit (hex_char u d) = d.
Proof.
  intros H. unfold hex_alphabet, hex_char, upper_or_digit, lower_or_digit, xdigit.
  destruct (d <? 10) eqn:E; destruct u;
  match goal with |- context [?x <=? 57] => destruct (x <=? 57) eqn:?E1 end; try lia;
  match goal with |- context [?x <=? 70] => destruct (x <=? 70) eqn:?E2 end; lia.
Qed.

Lemma bin_ch d : 0 <= d < 2 -> is_bit_char (48 + d) /\ dec_digit (48 + d) = d.
Proof. unfold is_bit_char, dec_digit. lia. Qed.

Definition put_result (buf s : list Z) (r : res (list Z * Z)) : Prop :=
  if zlen s <=? zlen buf then r = Ok (firstn (length buf - length s) buf ++ s, zlen s)
  else exists buf', r = Ok (buf', 0) /\ length buf' = length buf.

Lemma put_result_of buf s r A' :
  length A' = length buf ->
  r = (if (length s <=? length buf)%nat
  then Ok (firstn (length buf - length s) buf ++ s ++ [], 0 + zlen s)
  else Ok (A' ++ [], 0)) -> put_result buf s r.
Proof.
  intros L ->. unfold put_result, zlen.
  destruct (length s <=? length buf)%nat eqn:E.
  - apply Nat.leb_le in E. destruct (_ <=? _) eqn:E2; [|lia]. rewrite app_nil_r. reflexivity.
  - apply Nat.leb_gt in E. destruct (_ <=? _) eqn:E2; [lia|].
    exists A'. rewrite app_nil_r. auto.
Qed.

Lemma uintToDec_spec buf x : 0 <= x ->
  exists s, digs 10 (fun d => 48 + d) x s /\ canonical_dec s x /\ put_result buf s (uintToDec buf (zlen buf) x).
Proof.
  intros Hx. destruct (digs_exists 10 (fun d => 48 + d) ltac:(lia) x Hx) as [s Hs].
  exists s. split; auto. split.
  - apply (digs_canonical 10 (fun d => 48 + d)); auto; try lia; try apply dec_ch.
  - destruct (put_loop_spec 10 (fun d => 48 + d) ltac:(lia) (fun x => 48 + x mod 10) (fun x => x / 10)
      ltac:(auto) ltac:(auto) x s Hs buf [] 0) as (A' & L & P).
    rewrite app_nil_r in P. apply put_result_of with (A' := A'); auto.
    unfold uintToDec. rewrite <- P. unfold zlen. rewrite Nat2Z.id. reflexivity.
Qed.

Lemma uintToHex_spec buf x u : 0 <= x ->
  exists s, canonical_hex (hex_alphabet u) s x /\ put_result buf s (uintToHex buf (zlen buf) x u).
Proof.
  intros Hx. destruct (digs_exists 16 (hex_char u) ltac:(lia) x Hx) as [s Hs].
  exists s. split.
  - apply (digs_canonical 16 (hex_char u)); auto; try lia; try apply hex_ch.
  - destruct (put_loop_spec 16 (hex_char u) ltac:(lia) (fun x => hex_char u (x mod 16)) (fun x => x / 16)
      ltac:(auto) ltac:(auto) x s Hs buf [] 0) as (A' & L & P).
    rewrite app_nil_r in P. apply put_result_of with (A' := A'); auto.
    unfold uintToHex. rewrite <- P. unfold zlen. rewrite Nat2Z.id. reflexivity.
Qed.

Lemma land1 x : Z.land x 1 = x mod 2.
Proof. exact (Z.land_ones x 1 ltac:(lia)). Qed.
Lemma shiftr1 x : Z.shiftr x 1 = x / 2.
Proof. rewrite Z.shiftr_div_pow2 by lia. reflexivity. Qed.

Lemma uintToBin_spec buf x : 0 <= x ->
  exists s, canonical_bin s x /\ put_result buf s (uintToBin buf (zlen buf) x).
Proof.
  intros Hx. destruct (digs_exists 2 (fun d => 48 + d) ltac:(lia) x Hx) as [s Hs].
  exists s. split.
  - apply (digs_canonical 2 (fun d => 48 + d)); auto; try lia; try apply bin_ch.
  - destruct (put_loop_spec 2 (fun d => 48 + d) ltac:(lia) (fun x => 48 + Z.land x 1) (fun x => Z.shiftr x 1)
      (fun x _ => f_equal (Z.add 48) (land1 x)) (fun x _ => shiftr1 x) x s Hs buf [] 0) as (A' & L & P).
    rewrite app_nil_r in P. apply put_result_of with (A' := A'); auto.
    unfold uintToBin. rewrite <- P. unfold zlen. rewrite Nat2Z.id. reflexivity.
Qed.

(** signed decimal *)
Lemma intToDec_spec buf x : - 2 ^ 63 <= x < 2 ^ 63 ->
  exists s, canonical_int s x /\ put_result buf s (intToDec buf (zlen buf) x).
Proof.
  intros Hx. unfold intToDec. destruct (x =? LLONG_MIN) eqn:Em.
  - assert (x = LLONG_MIN) by lia. subst x. exists minStr. split.
    + right. split; [reflexivity|]. exists (tl minStr). split; [reflexivity|].
      split; [discriminate|]. split; [repeat constructor; unfold is_digit; lia|]. split; [reflexivity|discriminate].
    + unfold put_result. destruct (zlen buf <? zlen minStr) eqn:El.
      * destruct (zlen minStr <=? zlen buf) eqn:El2; [lia|]. exists buf; auto.
      * destruct (zlen minStr <=? zlen buf) eqn:El2; [|lia].
        unfold memcpy_at.
        replace (zlen buf - zlen minStr + zlen minStr) with (zlen buf) by lia.
        destruct (_ || _) eqn:Eb; [lia|]. cbn [bind].
        replace (Z.to_nat (zlen buf)) with (length buf) by (unfold zlen; lia). rewrite skipn_all, app_nil_r.
        replace (Z.to_nat (zlen buf - zlen minStr)) with (length buf - length minStr)%nat by (unfold zlen; lia).
        reflexivity.
  - destruct (x <? 0) eqn:En.
    + destruct (uintToDec_spec buf (- x) ltac:(lia)) as (s & Hd & Hc & P).
      exists (45 :: s). split; [right; split; [lia|eauto]|].
      pose proof (digs_len _ _ _ _ Hd) as Hl.
      unfold put_result in *. rewrite zlen_cons.
      destruct (zlen s <=? zlen buf) eqn:E1.
      * rewrite P. cbn [bind]. destruct (zlen s =? 0) eqn:E2; [unfold zlen in *; lia|].
        destruct (zlen buf =? zlen s) eqn:E3.
        { destruct (1 + zlen s <=? zlen buf) eqn:E4; [lia|].
          eexists. split; [reflexivity|]. rewrite app_length, firstn_length. unfold zlen in *; lia. }
        { destruct (1 + zlen s <=? zlen buf) eqn:E4; [|lia].
          set (n := (length buf - length (45%Z :: s))%nat).
          assert (Hn: (length buf - length s = S n)%nat) by (unfold n, zlen in *; simpl; lia).
          rewrite Hn.
          assert (exists a, firstn (S n) buf = firstn n buf ++ [a]) as [a Ha].
          { destruct (nth_error buf n) as [a|] eqn:Ea.
            - exists a. clearbody n. clear -Ea. revert buf Ea. induction n; intros [|c buf] Ea; simpl in *; try discriminate.
              + congruence. + f_equal. auto.
            - apply nth_error_None in Ea. unfold zlen in *. lia. }
          rewrite Ha, <- app_assoc. cbn [app].
          rewrite wr_ok.
          2: { unfold zlen. rewrite !app_length, firstn_length. simpl. unfold zlen in *. lia. }
          cbn [bind].
          replace (Z.to_nat (zlen buf - (zlen s + 1))) with (length (firstn n buf)).
          2: { rewrite firstn_length. unfold zlen in *. lia. }
          rewrite upd_app_exact. do 2 f_equal. lia. }
      * destruct P as (buf' & P & L). rewrite P. cbn [bind]. cbn [Z.eqb].
        destruct (1 + zlen s <=? zlen buf) eqn:E4; [lia|]. eauto.
    + destruct (uintToDec_spec buf x ltac:(lia)) as (s & Hd & Hc & P).
      exists s. split; [left; split; [lia|auto]|].
      pose proof (digs_len _ _ _ _ Hd) as Hl.
      unfold put_result in *. destruct (zlen s <=? zlen buf) eqn:E1.
      * rewrite P. cbn [bind]. destruct (zlen s =? 0) eqn:E2; [unfold zlen in *; lia|]. reflexivity.
      * destruct P as (buf' & P & L). rewrite P. cbn [bind Z.eqb]. eauto.
Qed.

(** canonical length bound *)
Lemma canonical_len b (ok : Z -> Prop) dg s x k : 2 <= b -> (forall c, ok c -> 0 <= dg c < b) ->
  (forall c, ok c -> dg c = 0 -> c = 48) ->
  canonical b ok dg s x -> x < b ^ k -> 1 <= k -> zlen s <= k.
Proof.
  intros Hb Hd H0 (N & F & V & C) Hx Hk.
  destruct s as [|c s]; [congruence|]. apply Forall_cons_iff in F as [Fc F].
  destruct (Z.eq_dec (dg c) 0) as [E|E].
  - apply H0 in E; auto. subst c. assert (s = []) by (eapply C; reflexivity). subst. rewrite zlen_cons, zlen_nil. lia.
  - simpl in V. rewrite value_cons in V.
    assert (B: 0 <= value b (map dg s)).
    { apply value_bounds; [lia|]. apply Forall_map. eapply Forall_impl; [|exact F]. intros; apply Hd; auto. }
    pose proof (Hd c Fc). rewrite zlen_cons.
    assert (b ^ zlen (map dg s) < b ^ k).
    { assert (0 < b ^ zlen (map dg s)) by (apply Z.pow_pos_nonneg; unfold zlen; lia). nia. }
    apply Z.pow_lt_mono_r_iff in H1; [|lia|lia]. unfold zlen in *. rewrite map_length in H1. lia.
Qed.

Lemma dec_len s x k : canonical_dec s x -> x < 10 ^ k -> 1 <= k -> zlen s <= k.
Proof.
  apply canonical_len; unfold is_digit, dec_digit; lia.
Qed.

Lemma canonical_int_len s x : canonical_int s x -> - 2 ^ 63 <= x < 2 ^ 64 -> zlen s <= 40.
Proof.
  intros [[Hx H]|(Hx & d & -> & H)] Hr.
  - eapply dec_len in H; [|transitivity (2 ^ 64); [apply Hr|]; apply (Z.lt_trans _ (10 ^ 20)); [|apply (Z.pow_lt_mono_r 10 20 40); lia]; reflexivity|lia]. exact H.
  - rewrite zlen_cons. assert (zlen d <= 20); [|lia]. eapply dec_len; eauto; [|lia].
    apply (Z.le_lt_trans _ (2 ^ 63)); [lia|reflexivity].
Qed.

Lemma assign_tail_spec pre s : assign_tail (pre ++ s) (zlen s) = Ok s.
Proof.
  unfold assign_tail. rewrite zlen_app. destruct (_ || _) eqn:E.
  { pose proof (zlen_nonneg pre); pose proof (zlen_nonneg s); lia. }
  replace (Z.to_nat (zlen pre + zlen s - zlen s)) with (length pre) by (unfold zlen; lia).
  rewrite skipn_app, Nat.sub_diag, skipn_all. cbn [skipn app].
  replace (Z.to_nat (zlen s)) with (length s) by (unfold zlen; lia). rewrite firstn_all. reflexivity.
Qed.

Lemma itoa_spec (signed : bool) garbage x : zlen garbage = 40 ->
  (if signed then - 2 ^ 63 <= x < 2 ^ 63 else 0 <= x < 2 ^ 64) ->
  exists s, itoa signed garbage x = Ok s /\ canonical_int s x.
Proof.
  intros Hg Hx. unfold itoa, convertFromInt, convertFromUint. rewrite <- Hg. destruct signed.
  - destruct (intToDec_spec garbage x Hx) as (s & Hc & P). exists s. split; auto.
    assert (zlen s <= 40). { apply (canonical_int_len s x Hc). assert (2 ^ 63 < 2 ^ 64) by reflexivity. lia. }
    unfold put_result in P. destruct (zlen s <=? zlen garbage) eqn:E; [|lia].
    rewrite P. cbn [bind]. apply assign_tail_spec.
  - destruct (uintToDec_spec garbage x ltac:(lia)) as (s & _ & Hc & P). exists s.
    assert (Hi: canonical_int s x) by (left; split; [lia|auto]). split; auto.
    assert (zlen s <= 40). { apply (canonical_int_len s x Hi). assert (0 < 2 ^ 63) by reflexivity. lia. }
    unfold put_result in P. destruct (zlen s <=? zlen garbage) eqn:E; [|lia].
    rewrite P. cbn [bind]. apply assign_tail_spec.
Qed.

Lemma canonical_hex_unique u s1 s2 x : canonical_hex (hex_alphabet u) s1 x -> canonical_hex (hex_alphabet u) s2 x -> s1 = s2.
Proof.
  intros (N1 & D1 & V1 & Z1) (N2 & D2 & V2 & Z2).
  assert (R: forall c, hex_alphabet u c -> 0 <= xdigit c < 16 /\ hex_char u (xdigit c) = c).
  { intros c Hc. destruct u; unfold hex_alphabet, upper_or_digit, lower_or_digit in Hc; unfold xdigit, hex_char;
    destruct (c <=? 57) eqn:E1; [|destruct (c <=? 70) eqn:E2| |destruct (c <=? 70) eqn:E2]; try lia;
    match goal with |- context [?x <? 10] => destruct (x <? 10) eqn:?E end; lia. }
  assert (Z48: forall c, hex_alphabet u c -> xdigit c = 0 -> c = 48).
  { intros c Hc H0. destruct (R c Hc) as [_ E]. rewrite H0 in E. exact (eq_sym E). }
  assert (M: map xdigit s1 = map xdigit s2).
  { destruct (Z.eq_dec x 0) as [->|Hx].
    - assert (Q: forall s, s <> [] -> Forall (hex_alphabet u) s -> value 16 (map xdigit s) = 0 ->
        (forall t, s = 48 :: t -> t = []) -> s = [48]).
      { intros s N F V C. destruct s as [|c s]; [congruence|]. apply Forall_cons_iff in F as [Fc F].
        simpl in V. rewrite value_cons in V.
        assert (B: 0 <= value 16 (map xdigit s)).
        { apply value_bounds; [lia|]. apply Forall_map. eapply Forall_impl; [|exact F]. intros a Ha; apply (R a Ha). }
        destruct (R c Fc) as [Rc _].
        assert (0 < 16 ^ zlen (map xdigit s)) by (apply Z.pow_pos_nonneg; unfold zlen; lia).
        assert (c = 48) by (apply Z48; auto; nia). subst c. f_equal. apply C. reflexivity. }
      rewrite (Q s1), (Q s2); auto.
    - apply (value_canon_inj 16); try lia.
      + apply Forall_map. eapply Forall_impl; [|exact D1]. intros a Ha; apply (R a Ha).
      + apply Forall_map. eapply Forall_impl; [|exact D2]. intros a Ha; apply (R a Ha).
      + intros t Ht. destruct s1 as [|c s1]; [discriminate|]. simpl in Ht. injection Ht as H1 H2.
        apply Forall_cons_iff in D1 as [Dc _]. apply Z48 in H1; auto. subst c.
        assert (s1 = []) by (eapply Z1; reflexivity). subst s1. apply Hx. rewrite <- V1. reflexivity.
      + intros t Ht. destruct s2 as [|c s2]; [discriminate|]. simpl in Ht. injection Ht as H1 H2.
        apply Forall_cons_iff in D2 as [Dc _]. apply Z48 in H1; auto. subst c.
        assert (s2 = []) by (eapply Z2; reflexivity). subst s2. apply Hx. rewrite <- V2. reflexivity. }
  clear -M D1 D2 R. revert s2 M D2. induction s1; intros [|c s2] M D2; simpl in M; try discriminate; auto.
  injection M as M1 M2. apply Forall_cons_iff in D1 as [Da D1]. apply Forall_cons_iff in D2 as [Dc D2].
  f_equal; auto. destruct (R a Da) as [_ E1]. destruct (R c Dc) as [_ E2]. congruence.
Qed.

(** fixed width output *)
Section Fixed.
Variable b : Z.
Variable ch : Z -> Z.
Hypothesis b2 : 2 <= b.

(** the k lowest digits of x, most significant first *)
Fixpoint low_digits (k : nat) (x : Z) : list Z :=
  match k with O => [] | S k' => low_digits k' (x / b) ++ [ch (x mod b)] end.

Lemma low_digits_length k x : length (low_digits k x) = k.
Proof. revert x. induction k; intros x; simpl; auto. rewrite app_length, IHk. simpl. lia. Qed.
End Fixed.

Lemma low_digits_ok b ch (ok : Z -> Prop) k x : 2 <= b -> (forall d, 0 <= d < b -> ok (ch d)) -> Forall ok (low_digits b ch k x).
Proof.
  intros b2 Ho. revert x. induction k; intros x; simpl; auto. apply Forall_app. split; auto. constructor; auto.
  apply Ho. apply Z.mod_pos_bound. lia.
Qed.

Lemma low_digits_value b ch dg k x : 2 <= b -> (forall d, 0 <= d < b -> dg (ch d) = d) ->
  value b (map dg (low_digits b ch k x)) = x mod b ^ Z.of_nat k.
Proof.
  intros b2 Hd. revert x. induction k; intros x.
  - simpl. rewrite Z.mod_1_r. reflexivity.
  - cbn [low_digits]. rewrite map_app. cbn [map]. rewrite value_snoc, IHk, Hd by (apply Z.mod_pos_bound; lia).
    rewrite Nat2Z.inj_succ, Z.pow_succ_r by lia.
    rewrite (Z.rem_mul_r x b) by (try apply Z.pow_pos_nonneg; lia). lia.
Qed.

Lemma itohex_loop_spec u k : forall A B x, length A = k ->
  itohex_loop (A ++ B) k x u = Ok (low_digits 16 (hex_char u) k x ++ B).
Proof.
  induction k; intros A B x HA.
  - destruct A; [reflexivity|discriminate].
  - destruct A as [|a A] using rev_ind; [discriminate|]. clear IHA. rewrite app_length in HA. simpl in HA.
    cbn [itohex_loop low_digits]. rewrite wr_ok by (unfold zlen; rewrite !app_length; simpl; lia).
    rewrite Nat2Z.id. replace k with (length A) at 1 by lia. rewrite <- app_assoc. simpl app at 2.
    rewrite upd_app_exact. cbn [bind]. rewrite IHk by lia. rewrite <- app_assoc. reflexivity.
Qed.

Lemma itobin_loop_spec k : forall A B x, length A = k ->
  itobin_loop (A ++ B) k x = Ok (low_digits 2 (fun d => 48 + d) k x ++ B).
Proof.
  induction k; intros A B x HA.
  - destruct A; [reflexivity|discriminate].
  - destruct A as [|a A] using rev_ind; [discriminate|]. clear IHA. rewrite app_length in HA. simpl in HA.
    cbn [itobin_loop low_digits]. rewrite wr_ok by (unfold zlen; rewrite !app_length; simpl; lia).
    rewrite Nat2Z.id. replace k with (length A) at 1 by lia. rewrite <- app_assoc. simpl app at 2.
    rewrite upd_app_exact. cbn [bind]. rewrite IHk by lia. rewrite <- app_assoc, land1, shiftr1. reflexivity.
Qed.

(** a digit string with no more digits than needed is canonical *)
Lemma low_digits_canonical b ch (ok : Z -> Prop) dg k x :
  2 <= b -> (forall d, 0 <= d < b -> ok (ch d)) -> (forall d, 0 <= d < b -> dg (ch d) = d) -> dg 48 = 0 ->
  (1 <= k)%nat -> 0 <= x < b ^ Z.of_nat k -> (b ^ (Z.of_nat k - 1) <= x \/ k = 1%nat) ->
  canonical b ok dg (low_digits b ch k x) x.
Proof.
  intros Hb Hok Hdg H0 Hk Hx Hlo.
  pose proof (low_digits_length b ch k x) as L.
  pose proof (low_digits_ok b ch ok k x Hb Hok) as O.
  pose proof (low_digits_value b ch dg k x Hb Hdg) as V. rewrite Z.mod_small in V by lia.
  assert (D: Forall (fun d => 0 <= d < b) (map dg (low_digits b ch k x))).
  { apply Forall_map. apply low_digits_ok; auto. intros d Hd. rewrite Hdg; auto. }
  repeat split; auto.
  - intros E. rewrite E in L. simpl in L. lia.
  - intros t Ht. rewrite Ht in *. simpl in L. destruct Hlo as [Hlo|Hlo].
    + exfalso. simpl in V, D. rewrite value_cons, H0 in V. apply Forall_cons_iff in D as [_ D].
      apply value_bounds in D; [|lia]. unfold zlen in *. rewrite map_length in *.
      replace (Z.of_nat k - 1) with (Z.of_nat (length t)) in Hlo by lia. lia.
    + destruct t; auto. simpl in L. lia.
Qed.

Lemma itohexLocal_fixed nbytes x u : 0 <= nbytes ->
  itohexLocal nbytes x u true = Ok (low_digits 16 (hex_char u) (Z.to_nat (nbytes * 2)) x).
Proof.
  intros Hn. unfold itohexLocal, itohex. cbn [itohexLocal].
  rewrite <- (app_nil_r (repeat 0 _)). rewrite itohex_loop_spec by apply repeat_length. rewrite app_nil_r. reflexivity.
Qed.
Lemma itobinLocal_fixed nbytes x : 0 <= nbytes ->
  itobinLocal nbytes x true = Ok (low_digits 2 (fun d => 48 + d) (Z.to_nat (nbytes * 8)) x).
Proof.
  intros Hn. unfold itobinLocal, itobin.
  rewrite <- (app_nil_r (repeat 0 _)). rewrite itobin_loop_spec by apply repeat_length. rewrite app_nil_r. reflexivity.
Qed.

Lemma getHexLength_spec x : 0 <= x ->
  1 <= getHexLength x /\ x < 16 ^ getHexLength x /\ (16 ^ (getHexLength x - 1) <= x \/ getHexLength x = 1).
Proof.
  intros Hx. unfold getHexLength, bsr. destruct (x =? 0) eqn:E; [assert (x = 0) by lia; subst; lia|].
  assert (Hl := Z.log2_spec x ltac:(lia)). pose proof (Z.log2_nonneg x).
  set (l := Z.log2 x) in *. split; [lia|]. change 16 with (2 ^ 4). rewrite <- !Z.pow_mul_r by lia. split.
  - apply (Z.lt_le_trans _ (2 ^ Z.succ l)); [lia|]. apply Z.pow_le_mono_r; lia.
  - left. apply (Z.le_trans _ (2 ^ l)); [|lia]. apply Z.pow_le_mono_r; lia.
Qed.
Lemma getBinLength_spec x : 0 <= x ->
  1 <= getBinLength x /\ x < 2 ^ getBinLength x /\ (2 ^ (getBinLength x - 1) <= x \/ getBinLength x = 1).
Proof.
  intros Hx. unfold getBinLength, bsr. destruct (x =? 0) eqn:E; [assert (x = 0) by lia; subst; lia|].
  assert (Hl := Z.log2_spec x ltac:(lia)). pose proof (Z.log2_nonneg x).
  split; [lia|]. split.
  - replace (Z.log2 x + 1) with (Z.succ (Z.log2 x)) by lia. lia.
  - left. replace (Z.log2 x + 1 - 1) with (Z.log2 x) by lia. lia.
Qed.

Lemma itohexLocal_min nbytes x u : 0 <= x ->
  exists s, itohexLocal nbytes x u false = Ok s /\ canonical_hex (hex_alphabet u) s x.
Proof.
  intros Hx. unfold itohexLocal, itohex. destruct (getHexLength_spec x Hx) as (H1 & H2 & H3).
  exists (low_digits 16 (hex_char u) (Z.to_nat (getHexLength x)) x). split.
  - rewrite <- (app_nil_r (repeat 0 _)). rewrite itohex_loop_spec by apply repeat_length. rewrite app_nil_r. reflexivity.
  - apply low_digits_canonical; try lia; try apply hex_ch; rewrite ?Z2Nat.id by lia; try lia; try reflexivity.
Qed.
Lemma itobinLocal_min nbytes x : 0 <= x ->
  exists s, itobinLocal nbytes x false = Ok s /\ canonical_bin s x.
Proof.
  intros Hx. unfold itobinLocal, itobin. destruct (getBinLength_spec x Hx) as (H1 & H2 & H3).
  exists (low_digits 2 (fun d => 48 + d) (Z.to_nat (getBinLength x)) x). split.
  - rewrite <- (app_nil_r (repeat 0 _)). rewrite itobin_loop_spec by apply repeat_length. rewrite app_nil_r. reflexivity.
  - apply low_digits_canonical; try lia; try apply bin_ch; rewrite ?Z2Nat.id by lia; try lia; try reflexivity.
Qed.

(** texts without NUL are visible entirely *)
Lemma visible_all s r : Forall (fun c => c <> 0) s -> visible (s ++ r) (zlen s) = s.
Proof.
  induction 1 as [|c s Hc Hs IH].
  - destruct r; reflexivity.
  - rewrite zlen_cons. simpl app. cbn [visible]. destruct (1 + zlen s <=? 0) eqn:E; [pose proof (zlen_nonneg s); lia|].
    destruct (c =? 0) eqn:E0; [lia|]. replace (1 + zlen s - 1) with (zlen s) by lia. rewrite IH. reflexivity.
Qed.
