(** Properties C37 (SipHash-2-4) and C38 (FNV hashes). *)
Require Import Verif.Common Verif.EndianModel Verif.EndianProps Verif.ShaSpec Verif.ShaProof Verif.ShaProof2 Verif.HashModel.
Ltac Zify.zify_post_hook ::= idtac.

(** ** Specification of SipHash-2-4 (Aumasson, Bernstein 2012), 64-bit words *)
Definition rotl64 (b x : Z) : Z := ROTL 64 b x.
Definition add64 (x y : Z) : Z := (x + y) mod 2 ^ 64.
(** one SipRound, figure 2.1 *)
Definition SipRound (v : Z * Z * Z * Z) : Z * Z * Z * Z :=
  let '(v0, v1, v2, v3) := v in
  let v0 := add64 v0 v1 in let v1 := rotl64 13 v1 in let v1 := Z.lxor v1 v0 in let v0 := rotl64 32 v0 in
  let v2 := add64 v2 v3 in let v3 := rotl64 16 v3 in let v3 := Z.lxor v3 v2 in
  let v0 := add64 v0 v3 in let v3 := rotl64 21 v3 in let v3 := Z.lxor v3 v0 in
  let v2 := add64 v2 v1 in let v1 := rotl64 17 v1 in let v1 := Z.lxor v1 v2 in let v2 := rotl64 32 v2 in
  (v0, v1, v2, v3).
(** section 2.2: the message padded with zeros so that a final byte (length mod 256) ends an 8-byte word *)
Definition sip_pad (m : list Z) : list Z := m ++ repeat 0 ((7 - length m mod 8)) ++ [zlen m mod 256].
Definition sip_words (m : list Z) : list Z := map le_value (blocks 8 (sip_pad m)).
(** section 2.2-2.3: v3 ^= m_i, c rounds, v0 ^= m_i; then v2 ^= 0xff, d rounds *)
Definition sip_compress (c : nat) (v : Z * Z * Z * Z) (m : Z) : Z * Z * Z * Z :=
  let '(v0, v1, v2, v3) := v in
  let '(v0, v1, v2, v3) := Nat.iter c SipRound (v0, v1, v2, Z.lxor v3 m) in
  (Z.lxor v0 m, v1, v2, v3).
Definition SipHash (c d : nat) (k0 k1 : Z) (m : list Z) : Z :=
  let v := (Z.lxor k0 0x736f6d6570736575, Z.lxor k1 0x646f72616e646f6d, Z.lxor k0 0x6c7967656e657261, Z.lxor k1 0x7465646279746573) in
  let '(v0, v1, v2, v3) := fold_left (sip_compress c) (sip_words m) v in
  let '(v0, v1, v2, v3) := Nat.iter d SipRound (v0, v1, Z.lxor v2 0xff, v3) in
  Z.lxor (Z.lxor (Z.lxor v0 v1) v2) v3.

(** ** Proof *)
Definition vok (v : Z * Z * Z * Z) : Prop := let '(a, b, c, d) := v in word 64 a /\ word 64 b /\ word 64 c /\ word 64 d.

Ltac v4 := refine (conj _ (conj _ (conj _ _))).
Lemma rotate_ok x b : 0 <= b <= 64 -> word 64 x -> sip_rotate x b = rotl64 b x.
Proof.
  intros H Hx. unfold sip_rotate, rotl64, ROTL. rewrite shl_mod by lia. rewrite Z.shiftr_div_pow2 by lia.
  rewrite Z.lor_comm, lor_add; [rewrite (Z.mul_comm (2 ^ b)); lia|lia| |].
  - replace (2 ^ b) with (2 ^ (64 - (64 - b))) by (f_equal; lia). apply div_word; auto; lia.
  - apply Z.mod_pos_bound. apply Z.pow_pos_nonneg; lia.
Qed.
Lemma rotl64_word b x : 0 <= b <= 64 -> word 64 x -> word 64 (rotl64 b x).
Proof. apply ROTL_word. Qed.
Lemma add64_word x y : word 64 (add64 x y).
Proof. apply word_mod. lia. Qed.

Lemma sipround_vok v : vok v -> vok (SipRound v).
Proof.
  destruct v as [[[a b] c] d]. intros (Ha & Hb & Hc & Hd). cbn [SipRound vok].
  v4; repeat first [apply add64_word | apply rotl64_word; [lia|] | apply word_xor; [lia| |] | assumption].
Qed.
Lemma doubleRound_ok v : vok v -> doubleRound v = SipRound (SipRound v).
Proof.
  assert (forall v, vok v -> (let '(v0, v1, v2, v3) := v in
    let '(v0, v1, v2, v3) := halfRound v0 v1 v2 v3 13 16 in
    let '(v2, v1, v0, v3) := halfRound v2 v1 v0 v3 17 21 in (v0, v1, v2, v3)) = SipRound v) as Q.
  { clear v. intros [[[a b] c] d] (Ha & Hb & Hc & Hd). cbn [halfRound SipRound].
    rewrite (rotate_ok b), (rotate_ok d), (rotate_ok ((a + b) mod 2 ^ 64)) by (try apply word_mod; auto; lia).
    fold (add64 a b). fold (add64 c d).
    assert (word 64 (Z.lxor (rotl64 13 b) (add64 a b))) by (apply word_xor; [lia|apply rotl64_word; [lia|auto]|apply add64_word]).
    assert (word 64 (Z.lxor (rotl64 16 d) (add64 c d))) by (apply word_xor; [lia|apply rotl64_word; [lia|auto]|apply add64_word]).
    rewrite !rotate_ok by (auto; try apply word_mod; lia). reflexivity. }
  intros H. rewrite <- (Q (SipRound v)) by (apply sipround_vok; auto). rewrite <- (Q v) by auto.
  destruct v as [[[a b] c] d]. cbv beta iota zeta delta [doubleRound].
  destruct (halfRound a b c d 13 16) as [[[x0 x1] x2] x3].
  destruct (halfRound x2 x1 x0 x3 17 21) as [[[y2 y1] y0] y3].
  destruct (halfRound y0 y1 y2 y3 13 16) as [[[z0 z1] z2] z3]. reflexivity.
Qed.

Lemma sip_while_ok little : forall bl fuel v tl, Forall (fun b => length b = 8%nat) bl -> bytes (concat bl ++ tl) -> (length tl < 8)%nat ->
  vok v -> (length bl < fuel)%nat ->
  sip_while little fuel v (concat bl ++ tl) (zlen (concat bl ++ tl)) =
  Ok (fold_left (sip_compress 2) (map le_value bl) v, tl, zlen tl) /\ vok (fold_left (sip_compress 2) (map le_value bl) v).
Proof.
  induction bl as [|b bl IH]; intros fuel v tl F B L V Hf; (destruct fuel as [|f]; [cbn [length] in Hf; lia|]); cbn [sip_while concat app map fold_left].
  - destruct (Z.leb_spec 8 (zlen tl)); [unfold zlen in *; lia|]. auto.
  - apply Forall_cons_iff in F as [Fb F]. rewrite <- app_assoc.
    cbn [concat] in B. rewrite <- app_assoc in B. pose proof B as B'. apply bytes_app in B as [Bb B].
    destruct (Z.leb_spec 8 (zlen (b ++ concat bl ++ tl))) as [H|H].
    2:{ rewrite zlen_app in H. pose proof (zlen_nonneg (concat bl ++ tl)). unfold zlen at 1 in H. lia. }
    destruct (C08_get 8 little (b ++ concat bl ++ tl) (or_intror (or_intror eq_refl)) ltac:(rewrite app_length; lia) B') as [G _].
    cbn [GetLE] in G. rewrite G. cbn [bind].
    replace (firstn 8 (b ++ concat bl ++ tl)) with b by (rewrite <- Fb; rewrite firstn_app_exact; auto).
    replace (skipn 8 (b ++ concat bl ++ tl)) with (concat bl ++ tl) by (rewrite <- Fb; rewrite skipn_app_exact; auto).
    assert (Wm: word 64 (le_value b)).
    { pose proof (le_bounds b Bb) as Q. unfold zlen in Q. rewrite Fb in Q. exact Q. }
    destruct v as [[[v0 v1] v2] v3]. destruct V as (V0 & V1 & V2 & V3).
    assert (V': vok (v0, v1, v2, Z.lxor v3 (le_value b))) by (v4; auto; apply word_xor; auto; lia).
    rewrite doubleRound_ok by auto.
    assert (V2': vok (SipRound (SipRound (v0, v1, v2, Z.lxor v3 (le_value b))))) by (apply sipround_vok, sipround_vok; auto).
    change (sip_compress 2 (v0, v1, v2, v3) (le_value b)) with
      (let '(v0, v1, v2, v3) := SipRound (SipRound (v0, v1, v2, Z.lxor v3 (le_value b))) in (Z.lxor v0 (le_value b), v1, v2, v3)).
    destruct (SipRound (SipRound (v0, v1, v2, Z.lxor v3 (le_value b)))) as [[[w0 w1] w2] w3]. destruct V2' as (W0 & W1 & W2 & W3).
    replace (zlen (b ++ concat bl ++ tl) - 8) with (zlen (concat bl ++ tl)) by (rewrite (zlen_app b); assert (zlen b = 8) by (unfold zlen; lia); lia).
    apply IH; auto; [|cbn [length] in Hf; lia].
    v4; auto. apply word_xor; auto; lia.
Qed.

Lemma le_snoc l x : le_value (l ++ [x]) = le_value l + 256 ^ zlen l * x.
Proof. rewrite le_value_app. cbn [le_value fold_right]. lia. Qed.
Lemma bytes_firstn_S (l : list Z) n : (n < length l)%nat -> firstn (S n) l = firstn n l ++ [nth n l 0].
Proof.
  revert n. induction l as [|x l IH]; intros n H; cbn [length] in H; [lia|]. destruct n; auto. cbn [firstn nth app].
  f_equal. apply (IH n). lia.
Qed.
(** the switch collects the tail as a little-endian number below a top part *)
Lemma sip_switch_ok l top : bytes l -> 0 <= top -> (length l <= 7)%nat -> forall n, (n <= length l)%nat ->
  sip_switch n l (2 ^ 56 * top + 2 ^ (8 * Z.of_nat n) * le_value (skipn n l)) = Ok (2 ^ 56 * top + le_value l).
Proof.
  intros B Ht L. induction n; intros Hn; cbn [sip_switch].
  - cbn [skipn]. do 2 f_equal. change (2 ^ (8 * Z.of_nat 0)) with 1. lia.
  - rewrite (rd_nth _ _ 0) by (unfold zlen; lia). cbn [bind]. rewrite Nat2Z.id. rewrite <- IHn by lia. f_equal.
    assert (Hs: skipn n l = nth n l 0 :: skipn (S n) l).
    { clear - Hn. revert n Hn. induction l as [|x l IH]; intros n H; cbn [length] in H; [lia|]. destruct n; auto. cbn [skipn nth]. apply IH. lia. }
    rewrite Hs, le_value_cons. 
    assert (Bn: is_byte (nth n l 0)). { unfold bytes in B. rewrite Forall_forall in B. apply B. apply nth_In. lia. }
    unfold is_byte in Bn.
    assert (Bs: bytes (skipn (S n) l)) by (apply bytes_skipn'; auto). pose proof (le_bounds _ Bs) as Q.
    replace (8 * Z.of_nat (S n)) with (8 * Z.of_nat n + 8) by lia. rewrite Z.pow_add_r by lia. change (2 ^ 8) with 256.
    assert (E56: 2 ^ 56 = 2 ^ (8 * Z.of_nat n) * (2 ^ (56 - 8 * Z.of_nat n - 8) * 256)).
    { change 256 with (2 ^ 8). rewrite <- !Z.pow_add_r by lia. f_equal. lia. }
    assert (P: 0 < 2 ^ (8 * Z.of_nat n)) by (apply Z.pow_pos_nonneg; lia).
    assert (P2: 0 < 2 ^ (56 - 8 * Z.of_nat n - 8)) by (apply Z.pow_pos_nonneg; lia).
    remember (2 ^ (56 - 8 * Z.of_nat n - 8) * top + le_value (skipn (S n) l)) as y eqn:Ey.
    assert (0 <= y) by (rewrite Ey; nia).
    transitivity (Z.lor (Z.shiftl (nth n l 0) (8 * Z.of_nat n)) (Z.shiftl y (8 + 8 * Z.of_nat n))).
    + rewrite Z.lor_comm. f_equal. rewrite Z.shiftl_mul_pow2 by lia. rewrite Z.pow_add_r by lia. rewrite E56, Ey. change (2 ^ 8) with 256. ring.
    + rewrite <- Z.shiftl_shiftl by lia. rewrite <- Z.shiftl_lor. rewrite lor_add by lia.
      rewrite Z.shiftl_mul_pow2 by lia. rewrite E56, Ey. change (2 ^ 8) with 256. ring.
Qed.

Lemma sip_blocks bl tl : Forall (fun b => length b = 8%nat) bl -> (length tl < 8)%nat ->
  blocks 8 (sip_pad (concat bl ++ tl)) = bl ++ [tl ++ repeat 0 (7 - length tl) ++ [zlen (concat bl ++ tl) mod 256]].
Proof.
  intros F L. unfold sip_pad.
  replace (length (concat bl ++ tl) mod 8)%nat with (length tl).
  2:{ rewrite app_length. rewrite (ShaProof2.concat_length 8) by auto. rewrite Nat.add_comm, Nat.mul_comm, Nat.mod_add by lia.
      rewrite Nat.mod_small; auto. }
  rewrite <- app_assoc. rewrite ShaProof2.blocks_concat by (auto; lia). f_equal. apply ShaProof2.blocks_one; [lia|].
  rewrite !app_length, repeat_length. cbn [length]. lia.
Qed.

(** C37: for every message and every key, on either byte order *)
Theorem C37_siphash : forall little m k0 k1, bytes m -> 0 <= k0 < 2 ^ 64 -> 0 <= k1 < 2 ^ 64 ->
  siphash24 little m (zlen m) k0 k1 = Ok (SipHash 2 4 k0 k1 m).
Proof.
  intros little m k0 k1 B K0 K1. unfold siphash24, SipHash. cbv zeta.
  (* cut the message *)
  assert (C: exists bl tl, m = concat bl ++ tl /\ Forall (fun b => length b = 8%nat) bl /\ (length tl < 8)%nat).
  { clear. assert (forall n l, (length l <= n)%nat -> exists bl tl, l = concat bl ++ tl /\ Forall (fun b : list Z => length b = 8%nat) bl /\ (length tl < 8)%nat) as Q.
    { induction n; intros l Hl.
      - exists [], l. repeat split; auto. lia.
      - destruct (Nat.le_gt_cases 8 (length l)).
        + destruct (IHn (skipn 8 l)) as (bl & tl & E & F & L). { rewrite skipn_length. lia. }
          exists (firstn 8 l :: bl), tl. cbn [concat]. rewrite <- app_assoc, <- E, firstn_skipn. repeat split; auto.
          constructor; auto. rewrite firstn_length. lia.
        + exists [], l. repeat split; auto. }
    apply (Q (length m) m). lia. }
  destruct C as (bl & tl & -> & F & L).
  unfold sip_words. rewrite sip_blocks by auto. rewrite map_app, fold_left_app. cbn [map fold_left].
  assert (V: vok (Z.lxor k0 0x736f6d6570736575, Z.lxor k1 0x646f72616e646f6d, Z.lxor k0 0x6c7967656e657261, Z.lxor k1 0x7465646279746573)).
  { v4; apply word_xor; try lia; try exact K0; try exact K1; unfold word; lia. }
  remember (Z.lxor k0 0x736f6d6570736575, Z.lxor k1 0x646f72616e646f6d, Z.lxor k0 0x6c7967656e657261, Z.lxor k1 0x7465646279746573) as v eqn:Ev. clear Ev.
  destruct (sip_while_ok little bl (S (Z.to_nat (zlen (concat bl ++ tl)))) v tl F B L V) as [-> VF].
  { rewrite to_nat_zlen, app_length, (ShaProof2.concat_length 8) by auto. lia. }
  cbn [bind]. destruct (Z.ltb_spec (zlen tl) 8); [|unfold zlen in *; lia].
  rewrite to_nat_zlen.
  assert (Bt: bytes tl) by (apply bytes_app in B; tauto).
  remember (zlen (concat bl ++ tl)) as N eqn:EN. assert (HN: 0 <= N) by (rewrite EN; apply zlen_nonneg).
  assert (Eb: Z.shiftl N 56 mod 2 ^ 64 = 2 ^ 56 * (N mod 256)).
  { rewrite shl_mod by lia. rewrite Z.shiftl_mul_pow2 by lia. change (2 ^ (64 - 56)) with 256. lia. }
  assert (HM: 0 <= N mod 256 < 256) by (apply Z.mod_pos_bound; lia).
  pose proof (sip_switch_ok tl (N mod 256) Bt (proj1 HM) ltac:(lia) (length tl) ltac:(lia)) as SW.
  rewrite skipn_all, le_value_nil, Z.mul_0_r, Z.add_0_r in SW. rewrite Eb, SW. cbn [bind]. clear SW Eb.
  assert (EL: le_value (tl ++ repeat 0 (7 - length tl) ++ [N mod 256]) = 2 ^ 56 * (N mod 256) + le_value tl).
  { rewrite app_assoc, le_snoc. replace (zlen (tl ++ repeat 0 (7 - length tl))) with 7 by (unfold zlen; rewrite app_length, repeat_length; lia).
    rewrite le_value_app. assert (le_value (repeat 0 (7 - length tl)) = 0) as ->.
    { generalize (7 - length tl)%nat. induction n; auto. cbn [repeat]. rewrite le_value_cons, IHn. auto. }
    change (256 ^ 7) with (2 ^ 56). lia. }
  rewrite EL. 
  assert (WB: word 64 (2 ^ 56 * (N mod 256) + le_value tl)).
  { pose proof (le_bounds tl Bt) as Q. assert (256 ^ zlen tl <= 256 ^ 7) by (apply Z.pow_le_mono_r; unfold zlen; lia).
    change (256 ^ 7) with (2 ^ 56) in *. unfold word. lia. }
  remember (2 ^ 56 * (N mod 256) + le_value tl) as b eqn:Eb. clear Eb EL.
  destruct (fold_left (sip_compress 2) (map le_value bl) v) as [[[v0 v1] v2] v3]. destruct VF as (V0 & V1 & V2 & V3).
  assert (V': vok (v0, v1, v2, Z.lxor v3 b)) by (v4; auto; apply word_xor; auto; lia).
  rewrite doubleRound_ok by auto.
  change (sip_compress 2 (v0, v1, v2, v3) b) with
    (let '(v0, v1, v2, v3) := SipRound (SipRound (v0, v1, v2, Z.lxor v3 b)) in (Z.lxor v0 b, v1, v2, v3)).
  assert (V4: vok (SipRound (SipRound (v0, v1, v2, Z.lxor v3 b)))) by (apply sipround_vok, sipround_vok; auto).
  destruct (SipRound (SipRound (v0, v1, v2, Z.lxor v3 b))) as [[[w0 w1] w2] w3]. destruct V4 as (W0 & W1 & W2 & W3).
  assert (V5: vok (Z.lxor w0 b, w1, Z.lxor w2 255, w3)).
  { v4; auto; apply word_xor; auto; try lia; unfold word; lia. }
  rewrite (doubleRound_ok (Z.lxor w0 b, w1, Z.lxor w2 255, w3)) by auto.
  rewrite doubleRound_ok by (apply sipround_vok, sipround_vok; auto).
  change (Nat.iter 4 SipRound (Z.lxor w0 b, w1, Z.lxor w2 255, w3)) with (SipRound (SipRound (SipRound (SipRound (Z.lxor w0 b, w1, Z.lxor w2 255, w3))))).
  destruct (SipRound (SipRound (SipRound (SipRound (Z.lxor w0 b, w1, Z.lxor w2 255, w3))))) as [[[x0 x1] x2] x3].
  f_equal. symmetry. apply Z.lxor_assoc.
Qed.
(** the appendix of the paper: key 00..0f, message 00..0e; meets the hypotheses *)
Example C37_nonvacuous :
  SipHash 2 4 0x0706050403020100 0x0f0e0d0c0b0a0908 [0; 1; 2; 3; 4; 5; 6; 7; 8; 9; 10; 11; 12; 13; 14] = 0xa129ca6149be45e5 /\
  siphash24 true [255; 254] 2 5 (2 ^ 64 - 1) = Ok (SipHash 2 4 5 (2 ^ 64 - 1) [255; 254]).
Proof. split; vm_compute; reflexivity. Qed.

(** ** FNV *)
Lemma fnv_app w p a : forall b v, fnv_loop w p (a ++ b) v = fnv_loop w p b (fnv_loop w p a v).
Proof. induction a; intros; cbn [app fnv_loop]; auto. Qed.
(** C38 chaining, on the exact domain where it holds *)
Theorem C38_chain : forall a b v, hash32 a v <> 0 -> hash32 b (hash32 a v) = hash32 (a ++ b) v.
Proof.
  intros a b v H. unfold hash32 at 1. destruct (Z.eqb_spec (hash32 a v) 0); [contradiction|].
  unfold hash32. rewrite fnv_app. auto.
Qed.
(** FNV-1a offset basis and prime: hash32 without a start value is 32-bit FNV-1a *)
Definition FNV1a_32 (l : list Z) : Z := fold_left (fun h x => (Z.lxor h x * (2 ^ 24 + 2 ^ 8 + 0x93)) mod 2 ^ 32) l 2166136261.
Definition FNV1a_64 (l : list Z) : Z := fold_left (fun h x => (Z.lxor h x * (2 ^ 40 + 2 ^ 8 + 0xb3)) mod 2 ^ 64) l 14695981039346656037.
Theorem C38_fnv1a : forall l, bytes l -> hash32 l 0 = FNV1a_32 l /\ hash64 l 0 = Z.lxor (FNV1a_64 l) (FNV1a_64 l / 2 ^ 32).
Proof.
  assert (forall w p l v, bytes l -> 8 <= w -> fnv_loop w p l v = fold_left (fun h x => (Z.lxor h x * p) mod 2 ^ w) l v) as Q.
  { intros w p. induction l as [|x l IH]; intros v B Hw; auto. apply Forall_cons_iff in B as [Bx B]. cbn [fnv_loop fold_left].
    unfold is_byte in Bx. rewrite (Z.mod_small x). auto. assert (2 ^ 8 <= 2 ^ w) by (apply Z.pow_le_mono_r; lia). lia. }
  intros l B. unfold hash32, hash64. cbn [Z.eqb]. rewrite !Q by (auto; lia). split; [reflexivity|].
  rewrite Z.shiftr_div_pow2 by lia. reflexivity.
Qed.

Lemma mul_odd_inj w p q x y : 0 <= w -> (p * q) mod 2 ^ w = 1 mod 2 ^ w -> word w x -> word w y ->
  (x * p) mod 2 ^ w = (y * p) mod 2 ^ w -> x = y.
Proof.
  intros Hw Hq Hx Hy E.
  assert (M: forall z, word w z -> (((z * p) mod 2 ^ w) * q) mod 2 ^ w = z).
  { intros z Hz. rewrite Zmult_mod_idemp_l. rewrite <- Z.mul_assoc. rewrite <- Zmult_mod_idemp_r, Hq, Zmult_mod_idemp_r, Z.mul_1_r.
    apply Z.mod_small. exact Hz. }
  rewrite <- (M x), <- (M y) by auto. rewrite E. auto.
Qed.
Lemma lxor_inj_l a x y : Z.lxor a x = Z.lxor a y -> x = y.
Proof.
  intros H. assert (Z.lxor a (Z.lxor a x) = Z.lxor a (Z.lxor a y)) as E by congruence.
  rewrite <- !Z.lxor_assoc, Z.lxor_nilpotent, !Z.lxor_0_l in E. auto.
Qed.
Lemma lxor_inj_r a x y : Z.lxor x a = Z.lxor y a -> x = y.
Proof. rewrite !(Z.lxor_comm _ a). apply lxor_inj_l. Qed.

Section Fnv.
Variable w p q : Z.
Hypothesis Hw : 0 <= w.
Hypothesis Hq : (p * q) mod 2 ^ w = 1 mod 2 ^ w.
Lemma fnv_word l : forall v, word w v -> word w (fnv_loop w p l v).
Proof. induction l; intros v Hv; cbn [fnv_loop]; auto. apply IHl. apply word_mod. auto. Qed.
Lemma fnv_inj l : forall v v', word w v -> word w v' -> fnv_loop w p l v = fnv_loop w p l v' -> v = v'.
Proof.
  induction l as [|x l IH]; intros v v' Hv Hv' E; cbn [fnv_loop] in E; auto.
  apply IH in E; try (apply word_mod; auto).
  apply (mul_odd_inj w p q) in E; auto; try (apply word_xor; auto; apply word_mod; auto).
  apply lxor_inj_r in E. auto.
Qed.
Lemma fnv_single a x y b v : word w v -> x mod 2 ^ w <> y mod 2 ^ w ->
  fnv_loop w p (a ++ x :: b) v <> fnv_loop w p (a ++ y :: b) v.
Proof.
  intros Hv N E. rewrite !fnv_app in E. cbn [fnv_loop] in E. pose proof (fnv_word a v Hv) as Ha.
  apply fnv_inj in E; try (apply word_mod; auto).
  apply (mul_odd_inj w p q) in E; auto; try (apply word_xor; auto; apply word_mod; auto).
  apply lxor_inj_l in E. auto.
Qed.
End Fnv.

Lemma fold_xor_inj x y : word 64 x -> word 64 y -> Z.lxor x (Z.shiftr x 32) = Z.lxor y (Z.shiftr y 32) -> x = y.
Proof.
  intros Hx Hy E.
  assert (R: forall z, word 64 z -> let u := Z.lxor z (Z.shiftr z 32) in Z.lxor u (Z.shiftr u 32) = z).
  { intros z Hz u. unfold u. rewrite Z.shiftr_lxor, Z.shiftr_shiftr by lia. change (32 + 32) with 64.
    rewrite (Z.shiftr_div_pow2 z 64) by lia. rewrite (Z.div_small z) by exact Hz. rewrite Z.lxor_0_r, Z.lxor_assoc, Z.lxor_nilpotent, Z.lxor_0_r. auto. }
  rewrite <- (R x Hx), <- (R y Hy). cbv zeta. rewrite E. auto.
Qed.

(** C38 sensitivity: replacing one element by one that differs as an unsigned 32/64-bit value (e.g. any
    two different bytes, or two different signed chars) changes the hash, whatever the start value *)
Theorem C38_sensitive : forall a x y b v,
  (0 <= v < 2 ^ 32 -> x mod 2 ^ 32 <> y mod 2 ^ 32 -> hash32 (a ++ x :: b) v <> hash32 (a ++ y :: b) v) /\
  (0 <= v < 2 ^ 64 -> x mod 2 ^ 64 <> y mod 2 ^ 64 -> hash64 (a ++ x :: b) v <> hash64 (a ++ y :: b) v).
Proof.
  intros a x y b v. split; intros Hv N.
  - unfold hash32. apply (fnv_single 32 16777619 899433627); auto; try lia.
    destruct (v =? 0); [unfold word; lia|exact Hv].
  - unfold hash64. cbv zeta. intros E. 
    assert (Hv': word 64 (if v =? 0 then 14695981039346656037 else v)) by (destruct (v =? 0); [unfold word; lia|exact Hv]).
    apply fold_xor_inj in E; try (apply fnv_word; auto; lia). revert E.
    apply (fnv_single 64 1099511628211 14886173955864302971); auto; try lia.
Qed.
(** corollary for byte and char elements *)
Theorem C38_sensitive_bytes : forall a x y b v, -128 <= x < 256 -> -128 <= y < 256 -> (0 <= x <-> 0 <= y) -> x <> y -> 0 <= v < 2 ^ 32 ->
  hash32 (a ++ x :: b) v <> hash32 (a ++ y :: b) v /\ hash64 (a ++ x :: b) v <> hash64 (a ++ y :: b) v.
Proof.
  intros a x y b v Hx Hy S N Hv. destruct (C38_sensitive a x y b v) as [H1 H2].
  assert (M: forall w, 9 <= w -> x mod 2 ^ w <> y mod 2 ^ w).
  { intros w Hw E. assert (2 ^ 9 <= 2 ^ w) by (apply Z.pow_le_mono_r; lia).
    destruct (Z.leb_spec 0 x).
    - rewrite !Z.mod_small in E by lia. lia.
    - assert (forall z, -128 <= z < 0 -> z mod 2 ^ w = z + 2 ^ w) as Q.
      { intros z Hz. symmetry. apply (Z.mod_unique _ _ (-1)); lia. }
      rewrite !Q in E by lia. lia. }
  split; [apply H1|apply H2]; auto; lia.
Qed.
Example C38_nonvacuous : hash32 [97; 98; 99] 0 = 0x1a47e90b /\ hash32 [98; 99] (hash32 [97] 0) = hash32 [97; 98; 99] 0 /\ hash32 [97] 0 <> 0 /\
  hash64 [97; 98; 99] 0 <> hash64 [97; 98; 100] 0.
Proof. vm_compute. repeat split; congruence. Qed.

(** C38 findings: chaining breaks when the hash of the first part is zero (which happens for four bytes), and
    it does not hold for hash64 *)
Theorem C38_zero_finding : exists a b, bytes a /\ bytes b /\ hash32 a 0 = 0 /\ hash32 b (hash32 a 0) <> hash32 (a ++ b) 0.
Proof.
  exists [0xcc; 0x24; 0x31; 0xc4], [1]. split; [|split]; try (repeat constructor; unfold is_byte; lia). vm_compute. split; congruence.
Qed.
Theorem C38_hash64_chain_finding : exists a b, bytes a /\ bytes b /\ hash64 a 0 <> 0 /\ hash64 b (hash64 a 0) <> hash64 (a ++ b) 0.
Proof. exists [1], [2]. split; [|split]; try (repeat constructor; unfold is_byte; lia). vm_compute. split; congruence. Qed.

Print Assumptions C37_siphash.
Print Assumptions C38_chain.
Print Assumptions C38_fnv1a.
Print Assumptions C38_sensitive.
Print Assumptions C38_sensitive_bytes.
Print Assumptions C38_zero_finding.
Print Assumptions C38_hash64_chain_finding.
