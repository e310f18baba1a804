(** Properties C33-C36: SHA-1, SHA-256, SHA-512 (FIPS 180-4) and HMAC-SHA-256 (RFC 2104).
    The algorithms are specified in ShaSpec.v. *)
Require Import Verif.Common Verif.EndianModel Verif.EndianProps Verif.ItoaModel Verif.ShaModel Verif.ShaSpec Verif.ShaProof Verif.ShaProof2.
Ltac Zify.zify_post_hook ::= idtac.

(** feeding a list of chunks *)
Fixpoint feed (update : sha -> list Z -> res sha) (s : sha) (chunks : list (list Z)) : res sha :=
  match chunks with [] => Ok s | c :: r => let! s := update s c in feed update s r end.

(** a client that hashes several messages with one object: each message is given as the chunks passed
    to update and the last part passed to digest; [again] is what the client does between messages *)
Fixpoint hash_many (update : sha -> list Z -> res sha) (digest : sha -> list Z -> res (list Z * sha)) (again : sha -> sha)
  (s : sha) (msgs : list (list (list Z) * list Z)) : res (list (list Z)) :=
  match msgs with
  | [] => Ok []
  | (chunks, last) :: r =>
    let! s := feed update s chunks in
    let! (d, s) := digest s last in
    let! ds := hash_many update digest again (again s) r in
    Ok (d :: ds)
  end.

Definition msg_of (m : list (list Z) * list Z) : list Z := concat (fst m) ++ snd m.
Definition msg_ok (m : list (list Z) * list Z) : Prop := Forall bytes (fst m) /\ bytes (snd m) /\ zlen (msg_of m) < 2 ^ 61.

Lemma feed_updates bs compress l : forall s, feed (sh_update bs compress) s l = updates bs compress s l.
Proof. induction l; intros; cbn [feed updates]; auto. destruct (sh_update bs compress s a); cbn [bind]; auto. Qed.

Lemma bytes_repeat j n : is_byte j -> bytes (repeat j n).
Proof. intros. apply Forall_forall. intros x Hx. apply repeat_spec in Hx. subst. auto. Qed.

(** ** SHA-1 *)
Notation sc1 := (hash_block 32 sha1_next sha1_round 80).
Notation I1 := (Inv 64 64 sc1 (state 32 5) sha1_H0).
Lemma sha1_state0 : state 32 5 sha1_H0.
Proof. split; auto. unfold sha1_H0. fa; unfold word; lia. Qed.

Lemma sha1_feed little junk l s m : I1 s m -> Forall bytes l -> exists s', feed (sha1_update little junk) s l = Ok s' /\ I1 s' (m ++ concat l).
Proof.
  intros I F. unfold sha1_update. rewrite feed_updates.
  eapply (updates_ok 64 64 _ sc1 (state 32 5) sha1_H0); auto; try lia; try apply sha1_state0.
  intros H p G B L. apply compress1_ok; auto.
Qed.
Lemma sha1_digest_ok little junk s m last : I1 s m -> bytes last -> zlen (m ++ last) < 2 ^ 61 ->
  exists rb, length rb = 64%nat /\ bytes rb /\ sha1_digest little junk s last = Ok (SHA1 (m ++ last), sha1_reset rb).
Proof.
  intros I B L. unfold sha1_digest.
  destruct (sha1_feed little junk [last] s m I) as (s1 & E & I2); [constructor; auto|].
  cbn [feed concat] in E, I2. rewrite app_nil_r in I2.
  destruct (sha1_update little junk s last) as [s2| | |] eqn:E2; try discriminate. cbn [bind] in E |- *. injection E as ->.
  destruct (sh1_term_ok (compress1 little junk) sc1 (state 32 5) sha1_H0) with (little := little) (junk := junk) (s := s1) (m := m ++ last)
    as (s3 & E3 & H3 & B3 & G3); auto.
  { intros H p G Bp Lp. apply compress1_ok; auto. }
  rewrite E3. cbn [bind]. rewrite put32_all; [|apply G3|rewrite repeat_length; lia].
  cbn [bind]. rewrite skipn_all2, app_nil_r by (rewrite repeat_length; lia).
  destruct I2 as (bl & r & _ & _ & _ & _ & _ & _ & _ & Lb & Bb & _).
  exists (s_buf s3). rewrite B3. split; auto. split; auto. do 3 f_equal. rewrite H3. reflexivity.
Qed.
Lemma sha1_I0 rb : length rb = 64%nat -> bytes rb -> I1 (sha1_reset rb) [].
Proof.
  intros. apply (Inv_new 64 64 (fun _ _ => UB) sc1 (state 32 5) sha1_H0); auto; try lia; apply sha1_state0.
Qed.

(** C33: one Sha1 object, any number of messages, any splitting of each into update calls and a final
    digest: every result is the FIPS 180-4 SHA-1 of that message. No reset is needed in between. *)
Theorem C33_sha1 : forall little junk msgs, is_byte junk -> Forall msg_ok msgs ->
  hash_many (sha1_update little junk) (sha1_digest little junk) (fun s => s) (sha1_new junk) msgs =
  Ok (map (fun m => SHA1 (msg_of m)) msgs).
Proof.
  intros little junk msgs Hj F. unfold sha1_new.
  assert (forall rb, length rb = 64%nat -> bytes rb -> hash_many (sha1_update little junk) (sha1_digest little junk) (fun s => s) (sha1_reset rb) msgs =
    Ok (map (fun m => SHA1 (msg_of m)) msgs)) as Q.
  2:{ apply Q; [apply repeat_length|apply bytes_repeat; auto]. }
  induction F as [|[cs la] msgs (F1 & F2 & F3) F IH]; intros rb Lb Bb; auto. cbn [hash_many map].
  destruct (sha1_feed little junk cs _ _ (sha1_I0 rb Lb Bb) F1) as (s1 & -> & I). cbn [bind app] in I |- *.
  destruct (sha1_digest_ok little junk s1 _ la I F2 F3) as (rb2 & L2 & B2 & ->). cbn [bind].
  rewrite (IH rb2 L2 B2). reflexivity.
Qed.

(** ** SHA-256 *)
Notation sc256 := (hash_block 32 (sha2_next 32 s0_256 s1_256) (sha2_round 32 S0_256 S1_256 sha256_K) 64).
Notation I256 := (Inv 64 64 sc256 (state 32 8) sha256_H0).
Lemma sha256_state0 : state 32 8 sha256_H0.
Proof. split; auto. unfold sha256_H0. fa; unfold word; lia. Qed.
Lemma sha256_feed little junk l s m : I256 s m -> Forall bytes l -> exists s', feed (sha256_update little junk) s l = Ok s' /\ I256 s' (m ++ concat l).
Proof.
  intros I F. unfold sha256_update. rewrite feed_updates.
  eapply (updates_ok 64 64 _ sc256 (state 32 8) sha256_H0); auto; try lia; try apply sha256_state0.
  intros H p G B L. apply compress256_ok; auto.
Qed.
Lemma sha256_digest_ok little junk s m md last : I256 s m -> bytes last -> zlen (m ++ last) < 2 ^ 61 -> 32 <= zlen md ->
  exists s', length (s_buf s') = 64%nat /\ bytes (s_buf s') /\
  sha256_digest little junk s md last = Ok (SHA256 (m ++ last) ++ skipn 32 md, 32, s').
Proof.
  intros I B L Hmd. unfold sha256_digest. destruct (Z.ltb_spec (zlen md) 32); [lia|].
  destruct (sha256_feed little junk [last] s m I) as (s1 & E & I2); [constructor; auto|].
  cbn [feed concat] in E, I2. rewrite app_nil_r in I2.
  destruct (sha256_update little junk s last) as [s2| | |] eqn:E2; try discriminate. cbn [bind] in E |- *. injection E as ->.
  destruct (sh2_term_ok 64 64 (compress256 little junk) sc256 (state 32 8) sha256_H0) with (little := little) (lb := 8%nat) (s := s1) (m := m ++ last)
    as (s3 & E3 & H3 & L3 & B3 & G3); auto; try lia.
  { intros H1 p G Bp Lp. apply compress256_ok; auto. }
  change (Z.of_nat 8) with 8 in E3. rewrite E3. cbn [bind].
  rewrite put32_all; [|apply G3|unfold zlen in Hmd; lia]. cbn [bind].
  exists s3. split; auto. split; auto. do 4 f_equal. rewrite H3. reflexivity.
Qed.
Lemma sha256_I0 rb : length rb = 64%nat -> bytes rb -> I256 (sha256_clear rb) [].
Proof. intros. apply (Inv_new 64 64 (fun _ _ => UB) sc256 (state 32 8) sha256_H0); auto; try lia; apply sha256_state0. Qed.

(** digest(buf): std::string version, sha2.hpp:425-430 *)
Definition sha256_digest_str (little : bool) (junk : Z) (s : sha) (last : list Z) : res (list Z * sha) :=
  let! (md, _, s) := sha256_digest little junk s (repeat 0 32) last in Ok (md, s).
Definition sha256_again (s : sha) : sha := sha256_clear (s_buf s).

(** C34: any number of messages with clear() between them, any splitting *)
Theorem C34_sha256 : forall little junk msgs, is_byte junk -> Forall msg_ok msgs ->
  hash_many (sha256_update little junk) (sha256_digest_str little junk) sha256_again (sha256_new junk) msgs =
  Ok (map (fun m => SHA256 (msg_of m)) msgs).
Proof.
  intros little junk msgs Hj F. unfold sha256_new.
  assert (forall rb, length rb = 64%nat -> bytes rb -> hash_many (sha256_update little junk) (sha256_digest_str little junk) sha256_again (sha256_clear rb) msgs =
    Ok (map (fun m => SHA256 (msg_of m)) msgs)) as Q.
  2:{ apply Q; [apply repeat_length|apply bytes_repeat; auto]. }
  induction F as [|[cs la] msgs (F1 & F2 & F3) F IH]; intros rb Lb Bb; auto. cbn [hash_many map].
  destruct (sha256_feed little junk cs _ _ (sha256_I0 rb Lb Bb) F1) as (s1 & -> & I). cbn [bind app] in I |- *.
  unfold sha256_digest_str. fold (sha256_digest_str little junk).
  destruct (sha256_digest_ok little junk s1 _ (repeat 0 32) la I F2 F3) as (s2 & L2 & B2 & ->); [unfold zlen; rewrite repeat_length; lia|]. cbn [bind].
  unfold sha256_again at 2. rewrite (IH (s_buf s2) L2 B2). cbn [bind].
  rewrite skipn_all2, app_nil_r by (rewrite repeat_length; lia). reflexivity.
Qed.
(** C34: digest(md, mdSize, ...) writes exactly the first 32 bytes and returns 32, or does nothing and
    returns 0 when the buffer is too small *)
Theorem C34_digest_buffer : forall little junk chunks last md, is_byte junk -> msg_ok (chunks, last) ->
  exists s, feed (sha256_update little junk) (sha256_new junk) chunks = Ok s /\
  (32 <= zlen md -> exists s', sha256_digest little junk s md last = Ok (SHA256 (concat chunks ++ last) ++ skipn 32 md, 32, s')) /\
  (zlen md < 32 -> sha256_digest little junk s md last = Ok (md, 0, s)).
Proof.
  intros little junk cs la md Hj (F1 & F2 & F3).
  destruct (sha256_feed little junk cs _ _ (sha256_I0 (repeat junk 64) (repeat_length _ _) (bytes_repeat _ _ Hj)) F1) as (s1 & E & I).
  exists s1. split; auto. cbn [app] in I. split; intros L.
  - destruct (sha256_digest_ok little junk s1 _ md la I F2 F3 L) as (s2 & _ & _ & E2). exists s2. exact E2.
  - unfold sha256_digest. destruct (Z.ltb_spec (zlen md) 32); [auto|lia].
Qed.

(** ** SHA-512 *)
Notation sc512 := (hash_block 64 (sha2_next 64 s0_512 s1_512) (sha2_round 64 S0_512 S1_512 sha512_K) 80).
Notation I512 := (Inv 128 128 sc512 (state 64 8) sha512_H0).
Lemma sha512_state0 : state 64 8 sha512_H0.
Proof. split; auto. unfold sha512_H0. fa; unfold word; lia. Qed.
Lemma sha512_feed little junk l s m : I512 s m -> Forall bytes l -> exists s', feed (sha512_update little junk) s l = Ok s' /\ I512 s' (m ++ concat l).
Proof.
  intros I F. unfold sha512_update. rewrite feed_updates.
  eapply (updates_ok 128 128 _ sc512 (state 64 8) sha512_H0); auto; try lia; try apply sha512_state0.
  intros H p G B L. apply compress512_ok; auto.
Qed.
Lemma sha512_digest_ok little junk s m md last : I512 s m -> bytes last -> zlen (m ++ last) < 2 ^ 61 -> 64 <= zlen md ->
  exists s', length (s_buf s') = 128%nat /\ bytes (s_buf s') /\
  sha512_digest little junk s md last = Ok (SHA512 (m ++ last) ++ skipn 64 md, 64, s').
Proof.
  intros I B L Hmd. unfold sha512_digest. destruct (Z.ltb_spec (zlen md) 64); [lia|].
  destruct (sha512_feed little junk [last] s m I) as (s1 & E & I2); [constructor; auto|].
  cbn [feed concat] in E, I2. rewrite app_nil_r in I2.
  destruct (sha512_update little junk s last) as [s2| | |] eqn:E2; try discriminate. cbn [bind] in E |- *. injection E as ->.
  destruct (sh2_term_ok 128 128 (compress512 little junk) sc512 (state 64 8) sha512_H0) with (little := little) (lb := 16%nat) (s := s1) (m := m ++ last)
    as (s3 & E3 & H3 & L3 & B3 & G3); auto; try lia.
  { intros H1 p G Bp Lp. apply compress512_ok; auto. }
  change (Z.of_nat 16) with 16 in E3. rewrite E3. cbn [bind].
  rewrite put64_all; [|apply G3|unfold zlen in Hmd; lia]. cbn [bind].
  exists s3. split; auto. split; auto. do 4 f_equal. rewrite H3. reflexivity.
Qed.
Lemma sha512_I0 rb : length rb = 128%nat -> bytes rb -> I512 (sha512_clear rb) [].
Proof. intros. apply (Inv_new 128 128 (fun _ _ => UB) sc512 (state 64 8) sha512_H0); auto; try lia; apply sha512_state0. Qed.

(** digest(buf): std::string version, sha2.hpp:562-567 *)
Definition sha512_digest_str (little : bool) (junk : Z) (s : sha) (last : list Z) : res (list Z * sha) :=
  let! (md, _, s) := sha512_digest little junk s (repeat 0 64) last in Ok (md, s).
Definition sha512_again (s : sha) : sha := sha512_clear (s_buf s).

(** C35: any number of messages with clear() between them, any splitting *)
Theorem C35_sha512 : forall little junk msgs, is_byte junk -> Forall msg_ok msgs ->
  hash_many (sha512_update little junk) (sha512_digest_str little junk) sha512_again (sha512_new junk) msgs =
  Ok (map (fun m => SHA512 (msg_of m)) msgs).
Proof.
  intros little junk msgs Hj F. unfold sha512_new.
  assert (forall rb, length rb = 128%nat -> bytes rb -> hash_many (sha512_update little junk) (sha512_digest_str little junk) sha512_again (sha512_clear rb) msgs =
    Ok (map (fun m => SHA512 (msg_of m)) msgs)) as Q.
  2:{ apply Q; [apply repeat_length|apply bytes_repeat; auto]. }
  induction F as [|[cs la] msgs (F1 & F2 & F3) F IH]; intros rb Lb Bb; auto. cbn [hash_many map].
  destruct (sha512_feed little junk cs _ _ (sha512_I0 rb Lb Bb) F1) as (s1 & -> & I). cbn [bind app] in I |- *.
  unfold sha512_digest_str. fold (sha512_digest_str little junk).
  destruct (sha512_digest_ok little junk s1 _ (repeat 0 64) la I F2 F3) as (s2 & L2 & B2 & ->); [unfold zlen; rewrite repeat_length; lia|]. cbn [bind].
  unfold sha512_again at 2. rewrite (IH (s_buf s2) L2 B2). cbn [bind].
  rewrite skipn_all2, app_nil_r by (rewrite repeat_length; lia). reflexivity.
Qed.
Theorem C35_digest_buffer : forall little junk chunks last md, is_byte junk -> msg_ok (chunks, last) ->
  exists s, feed (sha512_update little junk) (sha512_new junk) chunks = Ok s /\
  (64 <= zlen md -> exists s', sha512_digest little junk s md last = Ok (SHA512 (concat chunks ++ last) ++ skipn 64 md, 64, s')) /\
  (zlen md < 64 -> sha512_digest little junk s md last = Ok (md, 0, s)).
Proof.
  intros little junk cs la md Hj (F1 & F2 & F3).
  destruct (sha512_feed little junk cs _ _ (sha512_I0 (repeat junk 128) (repeat_length _ _) (bytes_repeat _ _ Hj)) F1) as (s1 & E & I).
  exists s1. split; auto. cbn [app] in I. split; intros L.
  - destruct (sha512_digest_ok little junk s1 _ md la I F2 F3 L) as (s2 & _ & _ & E2). exists s2. exact E2.
  - unfold sha512_digest. destruct (Z.ltb_spec (zlen md) 64); [auto|lia].
Qed.

(** ** the constants of the specification are the ones FIPS 180-4 defines *)
Lemma frac_root_unique e w p k k' : 0 <= w -> 1 <= e -> frac_root e w p k -> frac_root e w p k' -> k = k'.
Proof.
  intros Hw He [Hk (c & Hc & A1 & A2)] [Hk' (c' & Hc' & B1 & B2)].
  assert (P: 0 < 2 ^ w) by (apply Z.pow_pos_nonneg; lia).
  assert (M: forall x y, 0 <= x -> 0 <= y -> x ^ e < y ^ e -> x < y) by (intros x y X Y; apply Z.pow_lt_mono_l_iff; lia).
  assert (c * 2 ^ w + k < c' * 2 ^ w + k' + 1) by (apply M; nia).
  assert (c' * 2 ^ w + k' < c * 2 ^ w + k + 1) by (apply M; nia).
  assert (c * 2 ^ w + k = c' * 2 ^ w + k') as E by lia.
  assert (k = (c * 2 ^ w + k) mod 2 ^ w) as -> by (rewrite Z.add_comm, Z.mod_add, Z.mod_small; lia).
  rewrite E, Z.add_comm, Z.mod_add, Z.mod_small; lia.
Qed.
(** decidable form: c is the integer part of the root of p *)
Fixpoint int_root (fuel : nat) (c e p : Z) : Z :=
  match fuel with O => c | S f => if (c + 1) ^ e <=? p then int_root f (c + 1) e p else c end.
Definition frac_rootb (e w p k : Z) : bool :=
  let x := int_root 20 0 e p * 2 ^ w + k in
  (0 <=? k) && (k <? 2 ^ w) && (x ^ e <=? p * 2 ^ (e * w)) && (p * 2 ^ (e * w) <? (x + 1) ^ e).
Lemma frac_rootb_ok e w p k : frac_rootb e w p k = true -> frac_root e w p k.
Proof.
  unfold frac_rootb, frac_root. cbv zeta. intros H. apply andb_prop in H as [H H3]. apply andb_prop in H as [H H2]. apply andb_prop in H as [H0 H1].
  apply Z.leb_le in H0. apply Z.ltb_lt in H1. split; auto. exists (int_root 20 0 e p).
  apply Z.leb_le in H2. apply Z.ltb_lt in H3. split; auto.
  assert (forall f c, 0 <= c -> 0 <= int_root f c e p) as Q.
  { clear. induction f; intros c Hc; cbn [int_root]; auto. destruct ((c + 1) ^ e <=? p); auto. apply IHf. lia. }
  apply Q. lia.
Qed.
Lemma forall2b {A B} (f : A -> B -> bool) (P : A -> B -> Prop) : (forall a b, f a b = true -> P a b) ->
  forall l l', length l = length l' -> forallb (fun '(a, b) => f a b) (combine l l') = true -> Forall2 P l l'.
Proof.
  intros Hf. induction l as [|a l IH]; intros [|b l'] L H; try discriminate; constructor; cbn [combine forallb] in H; apply andb_prop in H as [H1 H2]; auto.
Qed.
(** SHA-256: first 32 bits of the fractional parts of the square roots of the first 8 primes and the cube
    roots of the first 64; SHA-512: the same with 64 bits and 80 primes *)
Theorem C34_constants : Forall2 (frac_root 2 32) (primes 8) sha256_H0 /\ Forall2 (frac_root 3 32) (primes 64) sha256_K.
Proof.
  split; [apply (forall2b (frac_rootb 2 32))|apply (forall2b (frac_rootb 3 32))];
  try (intros; apply frac_rootb_ok; assumption); vm_compute; reflexivity.
Qed.
Theorem C35_constants : Forall2 (frac_root 2 64) (primes 8) sha512_H0 /\ Forall2 (frac_root 3 64) (primes 80) sha512_K.
Proof.
  split; [apply (forall2b (frac_rootb 2 64))|apply (forall2b (frac_rootb 3 64))];
  try (intros; apply frac_rootb_ok; assumption); vm_compute; reflexivity.
Qed.

(** ** HMAC *)
Lemma xor_bytes_ok x : forall n i pre k, i = zlen pre -> (n <= length k)%nat ->
  xor_bytes n i x (pre ++ k) = Ok (pre ++ xor_all x (firstn n k) ++ skipn n k).
Proof.
  induction n; intros i pre k E L; cbn [xor_bytes]; auto.
  destruct k as [|b k]; cbn [length] in L; [lia|]. rewrite rd_app_exact' by auto. cbn [bind]. rewrite wr_app by auto. cbn [bind].
  rewrite IHn; [|rewrite E, zlen_app; reflexivity|lia]. cbn [firstn skipn xor_all map]. rewrite <- !app_assoc. reflexivity.
Qed.
Lemma xor_byte x y : is_byte x -> is_byte y -> is_byte (Z.lxor x y).
Proof. intros Hx Hy. apply (word_xor 8); auto. lia. Qed.
Lemma xor_all_bytes c l : is_byte c -> bytes l -> bytes (xor_all c l).
Proof. intros Hc. unfold xor_all. induction 1; cbn [map]; constructor; auto. apply xor_byte; auto. Qed.
Lemma hash_msg_shape w bs lb next round n H0 k m : (forall t x v, length v = k -> length (round t x v) = k) -> length H0 = k ->
  length (hash_msg w bs lb next round n H0 m) = (Z.to_nat (w / 8) * k)%nat /\ bytes (hash_msg w bs lb next round n H0 m).
Proof.
  intros Hr L0. unfold hash_msg. generalize (Z.to_nat (w / 8)) as wb. intros wb.
  generalize (blocks (Z.to_nat bs) (pad bs lb m)) as bl. intros bl.
  assert (length (fold_left (hash_block w next round n) bl H0) = k) as L.
  { revert H0 L0. induction bl as [|b bl IH]; intros h L; cbn [fold_left]; auto. apply IH.
    unfold hash_block. cbv zeta. rewrite map_length, combine_length, L.
    generalize (schedule next (n - 16) (words (Z.to_nat (w / 8)) b)) as W. intros W.
    assert (forall l v, length v = k -> length (fold_left (fun v t => round t (nth t W 0) v) l v) = k) as Q2.
    { induction l as [|t l IHl]; intros v Lv; cbn [fold_left]; auto. }
    rewrite Q2 by auto. lia. }
  revert L. generalize (fold_left (hash_block w next round n) bl H0) as h. intros h L. rewrite <- L. clear. split.
  - induction h as [|x h IH]; cbn [flat_map length]; [lia|]. rewrite app_length, be_length. lia.
  - induction h as [|x h IH]; cbn [flat_map]; [constructor|]. apply bytes_app. split; auto. apply be_bytes.
Qed.
Lemma sha2_round_length w S0 S1 K t x v : length v = 8%nat -> length (sha2_round w S0 S1 K t x v) = 8%nat.
Proof. intros L. destruct v as [|? [|? [|? [|? [|? [|? [|? [|? [|? ?]]]]]]]]]; try discriminate L. reflexivity. Qed.
Lemma SHA256_shape m : length (SHA256 m) = 32%nat /\ bytes (SHA256 m).
Proof. exact (hash_msg_shape 32 64 8 _ _ 64 sha256_H0 8 m (sha2_round_length 32 S0_256 S1_256 sha256_K) eq_refl). Qed.
Lemma xor_all_app c a b : xor_all c (a ++ b) = xor_all c a ++ xor_all c b.
Proof. apply map_app. Qed.
Lemma xor_all_repeat c x n : xor_all c (repeat x n) = repeat (Z.lxor x c) n.
Proof. unfold xor_all. induction n; cbn [repeat map]; congruence. Qed.
Lemma xor_all_twice a b l : xor_all a (xor_all b l) = xor_all (Z.lxor b a) l.
Proof. unfold xor_all. rewrite map_map. apply map_ext. intros. apply Z.lxor_assoc. Qed.

(** C36: for every key and message of bytes (message plus one block below 2^61 bytes, key below 2^61), the
    32-byte output buffer receives the RFC 2104 HMAC *)
Theorem C36_hmac : forall little junk out key msg, is_byte junk -> length out = 32%nat -> bytes key -> bytes msg ->
  zlen key < 2 ^ 61 -> zlen msg + 64 < 2 ^ 61 ->
  hmac256 little junk out key msg = Ok (HMAC_SHA256 key msg).
Proof.
  intros little junk out key msg Hj Lout Bk Bm Lk Lm. unfold hmac256. cbv zeta.
  assert (K: exists hash rest, (if 64 <? zlen key then
      let! (d, _, hash) := sha256_digest little junk (sha256_new junk) (firstn 32 (repeat junk 64)) key in
      let! k := memcpy_at (repeat junk 64) 0 d in
      Ok (k, sha256_clear (s_buf hash), 32)
    else let! k := memcpy_at (repeat junk 64) 0 key in Ok (k, sha256_new junk, zlen key)) =
    Ok ((if zlen key <=? 64 then key else SHA256 key) ++ rest, sha256_clear hash, zlen (if zlen key <=? 64 then key else SHA256 key)) /\
    length ((if zlen key <=? 64 then key else SHA256 key) ++ rest) = 64%nat /\ length hash = 64%nat /\ bytes hash).
  { destruct (Z.ltb_spec 64 (zlen key)), (Z.leb_spec (zlen key) 64); try lia.
    - destruct (sha256_digest_ok little junk _ [] (firstn 32 (repeat junk 64)) key
        (sha256_I0 (repeat junk 64) (repeat_length _ _) (bytes_repeat _ _ Hj)) Bk Lk ltac:(unfold zlen; rewrite firstn_length, repeat_length; lia)) as (s1 & L1 & B1 & E1).
      unfold sha256_new. rewrite E1. cbn [bind app].
      change (skipn 32 (firstn 32 (repeat junk 64))) with (@nil Z). rewrite app_nil_r.
      destruct (SHA256_shape key) as [LS BS].
      assert (EM: memcpy_at (repeat junk 64) 0 (SHA256 key) = Ok (SHA256 key ++ repeat junk 32)).
      { change (repeat junk 64) with ([] ++ repeat junk 32 ++ repeat junk 32). rewrite memcpy_exact; auto. }
      rewrite EM. cbn [bind]. exists (s_buf s1), (repeat junk 32). split; [|split; [|auto]].
      + do 2 f_equal. unfold zlen. rewrite LS. reflexivity.
      + rewrite app_length, LS. reflexivity.
    - assert (EM: memcpy_at (repeat junk 64) 0 key = Ok (key ++ repeat junk (64 - length key))).
      { replace (repeat junk 64) with ([] ++ repeat junk (length key) ++ repeat junk (64 - length key))
          by (cbn [app]; rewrite <- repeat_app; f_equal; unfold zlen in *; lia).
        rewrite memcpy_exact by (auto; rewrite repeat_length; auto). auto. }
      rewrite EM. cbn [bind]. exists (repeat junk 64), (repeat junk (64 - length key)). split; auto.
      split; [rewrite app_length, repeat_length; unfold zlen in *; lia|]. split; [apply repeat_length|apply bytes_repeat; auto]. }
  destruct K as (hash & rest & -> & Lkk & Lh & Bh). cbn [bind].
  unfold HMAC_SHA256, hmac_key. cbv zeta.
  assert (BK0: bytes (if zlen key <=? 64 then key else SHA256 key)) by (destruct (zlen key <=? 64); auto; apply SHA256_shape).
  remember (if zlen key <=? 64 then key else SHA256 key) as K0 eqn:EK0. clear EK0.
  rewrite app_length in Lkk.
  pose proof (xor_bytes_ok 54 (length K0) 0 [] (K0 ++ rest) eq_refl ltac:(rewrite app_length; lia)) as X1.
  rewrite firstn_app_exact, skipn_app_exact in X1. cbn [app] in X1. rewrite to_nat_zlen, X1. cbn [bind]. clear X1.
  assert (Lx: length (xor_all 54 K0) = length K0) by apply map_length.
  rewrite memcpy_end; [|unfold zlen; rewrite Lx; auto|rewrite repeat_length; unfold zlen; lia]. cbn [bind].
  assert (EK: xor_all 54 K0 ++ repeat 54 (Z.to_nat (64 - zlen K0)) = xor_all 54 (K0 ++ repeat 0 (64 - length K0))).
  { rewrite xor_all_app, xor_all_repeat. do 2 f_equal. unfold zlen. lia. }
  rewrite EK. clear EK. remember (K0 ++ repeat 0 (64 - length K0)) as K eqn:EK.
  assert (LK: length K = 64%nat) by (rewrite EK, app_length, repeat_length; lia).
  assert (BK: bytes K) by (rewrite EK; apply bytes_app; split; auto; apply bytes_repeat0).
  clear EK.
  assert (B54: is_byte 54) by (unfold is_byte; lia). assert (B92: is_byte 92) by (unfold is_byte; lia).
  (* inner hash *)
  destruct (sha256_feed little junk [xor_all 54 K] _ _ (sha256_I0 hash Lh Bh)) as (s1 & E1 & I1).
  { constructor; auto. apply xor_all_bytes; auto. }
  cbn [feed concat app] in E1, I1. rewrite app_nil_r in I1.
  destruct (sha256_update little junk (sha256_clear hash) (xor_all 54 K)) as [s1'| | |]; try discriminate. cbn [bind] in E1 |- *. injection E1 as ->.
  assert (Z54: zlen (xor_all 54 K) = 64) by (unfold zlen, xor_all; rewrite map_length, LK; auto).
  destruct (sha256_digest_ok little junk s1 _ out msg I1 Bm) as (s2 & L2 & B2 & ->).
  { rewrite zlen_app, Z54. lia. } { unfold zlen. rewrite Lout. lia. }
  cbn [bind]. rewrite skipn_all2, app_nil_r by lia.
  destruct (SHA256_shape (xor_all 54 K ++ msg)) as [LI BI]. remember (SHA256 (xor_all 54 K ++ msg)) as inner eqn:EI.
  pose proof (xor_bytes_ok (Z.lxor 54 92) 64 0 [] (xor_all 54 K) eq_refl ltac:(unfold xor_all; rewrite map_length; lia)) as X2.
  rewrite firstn_all2, skipn_all2 in X2 by (unfold xor_all; rewrite map_length; lia). rewrite app_nil_r in X2. cbn [app] in X2.
  rewrite X2. cbn [bind]. clear X2. rewrite xor_all_twice. change (Z.lxor 54 (Z.lxor 54 92)) with 92.
  (* outer hash *)
  destruct (sha256_feed little junk [xor_all 92 K] _ _ (sha256_I0 (s_buf s2) L2 B2)) as (s3 & E3 & I3).
  { constructor; auto. apply xor_all_bytes; auto. }
  cbn [feed concat app] in E3, I3. rewrite app_nil_r in I3.
  destruct (sha256_update little junk (sha256_clear (s_buf s2)) (xor_all 92 K)) as [s3'| | |]; try discriminate. cbn [bind] in E3 |- *. injection E3 as ->.
  assert (Z92: zlen (xor_all 92 K) = 64) by (unfold zlen, xor_all; rewrite map_length, LK; auto).
  destruct (sha256_digest_ok little junk s3 _ inner inner I3 BI) as (s4 & L4 & B4 & ->).
  { rewrite zlen_app, Z92. unfold zlen. rewrite LI. lia. } { unfold zlen. rewrite LI. lia. }
  cbn [bind]. rewrite skipn_all2, app_nil_r by lia. reflexivity.
Qed.

(** ** non-vacuity: concrete messages meet the hypotheses; the published test vector of "abc" *)
Example C33_nonvacuous : msg_ok ([[97]; []], [98; 99]) /\
  SHA1 (msg_of ([[97]; []], [98; 99])) = [169; 153; 62; 54; 71; 6; 129; 106; 186; 62; 37; 113; 120; 80; 194; 108; 156; 208; 216; 157].
Proof.
  split.
  - assert (forall l, forallb (fun x => (0 <=? x) && (x <? 256)) l = true -> bytes l) as Q.
    { intros l H. apply Forall_forall. intros x Hx. rewrite forallb_forall in H. specialize (H x Hx). unfold is_byte. lia. }
    split; [|split]; [repeat constructor|apply Q; reflexivity|reflexivity]; try (unfold is_byte; lia).
  - vm_compute. reflexivity.
Qed.
Example C34_nonvacuous : SHA256 [97; 98; 99] =
  [186; 120; 22; 191; 143; 1; 207; 234; 65; 65; 64; 222; 93; 174; 34; 35; 176; 3; 97; 163; 150; 23; 122; 156; 180; 16; 255; 97; 242; 0; 21; 173].
Proof. vm_compute. reflexivity. Qed.
Example C35_nonvacuous : firstn 8 (SHA512 [97; 98; 99]) = [0xdd; 0xaf; 0x35; 0xa1; 0x93; 0x61; 0x7a; 0xba].
Proof. vm_compute. reflexivity. Qed.
(** RFC 4231 test case 2: key "Jefe", data "what do ya want for nothing?" *)
Example C36_nonvacuous : firstn 4 (HMAC_SHA256 [74; 101; 102; 101]
  [119; 104; 97; 116; 32; 100; 111; 32; 121; 97; 32; 119; 97; 110; 116; 32; 102; 111; 114; 32; 110; 111; 116; 104; 105; 110; 103; 63]) = [0x5b; 0xdc; 0xc1; 0x46].
Proof. vm_compute. reflexivity. Qed.

(** C34 finding: unlike Sha1::digest, Sha256::digest leaves the object in its final state; a second digest
    without clear() is not the hash of the second message *)
Theorem C34_no_reset_finding : 
  hash_many (sha256_update true 0) (sha256_digest_str true 0) (fun s => s) (sha256_new 0) [([], [97]); ([], [97])] <>
  Ok [SHA256 [97]; SHA256 [97]].
Proof. vm_compute. congruence. Qed.

Print Assumptions C33_sha1.
Print Assumptions C34_sha256.
Print Assumptions C34_digest_buffer.
Print Assumptions C35_sha512.
Print Assumptions C35_digest_buffer.
Print Assumptions C34_constants.
Print Assumptions C35_constants.
Print Assumptions C36_hmac.
Print Assumptions C34_no_reset_finding.
