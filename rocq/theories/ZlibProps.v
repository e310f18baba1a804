(** C60: gzip framing and the buffering of include/cybozu/zlib.hpp, for any deflate/inflate that meets zlib's contract *)
Require Import Verif.Common Verif.StreamModel Verif.StreamProps Verif.EndianModel Verif.EndianProps Verif.Text Verif.ZlibModel.

(** ** Specification *)
Definition prefix (a b : list Z) : Prop := exists r, b = a ++ r.
(** RFC 1952: a 32-bit number, least significant byte first *)
Definition le4 (x : Z) : list Z := [x mod 256; x / 256 mod 256; x / 65536 mod 256; x / 16777216 mod 256].
(** RFC 1952 2.3: a member header; bits of FLG: 1 FHCRC, 2 FEXTRA, 3 FNAME, 4 FCOMMENT, 5-7 reserved, must be zero *)
Definition zero_terminated (l : list Z) : Prop := exists s, l = s ++ [0] /\ ~ In 0 s.
Inductive gz_head (h : list Z) : Prop := mk_gh : forall (flg : Z) (mtime : list Z) (xfl os : Z) (extra name comment hcrc : list Z),
  h = [31; 139; 8; flg] ++ mtime ++ [xfl; os] ++ extra ++ name ++ comment ++ hcrc ->
  0 <= flg < 32 ->
  length mtime = 4%nat ->
  (if Z.testbit flg 2 then exists lo hi e, extra = lo :: hi :: e /\ is_byte lo /\ is_byte hi /\ zlen e = lo + 256 * hi else extra = []) ->
  (if Z.testbit flg 3 then zero_terminated name else name = []) ->
  (if Z.testbit flg 4 then zero_terminated comment else comment = []) ->
  (if Z.testbit flg 1 then length hcrc = 2%nat else hcrc = []) -> gz_head h.

(** zlib's contract.  encodes data enc: enc is a complete deflate stream for data. *)
Record deflate_ok {S} (d_init : S) (deflate : S -> list Z -> bool -> Z -> zcall S) (encodes : list Z -> list Z -> Prop)
    (running finishing : S -> list Z -> list Z -> Prop) (bound : Z -> Z) : Prop := {
  (* c: input consumed so far, o: output produced so far *)
  do_init : running d_init [] [];
  do_run : forall z c o inp room, running z c o -> inp <> [] -> 0 < room -> exists k out z',
    deflate z inp false room = (ZOk, k, out, z') /\ (k <= length inp)%nat /\ zlen out <= room /\
    running z' (c ++ firstn k inp) (o ++ out) /\ ((0 < k)%nat \/ out <> []);
  do_fin : forall z c o room, running z c o \/ finishing z c o -> 0 < room -> exists r k out z',
    deflate z [] true room = (r, k, out, z') /\ zlen out <= room /\
    ((r = ZEnd /\ encodes c (o ++ out)) \/ (r = ZOk /\ out <> [] /\ finishing z' c (o ++ out)));
  do_bound : forall z c o, running z c o \/ finishing z c o -> zlen o <= bound (zlen c);
  do_mono : forall a b, 0 <= a <= b -> bound a <= bound b }.
Record inflate_ok {T} (i_init : T) (inflate : T -> list Z -> Z -> zcall T) (encodes : list Z -> list Z -> Prop)
    (at_ : list Z -> list Z -> T -> list Z -> list Z -> bool -> Prop) : Prop := {
  (* decoding enc: c consumed so far, p produced so far, and whether the end was reported *)
  io_init : forall data enc, encodes data enc -> at_ data enc i_init [] [] false;
  io_prefix : forall data enc z c p e, at_ data enc z c p e -> prefix c enc /\ prefix p data /\ (e = true -> c = enc /\ p = data);
  io_step : forall data enc z c p inp room more rest, at_ data enc z c p false -> 0 < room -> c ++ inp ++ more = enc ++ rest ->
    exists ret k out z', inflate z inp room = (ret, k, out, z') /\ (k <= length inp)%nat /\ zlen out <= room /\
    ((ret = ZEnd /\ at_ data enc z' (c ++ firstn k inp) (p ++ out) true) \/
     (ret = ZOk /\ ((0 < k)%nat \/ out <> []) /\ at_ data enc z' (c ++ firstn k inp) (p ++ out) false) \/
     (ret = ZBuf /\ inp = [] /\ c <> enc));
  io_end : forall data enc z c p inp room, at_ data enc z c p true -> 0 < room ->
    exists z', inflate z inp room = (ZEnd, 0%nat, [], z') /\ at_ data enc z' c p true }.

(** ** The header *)
Lemma byte_cases : forall (P : Z -> bool), forallb P (map Z.of_nat (seq 0 256)) = true -> forall b, is_byte b -> P b = true.
Proof. intros P H b Hb. rewrite forallb_forall in H. apply H. apply in_map_iff. exists (Z.to_nat b). unfold is_byte in Hb. split; [lia|]. apply in_seq. lia. Qed.
Lemma flag_bits : forall b, is_byte b ->
  (Z.land b 224 =? 0) = (b <? 32) /\ negb (Z.land b 4 =? 0) = Z.testbit b 2 /\ negb (Z.land b 8 =? 0) = Z.testbit b 3 /\
  negb (Z.land b 16 =? 0) = Z.testbit b 4 /\ negb (Z.land b 2 =? 0) = Z.testbit b 1.
Proof.
  intros b Hb. pose proof (byte_cases (fun b => Bool.eqb (Z.land b 224 =? 0) (b <? 32) && Bool.eqb (negb (Z.land b 4 =? 0)) (Z.testbit b 2) && Bool.eqb (negb (Z.land b 8 =? 0)) (Z.testbit b 3)
    && Bool.eqb (negb (Z.land b 16 =? 0)) (Z.testbit b 4) && Bool.eqb (negb (Z.land b 2 =? 0)) (Z.testbit b 1)) eq_refl b Hb) as H. cbv beta in H.
  repeat (apply andb_true_iff in H; destruct H as [H ?]). repeat match goal with H : Bool.eqb _ _ = true |- _ => apply Bool.eqb_prop in H end. auto.
Qed.
Lemma read1 : forall x r sch, exists sch', read 1 (mk_is (x :: r) sch) = Ok ([x], mk_is r sch').
Proof. intros. destruct (C11_read_exact 1 (x :: r) sch) as [A _]; [lia|]. apply (A [x] r); reflexivity. Qed.
Lemma read1_nil : forall sch, read 1 (mk_is [] sch) = Exn.
Proof. intros. destruct (C11_read_exact 1 [] sch) as [_ B]; [lia|]. apply B. reflexivity. Qed.
Lemma skip_spec : forall n d sch, exists sch', skip n (mk_is d sch) = if (n <=? length d)%nat then Ok (mk_is (skipn n d) sch') else Exn.
Proof.
  intros n. induction n as [|n IH]; intros d sch; cbn [skip]; [exists sch; reflexivity|]. destruct d as [|x d].
  - exists sch. rewrite read1_nil. reflexivity.
  - destruct (read1 x d sch) as [s1 ->]. cbn [bind]. destruct (IH d s1) as [s2 ->]. exists s2. reflexivity.
Qed.
Lemma skipToZero_ok : forall s f r sch, ~ In 0 s -> (length s < f)%nat -> exists sch', skipToZero f (mk_is (s ++ 0 :: r) sch) = Ok (mk_is r sch').
Proof.
  intros s. induction s as [|x s IH]; intros f r sch N L; (destruct f as [|f]; [simpl in L; lia|]); cbn [skipToZero app].
  - destruct (read1 0 r sch) as [s1 ->]. exists s1. reflexivity.
  - destruct (read1 x (s ++ 0 :: r) sch) as [s1 ->]. cbn [bind]. destruct (Z.eqb_spec x 0) as [->|]; [exfalso; apply N; left; auto|]. apply IH; [intros I; apply N; right; auto|simpl in L; lia].
Qed.
Lemma skipToZero_exn : forall s f sch, ~ In 0 s -> (length s < f)%nat -> skipToZero f (mk_is s sch) = Exn.
Proof.
  intros s. induction s as [|x s IH]; intros f sch N L; (destruct f as [|f]; [simpl in L; lia|]); cbn [skipToZero].
  - rewrite read1_nil. reflexivity.
  - destruct (read1 x s sch) as [s1 ->]. cbn [bind]. destruct (Z.eqb_spec x 0) as [->|]; [exfalso; apply N; left; auto|]. apply IH; [intros I; apply N; right; auto|simpl in L; lia].
Qed.
Lemma split_zero : forall l, (exists s r, l = s ++ 0 :: r /\ ~ In 0 s) \/ ~ In 0 l.
Proof.
  intros l. induction l as [|x l [(s & r & -> & N)|N]]; [right; intros []| |].
  - destruct (Z.eq_dec x 0) as [->|D]; left; [exists [], (s ++ 0 :: r); split; [reflexivity|intros []]|exists (x :: s), r; split; [reflexivity|intros [Q|Q]; auto]].
  - destruct (Z.eq_dec x 0) as [->|D]; [left; exists [], l; split; [reflexivity|intros []]|right; intros [Q|Q]; auto].
Qed.
Lemma skipZ_spec : forall d sch, (exists s r sch', d = s ++ 0 :: r /\ ~ In 0 s /\ skipZ (mk_is d sch) = Ok (mk_is r sch')) \/ (~ In 0 d /\ skipZ (mk_is d sch) = Exn).
Proof.
  intros d sch. unfold skipZ. cbn [is_data]. destruct (split_zero d) as [(s & r & -> & N)|N].
  - left. destruct (skipToZero_ok s (S (length (s ++ 0 :: r))) r sch N) as [sch' E]; [rewrite app_length; simpl; lia|]. exists s, r, sch'. auto.
  - right. split; [auto|]. apply skipToZero_exn; auto.
Qed.
Lemma split_zero_unique : forall s r s' r', s ++ 0 :: r = s' ++ 0 :: r' -> ~ In 0 s -> ~ In 0 s' -> s = s' /\ r = r'.
Proof.
  intros s. induction s as [|x s IH]; intros r [|y s'] r' E N N'; cbn in E.
  - injection E as ->. auto.
  - injection E as <- E. exfalso. apply N'. left. auto.
  - injection E as -> E. exfalso. apply N. left. auto.
  - injection E as <- E. destruct (IH r s' r' E) as [-> ->]; auto; intros I; [apply N|apply N']; right; auto.
Qed.

Ltac hd4 := cbn [bind]; match goal with |- context [rd (?a :: ?b :: ?c :: ?d :: ?e) 3] =>
  change (rd (a :: b :: c :: d :: e) 3) with (Ok d); change (rd (a :: b :: c :: d :: e) 0) with (Ok a);
  change (rd (a :: b :: c :: d :: e) 1) with (Ok b); change (rd (a :: b :: c :: d :: e) 2) with (Ok c) end; cbn [bind].
Lemma get16 : forall little lo hi, is_byte lo -> is_byte hi -> Get16bitAsLE little [lo; hi] = Ok (le_value (firstn 2 [lo; hi])).
Proof.
  intros little lo hi Hl Hh. apply (C08_get 2 little [lo; hi]); [left; reflexivity|simpl; lia|]. apply Forall_cons; [auto|]. apply Forall_cons; [auto|constructor].
Qed.
(** a legal header is accepted and exactly it is consumed, whatever the stream returns per read *)
Theorem C60_header : forall little h rest sched, gz_head h -> exists sched', readGzipHeader little (mk_is (h ++ rest) sched) = Ok (mk_is rest sched').
Proof.
  intros little h rest sched [flg mt xfl os extra name comment hcrc -> Hf Hm He Hn Hc Hh].
  destruct mt as [|m0 [|m1 [|m2 [|m3 [|]]]]]; try discriminate. clear Hm.
  assert (E: ([31; 139; 8; flg] ++ [m0; m1; m2; m3] ++ [xfl; os] ++ extra ++ name ++ comment ++ hcrc) ++ rest =
             [31; 139; 8; flg; m0; m1; m2; m3; xfl; os] ++ extra ++ name ++ comment ++ hcrc ++ rest) by (cbn [app]; rewrite <- !app_assoc; reflexivity).
  rewrite E. unfold readGzipHeader. destruct (C11_read_exact 10 ([31; 139; 8; flg; m0; m1; m2; m3; xfl; os] ++ extra ++ name ++ comment ++ hcrc ++ rest) sched) as [A _]; [lia|].
  destruct (A _ _ eq_refl eq_refl) as [s1 ->]. clear A E. hd4. change (31 =? 31) with true. change (139 =? 139) with true. change (8 =? 8) with true.
  destruct (flag_bits flg) as (F1 & F2 & F3 & F4 & F5); [unfold is_byte; lia|]. rewrite F1, F2, F3, F4, F5. destruct (Z.ltb_spec flg 32); [|lia]. cbn [andb].
  assert (X: exists s2, (if Z.testbit flg 2 then let! (xlen, is) := read 2 (mk_is (extra ++ name ++ comment ++ hcrc ++ rest) s1) in let! size := Get16bitAsLE little xlen in skip (Z.to_nat size) is
     else Ok (mk_is (extra ++ name ++ comment ++ hcrc ++ rest) s1)) = Ok (mk_is (name ++ comment ++ hcrc ++ rest) s2)).
  { destruct (Z.testbit flg 2); [|subst extra; eauto]. destruct He as (lo & hi & e & -> & Bl & Bh & Le).
    destruct (C11_read_exact 2 ((lo :: hi :: e) ++ name ++ comment ++ hcrc ++ rest) s1) as [A _]; [lia|]. destruct (A [lo; hi] (e ++ name ++ comment ++ hcrc ++ rest) eq_refl eq_refl) as [s2 ->]. cbn [bind].
    rewrite get16 by auto. cbn [bind firstn]. rewrite !le_value_cons, le_value_nil.
    replace (Z.to_nat (lo + 256 * (hi + 256 * 0))) with (length e) by (unfold zlen in Le; unfold is_byte in *; lia).
    destruct (skip_spec (length e) (e ++ name ++ comment ++ hcrc ++ rest) s2) as [s3 ->]. rewrite app_length. destruct (Nat.leb_spec (length e) (length e + length (name ++ comment ++ hcrc ++ rest))); [|lia].
    rewrite skipn_app_exact. eauto. }
  destruct X as [s2 ->]. cbn [bind].
  assert (Zs: forall (b : bool) l r s, (if b then zero_terminated l else l = []) -> exists s', (if b then skipZ (mk_is (l ++ r) s) else Ok (mk_is (l ++ r) s)) = Ok (mk_is r s')).
  { intros b l r s Hl. destruct b; [|subst l; eauto]. destruct Hl as (t & -> & N). rewrite <- app_assoc. cbn [app]. destruct (skipZ_spec (t ++ 0 :: r) s) as [(t' & r' & s' & Et & N' & ->)|[N' _]].
    - destruct (split_zero_unique _ _ _ _ Et N N') as [_ ->]. eauto.
    - exfalso. apply N'. apply in_or_app. right. left. auto. }
  destruct (Zs _ name (comment ++ hcrc ++ rest) s2 Hn) as [s3 ->]. cbn [bind]. destruct (Zs _ comment (hcrc ++ rest) s3 Hc) as [s4 ->]. cbn [bind].
  destruct (Z.testbit flg 1); [|subst hcrc; eauto]. destruct (skip_spec 2 (hcrc ++ rest) s4) as [s5 ->]. rewrite app_length, Hh.
  destruct (Nat.leb_spec 2 (2 + length rest)); [|lia]. rewrite <- Hh, skipn_app_exact. eauto.
Qed.
(** nothing else is accepted: what was consumed is a legal header; any other input throws, no read goes wrong *)
Theorem C60_header_sound : forall little s sched, bytes s ->
  match readGzipHeader little (mk_is s sched) with
  | Ok is => exists h, gz_head h /\ s = h ++ is_data is
  | Exn => ~ exists h rest, gz_head h /\ s = h ++ rest
  | _ => False
  end.
Proof.
  intros little s sched Bs.
  assert (No: readGzipHeader little (mk_is s sched) = Exn -> ~ exists h rest, gz_head h /\ s = h ++ rest).
  { intros E (h & rest & G & ->). destruct (C60_header little h rest sched G) as [s' Q]. congruence. }
  assert (Main: (exists is, readGzipHeader little (mk_is s sched) = Ok is /\ exists h, gz_head h /\ s = h ++ is_data is) \/ readGzipHeader little (mk_is s sched) = Exn).
  2:{ destruct Main as [(is & -> & H)|E]; [auto|rewrite E in *; auto]. }
  clear No. unfold readGzipHeader. destruct (C11_read_exact 10 s sched) as [A B]; [lia|]. destruct (Z.lt_ge_cases (zlen s) 10) as [L|L]; [rewrite B by lia; right; reflexivity|]. clear B.
  destruct s as [|x0 [|x1 [|x2 [|flg [|m0 [|m1 [|m2 [|m3 [|xfl [|os s]]]]]]]]]]; try (unfold zlen in L; simpl in L; lia). clear L.
  destruct (A [x0; x1; x2; flg; m0; m1; m2; m3; xfl; os] s eq_refl eq_refl) as [s1 ->]. clear A. hd4.
  assert (Bf: is_byte flg) by (do 4 (inversion Bs as [|? ? ? Bs']; subst; clear Bs; rename Bs' into Bs); auto).
  assert (Bs': bytes s) by (do 10 (inversion Bs as [|? ? ? Bs']; subst; clear Bs; rename Bs' into Bs); auto). clear Bs.
  destruct (flag_bits flg Bf) as (F1 & F2 & F3 & F4 & F5). rewrite F1, F2, F3, F4, F5.
  destruct (Z.eqb_spec x0 31) as [->|]; [|right; reflexivity]. destruct (Z.eqb_spec x1 139) as [->|]; [|right; reflexivity]. destruct (Z.eqb_spec x2 8) as [->|]; [|right; reflexivity].
  destruct (Z.ltb_spec flg 32) as [F32|]; [|right; reflexivity]. cbn [andb].
  match goal with |- context [bind ?X _] => set (EX := X) end.
  assert (X: (exists e r s2, EX = Ok (mk_is r s2) /\ s = e ++ r /\ (if Z.testbit flg 2 then exists lo hi e', e = lo :: hi :: e' /\ is_byte lo /\ is_byte hi /\ zlen e' = lo + 256 * hi else e = [])) \/ EX = Exn).
  { unfold EX. destruct (Z.testbit flg 2); [|left; exists [], s, s1; auto]. destruct (C11_read_exact 2 s s1) as [A B]; [lia|]. destruct s as [|lo [|hi s]]; try (rewrite B by reflexivity; right; reflexivity).
    destruct (A [lo; hi] s eq_refl eq_refl) as [s2 ->]. cbn [bind]. inversion Bs' as [|? ? Blo Bs2]; subst. inversion Bs2 as [|? ? Bhi Bs3]; subst.
    rewrite get16 by auto. cbn [bind firstn]. rewrite !le_value_cons, le_value_nil.
    destruct (skip_spec (Z.to_nat (lo + 256 * (hi + 256 * 0))) s s2) as [s3 ->]. destruct (Nat.leb_spec (Z.to_nat (lo + 256 * (hi + 256 * 0))) (length s)); [|right; reflexivity].
    left. exists (lo :: hi :: firstn (Z.to_nat (lo + 256 * (hi + 256 * 0))) s). eexists _, _. split; [reflexivity|]. split; [cbn [app]; rewrite firstn_skipn; reflexivity|].
    exists lo, hi. eexists. split; [reflexivity|]. split; [auto|]. split; [auto|]. rewrite zlen_firstn_le by lia. unfold is_byte in *. lia. }
  destruct X as [(e & r & s2 & -> & -> & He)| ->]; [|right; reflexivity]. cbn [bind].
  assert (Zs: forall (b : bool) d sc, (exists l r' s', (if b then skipZ (mk_is d sc) else Ok (mk_is d sc)) = Ok (mk_is r' s') /\ d = l ++ r' /\ (if b then zero_terminated l else l = [])) \/ (if b then skipZ (mk_is d sc) else Ok (mk_is d sc)) = Exn).
  { intros [|] d sc; [|left; exists [], d, sc; auto]. destruct (skipZ_spec d sc) as [(t & r' & s' & -> & N & ->)|[_ ->]]; [|right; reflexivity].
    left. exists (t ++ [0]), r', s'. split; [auto|]. split; [rewrite <- app_assoc; reflexivity|exists t; auto]. }
  destruct (Zs (Z.testbit flg 3) r s2) as [(nm & r3 & s3 & -> & -> & Hn)| ->]; [|right; reflexivity]. cbn [bind].
  destruct (Zs (Z.testbit flg 4) r3 s3) as [(cm & r4 & s4 & -> & -> & Hc)| ->]; [|right; reflexivity]. cbn [bind].
  assert (Hx: (exists hc r5 s5, (if Z.testbit flg 1 then skip 2 (mk_is r4 s4) else Ok (mk_is r4 s4)) = Ok (mk_is r5 s5) /\ r4 = hc ++ r5 /\ (if Z.testbit flg 1 then length hc = 2%nat else hc = [])) \/ (if Z.testbit flg 1 then skip 2 (mk_is r4 s4) else Ok (mk_is r4 s4)) = Exn).
  { destruct (Z.testbit flg 1); [|left; exists [], r4, s4; auto]. destruct (skip_spec 2 r4 s4) as [s5 ->]. destruct (Nat.leb_spec 2 (length r4)); [|right; reflexivity].
    left. exists (firstn 2 r4), (skipn 2 r4), s5. split; [auto|]. split; [symmetry; apply firstn_skipn|]. rewrite firstn_length. lia. }
  destruct Hx as [(hc & r5 & s5 & -> & -> & Hh)| ->]; [|right; reflexivity].
  left. eexists. split; [reflexivity|]. cbn [is_data]. exists ([31; 139; 8; flg] ++ [m0; m1; m2; m3] ++ [xfl; os] ++ e ++ nm ++ cm ++ hc). split.
  - apply (mk_gh _ flg [m0; m1; m2; m3] xfl os e nm cm hc); auto. unfold is_byte in Bf. lia.
  - cbn [app]. rewrite <- !app_assoc. reflexivity.
Qed.
(** the compressor's own header is one of them; and one with every optional field *)
Theorem C60_own_header : gz_head gz_header.
Proof. apply (mk_gh _ 0 [0; 0; 0; 0] 0 3 [] [] [] []); cbn; auto. lia. Qed.
Example C60_full_header : gz_head ([31; 139; 8; 30] ++ [1; 2; 3; 4] ++ [0; 3] ++ [3; 0; 0; 0; 7] ++ [65; 0] ++ [66; 67; 0] ++ [9; 9]).
Proof.
  apply (mk_gh _ 30 [1; 2; 3; 4] 0 3 [3; 0; 0; 0; 7] [65; 0] [66; 67; 0] [9; 9]); cbn; auto.
  - lia.
  - exists 3, 0, [0; 0; 7]. unfold is_byte. split; [auto|]. split; [lia|]. split; [lia|reflexivity].
  - exists [65]. split; [auto|]. intros [Q|[]]; lia.
  - exists [66; 67]. split; [auto|]. intros [Q|[Q|[]]]; lia.
Qed.

(** ** Compression: the stream is header, a complete deflate stream of everything written, CRC and length modulo 2^32 *)
Lemma lxor_twice : forall a b, Z.lxor (Z.lxor a b) b = a.
Proof. intros. rewrite Z.lxor_assoc, Z.lxor_nilpotent, Z.lxor_0_r. reflexivity. Qed.
Lemma crc_app : forall c a b, zcrc32 (zcrc32 c a) b = zcrc32 c (a ++ b).
Proof. intros. unfold zcrc32. rewrite lxor_twice, fold_left_app. reflexivity. Qed.
Lemma le4_to_le : forall x, to_le 4 x = le4 x.
Proof. intros x. cbn [to_le]. unfold le4. rewrite !Z.div_div by lia. reflexivity. Qed.
Section Compress.
Context {S : Type} (d_init : S) (deflate : S -> list Z -> bool -> Z -> zcall S) (encodes : list Z -> list Z -> Prop)
  (running finishing : S -> list Z -> list Z -> Prop) (bound : Z -> Z) (HD : deflate_ok d_init deflate encodes running finishing bound).
Variable maxBufSize : Z.
Hypothesis Hmax : 0 < maxBufSize.

Lemma write_loop_ok : forall n inp z c o pre, running z c o -> (length inp + Z.to_nat (bound (zlen c + zlen inp) - zlen o) <= n)%nat ->
  exists f0 z' o', running z' (c ++ inp) o' /\ forall fuel, (f0 <= fuel)%nat -> c_write_loop S deflate maxBufSize fuel inp z (pre ++ o) = Ok (z', pre ++ o').
Proof.
  intros n. induction n as [|n IH]; intros inp z c o pre R M.
  - destruct inp as [|x inp]; [|simpl in M; lia]. exists 0%nat, z, o. rewrite app_nil_r. split; [auto|]. intros fuel _. destruct fuel; reflexivity.
  - destruct inp as [|x inp]; [exists 0%nat, z, o; rewrite app_nil_r; split; [auto|]; intros fuel _; destruct fuel; reflexivity|].
    destruct (do_run _ _ _ _ _ _ HD z c o (x :: inp) maxBufSize R ltac:(discriminate) Hmax) as (k & out & z1 & E & Hk & Ho & R1 & P).
    assert (B: zlen (o ++ out) <= bound (zlen c + zlen (x :: inp))).
    { pose proof (do_bound _ _ _ _ _ _ HD z1 _ _ (or_introl R1)) as B1. etransitivity; [exact B1|]. apply (do_mono _ _ _ _ _ _ HD). pose proof (zlen_nonneg (c ++ firstn k (x :: inp))).
      split; [auto|]. rewrite zlen_app, zlen_firstn_le by auto. unfold zlen. lia. }
    destruct (IH (skipn k (x :: inp)) z1 (c ++ firstn k (x :: inp)) (o ++ out) pre R1) as (f0 & z' & o' & R' & F).
    { rewrite skipn_length. rewrite (zlen_app c), zlen_firstn_le by auto. replace (zlen c + Z.of_nat k + zlen (skipn k (x :: inp))) with (zlen c + zlen (x :: inp)) by (unfold zlen; rewrite skipn_length; lia).
      rewrite zlen_app in *. destruct P as [P|P]; [|assert (1 <= zlen out) by (destruct out; [congruence|rewrite zlen_cons; pose proof (zlen_nonneg out); lia])]; pose proof (zlen_nonneg out); lia. }
    exists (Datatypes.S f0), z', o'. split; [rewrite <- app_assoc, firstn_skipn in R'; auto|]. intros fuel Hf. destruct fuel as [|f]; [lia|]. cbn [c_write_loop]. rewrite E.
    rewrite <- app_assoc. apply F. lia.
Qed.
Lemma flush_loop_ok : forall n z c o pre, running z c o \/ finishing z c o -> (Z.to_nat (bound (zlen c) - zlen o) <= n)%nat ->
  exists f0 z' o', encodes c o' /\ forall fuel, (f0 <= fuel)%nat -> c_flush_loop S deflate maxBufSize fuel z (pre ++ o) = Ok (z', pre ++ o').
Proof.
  intros n. induction n as [|n IH]; intros z c o pre R M; destruct (do_fin _ _ _ _ _ _ HD z c o maxBufSize R Hmax) as (r & k & out & z1 & E & Ho & P).
  - destruct P as [[-> P]|(-> & P1 & P2)].
    + exists 1%nat, z1, (o ++ out). split; [auto|]. intros fuel Hf. destruct fuel; [lia|]. cbn [c_flush_loop]. rewrite E, app_assoc. reflexivity.
    + exfalso. pose proof (do_bound _ _ _ _ _ _ HD z1 _ _ (or_intror P2)) as B1. rewrite zlen_app in B1. destruct out; [congruence|]. rewrite zlen_cons in B1. pose proof (zlen_nonneg out). lia.
  - destruct P as [[-> P]|(-> & P1 & P2)].
    + exists 1%nat, z1, (o ++ out). split; [auto|]. intros fuel Hf. destruct fuel; [lia|]. cbn [c_flush_loop]. rewrite E, app_assoc. reflexivity.
    + destruct (IH z1 c (o ++ out) pre (or_intror P2)) as (f0 & z' & o' & En & F).
      { rewrite zlen_app. destruct out; [congruence|]. rewrite zlen_cons. pose proof (zlen_nonneg out). lia. }
      exists (Datatypes.S f0), z', o'. split; [auto|]. intros fuel Hf. destruct fuel as [|f]; [lia|]. cbn [c_flush_loop]. rewrite E, <- app_assoc. apply F. lia.
Qed.
Definition cinv (pre : list Z) (gz : bool) (c : comp S) (data o : list Z) : Prop :=
  c_os S c = pre ++ o /\ running (c_z S c) data o /\ c_flushed S c = false /\ c_gzip S c = gz /\ (gz = true -> c_crc S c = zcrc32 0 data /\ c_total S c = zlen data mod 2 ^ 32).
Lemma writes_ok : forall bufs pre gz c data o, cinv pre gz c data o -> Forall (fun b => zlen b < 2 ^ 31) bufs ->
  exists f0 c' o', cinv pre gz c' (data ++ concat bufs) o' /\ forall fuel, (f0 <= fuel)%nat -> c_writes S deflate maxBufSize fuel c bufs = Ok c'.
Proof.
  intros bufs. induction bufs as [|b bufs IH]; intros pre gz c data o I Hb.
  - exists 0%nat, c, o. cbn [concat]. rewrite app_nil_r. split; auto.
  - inversion Hb as [|? ? Hb1 Hb2]; subst. destruct I as (I1 & I2 & I3 & I4 & I5).
    destruct (write_loop_ok _ b (c_z S c) data o pre I2 (le_n _)) as (f1 & z1 & o1 & R1 & F1).
    destruct (IH pre gz (mk_c S (pre ++ o1) (if gz then zcrc32 (c_crc S c) b else c_crc S c) (if gz then (c_total S c + zlen b) mod 2 ^ 32 else c_total S c) z1 false gz) (data ++ b) o1) as (f2 & c' & o' & I' & F2); [|auto|].
    { split; [reflexivity|]. split; [exact R1|]. split; [reflexivity|]. split; [reflexivity|]. intros ->. destruct (I5 eq_refl) as [-> ->]. cbn [c_crc c_total]. split; [apply crc_app|]. rewrite zlen_app, Zplus_mod_idemp_l. reflexivity. }
    exists (Nat.max f1 f2), c', o'. cbn [concat]. split; [rewrite app_assoc; exact I'|]. intros fuel Hf. cbn [c_writes]. unfold c_write. destruct (Z.leb_spec (2 ^ 31) (zlen b)); [lia|].
    rewrite I1, F1 by lia. cbn [bind]. rewrite I3, I4. apply F2. lia.
Qed.
(** flushed once, the stream is finished: another flush, and the one in the destructor, write nothing and do not fail *)
Theorem C60_flush_once : forall little fuel c c', c_flush S deflate little maxBufSize fuel c = Ok c' ->
  forall fuel', c_flush S deflate little maxBufSize fuel' c' = Ok c'.
Proof.
  intros little fuel c c' E fuel'. assert (F: c_flushed S c' = true).
  { unfold c_flush in E. destruct (c_flushed S c) eqn:F; [congruence|]. destruct (c_flush_loop S deflate maxBufSize fuel (c_z S c) (c_os S c)) as [[z os]| | |]; cbn [bind] in E; try discriminate.
    destruct (c_gzip S c); [|injection E as <-; reflexivity].
    destruct (Set32bitAsLE little (repeat 0 8) (c_crc S c)) as [t| | |]; cbn [bind] in E; try discriminate.
    match type of E with bind ?x _ = _ => destruct x as [t'| | |]; cbn [bind] in E; try discriminate end. injection E as <-; reflexivity. }
  unfold c_flush. rewrite F. reflexivity.
Qed.
Theorem C60_compress : forall little os gzip bufs, Forall (fun b => zlen b < 2 ^ 31) bufs ->
  exists f0 enc, encodes (concat bufs) enc /\ forall fuel, (f0 <= fuel)%nat ->
  compress S d_init deflate little maxBufSize fuel os gzip bufs =
    Ok (os ++ if gzip then gz_header ++ enc ++ le4 (zcrc32 0 (concat bufs)) ++ le4 (zlen (concat bufs) mod 2 ^ 32) else enc).
Proof.
  intros little os gzip bufs Hb.
  destruct (writes_ok bufs (if gzip then os ++ gz_header else os) gzip (c_new S d_init os gzip) [] []) as (f1 & c & o & (I1 & I2 & I3 & I4 & I5) & F1); [|auto|].
  { unfold cinv, c_new. cbn [c_os c_z c_flushed c_gzip c_crc c_total]. rewrite app_nil_r. split; [auto|]. split; [apply (do_init _ _ _ _ _ _ HD)|]. auto. }
  cbn [app] in *. destruct (flush_loop_ok _ (c_z S c) (concat bufs) o (if gzip then os ++ gz_header else os) (or_introl I2) (le_n _)) as (f2 & z' & enc & En & F2).
  exists (Nat.max f1 f2), enc. split; [auto|]. intros fuel Hf. unfold compress. rewrite F1 by lia. cbn [bind]. unfold c_flush. rewrite I3, I1, F2, I4 by lia. cbn [bind].
  destruct gzip; [|reflexivity]. destruct (I5 eq_refl) as [-> ->].
  pose proof (set_le_bytes 4 little (repeat 0 8) (zcrc32 0 (concat bufs))) as S1. cbn [SetLE] in S1. rewrite S1 by (auto; try (simpl; lia); right; left; reflexivity). cbn [bind].
  rewrite at_off_exact by apply to_le_length.
  match goal with |- context [Set32bitAsLE little ?q ?x] => pose proof (set_le_bytes 4 little q x) as S2 end. cbn [SetLE] in S2. rewrite S2 by (auto; try (simpl; lia); right; left; reflexivity). cbn [bind c_os].
  change (skipn 4 (skipn 4 (repeat 0 8))) with (@nil Z). rewrite app_nil_r, !le4_to_le, <- !app_assoc. reflexivity.
Qed.
End Compress.

(** ** Decompression *)
Section Decompress.
Context {T : Type} (i_init : T) (inflate : T -> list Z -> Z -> zcall T) (encodes : list Z -> list Z -> Prop)
  (at_ : list Z -> list Z -> T -> list Z -> list Z -> bool -> Prop) (HI : inflate_ok i_init inflate encodes at_).
Variable maxBufSize : Z.
Hypothesis Hmax : 0 < maxBufSize.
Variable little : bool.

(** total: the bytes after the header; p: what was delivered so far *)
Definition dinv (data enc total : list Z) (d : decomp T) (p : list Z) : Prop :=
  exists c, at_ data enc (d_z T d) c p (isEnd (d_ret T d)) /\ c ++ d_in T d ++ is_data (d_is T d) = total.
Lemma d_loop_ok : forall data enc total more rest, total ++ more = enc ++ rest -> forall fuel size d p, 0 < size -> dinv data enc total d p ->
  (length (d_in T d) + length (is_data (d_is T d)) < fuel)%nat ->
  (exists out d', d_loop T inflate maxBufSize fuel size d = Ok (out, d') /\ dinv data enc total d' (p ++ out) /\ zlen out <= size /\ d_gzip T d' = d_gzip T d /\ d_headRead T d' = d_headRead T d /\
     (out = [] -> p = data /\ prefix enc total)) \/
  (d_loop T inflate maxBufSize fuel size d = Exn /\ prefix total enc /\ total <> enc).
Proof.
  intros data enc total more rest Ht fuel. induction fuel as [|f IH]; intros size d p Hs (c & A & Et) Hf; [lia|]. cbn [d_loop].
  assert (X: exists inp is, (match d_in T d with [] => readSome maxBufSize (d_is T d) | l => (l, d_is T d) end) = (inp, is) /\ inp ++ is_data is = d_in T d ++ is_data (d_is T d) /\ (inp = [] -> is_data is = [])).
  { destruct (d_in T d) as [|x l]; [|eexists _, _; split; [reflexivity|]; split; [reflexivity|discriminate]].
    destruct (readSome_spec maxBufSize (d_is T d) Hmax) as (n & -> & N1 & N2 & N3). eexists _, _. split; [reflexivity|]. cbn [is_data app]. split; [apply firstn_skipn|].
    intros E. destruct (is_data (d_is T d)) as [|x l]; [apply skipn_nil|]. exfalso. specialize (N3 ltac:(discriminate)). destruct n; [lia|discriminate]. }
  destruct X as (inp & is & -> & Ei & Enil). rewrite <- Ei in Et.
  assert (Lf: (length inp + length (is_data is) < S f)%nat) by (apply (f_equal (@length Z)) in Ei; rewrite !app_length in Ei; lia).
  destruct (isEnd (d_ret T d)) eqn:Ee.
  - destruct (io_prefix _ _ _ _ HI _ _ _ _ _ _ A) as (_ & _ & Q). destruct (Q eq_refl) as [-> ->]. assert (Pf: prefix enc total) by (eexists; symmetry; exact Et).
    cbn [andb]. destruct (Z.eqb_spec (zlen inp) 0) as [Z0|Z0].
    + left. eexists _, _. split; [reflexivity|]. rewrite app_nil_r. split; [exists enc; cbn [d_z d_ret d_in d_is]; rewrite Ee; split; [auto|]|].
      * cbn [app]. destruct inp; [exact Et|rewrite zlen_cons in Z0; pose proof (zlen_nonneg inp); lia].
      * cbn [d_gzip d_headRead]. rewrite zlen_nil. split; [lia|]. auto.
    + destruct (io_end _ _ _ _ HI _ _ _ _ _ inp size A Hs) as (z' & -> & A'). left. eexists _, _. split; [reflexivity|]. rewrite app_nil_r. cbn [skipn]. split; [exists enc; cbn [d_z d_ret d_in d_is isEnd]; auto|].
      cbn [d_gzip d_headRead]. rewrite zlen_nil. split; [lia|]. auto.
  - cbn [andb]. assert (Ht': c ++ inp ++ (is_data is ++ more) = enc ++ rest) by (rewrite <- Ht, <- Et, <- !app_assoc; reflexivity).
    destruct (io_step _ _ _ _ HI _ _ _ _ _ inp size _ _ A Hs Ht') as (ret & k & out & z' & -> & Hk & Ho & P).
    assert (Es: forall l, (c ++ firstn k inp) ++ skipn k inp ++ l = c ++ inp ++ l) by (intros l; rewrite <- app_assoc; f_equal; rewrite app_assoc, firstn_skipn; reflexivity).
    destruct P as [[-> A']|[(-> & P & A')|(-> & -> & Nc)]].
    + left. eexists _, _. split; [reflexivity|]. split; [exists (c ++ firstn k inp); cbn [d_z d_ret d_in d_is isEnd]; split; [auto|rewrite Es; auto]|].
      split; [auto|]. split; [auto|]. split; [auto|]. intros ->. destruct (io_prefix _ _ _ _ HI _ _ _ _ _ _ A') as (_ & _ & Q). destruct (Q eq_refl) as [Q1 Q2]. rewrite app_nil_r in Q2.
      split; [auto|]. exists (skipn k inp ++ is_data is). rewrite <- Q1, Es. auto.
    + destruct (Z.eqb_spec (zlen out) 0) as [Z0|Z0].
      * assert (out = []) by (destruct out; [auto|rewrite zlen_cons in Z0; pose proof (zlen_nonneg out); lia]). subst out. rewrite app_nil_r in A'.
        destruct P as [P|P]; [|congruence].
        apply (IH size (mk_d T is z' (skipn k inp) ZOk (d_gzip T d) (d_headRead T d)) p Hs).
        -- exists (c ++ firstn k inp). cbn [d_z d_ret d_in d_is isEnd]. split; [auto|rewrite Es; auto].
        -- cbn [d_in d_is]. rewrite skipn_length. lia.
      * left. eexists _, _. split; [reflexivity|]. split; [exists (c ++ firstn k inp); cbn [d_z d_ret d_in d_is isEnd]; split; [auto|rewrite Es; auto]|].
        split; [auto|]. split; [auto|]. split; [auto|]. intros ->. exfalso. apply Z0. reflexivity.
    + right. split; [reflexivity|]. rewrite (Enil eq_refl) in Et. cbn [app] in Et. rewrite app_nil_r in Et. subst c. destruct (io_prefix _ _ _ _ HI _ _ _ _ _ _ A) as (Q & _). auto.
Qed.

Fixpoint d_reads (d : decomp T) (sizes : list Z) : res (list (list Z) * decomp T) :=
  match sizes with
  | [] => Ok ([], d)
  | n :: r => let! (got, d') := d_readSome T inflate little maxBufSize d n in let! (l, d'') := d_reads d' r in Ok (got :: l, d'')
  end.
Definition legal_size (n : Z) : Prop := 0 < n < 2 ^ 31.
(** ready: the header was read, or there is none *)
Definition dready (d : decomp T) : Prop := d_gzip T d && negb (d_headRead T d) = false.
Definition dfresh (d : decomp T) (h total : list Z) : Prop := d_gzip T d && negb (d_headRead T d) = true /\ d_in T d = [] /\ d_z T d = i_init /\ d_ret T d = ZOk /\ is_data (d_is T d) = h ++ total.
Definition dstate (data enc h total : list Z) (d : decomp T) (p : list Z) : Prop :=
  (dready d /\ dinv data enc total d p) \/ (dfresh d h total /\ gz_head h /\ p = []).
Lemma readSome_ok : forall data enc h total more rest, encodes data enc -> total ++ more = enc ++ rest -> forall d p n, legal_size n -> dstate data enc h total d p ->
  (exists out d', d_readSome T inflate little maxBufSize d n = Ok (out, d') /\ dready d' /\ dinv data enc total d' (p ++ out) /\ zlen out <= n /\ (out = [] -> p = data /\ prefix enc total)) \/
  (d_readSome T inflate little maxBufSize d n = Exn /\ prefix total enc /\ total <> enc).
Proof.
  intros data enc h total more rest He Ht d p n Hn St. unfold d_readSome. unfold legal_size in Hn. destruct (Z.leb_spec (2 ^ 31) n); [lia|].
  assert (X: exists d1, (if d_gzip T d && negb (d_headRead T d) then let! is := readGzipHeader little (d_is T d) in Ok (mk_d T is (d_z T d) (d_in T d) (d_ret T d) (d_gzip T d) true) else Ok d) = Ok d1 /\ dready d1 /\ dinv data enc total d1 p).
  { destruct St as [[R I]|[(F1 & F2 & F3 & F4 & F5) [G ->]]].
    - unfold dready in R. rewrite R. exists d. auto.
    - rewrite F1. destruct (d_is T d) as [dt sc] eqn:Ed. cbn [is_data] in F5. subst dt. destruct (C60_header little h total sc G) as [s' ->]. cbn [bind]. eexists. split; [reflexivity|]. split.
      + unfold dready. cbn [d_gzip d_headRead]. rewrite andb_false_r. reflexivity.
      + exists []. cbn [d_z d_in d_ret d_is is_data]. rewrite F2, F3, F4. split; [apply (io_init _ _ _ _ HI); auto|reflexivity]. }
  destruct X as (d1 & -> & R1 & I1). cbn [bind].
  destruct (d_loop_ok data enc total more rest Ht (2 + length (d_in T d1) + length (is_data (d_is T d1))) n d1 p ltac:(lia) I1 ltac:(lia)) as [(out & d' & -> & I' & L & G1 & G2 & Q)|[-> Q]]; [left|right; auto].
  exists out, d'. split; [auto|]. split; [unfold dready in *; rewrite G1, G2; auto|]. auto.
Qed.
(** what readSome calls may deliver: the chunks are a prefix of the data, within the sizes asked for, and 0 means all was delivered *)
Definition delivered (data : list Z) (p : list Z) (sizes : list Z) (chunks : list (list Z)) : Prop :=
  prefix (p ++ concat chunks) data /\ Forall2 (fun c n => zlen c <= n) chunks sizes /\
  forall i, nth_error chunks i = Some [] -> p ++ concat (firstn i chunks) = data.
Lemma dinv_prefix : forall data enc total d p, dinv data enc total d p -> prefix p data.
Proof. intros data enc total d p (c & A & _). apply (io_prefix _ _ _ _ HI _ _ _ _ _ _ A). Qed.
Lemma reads_ok : forall data enc h rest, encodes data enc -> forall sizes d p, Forall legal_size sizes -> dstate data enc h (enc ++ rest) d p ->
  exists chunks d', d_reads d sizes = Ok (chunks, d') /\ delivered data p sizes chunks /\ dstate data enc h (enc ++ rest) d' (p ++ concat chunks).
Proof.
  intros data enc h rest He sizes. induction sizes as [|n sizes IH]; intros d p Hs St; cbn [d_reads].
  - exists [], d. split; [auto|]. cbn [concat]. rewrite app_nil_r. split; [|auto]. split; [cbn [concat]; rewrite app_nil_r|].
    + destruct St as [[_ I]|(_ & _ & ->)]; [eapply dinv_prefix; eauto|exists data; reflexivity].
    + split; [constructor|]. intros i E. destruct i; discriminate.
  - inversion Hs as [|? ? Hn Hs']; subst. destruct (readSome_ok data enc h (enc ++ rest) [] rest He ltac:(apply app_nil_r) d p n Hn St) as [(out & d1 & -> & R1 & I1 & L & Q)|(_ & (r & E) & N)].
    + cbn [bind]. destruct (IH d1 (p ++ out) Hs' (or_introl (conj R1 I1))) as (chunks & d' & -> & (D1 & D2 & D3) & S'). cbn [bind]. exists (out :: chunks), d'. split; [auto|]. cbn [concat]. rewrite app_assoc. split; [|auto].
      split; [cbn [concat]; rewrite app_assoc; auto|]. split; [constructor; auto|]. intros [|i] E; cbn [nth_error firstn concat] in *.
      * rewrite app_nil_r. apply Q. congruence.
      * rewrite app_assoc. apply D3. auto.
    + exfalso. apply N. rewrite <- app_assoc in E. rewrite <- (app_nil_r enc) in E at 1. apply app_inv_head in E. symmetry in E. apply app_eq_nil in E. destruct E as [-> _]. apply app_nil_r.
Qed.
Definition frame (gzip : bool) (h : list Z) : Prop := if gzip then gz_head h else h = [].
Lemma new_state : forall data enc h gzip total sched, encodes data enc -> frame gzip h -> dstate data enc h total (d_new T i_init (mk_is (h ++ total) sched) gzip) [].
Proof.
  intros data enc h gzip total sched He Hf. destruct gzip; cbn [frame] in Hf.
  - right. split; [|auto]. split; [reflexivity|]. split; [reflexivity|]. split; [reflexivity|]. split; reflexivity.
  - subst h. left. split; [reflexivity|]. exists []. split; [apply (io_init _ _ _ _ HI); auto|reflexivity].
Qed.
(** any header, any chunking of the input, any sizes: exactly the data comes out, and what follows the deflate stream has no influence *)
Theorem C60_decompress : forall data enc h gzip rest sched sizes, encodes data enc -> frame gzip h -> Forall legal_size sizes ->
  exists chunks d', d_reads (d_new T i_init (mk_is (h ++ enc ++ rest) sched) gzip) sizes = Ok (chunks, d') /\ delivered data [] sizes chunks.
Proof.
  intros data enc h gzip rest sched sizes He Hf Hs. destruct (reads_ok data enc h rest He sizes _ [] Hs (new_state _ _ _ _ (enc ++ rest) sched He Hf)) as (chunks & d' & A & B & _). eauto.
Qed.
(** read: exactly the next n bytes, or an exception when the data ends before *)
Lemma read_ok : forall data enc h rest, encodes data enc -> forall fuel size d p, (Z.to_nat size <= fuel)%nat -> size < 2 ^ 31 -> dstate data enc h (enc ++ rest) d p -> forall tl, data = p ++ tl ->
  (size <= zlen tl -> exists d', d_read_loop T inflate little maxBufSize fuel d size = Ok (firstn (Z.to_nat size) tl, d') /\ dstate data enc h (enc ++ rest) d' (p ++ firstn (Z.to_nat size) tl)) /\
  (zlen tl < size -> d_read_loop T inflate little maxBufSize fuel d size = Exn).
Proof.
  intros data enc h rest He fuel. induction fuel as [|f IH]; intros size d p Hf Hs St tl Etl; cbn [d_read_loop].
  - destruct (Z.leb_spec size 0); [|lia]. split; [|pose proof (zlen_nonneg tl); lia]. intros _. exists d. replace (Z.to_nat size) with 0%nat by lia. cbn [firstn]. rewrite app_nil_r. auto.
  - destruct (Z.leb_spec size 0). { split; [|pose proof (zlen_nonneg tl); lia]. intros _. exists d. replace (Z.to_nat size) with 0%nat by lia. cbn [firstn]. rewrite app_nil_r. auto. }
    destruct (readSome_ok data enc h (enc ++ rest) [] rest He ltac:(apply app_nil_r) d p size ltac:(unfold legal_size; lia) St) as [(out & d1 & -> & R1 & I1 & L & Q)|(_ & (r & E) & N)].
    + cbn [bind]. destruct (dinv_prefix _ _ _ _ _ I1) as [tl' Etl']. assert (Et: tl = out ++ tl') by (rewrite Etl in Etl'; rewrite <- app_assoc in Etl'; apply app_inv_head in Etl'; auto).
      destruct (Z.eqb_spec (zlen out) 0) as [Z0|Z0].
      * assert (out = []) by (destruct out; [auto|rewrite zlen_cons in Z0; pose proof (zlen_nonneg out); lia]). subst out. destruct (Q eq_refl) as [-> _].
        assert (tl = []) by (rewrite <- (app_nil_r data) in Etl at 1; apply app_inv_head in Etl; auto). subst tl. split; [rewrite H0, zlen_nil; lia|auto].
      * pose proof (zlen_nonneg out). destruct (IH (size - zlen out) d1 (p ++ out) ltac:(lia) ltac:(lia) (or_introl (conj R1 I1)) tl' ltac:(auto)) as [A B]. rewrite Et, zlen_app. split.
        -- intros Hl. destruct A as (d' & -> & S'); [lia|]. cbn [bind]. exists d'.
           assert (Ef: firstn (Z.to_nat size) (out ++ tl') = out ++ firstn (Z.to_nat (size - zlen out)) tl').
           { rewrite firstn_app, firstn_all2 by (unfold zlen in *; lia). f_equal. f_equal. unfold zlen. lia. }
           rewrite Ef. split; [auto|]. rewrite app_assoc. auto.
        -- intros Hl. rewrite B by lia. reflexivity.
    + exfalso. apply N. rewrite <- app_assoc in E. rewrite <- (app_nil_r enc) in E at 1. apply app_inv_head in E. symmetry in E. apply app_eq_nil in E. destruct E as [-> _]. apply app_nil_r.
Qed.
Theorem C60_read : forall data enc h gzip rest sched n, encodes data enc -> frame gzip h -> 0 <= n < 2 ^ 31 ->
  (n <= zlen data -> exists d', d_read T inflate little maxBufSize (d_new T i_init (mk_is (h ++ enc ++ rest) sched) gzip) n = Ok (firstn (Z.to_nat n) data, d')) /\
  (zlen data < n -> d_read T inflate little maxBufSize (d_new T i_init (mk_is (h ++ enc ++ rest) sched) gzip) n = Exn).
Proof.
  intros data enc h gzip rest sched n He Hf Hn. destruct (read_ok data enc h rest He (Z.to_nat n) n _ [] (le_n _) ltac:(lia) (new_state _ _ _ _ (enc ++ rest) sched He Hf) data eq_refl) as [A B]. split; [|auto].
  intros L. destruct (A L) as (d' & E & _). eauto.
Qed.
(** a stream cut inside the deflate data is always noticed: the chunks are correct, none is empty, and more calls end in an exception *)
Theorem C60_truncated : forall data enc h gzip cut r sched sizes, encodes data enc -> frame gzip h -> Forall legal_size sizes -> enc = cut ++ r -> r <> [] ->
  match d_reads (d_new T i_init (mk_is (h ++ cut) sched) gzip) sizes with
  | Ok (chunks, _) => prefix (concat chunks) data /\ Forall (fun c => c <> []) chunks /\ zlen sizes <= zlen data
  | Exn => True
  | _ => False
  end.
Proof.
  intros data enc h gzip cut r sched sizes He Hf Hs Ec Hr.
  assert (G: forall sizes d p, Forall legal_size sizes -> dstate data enc h cut d p -> match d_reads d sizes with
    | Ok (chunks, _) => prefix (p ++ concat chunks) data /\ Forall (fun c => c <> []) chunks /\ zlen sizes <= zlen (concat chunks) | Exn => True | _ => False end).
  { clear sizes Hs. intros sizes. induction sizes as [|n sizes IH]; intros d p Hs St; cbn [d_reads].
    - cbn [concat]. rewrite app_nil_r. split; [|split; [constructor|rewrite !zlen_nil; lia]]. destruct St as [[_ I]|(_ & _ & ->)]; [eapply dinv_prefix; eauto|exists data; reflexivity].
    - inversion Hs as [|? ? Hn Hs']; subst. destruct (readSome_ok data (cut ++ r) h cut r [] He ltac:(rewrite app_nil_r; auto) d p n Hn St) as [(out & d1 & -> & R1 & I1 & L & Q)|[-> _]]; [|exact Logic.I].
      cbn [bind]. assert (No: out <> []). { intros ->. destruct (Q eq_refl) as [_ [q E]]. rewrite <- app_assoc in E. rewrite <- (app_nil_r cut) in E at 1. apply app_inv_head in E. symmetry in E. apply app_eq_nil in E. destruct E. auto. }
      specialize (IH d1 (p ++ out) Hs' (or_introl (conj R1 I1))). destruct (d_reads d1 sizes) as [[chunks d']| | |]; cbn [bind]; auto. destruct IH as (A & B & C). cbn [concat]. split; [rewrite app_assoc; auto|]. split; [constructor; auto|].
      rewrite zlen_cons, zlen_app. destruct out; [congruence|]. rewrite zlen_cons. pose proof (zlen_nonneg out). lia. }
  specialize (G sizes _ [] Hs (new_state data enc h gzip cut sched He Hf)). destruct (d_reads _ sizes) as [[chunks d']| | |]; auto. destruct G as ([q A] & B & C). cbn [app] in A. split; [exists q; auto|]. split; [auto|].
  apply (f_equal zlen) in A. rewrite zlen_app in A. pose proof (zlen_nonneg q). lia.
Qed.
End Decompress.

(** ** Both ways: what was compressed comes back, whatever the buffering on either side *)
Theorem C60_round_trip : forall {S T} (d_init : S) deflate (i_init : T) inflate encodes running finishing bound at_ room1 room2 little1 little2,
  deflate_ok d_init deflate encodes running finishing bound -> inflate_ok i_init inflate encodes at_ -> 0 < room1 -> 0 < room2 ->
  forall gzip bufs, Forall (fun b => zlen b < 2 ^ 31) bufs -> exists f0 stream,
  (forall fuel, (f0 <= fuel)%nat -> compress S d_init deflate little1 room1 fuel [] gzip bufs = Ok stream) /\
  (forall sched rest sizes, Forall legal_size sizes -> exists chunks d',
     d_reads inflate room2 little2 (d_new T i_init (mk_is (stream ++ rest) sched) gzip) sizes = Ok (chunks, d') /\ delivered (concat bufs) [] sizes chunks) /\
  (forall sched rest, zlen (concat bufs) < 2 ^ 31 -> exists d',
     d_read T inflate little2 room2 (d_new T i_init (mk_is (stream ++ rest) sched) gzip) (zlen (concat bufs)) = Ok (concat bufs, d')).
Proof.
  intros S T d_init deflate i_init inflate encodes running finishing bound at_ room1 room2 little1 little2 HD HI R1 R2 gzip bufs Hb.
  destruct (C60_compress d_init deflate encodes running finishing bound HD room1 R1 little1 [] gzip bufs Hb) as (f0 & enc & He & F). cbn [app] in F.
  exists f0. eexists. split; [exact F|].
  assert (X: exists h tl, frame gzip h /\ (if gzip then gz_header ++ enc ++ le4 (zcrc32 0 (concat bufs)) ++ le4 (zlen (concat bufs) mod 2 ^ 32) else enc) = h ++ enc ++ tl).
  { destruct gzip; [exists gz_header; eexists; split; [apply C60_own_header|reflexivity]|]. exists [], []. split; [reflexivity|rewrite app_nil_r; reflexivity]. }
  destruct X as (h & tl & Hf & ->). split.
  - intros sched rest sizes Hs. rewrite <- !app_assoc. apply (C60_decompress i_init inflate encodes at_ HI room2 R2 little2); auto.
  - intros sched rest L. rewrite <- !app_assoc. destruct (C60_read i_init inflate encodes at_ HI room2 R2 little2 (concat bufs) enc h gzip (tl ++ rest) sched (zlen (concat bufs)) He Hf) as [A _].
    + split; [apply zlen_nonneg|auto].
    + destruct (A ltac:(lia)) as [d' E]. exists d'. rewrite E, to_nat_zlen, firstn_all. reflexivity.
Qed.
(** finding: the CRC and length after the data are never looked at: with any bytes there the data is returned as if intact *)
Theorem C60_trailer_unverified_finding : forall {T} (i_init : T) inflate encodes at_ room little, inflate_ok i_init inflate encodes at_ -> 0 < room ->
  forall data enc h trailer sched, encodes data enc -> gz_head h -> zlen data < 2 ^ 31 ->
  exists d', d_read T inflate little room (d_new T i_init (mk_is (h ++ enc ++ trailer) sched) true) (zlen data) = Ok (data, d').
Proof.
  intros T i_init inflate encodes at_ room little HI R data enc h trailer sched He Hh L.
  destruct (C60_read i_init inflate encodes at_ HI room R little data enc h true trailer sched (zlen data) He Hh) as [A _]; [split; [apply zlen_nonneg|auto]|].
  destruct (A ltac:(lia)) as [d' E]. exists d'. rewrite E, to_nat_zlen, firstn_all. reflexivity.
Qed.

(** ** The contracts can be met: a toy codec that writes 1,b for a byte b and 0 at the end, one byte per call *)
Definition toy_flat (l : list Z) : list Z := flat_map (fun b => [1; b]) l.
Definition toy_encodes (data enc : list Z) : Prop := enc = toy_flat data ++ [0].
Definition toy_deflate (z : list Z) (inp : list Z) (fin : bool) (room : Z) : zcall (list Z) :=
  match z with
  | x :: r => (ZOk, 0%nat, [x], r)
  | [] => if fin then (ZEnd, 0%nat, [0], []) else match inp with b :: _ => (ZOk, 1%nat, [], [1; b]) | [] => (ZBuf, 0%nat, [], []) end
  end.
Inductive toy_state := TNeed | TByte | TDone.
Definition toy_inflate (z : toy_state) (inp : list Z) (room : Z) : zcall toy_state :=
  match z, inp with
  | TDone, _ => (ZEnd, 0%nat, [], TDone)
  | _, [] => (ZBuf, 0%nat, [], z)
  | TNeed, x :: _ => if x =? 0 then (ZEnd, 1%nat, [], TDone) else (ZOk, 1%nat, [], TByte)
  | TByte, b :: _ => (ZOk, 1%nat, [b], TNeed)
  end.
Definition toy_running (z c o : list Z) : Prop := o ++ z = toy_flat c.
Lemma toy_flat_len : forall l, zlen (toy_flat l) = 2 * zlen l.
Proof. intros l. induction l as [|x l IH]; [reflexivity|]. unfold toy_flat in *. cbn [flat_map]. rewrite zlen_app, IH, !zlen_cons, zlen_nil. lia. Qed.
Lemma toy_flat_app : forall a b, toy_flat (a ++ b) = toy_flat a ++ toy_flat b.
Proof. intros. apply flat_map_app. Qed.
Theorem toy_deflate_ok : deflate_ok [] toy_deflate toy_encodes toy_running toy_running (fun n => 2 * n).
Proof.
  constructor.
  - reflexivity.
  - intros z c o inp room R N Hr. destruct z as [|x z]; cbn [toy_deflate].
    + destruct inp as [|b inp]; [congruence|]. eexists _, _, _. split; [reflexivity|]. split; [simpl; lia|]. split; [rewrite zlen_nil; lia|]. split; [|left; lia].
      unfold toy_running in *. rewrite app_nil_r in *. cbn [firstn]. rewrite toy_flat_app, R. reflexivity.
    + eexists _, _, _. split; [reflexivity|]. split; [lia|]. split; [rewrite zlen_cons, zlen_nil; lia|]. split; [|right; discriminate].
      unfold toy_running in *. cbn [firstn]. rewrite app_nil_r, <- app_assoc. exact R.
  - intros z c o room R Hr. assert (R': toy_running z c o) by tauto. clear R. unfold toy_running in *. destruct z as [|x z]; cbn [toy_deflate].
    + eexists _, _, _, _. split; [reflexivity|]. split; [rewrite zlen_cons, zlen_nil; lia|]. left. split; [auto|]. unfold toy_encodes. rewrite app_nil_r in R'. rewrite R'. reflexivity.
    + eexists _, _, _, _. split; [reflexivity|]. split; [rewrite zlen_cons, zlen_nil; lia|]. right. split; [auto|]. split; [discriminate|]. rewrite <- app_assoc. exact R'.
  - intros z c o R. assert (R': toy_running z c o) by tauto. unfold toy_running in R'. apply (f_equal zlen) in R'. rewrite zlen_app, toy_flat_len in R'. pose proof (zlen_nonneg z). lia.
  - intros. lia.
Qed.
Definition toy_at (data enc : list Z) (z : toy_state) (c p : list Z) (e : bool) : Prop :=
  toy_encodes data enc /\ exists tl, data = p ++ tl /\ match z, e with
  | TNeed, false => c = toy_flat p
  | TByte, false => c = toy_flat p ++ [1] /\ tl <> []
  | TDone, true => c = enc /\ tl = []
  | _, _ => False
  end.
Theorem toy_inflate_ok : inflate_ok TNeed toy_inflate toy_encodes toy_at.
Proof.
  constructor.
  - intros data enc E. split; [auto|]. exists data. auto.
  - intros data enc z c p e (E & tl & D & X). unfold toy_encodes in E. destruct z, e; try tauto.
    + subst c data enc. split; [|split; [exists tl; auto|discriminate]]. rewrite toy_flat_app, <- app_assoc. eexists; reflexivity.
    + destruct X as [-> N]. subst data enc. split; [|split; [exists tl; auto|discriminate]]. destruct tl as [|b tl]; [congruence|]. rewrite toy_flat_app. exists (b :: toy_flat tl ++ [0]). unfold toy_flat at 2. cbn [flat_map]. rewrite <- !app_assoc. reflexivity.
    + destruct X as [-> ->]. rewrite app_nil_r in D. subst p. split; [exists []; rewrite app_nil_r; auto|]. split; [exists []; rewrite app_nil_r; auto|auto].
  - intros data enc z c p inp room more rest (E & tl & D & X) Hr Hc. unfold toy_encodes in E. destruct z; try tauto; cbn [toy_inflate].
    + subst c data. rewrite toy_flat_app in E. rewrite E, <- !app_assoc in Hc. apply app_inv_head in Hc. destruct inp as [|x inp].
      * eexists _, _, _, _. split; [reflexivity|]. split; [lia|]. split; [rewrite zlen_nil; lia|]. right. right. split; [auto|]. split; [auto|]. rewrite E. intros A. apply (f_equal zlen) in A. rewrite !zlen_app, toy_flat_len, toy_flat_len, zlen_cons, zlen_nil in A. pose proof (zlen_nonneg tl). lia.
      * destruct tl as [|b tl].
        -- cbn [toy_flat flat_map app] in Hc. injection Hc as -> _. cbn [Z.eqb]. eexists _, _, _, _. split; [reflexivity|]. split; [simpl; lia|]. split; [rewrite zlen_nil; lia|]. left. split; [auto|]. split; [unfold toy_encodes; rewrite toy_flat_app; exact E|]. exists []. rewrite !app_nil_r. split; [auto|]. split; [|auto].
           rewrite E. unfold toy_flat at 3. cbn [firstn flat_map]. rewrite app_nil_r. reflexivity.
        -- cbn [toy_flat flat_map app] in Hc. injection Hc as -> _. cbn [Z.eqb]. eexists _, _, _, _. split; [reflexivity|]. split; [simpl; lia|]. split; [rewrite zlen_nil; lia|]. right. left. split; [auto|]. split; [left; lia|]. split; [unfold toy_encodes; rewrite toy_flat_app; exact E|]. exists (b :: tl). rewrite app_nil_r. split; [auto|]. split; [reflexivity|discriminate].
    + destruct X as [-> N]. subst data. rewrite toy_flat_app in E. rewrite E, <- !app_assoc in Hc. apply app_inv_head in Hc. destruct tl as [|b tl]; [congruence|]. destruct inp as [|x inp].
      * eexists _, _, _, _. split; [reflexivity|]. split; [lia|]. split; [rewrite zlen_nil; lia|]. right. right. split; [auto|]. split; [auto|]. rewrite E. intros A. apply (f_equal zlen) in A. rewrite !zlen_app, toy_flat_len, toy_flat_len, !zlen_cons, zlen_nil in A. pose proof (zlen_nonneg tl). lia.
      * cbn [toy_flat flat_map app] in Hc. injection Hc as -> _. eexists _, _, _, _. split; [reflexivity|]. split; [simpl; lia|]. split; [rewrite zlen_cons, zlen_nil; lia|]. right. left. split; [auto|]. split; [left; lia|]. split; [unfold toy_encodes; rewrite toy_flat_app; exact E|]. exists tl. rewrite <- app_assoc. split; [reflexivity|].
        rewrite toy_flat_app, <- app_assoc. reflexivity.
  - intros data enc z c p inp room A Hr. pose proof A as (E & tl & D & X). destruct z; try tauto. exists TDone. split; [destruct inp; reflexivity|auto].
Qed.
(** the published check value, and a whole life with the toy codec *)
Example C60_crc_check : zcrc32 0 (str "123456789") = 3421780262.
Proof. vm_compute. reflexivity. Qed.
Example C60_toy_stream : compress (list Z) [] toy_deflate true 7 20 [] true [[65]; [66; 67]] =
  Ok (gz_header ++ [1; 65; 1; 66; 1; 67; 0] ++ le4 (zcrc32 0 [65; 66; 67]) ++ [3; 0; 0; 0]).
Proof. vm_compute. reflexivity. Qed.
Example C60_toy_back : forall sched rest, exists d', d_read toy_state toy_inflate true 5 (d_new toy_state TNeed (mk_is ((gz_header ++ [1; 65; 1; 66; 1; 67; 0]) ++ rest) sched) true) 3 = Ok ([65; 66; 67], d').
Proof.
  intros sched rest. rewrite <- app_assoc. apply (C60_trailer_unverified_finding TNeed toy_inflate toy_encodes toy_at 5 true toy_inflate_ok ltac:(lia) [65; 66; 67] [1; 65; 1; 66; 1; 67; 0] gz_header rest sched eq_refl C60_own_header eq_refl).
Qed.
Example C60_toy_round_trip := fun gzip bufs => C60_round_trip [] toy_deflate TNeed toy_inflate toy_encodes toy_running toy_running _ toy_at 2048 2048 true true toy_deflate_ok toy_inflate_ok eq_refl eq_refl gzip bufs.
Print Assumptions C60_header. Print Assumptions C60_header_sound. Print Assumptions C60_flush_once.
Print Assumptions C60_compress. Print Assumptions C60_decompress. Print Assumptions C60_read. Print Assumptions C60_truncated.
Print Assumptions C60_round_trip. Print Assumptions C60_trailer_unverified_finding. Print Assumptions toy_deflate_ok. Print Assumptions toy_inflate_ok.
