(** C115: csucvector_smpl accepts every file: its bits survive compression, saving, loading and reading back. *)
Require Import Verif.Common Verif.StreamModel Verif.EndianModel Verif.BitVecModel Verif.BitVecProof Verif.BitVecProps Verif.CSucModel Verif.CSucProps Verif.CSucSampleModel.
Ltac Zify.zify_post_hook ::= idtac.

(** ** Specification: bit i of a file, the lowest bit of the first byte first *)
Definition file_bit (data : list Z) (i : Z) : bool := Z.testbit (nth (Z.to_nat (i / 8)) data 0) (i mod 8).

Lemma of_le_bit l : Forall is_byte l -> forall j, 0 <= j -> Z.testbit (of_le l) j = file_bit l j.
Proof.
  unfold file_bit. induction 1 as [|b l Hb Hl IH]; intros j Hj.
  - cbn [of_le]. rewrite Z.bits_0. destruct (Z.to_nat (j / 8)); cbn; rewrite Z.bits_0; auto.
  - cbn [of_le]. change 256 with (2 ^ 8). rewrite Z.mul_comm, <- Z.shiftl_mul_pow2 by lia.
    assert (b + Z.shiftl (of_le l) 8 = Z.lor b (Z.shiftl (of_le l) 8)) as ->.
    { rewrite Z.add_nocarry_lxor; [rewrite <- Z.lxor_lor; auto|]; apply Z.bits_inj'; intros k Hk; rewrite Z.land_spec, Z.bits_0; (destruct (Z_lt_le_dec k 8); [rewrite Z.shiftl_spec_low by lia; apply andb_false_r | rewrite (small_bit b 8) by (unfold is_byte in Hb; lia); auto]). }
    rewrite Z.lor_spec. destruct (Z_lt_le_dec j 8).
    + rewrite Z.shiftl_spec_low by lia. rewrite Z.div_small, Z.mod_small by lia. cbn. apply orb_false_r.
    + rewrite (small_bit b 8) by (unfold is_byte in Hb; lia). rewrite Z.shiftl_spec_high by lia. cbn [orb]. rewrite IH by lia.
      assert (j / 8 = (j - 8) / 8 + 1) as Q by (replace j with (j - 8 + 1 * 8) at 1 by lia; rewrite Z.div_add by lia; auto). assert ((j - 8) mod 8 = j mod 8) as -> by (replace j with (j - 8 + 1 * 8) at 2 by lia; rewrite Z.mod_add by lia; auto).
      rewrite Q. pose proof (Z.div_pos (j - 8) 8 ltac:(lia) ltac:(lia)). rewrite Z2Nat.inj_add by lia. rewrite Nat.add_comm. reflexivity.
Qed.
Lemma skipn_bytes n (l : list Z) : Forall is_byte l -> Forall is_byte (skipn n l).
Proof. intros H. rewrite <- (firstn_skipn n l) in H. apply Forall_app in H. tauto. Qed.
Lemma firstn_bytes n (l : list Z) : Forall is_byte l -> Forall is_byte (firstn n l).
Proof. intros H. rewrite <- (firstn_skipn n l) in H. apply Forall_app in H. tauto. Qed.
Lemma nth_firstn (l : list Z) n k : (k < n)%nat -> nth k (firstn n l) 0 = nth k l 0.
Proof. revert n l; induction k; intros [|n] [|x l] H; cbn; auto; try lia. apply IHk. lia. Qed.
Lemma nth_skip (l : list Z) n k : nth k (skipn n l) 0 = nth (n + k) l 0.
Proof. revert l; induction n; intros [|x l]; cbn; auto; destruct k; auto. Qed.
Lemma words_nth : forall n data k, (k < n)%nat -> nth k (words_of n data) 0 = of_le (firstn 8 (skipn (8 * k) data)).
Proof.
  induction n; intros data k H; [lia|]. cbn [words_of]. destruct k; [reflexivity|]. cbn [nth]. rewrite IHn by lia. f_equal. f_equal. clear. replace (8 * S k)%nat with (8 + 8 * k)%nat by lia. generalize (8 * k)%nat. clear. generalize 8%nat. intros a b. revert data. induction a; intros [|x data]; cbn; auto. destruct b; auto.
Qed.
Lemma words_len n : forall data, length (words_of n data) = n.
Proof. induction n; intros; cbn; auto. Qed.
Lemma of_le_range l : Forall is_byte l -> 0 <= of_le l < 2 ^ (8 * zlen l).
Proof.
  induction 1 as [|b l Hb Hl IH]; cbn [of_le]; [cbn; lia|]. rewrite zlen_cons. pose proof (zlen_nonneg l). replace (8 * (1 + zlen l)) with (8 + 8 * zlen l) by lia. rewrite Z.pow_add_r by lia. change (2 ^ 8) with 256. unfold is_byte in Hb. lia.
Qed.
Lemma words_ok n : forall data, Forall is_byte data -> Forall word_ok (words_of n data).
Proof.
  induction n; intros data H; cbn [words_of]; constructor; auto using skipn_bytes.
  pose proof (of_le_range (firstn 8 data) (firstn_bytes _ _ H)) as R. unfold word_ok. assert (2 ^ (8 * zlen (firstn 8 data)) <= 2 ^ 64) by (apply Z.pow_le_mono_r; [lia|]; unfold zlen; rewrite firstn_length; lia). lia.
Qed.
(** the mapped words hold the bits of the file, and zeros behind its end *)
Lemma mapped_bit data i : Forall is_byte data -> 0 <= i -> bit_of (mapped_words data) i = file_bit data i.
Proof.
  intros H Hi. unfold bit_of, mapped_words. pose proof (zlen_nonneg data). pose proof (Z.div_pos i 64 Hi ltac:(lia)). pose proof (Z.mod_pos_bound i 64 ltac:(lia)). pose proof (Z.div_mod i 64 ltac:(lia)).
  set (n := Z.to_nat ((zlen data + 7) / 8)). assert (i / 8 = 8 * (i / 64) + (i mod 64) / 8) as Q by (symmetry; apply Z.div_unique with (i mod 8); [left; apply Z.mod_pos_bound; lia|]; pose proof (Z.div_mod (i mod 64) 8 ltac:(lia)); assert ((i mod 64) mod 8 = i mod 8) by (rewrite (Z.div_mod i 64) at 2 by lia; replace (64 * (i / 64) + i mod 64) with (i mod 64 + (8 * (i / 64)) * 8) by lia; rewrite Z.mod_add by lia; auto); lia).
  assert ((i mod 64) mod 8 = i mod 8) as M by (rewrite (Z.div_mod i 64) at 2 by lia; replace (64 * (i / 64) + i mod 64) with (i mod 64 + (8 * (i / 64)) * 8) by lia; rewrite Z.mod_add by lia; auto).
  assert (0 <= (i mod 64) / 8 < 8) as B by (split; [apply Z.div_pos; lia | apply Z.div_lt_upper_bound; lia]).
  destruct (Nat.lt_ge_cases (Z.to_nat (i / 64)) n) as [L|L].
  - rewrite words_nth by auto. rewrite of_le_bit by (auto using firstn_bytes, skipn_bytes; lia). unfold file_bit. rewrite nth_firstn by lia. rewrite nth_skip, M, Q. f_equal. f_equal. lia.
  - rewrite nth_overflow by (rewrite words_len; auto). rewrite Z.bits_0. unfold file_bit. rewrite nth_overflow; [symmetry; apply Z.bits_0|].
    assert (zlen data <= i / 8); [|unfold zlen in *; lia]. rewrite Q. pose proof (Z.div_mod (zlen data + 7) 8 ltac:(lia)). pose proof (Z.mod_pos_bound (zlen data + 7) 8 ltac:(lia)). unfold n in L. lia.
Qed.
Lemma read_ok cv data N : (forall i, 0 <= i < N -> c_get cv i = Ok (file_bit data i)) -> forall n i bv, 0 <= i -> i + Z.of_nat n = N ->
  holds 64 bv N (fun k => (k <? i) && file_bit data k) -> exists bv', read_bits n i cv bv = Ok bv' /\ holds 64 bv' N (file_bit data).
Proof.
  intros G. induction n as [|n IH]; intros i bv Hi Hn H; cbn [read_bits].
  - exists bv. split; auto. eapply holds_ext; [|exact H]. intros k Hk. cbn beta. replace (k <? i) with true by lia. auto.
  - rewrite G by lia. cbn [bind]. destruct (file_bit data i) eqn:E.
    + destruct (set_holds 64 ltac:(lia) bv N _ i H ltac:(lia)) as (bv' & S & H'). rewrite S. cbn [bind]. apply IH; try lia. eapply holds_ext; [|exact H']. intros k Hk. cbn beta. destruct (Z.eqb_spec k i) as [-> |]; [replace (i <? i + 1) with true by lia; auto|]. destruct (Z.ltb_spec k i), (Z.ltb_spec k (i + 1)); auto; lia.
    + cbn [bind]. apply IH; try lia. eapply holds_ext; [|exact H]. intros k Hk. cbn beta. destruct (Z.ltb_spec k i), (Z.ltb_spec k (i + 1)); auto; try lia. replace k with i by lia. auto.
Qed.
Lemma compare_same l : forall n i, 0 <= i -> i + Z.of_nat n = zlen l -> compare_blocks n i l l = Ok None.
Proof. induction n; intros i Hi Hn; cbn [compare_blocks]; auto. rewrite rd_ok by lia. cbn [bind]. rewrite Z.eqb_refl. apply IHn; lia. Qed.

(** * C115 *)
(** every file up to 512 MiB less a little (the limit of C32) ends with status 0, and the bits read back are those of the file *)
Theorem C115_every_file : forall x64 f sched data, 17 <= Z.of_nat f -> Forall is_byte data -> 8 * zlen data <= 2 ^ 32 - 2 ^ 14 - 2 ^ 10 + 1 ->
  exists bv, csucvector_smpl x64 f sched data = Ok (0, bv) /\ bv_len bv = 8 * zlen data /\ forall i, 0 <= i < 8 * zlen data -> bv_get 64 bv i = Ok (file_bit data i).
Proof.
  intros x64 f sched data Hf Hd Hl. pose proof (zlen_nonneg data) as L0. unfold csucvector_smpl. rewrite (Z.mul_comm (zlen data) 8). set (blk := mapped_words data). set (N := 8 * zlen data) in *.
  assert (zlen blk = (zlen data + 7) / 8) as Lb by (unfold blk, mapped_words, zlen at 1; rewrite words_len; pose proof (Z.div_pos (zlen data + 7) 8 ltac:(lia) ltac:(lia)); lia).
  pose proof (Z.div_mod (zlen data + 7) 8 ltac:(lia)) as D1. pose proof (Z.mod_pos_bound (zlen data + 7) 8 ltac:(lia)) as D2.
  assert (blockSize N <= zlen blk) as Hb. { unfold blockSize. assert ((N + 63) / 64 < zlen blk + 1); [|lia]. apply Z.div_lt_upper_bound; lia. }
  assert (Forall word_ok blk) as Wb by (apply words_ok; auto).
  destruct (C32_queries x64 f blk N Hf ltac:(lia) Wb Hb) as (c & I & Q & _). rewrite I. cbn [bind].
  destruct (C32_save_load x64 f blk N c Hf ltac:(lia) Wb Hb I) as (e & S & Ld). rewrite S. cbn [bind]. destruct (Ld [] sched) as (sched' & Ld'). rewrite app_nil_r in Ld'. rewrite Ld'. cbn [bind].
  destruct (resize_holds 64 ltac:(lia) bv_empty _ _ N (rep_empty 64 ltac:(lia)) ltac:(lia)) as (b0 & R & H0). rewrite R. cbn [bind]. assert (bv_len b0 = N) as -> by (destruct H0; auto).
  destruct (read_ok c data N) with (n := Z.to_nat N) (i := 0) (bv := b0) as (bv & Rd & H); try lia.
  { intros i Hi. destruct (Q i Hi) as (-> & _). f_equal. apply mapped_bit; auto. lia. }
  { eapply holds_ext; [|exact H0]. intros i Hi. cbn beta. replace (i <? 0) with false by lia. change (zlen (@nil bool)) with 0. replace (i <? 0) with false by lia. reflexivity. }
  rewrite Rd. cbn [bind]. pose proof H as (A & B & C & D & F).
  assert (bv_v bv = blk) as E.
  { apply (vec_ext 64 ltac:(lia)); auto; [lia|]. intros i Hi. rewrite F by auto. change (vbit 64 blk i) with (bit_of blk i). unfold blk. rewrite mapped_bit by auto. destruct (Z.ltb_spec i N); auto. cbn [andb]. unfold file_bit. rewrite nth_overflow; [symmetry; apply Z.bits_0|].
    assert (zlen data <= i / 8) by (apply Z.div_le_lower_bound; lia). unfold zlen in *. lia. }
  rewrite E. rewrite compare_same by (unfold zlen; lia). cbn [bind]. exists bv. split; auto. split; auto.
  intros i Hi. unfold bv_get. replace (bv_len bv <=? i) with false by lia. unfold GetBlockBit. rewrite E. rewrite rd_ok by (split; [apply Z.div_pos; lia|]; apply Z.div_lt_upper_bound; lia). cbn [bind]. f_equal. rewrite <- (mapped_bit data i Hd) by lia. fold blk. unfold bit_of.
  generalize (nth (Z.to_nat (i / 64)) blk 0). intros x. pose proof (Z.mod_pos_bound i 64 ltac:(lia)). destruct (Z.testbit x (i mod 64)) eqn:T.
  - destruct (Z.eqb_spec (Z.land x (Z.shiftl 1 (i mod 64))) 0) as [Z0|]; auto. exfalso. apply (f_equal (fun y => Z.testbit y (i mod 64))) in Z0. rewrite Z.land_spec, T, Z.shiftl_spec, Z.sub_diag, Z.bits_0 in Z0 by lia. discriminate.
  - replace (Z.land x (Z.shiftl 1 (i mod 64))) with 0; auto. symmetry. apply Z.bits_inj'. intros k Hk. rewrite Z.land_spec, Z.bits_0, Z.shiftl_1_l, Z.pow2_bits_eqb by lia. destruct (Z.eqb_spec (i mod 64) k) as [<- |]; [rewrite T|]; auto using andb_false_r.
Qed.
(** a file of 512 MiB or more is refused: CSucVector throws, and nothing catches it *)
Theorem C115_too_long : forall x64 f sched data, 2 ^ 29 <= zlen data -> csucvector_smpl x64 f sched data = Exn.
Proof. intros x64 f sched data H. unfold csucvector_smpl. rewrite C32_too_long by lia. reflexivity. Qed.
(** the comparison is not vacuous: with other bits in the BitVector the status would be 1 *)
Theorem C115_compares : forall p blk, zlen p <= zlen blk -> compare_blocks (length p) 0 p blk = Ok None -> p = firstn (length p) blk.
Proof.
  intros p blk L E. assert (forall n i, 0 <= i -> i + Z.of_nat n = zlen p -> compare_blocks n i p blk = Ok None -> forall k, i <= k < zlen p -> nth (Z.to_nat k) p 0 = nth (Z.to_nat k) blk 0) as P.
  { induction n; intros i Hi Hn C k Hk; [lia|]. cbn [compare_blocks] in C. rewrite !rd_ok in C by lia. cbn [bind] in C. destruct (Z.eqb_spec (nth (Z.to_nat i) p 0) (nth (Z.to_nat i) blk 0)) as [Ei|]; [|discriminate]. destruct (Z.eq_dec k i) as [-> |]; auto. apply (IHn (i + 1)); auto; lia. }
  apply (nth_ext _ _ 0 0); [rewrite firstn_length; unfold zlen in L; lia|]. intros k Hk. rewrite nth_firstn by auto. specialize (P (length p) 0 ltac:(lia) ltac:(unfold zlen; lia) E (Z.of_nat k) ltac:(unfold zlen; lia)). rewrite Nat2Z.id in P. auto.
Qed.

(** ** the hypotheses are met; a file of eleven bytes comes back *)
Example smpl_run : (let! (st, bv) := csucvector_smpl true 17 [] [1; 2; 255; 0; 0; 0; 0; 7; 9; 128; 77] in Ok (st, bv_len bv, bv_v bv)) = Ok (0, 88, [504403158282207745; 5079049]).
Proof. vm_compute. reflexivity. Qed.
Example smpl_hyp : Forall is_byte [1; 2; 255; 0; 0; 0; 0; 7; 9; 128; 77] /\ 8 * zlen [1; 2; 255; 0; 0; 0; 0; 7; 9; 128; 77] <= 2 ^ 32 - 2 ^ 14 - 2 ^ 10 + 1.
Proof. split; [repeat constructor; unfold is_byte; lia | vm_compute; discriminate]. Qed.

Print Assumptions C115_every_file.
Print Assumptions C115_too_long.
Print Assumptions C115_compares.
