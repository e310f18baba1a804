(** Property C08 (endian.hpp). *)
Require Import Verif.Common Verif.EndianModel.

(** Specification: value of a byte string, most / least significant byte first. *)
Definition le_value (bs : list Z) : Z := fold_right (fun b a => b + 256 * a) 0 bs.
Definition be_value (bs : list Z) : Z := fold_left (fun a b => a * 256 + b) bs 0.

Lemma le_value_cons x l : le_value (x :: l) = x + 256 * le_value l.
Proof. reflexivity. Qed.
Lemma le_value_nil : le_value [] = 0.
Proof. reflexivity. Qed.

Lemma of_le_value bs : of_le bs = le_value bs.
Proof. induction bs; simpl; auto. Qed.

Lemma le_value_app a b : le_value (a ++ b) = le_value a + 256 ^ zlen a * le_value b.
Proof.
  induction a as [|x a IH]; cbn [app].
  - rewrite zlen_nil, le_value_nil. lia.
  - rewrite !le_value_cons, IH, zlen_cons, Z.pow_add_r by (try lia; apply zlen_nonneg). lia.
Qed.

Lemma be_le bs : be_value bs = le_value (rev bs).
Proof.
  unfold be_value. rewrite <- fold_left_rev_right. unfold le_value.
  induction (rev bs) as [|x l IH]; auto. cbn [fold_right]. rewrite IH. lia.
Qed.

Lemma to_le_length n : forall x, length (to_le n x) = n.
Proof. induction n; intros; simpl; auto. Qed.
Lemma to_le_bytes n : forall x, bytes (to_le n x).
Proof. induction n; intros; simpl; constructor. unfold is_byte; lia. apply IHn. Qed.
Lemma le_bounds bs : bytes bs -> 0 <= le_value bs < 256 ^ zlen bs.
Proof.
  induction 1 as [|x l Hx Hl IH].
  - vm_compute. split; congruence.
  - rewrite zlen_cons, Z.pow_add_r by (try lia; apply zlen_nonneg). change (256 ^ 1) with 256.
    rewrite le_value_cons. unfold is_byte in Hx. lia.
Qed.
Lemma to_le_value n : forall x, le_value (to_le n x) = x mod 256 ^ Z.of_nat n.
Proof.
  induction n; intros x.
  - simpl. rewrite Z.mod_1_r. reflexivity.
  - cbn [to_le]. rewrite le_value_cons, IHn.
    rewrite Nat2Z.inj_succ, Z.pow_succ_r by lia.
    rewrite Z.rem_mul_r by (try apply Z.pow_pos_nonneg; lia). lia.
Qed.
Lemma to_le_of bs : bytes bs -> to_le (length bs) (le_value bs) = bs.
Proof.
  induction 1 as [|x l Hx Hl IH]; auto. cbn [length to_le]. rewrite le_value_cons.
  unfold is_byte in Hx. f_equal; [lia|].
  replace ((x + 256 * le_value l) / 256) with (le_value l) by lia. exact IH.
Qed.

Lemma land_disjoint a b n : 0 <= n -> 0 <= a < 2 ^ n -> Z.land a (b * 2 ^ n) = 0.
Proof.
  intros Hn Ha. apply Z.bits_inj'. intros i Hi. rewrite Z.land_spec, Z.bits_0.
  destruct (Z_lt_le_dec i n).
  - rewrite Z.mul_pow2_bits_low by lia. apply andb_false_r.
  - rewrite <- (Z.mod_small a (2 ^ n)) by lia. rewrite Z.mod_pow2_bits_high by lia. reflexivity.
Qed.
Lemma lor_add a b n : 0 <= n -> 0 <= a < 2 ^ n -> 0 <= b -> Z.lor a (Z.shiftl b n) = a + 2 ^ n * b.
Proof.
  intros Hn Ha Hb. rewrite Z.shiftl_mul_pow2 by lia. rewrite (Z.mul_comm (2 ^ n) b).
  rewrite <- Z.lxor_lor by (apply land_disjoint; auto).
  symmetry. apply Z.add_nocarry_lxor. apply land_disjoint; auto.
Qed.

Lemma byteSwap_value n x : byteSwap n x = be_value (to_le n x).
Proof. unfold byteSwap. rewrite of_le_value, be_le. reflexivity. Qed.

Lemma peek_ok n p : (n <= length p)%nat -> peek n p = Ok (firstn n p).
Proof. intros H. unfold peek. destruct (Nat.ltb_spec (length p) n); [lia|auto]. Qed.

(** The theorem about reading, for every build. [size] is 2, 4 or 8. *)
Definition GetLE (size : nat) : bool -> list Z -> res Z :=
  match size with 2%nat => Get16bitAsLE | 4%nat => Get32bitAsLE | _ => Get64bitAsLE end.
Definition GetBE (size : nat) : bool -> list Z -> res Z :=
  match size with 2%nat => Get16bitAsBE | 4%nat => Get32bitAsBE | _ => Get64bitAsBE end.
Definition SetLE (size : nat) : bool -> list Z -> Z -> res (list Z) :=
  match size with 2%nat => Set16bitAsLE | 4%nat => Set32bitAsLE | _ => Set64bitAsLE end.
Definition SetBE (size : nat) : bool -> list Z -> Z -> res (list Z) :=
  match size with 2%nat => Set16bitAsBE | 4%nat => Set32bitAsBE | _ => Set64bitAsBE end.
Definition word_size (size : nat) : Prop := size = 2%nat \/ size = 4%nat \/ size = 8%nat.

Lemma get16le_port p : (2 <= length p)%nat -> bytes p -> Get16bitAsLE false p = Ok (le_value (firstn 2 p)).
Proof.
  intros L B. destruct p as [|a [|b p]]; simpl in L; try lia.
  apply Forall_cons_iff in B as [Ba B]. apply Forall_cons_iff in B as [Bb B]. unfold is_byte in *.
  change (Get16bitAsLE false (a :: b :: p)) with (Ok (Z.lor a (Z.shiftl b 8))).
  change (le_value (firstn 2 (a :: b :: p))) with (a + 256 * (b + 256 * 0)). f_equal. rewrite lor_add by lia. lia.
Qed.
Lemma get16be_port p : (2 <= length p)%nat -> bytes p -> Get16bitAsBE false p = Ok (be_value (firstn 2 p)).
Proof.
  intros L B. destruct p as [|a [|b p]]; simpl in L; try lia.
  apply Forall_cons_iff in B as [Ba B]. apply Forall_cons_iff in B as [Bb B]. unfold is_byte in *.
  change (Get16bitAsBE false (a :: b :: p)) with (Ok (Z.lor b (Z.shiftl a 8))).
  change (be_value (firstn 2 (a :: b :: p))) with ((0 * 256 + a) * 256 + b). f_equal. rewrite lor_add by lia. lia.
Qed.

Lemma firstn_split {A} n m (p : list A) : firstn (n + m) p = firstn n p ++ firstn m (skipn n p).
Proof.
  revert p. induction n; intros p; simpl; auto. destruct p; simpl; [rewrite firstn_nil; auto|]. f_equal. apply IHn.
Qed.
Lemma bytes_firstn k p : bytes p -> bytes (firstn k p).
Proof.
  intros Hb. unfold bytes in *. rewrite Forall_forall in *. intros x Hx. apply Hb.
  rewrite <- (firstn_skipn k p). apply in_or_app. auto.
Qed.
Lemma bytes_skipn' k p : bytes p -> bytes (skipn k p).
Proof.
  intros Hb. unfold bytes in *. rewrite Forall_forall in *. intros x Hx. apply Hb.
  rewrite <- (firstn_skipn k p). apply in_or_app. auto.
Qed.

(** two halves of k bytes each *)
Lemma combine_le k p : (k + k <= length p)%nat -> bytes p ->
  Z.lor (le_value (firstn k p)) (Z.shiftl (le_value (firstn k (skipn k p))) (8 * Z.of_nat k)) = le_value (firstn (k + k) p).
Proof.
  intros L B. rewrite firstn_split, le_value_app.
  assert (E: zlen (firstn k p) = Z.of_nat k) by (apply zlen_firstn_le; lia).
  pose proof (le_bounds _ (bytes_firstn k p B)) as B1. rewrite E in *.
  pose proof (le_bounds _ (bytes_firstn k _ (bytes_skipn' k p B))) as B2.
  change 256 with (2 ^ 8) in *. rewrite <- Z.pow_mul_r in * by lia.
  rewrite lor_add by lia. reflexivity.
Qed.
Lemma combine_be k p : (k + k <= length p)%nat -> bytes p ->
  Z.lor (be_value (firstn k (skipn k p))) (Z.shiftl (be_value (firstn k p)) (8 * Z.of_nat k)) = be_value (firstn (k + k) p).
Proof.
  intros L B. rewrite firstn_split, !be_le, rev_app_distr, le_value_app.
  assert (E: zlen (rev (firstn k (skipn k p))) = Z.of_nat k).
  { unfold zlen. rewrite rev_length, firstn_length, skipn_length. lia. }
  assert (R: forall l, bytes l -> bytes (rev l)) by (intros l Hl; apply Forall_rev; auto).
  pose proof (le_bounds _ (R _ (bytes_firstn k _ (bytes_skipn' k p B)))) as B1. rewrite E in *.
  pose proof (le_bounds _ (R _ (bytes_firstn k p B))) as B2.
  change 256 with (2 ^ 8) in *. rewrite <- Z.pow_mul_r in * by lia.
  rewrite lor_add by lia. reflexivity.
Qed.

Lemma get32le_port p : (4 <= length p)%nat -> bytes p -> Get32bitAsLE false p = Ok (le_value (firstn 4 p)).
Proof.
  intros L B. unfold Get32bitAsLE. rewrite !get16le_port; auto using bytes_skipn'; try (rewrite ?skipn_length; lia).
  cbn [bind]. f_equal. apply (combine_le 2 p); auto.
Qed.
Lemma get32be_port p : (4 <= length p)%nat -> bytes p -> Get32bitAsBE false p = Ok (be_value (firstn 4 p)).
Proof.
  intros L B. unfold Get32bitAsBE. rewrite !get16be_port; auto using bytes_skipn'; try (rewrite ?skipn_length; lia).
  cbn [bind]. f_equal. apply (combine_be 2 p); auto.
Qed.

Lemma get_le_mem n p : (n <= length p)%nat -> (let! b := peek n p in Ok (of_le b)) = Ok (le_value (firstn n p)).
Proof. intros L. rewrite peek_ok by auto. cbn [bind]. rewrite of_le_value. auto. Qed.
Lemma get_be_mem n p : (n <= length p)%nat -> bytes p ->
  (let! b := peek n p in Ok (byteSwap n (of_le b))) = Ok (be_value (firstn n p)).
Proof.
  intros L B. rewrite peek_ok by auto. cbn [bind]. rewrite of_le_value, byteSwap_value.
  replace n with (length (firstn n p)) at 1 by (rewrite firstn_length; lia).
  rewrite to_le_of; auto. apply bytes_firstn; auto.
Qed.

(** C08 (reading): both builds read the little/big-endian number in the first 2/4/8 bytes. *)
Theorem C08_get : forall size little p, word_size size -> (size <= length p)%nat -> bytes p ->
  GetLE size little p = Ok (le_value (firstn size p)) /\
  GetBE size little p = Ok (be_value (firstn size p)).
Proof.
  intros size little p [->|[->| ->]] L B; destruct little; cbn [GetLE GetBE]; split;
  first [ exact (get_le_mem _ p L) | exact (get_be_mem _ p L B) | idtac ].
  - apply get16le_port; auto.
  - apply get16be_port; auto.
  - apply get32le_port; auto.
  - apply get32be_port; auto.
  - unfold Get64bitAsLE. rewrite !get32le_port; auto using bytes_skipn'; try (rewrite ?skipn_length; lia).
    cbn [bind]. f_equal. apply (combine_le 4 p); auto.
  - unfold Get64bitAsBE. rewrite !get32be_port; auto using bytes_skipn'; try (rewrite ?skipn_length; lia).
    cbn [bind]. f_equal. apply (combine_be 4 p); auto.
Qed.

Lemma poke_ok p bs : (length bs <= length p)%nat -> poke p bs = Ok (bs ++ skipn (length bs) p).
Proof. intros H. unfold poke. destruct (Nat.ltb_spec (length p) (length bs)); [lia|auto]. Qed.

Lemma rev_to_le_swap n x : to_le n (byteSwap n x) = rev (to_le n x).
Proof.
  unfold byteSwap. rewrite of_le_value.
  replace n with (length (rev (to_le n x))) at 1 by (rewrite rev_length, to_le_length; auto).
  apply to_le_of. apply Forall_rev. apply to_le_bytes.
Qed.

Lemma shr x k : 0 <= k -> Z.shiftr x k = x / 2 ^ k.
Proof. intros. apply Z.shiftr_div_pow2. auto. Qed.

Lemma to_le_add n m : forall x, to_le (n + m) x = to_le n x ++ to_le m (x / 256 ^ Z.of_nat n).
Proof.
  induction n; intros x.
  - simpl. rewrite Z.div_1_r. auto.
  - cbn [Nat.add to_le app]. f_equal. rewrite IHn. do 2 f_equal.
    rewrite Nat2Z.inj_succ, Z.pow_succ_r by lia. rewrite Z.div_div by (try apply Z.pow_pos_nonneg; lia). reflexivity.
Qed.
Lemma to_le_mod n : forall x, to_le n (x mod 256 ^ Z.of_nat n) = to_le n x.
Proof.
  intros x. rewrite <- to_le_value.
  rewrite <- (to_le_length n x) at 1. apply to_le_of. apply to_le_bytes.
Qed.

Lemma set32le_port p x : (4 <= length p)%nat -> Set32bitAsLE false p x = Ok (to_le 4 x ++ skipn 4 p).
Proof.
  intros L. destruct p as [|a [|b [|c [|d p]]]]; simpl in L; try lia.
  unfold Set32bitAsLE. unfold wr. cbn [length upd].
  destruct (_ || _) eqn:E1; [lia|]. cbn [bind]. clear E1. change (Z.to_nat 0) with O. cbn [upd length].
  destruct (_ || _) eqn:E1; [lia|]. cbn [bind]. clear E1. change (Z.to_nat 1) with 1%nat. cbn [upd length].
  destruct (_ || _) eqn:E1; [lia|]. cbn [bind]. clear E1. change (Z.to_nat 2) with 2%nat. cbn [upd length].
  destruct (_ || _) eqn:E1; [lia|]. clear E1. change (Z.to_nat 3) with 3%nat. cbn [upd length].
  cbn [to_le app skipn]. unfold u8. rewrite !shr by lia. rewrite !Z.div_div by lia. reflexivity.
Qed.
Lemma set32be_port p x : (4 <= length p)%nat -> Set32bitAsBE false p x = Ok (rev (to_le 4 x) ++ skipn 4 p).
Proof.
  intros L. destruct p as [|a [|b [|c [|d p]]]]; simpl in L; try lia.
  unfold Set32bitAsBE. unfold wr. cbn [length upd].
  destruct (_ || _) eqn:E1; [lia|]. cbn [bind]. clear E1. change (Z.to_nat 0) with O. cbn [upd length].
  destruct (_ || _) eqn:E1; [lia|]. cbn [bind]. clear E1. change (Z.to_nat 1) with 1%nat. cbn [upd length].
  destruct (_ || _) eqn:E1; [lia|]. cbn [bind]. clear E1. change (Z.to_nat 2) with 2%nat. cbn [upd length].
  destruct (_ || _) eqn:E1; [lia|]. clear E1. change (Z.to_nat 3) with 3%nat. cbn [upd length].
  cbn [to_le app rev skipn]. unfold u8. rewrite !shr by lia. rewrite !Z.div_div by lia. reflexivity.
Qed.

Lemma at_off_exact k a r f : length a = k -> at_off k (a ++ r) f = (let! q := f r in Ok (a ++ q)).
Proof.
  intros <-. unfold at_off. destruct (Nat.ltb_spec (length (a ++ r)) (length a)); [rewrite app_length in *; lia|].
  rewrite firstn_app_exact, skipn_app_exact. reflexivity.
Qed.

Lemma set_le_bytes size little p x : word_size size -> (size <= length p)%nat ->
  SetLE size little p x = Ok (to_le size x ++ skipn size p).
Proof.
  intros W L. destruct little.
  { assert (SetLE size true p x = poke p (to_le size x)) as ->.
    { destruct W as [->|[->| ->]]; reflexivity. }
    rewrite poke_ok; rewrite to_le_length; auto. }
  destruct W as [->|[->| ->]]; cbn [SetLE].
  - destruct p as [|a [|b p]]; simpl in L; try lia.
    unfold Set16bitAsLE, wr. cbn [length upd].
    destruct (_ || _) eqn:E1; [lia|]. cbn [bind]. clear E1. change (Z.to_nat 0) with O. cbn [upd length].
    destruct (_ || _) eqn:E1; [lia|]. clear E1. change (Z.to_nat 1) with 1%nat. cbn [upd length].
    cbn [to_le app skipn]. unfold u8. rewrite !shr by lia. reflexivity.
  - apply set32le_port; auto.
  - unfold Set64bitAsLE. rewrite set32le_port by lia. cbn [bind].
    rewrite at_off_exact by apply to_le_length.
    rewrite set32le_port by (rewrite skipn_length; lia). cbn [bind].
    rewrite skipn_skipn. rewrite app_assoc. do 2 f_equal.
    change 8%nat with (4 + 4)%nat. rewrite to_le_add. rewrite shr by lia. unfold u32.
    change (2 ^ 32) with (256 ^ Z.of_nat 4). rewrite !to_le_mod. reflexivity.
Qed.

Lemma set_be_bytes size little p x : word_size size -> (size <= length p)%nat ->
  SetBE size little p x = Ok (rev (to_le size x) ++ skipn size p).
Proof.
  intros W L. destruct little.
  { assert (SetBE size true p x = poke p (to_le size (byteSwap size x))) as ->.
    { destruct W as [->|[->| ->]]; reflexivity. }
    rewrite poke_ok; rewrite rev_to_le_swap, rev_length, to_le_length; auto. }
  destruct W as [->|[->| ->]]; cbn [SetBE].
  - destruct p as [|a [|b p]]; simpl in L; try lia.
    unfold Set16bitAsBE, wr. cbn [length upd].
    destruct (_ || _) eqn:E1; [lia|]. cbn [bind]. clear E1. change (Z.to_nat 0) with O. cbn [upd length].
    destruct (_ || _) eqn:E1; [lia|]. clear E1. change (Z.to_nat 1) with 1%nat. cbn [upd length].
    cbn [to_le app rev skipn]. unfold u8. rewrite !shr by lia. reflexivity.
  - apply set32be_port; auto.
  - unfold Set64bitAsBE. rewrite set32be_port by lia. cbn [bind].
    rewrite at_off_exact by (rewrite rev_length; apply to_le_length).
    rewrite set32be_port by (rewrite skipn_length; lia). cbn [bind].
    rewrite skipn_skipn. rewrite app_assoc. do 2 f_equal.
    change 8%nat with (4 + 4)%nat. rewrite to_le_add, rev_app_distr. rewrite shr by lia. unfold u32.
    change (2 ^ 32) with (256 ^ Z.of_nat 4). rewrite !to_le_mod. reflexivity.
Qed.

(** C08 (writing): both builds overwrite exactly the first 2/4/8 bytes, with the bytes whose
    little/big-endian value is x; Get after Set gives x back. *)
Theorem C08_set : forall size little p x, word_size size -> (size <= length p)%nat ->
  0 <= x < 256 ^ Z.of_nat size ->
  (exists bs, SetLE size little p x = Ok (bs ++ skipn size p) /\ length bs = size /\ bytes bs /\ le_value bs = x) /\
  (exists bs, SetBE size little p x = Ok (bs ++ skipn size p) /\ length bs = size /\ bytes bs /\ be_value bs = x).
Proof.
  intros size little p x W L Hx. split.
  - exists (to_le size x). rewrite set_le_bytes by auto. repeat split; auto using to_le_length, to_le_bytes.
    rewrite to_le_value. apply Z.mod_small; auto.
  - exists (rev (to_le size x)). rewrite set_be_bytes by auto. repeat split; auto.
    + rewrite rev_length. apply to_le_length.
    + apply Forall_rev. apply to_le_bytes.
    + rewrite be_le, rev_involutive, to_le_value. apply Z.mod_small; auto.
Qed.

Theorem C08_get_set : forall size l1 l2 p x, word_size size -> (size <= length p)%nat -> bytes p ->
  0 <= x < 256 ^ Z.of_nat size ->
  (let! q := SetLE size l1 p x in GetLE size l2 q) = Ok x /\
  (let! q := SetBE size l1 p x in GetBE size l2 q) = Ok x.
Proof.
  intros size l1 l2 p x W L B Hx. destruct (C08_set size l1 p x W L Hx) as [(b1 & S1 & L1 & B1 & V1) (b2 & S2 & L2 & B2 & V2)].
  rewrite S1, S2. cbn [bind].
  assert (Q: forall b, length b = size -> bytes b -> (size <= length (b ++ skipn size p))%nat /\ bytes (b ++ skipn size p)
     /\ firstn size (b ++ skipn size p) = b).
  { intros b Lb Bb. split; [rewrite app_length; lia|]. split; [apply bytes_app; split; auto; apply bytes_skipn'; auto|].
    rewrite <- Lb at 1. apply firstn_app_exact. }
  destruct (Q b1 L1 B1) as (Q1 & Q2 & Q3). destruct (Q b2 L2 B2) as (P1 & P2 & P3). split.
  - destruct (C08_get size l2 _ W Q1 Q2) as [E _]. rewrite E, Q3, V1. auto.
  - destruct (C08_get size l2 _ W P1 P2) as [_ E]. rewrite E, P3, V2. auto.
Qed.

(** byteSwap reverses the bytes and is an involution; the old-compiler 16-bit version agrees. *)
Theorem C08_byteSwap : forall n x, 0 <= x < 256 ^ Z.of_nat n ->
  le_value (to_le n x) = x /\ to_le n (byteSwap n x) = rev (to_le n x) /\ byteSwap n (byteSwap n x) = x.
Proof.
  intros n x Hx. assert (V: le_value (to_le n x) = x) by (rewrite to_le_value; apply Z.mod_small; auto).
  split; auto. split; [apply rev_to_le_swap|].
  unfold byteSwap at 1. rewrite rev_to_le_swap, rev_involutive, of_le_value. auto.
Qed.
Theorem C08_byteSwap16_old : forall x, 0 <= x < 2 ^ 16 -> byteSwap16_old x = byteSwap 2 x.
Proof.
  intros x Hx. unfold byteSwap16_old. rewrite shr by lia. rewrite lor_add by lia.
  unfold byteSwap. cbn [to_le rev app of_le]. lia.
Qed.

Example C08_nonvacuous :
  Get32bitAsBE false [1;2;3;4;5] = Ok 16909060 /\ Get32bitAsBE true [1;2;3;4;5] = Ok 16909060 /\
  Set16bitAsLE true [9;9;9] 258 = Ok [2;1;9] /\ Get64bitAsLE false [1;2;3] = UB.
Proof. repeat split; reflexivity. Qed.

Print Assumptions C08_get.
Print Assumptions C08_set.
Print Assumptions C08_get_set.
Print Assumptions C08_byteSwap.
