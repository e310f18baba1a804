(** Proofs about sha1.hpp / sha2.hpp, part 1: word operations and the processing of one block. *)
Require Import Verif.Common Verif.EndianModel Verif.EndianProps Verif.ItoaModel Verif.ShaModel Verif.ShaSpec.
Ltac Zify.zify_post_hook ::= idtac.

Definition word (w x : Z) : Prop := 0 <= x < 2 ^ w.

Lemma word_mod w x : 0 <= w -> word w (x mod 2 ^ w).
Proof. intros. unfold word. apply Z.mod_pos_bound. apply Z.pow_pos_nonneg; lia. Qed.
Lemma word_sum w l : 0 <= w -> word w (sum w l).
Proof. apply word_mod. Qed.

(** *** rotations *)
Lemma shl_mod w n x : 0 <= n <= w -> Z.shiftl x n mod 2 ^ w = Z.shiftl (x mod 2 ^ (w - n)) n.
Proof.
  intros H. rewrite !Z.shiftl_mul_pow2 by lia.
  replace (2 ^ w) with (2 ^ (w - n) * 2 ^ n) by (rewrite <- Z.pow_add_r by lia; f_equal; lia).
  rewrite Z.mul_mod_distr_r; auto; apply Z.pow_nonzero; lia.
Qed.
Lemma div_word w n x : 0 <= n <= w -> word w x -> 0 <= x / 2 ^ n < 2 ^ (w - n).
Proof.
  intros H [H1 H2]. assert (0 < 2 ^ n) by (apply Z.pow_pos_nonneg; lia).
  split; [apply Z.div_pos; auto|]. apply Z.div_lt_upper_bound; auto.
  rewrite <- Z.pow_add_r by lia. replace (n + (w - n)) with w by lia. auto.
Qed.
Lemma rotr_ok w n x : 0 <= n <= w -> word w x -> rot w x n = ROTR w n x.
Proof.
  intros H Hx. unfold rot, ROTR. rewrite shl_mod by lia. replace (w - (w - n)) with n by lia.
  rewrite Z.shiftr_div_pow2 by lia.
  rewrite lor_add; [rewrite (Z.mul_comm (2 ^ (w - n))); auto|lia|apply div_word; auto|].
  apply Z.mod_pos_bound. apply Z.pow_pos_nonneg; lia.
Qed.
Lemma rotl_ok n x : 0 <= n <= 32 -> word 32 x -> S1 x n = ROTL 32 n x.
Proof.
  intros H Hx. unfold S1, ROTL. rewrite shl_mod by lia. rewrite Z.shiftr_div_pow2 by lia.
  rewrite Z.lor_comm, lor_add; [rewrite (Z.mul_comm (2 ^ n)); lia|lia| |].
  - replace (2 ^ n) with (2 ^ (32 - (32 - n))) by (f_equal; lia). apply div_word; auto; lia.
  - apply Z.mod_pos_bound. apply Z.pow_pos_nonneg; lia.
Qed.
Lemma ROTR_word w n x : 0 <= n <= w -> word w x -> word w (ROTR w n x).
Proof.
  intros H Hx. unfold ROTR. pose proof (div_word w n x H Hx).
  pose proof (Z.mod_pos_bound x (2 ^ n) (Z.pow_pos_nonneg 2 n eq_refl (proj1 H))) as M.
  unfold word. replace (2 ^ w) with (2 ^ n * 2 ^ (w - n)) by (rewrite <- Z.pow_add_r by lia; f_equal; lia).
  assert (0 < 2 ^ (w - n)) by (apply Z.pow_pos_nonneg; lia). nia.
Qed.
Lemma ROTL_ROTR w n x : ROTL w n x = ROTR w (w - n) x.
Proof. unfold ROTL, ROTR. replace (w - (w - n)) with n by lia. lia. Qed.
Lemma ROTL_word w n x : 0 <= n <= w -> word w x -> word w (ROTL w n x).
Proof. intros. rewrite ROTL_ROTR. apply ROTR_word; auto. lia. Qed.
Lemma shr_ok n x : 0 <= n -> Z.shiftr x n = SHR n x.
Proof. intros. apply Z.shiftr_div_pow2. auto. Qed.

(** *** bitwise operations stay in range *)
Lemma word_bits w x : 0 <= w -> (word w x <-> 0 <= x /\ forall i, w <= i -> Z.testbit x i = false).
Proof.
  intros Hw. split.
  - intros [H1 H2]. split; auto. intros i Hi. rewrite <- (Z.mod_small x (2 ^ w)) by auto.
    apply Z.mod_pow2_bits_high. lia.
  - intros [H1 H2]. assert (x = x mod 2 ^ w) as ->.
    { apply Z.bits_inj'. intros i Hi. destruct (Z_lt_le_dec i w).
      - rewrite Z.mod_pow2_bits_low by lia. auto.
      - rewrite Z.mod_pow2_bits_high by lia. auto. }
    apply word_mod. auto.
Qed.
Lemma word_xor w x y : 0 <= w -> word w x -> word w y -> word w (Z.lxor x y).
Proof.
  intros Hw Hx Hy. apply word_bits in Hx as [X1 X2]; auto. apply word_bits in Hy as [Y1 Y2]; auto.
  apply word_bits; auto. split; [apply Z.lxor_nonneg; tauto|].
  intros i Hi. rewrite Z.lxor_spec, X2, Y2 by auto. auto.
Qed.

Lemma lnot_not w x : 0 <= w -> word w x -> Z.lnot x mod 2 ^ w = NOT w x.
Proof.
  intros Hw [H1 H2]. unfold NOT, Z.lnot. symmetry. apply (Z.mod_unique _ _ (-1)); [left; lia|]. lia.
Qed.
Lemma land_not w x z : 0 <= w -> word w x -> word w z -> Z.land (NOT w x) z = Z.land (Z.lnot x) z.
Proof.
  intros Hw Hx Hz. rewrite <- lnot_not by auto. apply word_bits in Hz as [Z1 Z2]; auto.
  apply Z.bits_inj'. intros i Hi. rewrite !Z.land_spec. destruct (Z_lt_le_dec i w).
  - rewrite Z.mod_pow2_bits_low by lia. auto.
  - rewrite Z2 by auto. rewrite !andb_false_r. auto.
Qed.
Ltac bitwise := apply Z.bits_inj'; intros ?i ?Hi; 
  repeat first [rewrite Z.lxor_spec|rewrite Z.land_spec|rewrite Z.lor_spec|rewrite Z.lnot_spec by assumption];
  repeat match goal with |- context[Z.testbit ?x ?j] => destruct (Z.testbit x j) end; reflexivity.

Lemma ch_ok w e f g : 0 <= w -> word w e -> word w g -> Z.lxor g (Z.land e (Z.lxor f g)) = Ch w e f g.
Proof. intros. unfold Ch. rewrite land_not by auto. bitwise. Qed.
Lemma maj_ok a b c : Z.lor (Z.land (Z.lor a b) c) (Z.land a b) = Maj a b c.
Proof. unfold Maj, XOR3. bitwise. Qed.
Lemma f0_ok b c d : word 32 b -> word 32 d -> f0 b c d = Ch 32 b c d.
Proof. intros. unfold f0, Ch, not32. rewrite lnot_not by (auto; lia). rewrite land_not by (auto; lia). bitwise. Qed.
Lemma f2_ok b c d : f2 b c d = Maj b c d.
Proof. unfold f2, Maj, XOR3. bitwise. Qed.

(** *** sums *)
Lemma sum_mod w a l : sum w (a mod 2 ^ w :: l) = sum w (a :: l).
Proof. unfold sum. cbn [fold_right]. rewrite Zplus_mod_idemp_l. auto. Qed.
Lemma sum_mod2 w a b l : sum w (a :: b mod 2 ^ w :: l) = sum w (a :: b :: l).
Proof.
  unfold sum. cbn [fold_right]. rewrite <- Zplus_mod_idemp_r. rewrite Zplus_mod_idemp_l. rewrite Zplus_mod_idemp_r. auto.
Qed.
Lemma wrap_sum w a b : (a + b) mod 2 ^ w = sum w [a; b].
Proof. unfold sum. cbn [fold_right]. rewrite Z.add_0_r. auto. Qed.
Lemma sum_flat w a b l : sum w (sum w (a :: b) :: l) = sum w (a :: b ++ l).
Proof.
  unfold sum. cbn [fold_right]. rewrite Zplus_mod_idemp_l. rewrite fold_right_app. f_equal.
  assert (forall b, fold_right Z.add (fold_right Z.add 0 l) b = fold_right Z.add 0 b + fold_right Z.add 0 l) as E.
  { induction b0 as [|x b0 IH]; cbn [fold_right]; [lia|]. rewrite IH. lia. }
  rewrite E. lia.
Qed.
Lemma fold_add_app a b : fold_right Z.add 0 (a ++ b) = fold_right Z.add 0 a + fold_right Z.add 0 b.
Proof. induction a as [|x a IH]; cbn [fold_right app]; [lia|]. rewrite IH. lia. Qed.
Lemma sum_flat_last w l l' : sum w (l ++ [sum w l']) = sum w (l ++ l').
Proof. unfold sum. rewrite !fold_add_app. cbn [fold_right]. rewrite Z.add_0_r. apply Zplus_mod_idemp_r. Qed.
Lemma sum_perm w l l' : fold_right Z.add 0 l = fold_right Z.add 0 l' -> sum w l = sum w l'.
Proof. unfold sum. congruence. Qed.

(** *** arrays filled from the front *)
Lemma wr_app (pre : list Z) x rest i v : i = zlen pre -> wr (pre ++ x :: rest) i v = Ok ((pre ++ [v]) ++ rest).
Proof.
  intros ->. rewrite wr_ok by (rewrite zlen_app, zlen_cons; pose proof (zlen_nonneg pre); pose proof (zlen_nonneg rest); lia).
  rewrite to_nat_zlen, upd_app_exact, <- app_assoc. auto.
Qed.
Lemma rd_app_l (pre rest : list Z) i : 0 <= i < zlen pre -> rd (pre ++ rest) i = Ok (nth (Z.to_nat i) pre 0).
Proof.
  intros H. rewrite (rd_nth _ _ 0) by (rewrite zlen_app; pose proof (zlen_nonneg rest); lia).
  rewrite app_nth1 by (unfold zlen in H; lia). auto.
Qed.

Lemma schedule_length next n : forall W, length (schedule next n W) = (length W + n)%nat.
Proof. induction n; intros; cbn [schedule]; [lia|]. rewrite IHn, app_length. cbn [length]. lia. Qed.
Lemma schedule_words w next n : (forall W, Forall (word w) W -> (16 <= length W)%nat -> word w (next W)) -> 
  forall W, (16 <= length W)%nat -> Forall (word w) W -> Forall (word w) (schedule next n W).
Proof.
  intros Hn. induction n; intros W L HW; cbn [schedule]; auto.
  apply IHn; [rewrite app_length; lia|]. apply Forall_app. split; auto.
Qed.
Lemma back_word w W k : Forall (word w) W -> (1 <= k <= length W)%nat -> word w (back W k).
Proof. intros H L. unfold back. rewrite Forall_forall in H. apply H. apply nth_In. lia. Qed.
Lemma rd_back (W rest : list Z) k i : i = zlen W - Z.of_nat k -> (1 <= k <= length W)%nat -> rd (W ++ rest) i = Ok (back W k).
Proof. intros -> L. unfold zlen. rewrite rd_app_l by (unfold zlen; lia). unfold back. do 2 f_equal. lia. Qed.

Lemma be_num_value l : be_num l = be_value l.
Proof. reflexivity. Qed.
Lemma be_num_word l n : bytes l -> length l = n -> word (8 * Z.of_nat n) (be_num l).
Proof.
  intros B <-. rewrite be_num_value, be_le. pose proof (le_bounds (rev l) (Forall_rev B)) as Q.
  unfold zlen in Q. rewrite rev_length in Q. unfold word. rewrite Z.pow_mul_r by lia. change (2 ^ 8) with 256. auto.
Qed.

Lemma cut_length n k : forall m, length (cut n k m) = k.
Proof. induction k; intros; cbn [cut length]; auto. Qed.
Lemma cut_snoc n k : forall m, cut n (S k) m = cut n k m ++ [firstn n (skipn (n * k) m)].
Proof.
  induction k; intros m.
  - cbn [cut app]. rewrite Nat.mul_0_r. reflexivity.
  - change (cut n (S (S k)) m) with (firstn n m :: cut n (S k) (skipn n m)). rewrite IHk.
    cbn [cut app]. rewrite skipn_skipn. replace (n * k + n)%nat with (n * S k)%nat by lia. auto.
Qed.
Lemma words_ok wb b : bytes b -> (16 * wb <= length b)%nat -> Forall (word (8 * Z.of_nat wb)) (words wb b).
Proof.
  intros B L. unfold words. apply Forall_map.
  assert (forall k m, bytes m -> (k * wb <= length m)%nat -> Forall (fun l => word (8 * Z.of_nat wb) (be_num l)) (cut wb k m)) as G.
  { induction k; intros m Bm Lm; cbn [cut]; constructor.
    - apply be_num_word; [apply bytes_firstn; auto|rewrite firstn_length; lia].
    - apply IHk; [apply bytes_skipn'; auto|rewrite skipn_length; lia]. }
  apply G; auto.
Qed.
Lemma cut_firstn n k : forall m j, (n * k <= j)%nat -> cut n k (firstn j m) = cut n k m.
Proof.
  induction k; intros m j H; cbn [cut]; auto. rewrite firstn_firstn, Nat.min_l by lia. f_equal.
  rewrite skipn_firstn_comm. apply IHk. lia.
Qed.

(** the load loops *)
Lemma map_snoc {A B} (f : A -> B) l x : map f (l ++ [x]) = map f l ++ [f x].
Proof. rewrite map_app. auto. Qed.
Section Load.
Variable little : bool.
Lemma load_gen (wb : nat) (load : nat -> Z -> list Z -> list Z -> res (list Z)) (H : word_size wb)
  (Hload : forall n i buf W, load n i buf W = match n with O => Ok W | S n' =>
     let! x := GetBE wb little (skipn (Z.to_nat (i * Z.of_nat wb)) buf) in let! W := wr W i x in load n' (i + 1) buf W end) :
  forall n k buf rest, bytes buf -> (wb * (k + n) <= length buf)%nat -> (n <= length rest)%nat ->
  load n (Z.of_nat k) buf (map be_num (cut wb k buf) ++ rest) = Ok (map be_num (cut wb (k + n) buf) ++ skipn n rest).
Proof.
  induction n; intros k buf rest B L R; rewrite Hload.
  - rewrite Nat.add_0_r. auto.
  - replace (Z.to_nat (Z.of_nat k * Z.of_nat wb)) with (wb * k)%nat by lia.
    assert (wb <= length (skipn (wb * k) buf))%nat as L2 by (rewrite skipn_length; lia).
    destruct (C08_get wb little _ H L2 (bytes_skipn' _ _ B)) as [_ ->]. cbn [bind].
    destruct rest as [|r rest]; [cbn [length] in R; lia|].
    rewrite wr_app by (unfold zlen; rewrite map_length, cut_length; auto). cbn [bind].
    rewrite <- be_num_value, <- map_snoc, <- cut_snoc.
    replace (Z.of_nat k + 1) with (Z.of_nat (S k)) by lia. rewrite IHn; auto; [|lia|cbn [length] in R; lia].
    replace (S k + n)%nat with (k + S n)%nat by lia. reflexivity.
Qed.
Lemma w1_load_ok buf rest : bytes buf -> (64 <= length buf)%nat -> (16 <= length rest)%nat ->
  w1_load little 16 0 buf rest = Ok (words 4 buf ++ skipn 16 rest).
Proof.
  intros B L R. apply (load_gen 4 (w1_load little) (or_intror (or_introl eq_refl))) with (k := O); auto.
  intros n i b W. destruct n; reflexivity.
Qed.
Lemma w32_load_ok buf rest : bytes buf -> (64 <= length buf)%nat -> (16 <= length rest)%nat ->
  w32_load little 16 0 buf rest = Ok (words 4 buf ++ skipn 16 rest).
Proof.
  intros B L R. apply (load_gen 4 (w32_load little) (or_intror (or_introl eq_refl))) with (k := O); auto.
  intros n i b W. destruct n; reflexivity.
Qed.
Lemma w64_load_ok buf rest : bytes buf -> (128 <= length buf)%nat -> (16 <= length rest)%nat ->
  w64_load little 16 0 buf rest = Ok (words 8 buf ++ skipn 16 rest).
Proof.
  intros B L R. apply (load_gen 8 (w64_load little) (or_intror (or_intror eq_refl))) with (k := O); auto.
  intros n i b W. destruct n; reflexivity.
Qed.
End Load.

(** the schedule loops *)
Lemma sched_gen w (next : list Z -> Z) (ext : nat -> Z -> list Z -> res (list Z))
  (Hnext : forall W, Forall (word w) W -> (16 <= length W)%nat -> word w (next W))
  (Hext : forall n W r rest, Forall (word w) W -> (16 <= length W)%nat ->
     ext (S n) (zlen W) (W ++ r :: rest) = ext n (zlen W + 1) ((W ++ [next W]) ++ rest))
  (Hext0 : forall i W, ext O i W = Ok W) :
  forall n W rest, Forall (word w) W -> (16 <= length W)%nat -> (n <= length rest)%nat ->
  ext n (zlen W) (W ++ rest) = Ok (schedule next n W ++ skipn n rest).
Proof.
  induction n; intros W rest HW L R.
  - rewrite Hext0. auto.
  - destruct rest as [|r rest]; [cbn [length] in R; lia|]. cbn [length] in R. rewrite Hext by auto.
    replace (zlen W + 1) with (zlen (W ++ [next W])) by (rewrite zlen_app; reflexivity).
    rewrite IHn; [reflexivity| |rewrite app_length; lia|lia]. apply Forall_app. split; auto.
Qed.

Lemma sha1_next_word W : Forall (word 32) W -> (16 <= length W)%nat -> word 32 (sha1_next W).
Proof.
  intros H L. unfold sha1_next, XOR3. apply ROTL_word; [lia|].
  repeat apply word_xor; try lia; apply back_word; auto; lia.
Qed.
Lemma w1_ext_ok n W rest : Forall (word 32) W -> (16 <= length W)%nat -> (n <= length rest)%nat ->
  w1_ext n (zlen W) (W ++ rest) = Ok (schedule sha1_next n W ++ skipn n rest).
Proof.
  apply (sched_gen 32 sha1_next w1_ext sha1_next_word); auto. clear. intros n W r rest HW L.
  cbn [w1_ext]. rewrite rd_back with (k := 3%nat), rd_back with (k := 8%nat), rd_back with (k := 14%nat), rd_back with (k := 16%nat) by lia.
  cbn [bind]. rewrite rotl_ok; [|lia|repeat apply word_xor; try lia; apply back_word; auto; lia].
  rewrite wr_app by auto. reflexivity.
Qed.

Lemma sha2_next_word w s0 s1 W : 0 <= w -> word w (sha2_next w s0 s1 W).
Proof. intros. apply word_sum. auto. Qed.
Lemma w32_ext_ok n W rest : Forall (word 32) W -> (16 <= length W)%nat -> (n <= length rest)%nat ->
  w32_ext n (zlen W) (W ++ rest) = Ok (schedule (sha2_next 32 s0_256 s1_256) n W ++ skipn n rest).
Proof.
  apply (sched_gen 32 _ w32_ext); auto; [intros; apply sha2_next_word; lia|]. clear. intros n W r rest HW L.
  cbn [w32_ext]. rewrite rd_back with (k := 15%nat), rd_back with (k := 2%nat), rd_back with (k := 16%nat), rd_back with (k := 7%nat) by lia.
  cbn [bind]. rewrite !rotr_ok by (try apply back_word; auto; lia). rewrite !shr_ok by lia.
  rewrite wr_app by auto. cbn [bind]. do 4 f_equal.
  unfold sha2_next. rewrite !wrap_sum, !sum_flat. cbn [app]. apply sum_perm. cbn [fold_right].
  unfold s0_256, s1_256, XOR3. lia.
Qed.
Lemma w64_ext_ok n W rest : Forall (word 64) W -> (16 <= length W)%nat -> (n <= length rest)%nat ->
  w64_ext n (zlen W) (W ++ rest) = Ok (schedule (sha2_next 64 s0_512 s1_512) n W ++ skipn n rest).
Proof.
  apply (sched_gen 64 _ w64_ext); auto; [intros; apply sha2_next_word; lia|]. clear. intros n W r rest HW L.
  cbn [w64_ext]. rewrite rd_back with (k := 15%nat), rd_back with (k := 2%nat), rd_back with (k := 16%nat), rd_back with (k := 7%nat) by lia.
  cbn [bind]. rewrite !rotr_ok by (try apply back_word; auto; lia). rewrite !shr_ok by lia.
  rewrite wr_app by auto. cbn [bind]. do 4 f_equal.
  unfold sha2_next. rewrite !wrap_sum, !sum_flat. cbn [app]. apply sum_perm. cbn [fold_right].
  unfold s0_512, s1_512, XOR3. lia.
Qed.

(** *** the rounds of SHA-1 *)
Lemma K1_ok i : (i < 80)%nat -> rd K1 (Z.of_nat i) = Ok (sha1_K i).
Proof.
  intros H. rewrite (rd_nth _ _ 0) by (change (zlen K1) with 80; lia). f_equal. rewrite Nat2Z.id.
  do 80 (destruct i; [reflexivity|]). lia.
Qed.
Lemma f_ok t b c d : word 32 b -> word 32 d -> f_ (Z.of_nat t) b c d = sha1_f t b c d.
Proof.
  intros Hb Hd. unfold f_, sha1_f.
  destruct (Z.ltb_spec (Z.of_nat t) 20), (Nat.ltb_spec t 20); try lia; [apply f0_ok; auto|].
  destruct (Z.ltb_spec (Z.of_nat t) 40), (Nat.ltb_spec t 40); try lia; [reflexivity|].
  destruct (Z.ltb_spec (Z.of_nat t) 60), (Nat.ltb_spec t 60); try lia; [apply f2_ok|reflexivity].
Qed.

Ltac fa := repeat (apply Forall_cons; [|]); try apply Forall_nil.
Definition state (w : Z) (n : nat) (v : list Z) : Prop := length v = n /\ Forall (word w) v.
Lemma state5 w v : state w 5 v -> exists a b c d e, v = [a; b; c; d; e] /\ word w a /\ word w b /\ word w c /\ word w d /\ word w e.
Proof.
  intros [L F]. destruct v as [|a [|b [|c [|d [|e [|? v]]]]]]; try discriminate L.
  repeat match goal with H : Forall _ (_ :: _) |- _ => apply Forall_cons_iff in H as [? H] end.
  exists a, b, c, d, e. auto 10.
Qed.
Lemma state8 w v : state w 8 v -> exists a b c d e f g h, v = [a; b; c; d; e; f; g; h] /\
  word w a /\ word w b /\ word w c /\ word w d /\ word w e /\ word w f /\ word w g /\ word w h.
Proof.
  intros [L F]. destruct v as [|a [|b [|c [|d [|e [|f [|g [|h [|? v]]]]]]]]]; try discriminate L.
  repeat match goal with H : Forall _ (_ :: _) |- _ => apply Forall_cons_iff in H as [? H] end.
  exists a, b, c, d, e, f, g, h. auto 10.
Qed.
Lemma sha1_round_state t x v : state 32 5 v -> state 32 5 (sha1_round t x v).
Proof.
  intros H. destruct (state5 _ _ H) as (a & b & c & d & e & -> & Ha & Hb & Hc & Hd & He).
  split; auto. cbn [sha1_round]. fa; try assumption; try (apply ROTL_word; [lia|assumption]); apply word_sum; lia.
Qed.
Lemma sha2_round_state w S0 S1 K t x v : 0 <= w -> state w 8 v -> state w 8 (sha2_round w S0 S1 K t x v).
Proof.
  intros Hw H. destruct (state8 _ _ H) as (a & b & c & d & e & f & g & h & -> & Ha & Hb & Hc & Hd & He & Hf & Hg & Hh).
  split; auto. cbn [sha2_round]. fa; try assumption; apply word_sum; lia.
Qed.
Lemma fold_state w n (r : nat -> list Z -> list Z) : (forall t v, state w n v -> state w n (r t v)) ->
  forall l v, state w n v -> state w n (fold_left (fun v t => r t v) l v).
Proof. intros Hr. induction l; intros v Hv; cbn [fold_left]; auto. Qed.

Lemma rd_word (W : list Z) i : (i < length W)%nat -> rd W (Z.of_nat i) = Ok (nth i W 0).
Proof. intros. rewrite (rd_nth _ _ 0) by (unfold zlen; lia). rewrite Nat2Z.id. auto. Qed.

Lemma r1_loop_ok W : length W = 80%nat -> forall n i a b c d e,
  word 32 a -> word 32 b -> word 32 c -> word 32 d -> word 32 e -> (i + n <= 80)%nat ->
  r1_loop n (Z.of_nat i) W a b c d e = Ok (fold_left (fun v t => sha1_round t (nth t W 0) v) (seq i n) [a; b; c; d; e]).
Proof.
  intros HL. induction n; intros i a b c d e Ha Hb Hc Hd He L; auto.
  cbn [r1_loop seq fold_left]. rewrite rd_word, K1_ok by lia. cbn [bind].
  replace (Z.of_nat i + 1) with (Z.of_nat (S i)) by lia.
  rewrite !rotl_ok, f_ok by (auto; lia). rewrite !wrap_sum, !sum_flat. cbn [app].
  rewrite IHn; auto; [|apply word_sum; lia|apply ROTL_word; auto; lia|lia].
  cbn [sha1_round]. do 3 f_equal. apply sum_perm. cbn [fold_right]. lia.
Qed.

Lemma add_all5 M a b c d e v w x y z :
  add_all M 5 0 [a; b; c; d; e] [v; w; x; y; z] = Ok [(a + v) mod M; (b + w) mod M; (c + x) mod M; (d + y) mod M; (e + z) mod M].
Proof. reflexivity. Qed.
Lemma add_all8 M a b c d e f g h s t u v w x y z :
  add_all M 8 0 [a; b; c; d; e; f; g; h] [s; t; u; v; w; x; y; z] =
  Ok [(a + s) mod M; (b + t) mod M; (c + u) mod M; (d + v) mod M; (e + w) mod M; (f + x) mod M; (g + y) mod M; (h + z) mod M].
Proof. reflexivity. Qed.
Lemma sum2_comm w a b : (a + b) mod 2 ^ w = sum w [b; a].
Proof. rewrite wrap_sum. apply sum_perm. cbn [fold_right]. lia. Qed.

Lemma compress1_ok little junk H p : state 32 5 H -> bytes p -> (64 <= length p)%nat ->
  compress1 little junk H p = Ok (hash_block 32 sha1_next sha1_round 80 H (firstn 64 p)) /\
  state 32 5 (hash_block 32 sha1_next sha1_round 80 H (firstn 64 p)).
Proof.
  intros SH B L. unfold compress1, hash_block. cbv zeta. change (Z.to_nat (32 / 8)) with 4%nat. change (80 - 16)%nat with 64%nat.
  assert (words 4 (firstn 64 p) = words 4 p) as -> by (unfold words; rewrite cut_firstn; auto; lia).
  rewrite w1_load_ok by (auto; rewrite repeat_length; lia). cbn [bind].
  assert (length (words 4 p) = 16%nat) as L16 by (unfold words; rewrite map_length, cut_length; auto).
  assert (W16: Forall (word 32) (words 4 p)) by (apply (words_ok 4); auto; lia).
  replace 16 with (zlen (words 4 p)) by (unfold zlen; lia).
  rewrite w1_ext_ok by (auto; rewrite ?skipn_length, ?repeat_length; lia). cbn [bind].
  rewrite skipn_all2, app_nil_r by (rewrite skipn_length, repeat_length; lia).
  pose proof (schedule_length sha1_next 64 (words 4 p)) as LW. rewrite L16 in LW.
  remember (schedule sha1_next 64 (words 4 p)) as W eqn:EW. clear EW. change (16 + 64)%nat with 80%nat in LW.
  pose proof (fold_state 32 5 (fun t => sha1_round t (nth t W 0)) (fun t v => sha1_round_state t _ v) (seq 0 80) H SH) as SF.
  destruct (state5 _ _ SH) as (a & b & c & d & e & -> & Ha & Hb & Hc & Hd & He).
  change (rd [a; b; c; d; e] 0) with (Ok a). change (rd [a; b; c; d; e] 1) with (Ok b). change (rd [a; b; c; d; e] 2) with (Ok c).
  change (rd [a; b; c; d; e] 3) with (Ok d). change (rd [a; b; c; d; e] 4) with (Ok e). cbn [bind].
  change (r1_loop 80 0 W a b c d e) with (r1_loop 80 (Z.of_nat 0) W a b c d e).
  rewrite r1_loop_ok by (auto; lia). cbn [bind].
  destruct (state5 _ _ SF) as (a' & b' & c' & d' & e' & E & _). rewrite E.
  rewrite add_all5. cbn [combine map]. rewrite !sum2_comm. split; auto.
  split; auto. fa; apply word_sum; lia.
Qed.

(** *** the rounds of SHA-2 *)
Lemma K256_ok i : (i < 64)%nat -> rd K256 (Z.of_nat i) = Ok (nth i sha256_K 0).
Proof. intros H. apply (rd_word sha256_K). exact H. Qed.
Lemma K512_ok i : (i < 80)%nat -> rd K512 (Z.of_nat i) = Ok (nth i sha512_K 0).
Proof. intros H. apply (rd_word sha512_K). exact H. Qed.

Definition good_round1 (w : Z) (N : nat) (S0 S1 : Z -> Z) (K : list Z)
  (round1 : Z -> Z -> Z -> Z -> Z -> Z -> Z -> Z -> list Z -> list Z -> Z -> res (list Z)) : Prop :=
  forall i W a b c d e f g h, (i < N)%nat -> length W = N ->
  word w a -> word w b -> word w c -> word w d -> word w e -> word w f -> word w g -> word w h ->
  let v := sha2_round w S0 S1 K i (nth i W 0) [a; b; c; d; e; f; g; h] in
  let a' := nth 0 v 0 in let e' := nth 4 v 0 in
  round1 0 1 2 3 4 5 6 7 [a; b; c; d; e; f; g; h] W (Z.of_nat i) = Ok [a; b; c; e'; e; f; g; a'] /\
  round1 7 0 1 2 3 4 5 6 [b; c; d; e; f; g; h; a] W (Z.of_nat i) = Ok [b; c; e'; e; f; g; a'; a] /\
  round1 6 7 0 1 2 3 4 5 [c; d; e; f; g; h; a; b] W (Z.of_nat i) = Ok [c; e'; e; f; g; a'; a; b] /\
  round1 5 6 7 0 1 2 3 4 [d; e; f; g; h; a; b; c] W (Z.of_nat i) = Ok [e'; e; f; g; a'; a; b; c] /\
  round1 4 5 6 7 0 1 2 3 [e; f; g; h; a; b; c; d] W (Z.of_nat i) = Ok [e; f; g; a'; a; b; c; e'] /\
  round1 3 4 5 6 7 0 1 2 [f; g; h; a; b; c; d; e] W (Z.of_nat i) = Ok [f; g; a'; a; b; c; e'; e] /\
  round1 2 3 4 5 6 7 0 1 [g; h; a; b; c; d; e; f] W (Z.of_nat i) = Ok [g; a'; a; b; c; e'; e; f] /\
  round1 1 2 3 4 5 6 7 0 [h; a; b; c; d; e; f; g] W (Z.of_nat i) = Ok [a'; a; b; c; e'; e; f; g].

Lemma rd8 (a b c d e f g h : Z) :
  rd [a; b; c; d; e; f; g; h] 0 = Ok a /\ rd [a; b; c; d; e; f; g; h] 1 = Ok b /\ rd [a; b; c; d; e; f; g; h] 2 = Ok c /\
  rd [a; b; c; d; e; f; g; h] 3 = Ok d /\ rd [a; b; c; d; e; f; g; h] 4 = Ok e /\ rd [a; b; c; d; e; f; g; h] 5 = Ok f /\
  rd [a; b; c; d; e; f; g; h] 6 = Ok g /\ rd [a; b; c; d; e; f; g; h] 7 = Ok h.
Proof. repeat split. Qed.
Lemma wr8 (a b c d e f g h x : Z) :
  wr [a; b; c; d; e; f; g; h] 0 x = Ok [x; b; c; d; e; f; g; h] /\ wr [a; b; c; d; e; f; g; h] 1 x = Ok [a; x; c; d; e; f; g; h] /\
  wr [a; b; c; d; e; f; g; h] 2 x = Ok [a; b; x; d; e; f; g; h] /\ wr [a; b; c; d; e; f; g; h] 3 x = Ok [a; b; c; x; e; f; g; h] /\
  wr [a; b; c; d; e; f; g; h] 4 x = Ok [a; b; c; d; x; f; g; h] /\ wr [a; b; c; d; e; f; g; h] 5 x = Ok [a; b; c; d; e; x; g; h] /\
  wr [a; b; c; d; e; f; g; h] 6 x = Ok [a; b; c; d; e; f; x; h] /\ wr [a; b; c; d; e; f; g; h] 7 x = Ok [a; b; c; d; e; f; g; x].
Proof. repeat split. Qed.

Ltac rdwr :=
  repeat match goal with
  | |- context[rd [?a; ?b; ?c; ?d; ?e; ?f; ?g; ?h] ?i] =>
    let r := eval cbn in (nth (Z.to_nat i) [a; b; c; d; e; f; g; h] 0) in
    change (rd [a; b; c; d; e; f; g; h] i) with (Ok r); cbn [bind]
  end.
Lemma round1_256_good : good_round1 32 64 S0_256 S1_256 sha256_K round1_256.
Proof.
  intros i W a b c d e f g h Hi LW Ha Hb Hc Hd He Hf Hg Hh v a' e'.
  assert (EW: rd W (Z.of_nat i) = Ok (nth i W 0)) by (apply rd_word; lia).
  assert (EK: rd K256 (Z.of_nat i) = Ok (nth i sha256_K 0)) by (apply K256_ok; lia).
  pose (h1 := ((((h + Z.lxor (Z.lxor (rot 32 e 6) (rot 32 e 11)) (rot 32 e 25)) mod 2 ^ 32 + Z.lxor g (Z.land e (Z.lxor f g))) mod 2 ^ 32
     + nth i sha256_K 0) mod 2 ^ 32 + nth i W 0) mod 2 ^ 32).
  pose (h2 := ((h1 + Z.lxor (Z.lxor (rot 32 a 2) (rot 32 a 13)) (rot 32 a 22)) mod 2 ^ 32 + Z.lor (Z.land (Z.lor a b) c) (Z.land a b)) mod 2 ^ 32).
  assert (E1: (d + h1) mod 2 ^ 32 = e').
  { unfold e', v, h1. cbn [sha2_round nth]. rewrite !rotr_ok by (auto; lia). rewrite (ch_ok 32) by (auto; lia).
    rewrite !wrap_sum, !sum_flat. reflexivity. }
  assert (E2: h2 = a').
  { unfold a', v, h2, h1. cbn [sha2_round nth]. rewrite !rotr_ok by (auto; lia). rewrite (ch_ok 32) by (auto; lia). rewrite maj_ok.
    rewrite !wrap_sum, !sum_flat. cbn [app]. symmetry.
    exact (sum_flat_last 32 [h; S1_256 e; Ch 32 e f g; nth i sha256_K 0; nth i W 0] [S0_256 a; Maj a b c]). }
  clearbody a' e'. 
  unfold round1_256. rewrite EW, EK. clear EW EK v.
  rewrite <- E1, <- E2. repeat split; reflexivity.
Qed.
Lemma round1_512_good : good_round1 64 80 S0_512 S1_512 sha512_K round1_512.
Proof.
  intros i W a b c d e f g h Hi LW Ha Hb Hc Hd He Hf Hg Hh v a' e'.
  assert (EW: rd W (Z.of_nat i) = Ok (nth i W 0)) by (apply rd_word; lia).
  assert (EK: rd K512 (Z.of_nat i) = Ok (nth i sha512_K 0)) by (apply K512_ok; lia).
  pose (t0 := ((((((h + Z.lxor (Z.lxor (rot 64 e 14) (rot 64 e 18)) (rot 64 e 41)) mod 2 ^ 64) + Z.lxor g (Z.land e (Z.lxor f g))) mod 2 ^ 64
     + nth i sha512_K 0) mod 2 ^ 64) + nth i W 0) mod 2 ^ 64).
  pose (t1 := (Z.lxor (Z.lxor (rot 64 a 28) (rot 64 a 34)) (rot 64 a 39) + Z.lor (Z.land (Z.lor a b) c) (Z.land a b)) mod 2 ^ 64).
  assert (T0: t0 = sum 64 [h; S1_512 e; Ch 64 e f g; nth i sha512_K 0; nth i W 0]).
  { unfold t0. rewrite !rotr_ok by (auto; lia). rewrite (ch_ok 64) by (auto; lia). rewrite !wrap_sum, !sum_flat. reflexivity. }
  assert (T1: t1 = sum 64 [S0_512 a; Maj a b c]).
  { unfold t1. rewrite !rotr_ok by (auto; lia). rewrite maj_ok. rewrite !wrap_sum. reflexivity. }
  assert (E1: (d + t0) mod 2 ^ 64 = e').
  { unfold e', v. cbn [sha2_round nth]. rewrite T0, wrap_sum. reflexivity. }
  assert (E2: (t0 + t1) mod 2 ^ 64 = a').
  { unfold a', v. cbn [sha2_round nth]. rewrite T0, T1, wrap_sum. reflexivity. }
  clear T0 T1. clearbody a' e'.
  unfold round1_512. rewrite EW, EK. clear EW EK v.
  rewrite <- E1, <- E2. repeat split; reflexivity.
Qed.

Lemma rounds_ok w N S0 S1 K round1 W : 0 <= w -> good_round1 w N S0 S1 K round1 -> length W = N ->
  forall n i v, state w 8 v -> (i + 8 * n <= N)%nat ->
  rounds round1 n (Z.of_nat i) v W = Ok (fold_left (fun v t => sha2_round w S0 S1 K t (nth t W 0) v) (seq i (8 * n)) v).
Proof.
  intros Hw G LW.
  assert (ST: forall i a b c d e f g h, (i < N)%nat ->
    word w a -> word w b -> word w c -> word w d -> word w e -> word w f -> word w g -> word w h ->
    exists a' e', sha2_round w S0 S1 K i (nth i W 0) [a; b; c; d; e; f; g; h] = [a'; a; b; c; e'; e; f; g] /\ word w a' /\ word w e' /\
      round1 0 1 2 3 4 5 6 7 [a; b; c; d; e; f; g; h] W (Z.of_nat i) = Ok [a; b; c; e'; e; f; g; a'] /\
      round1 7 0 1 2 3 4 5 6 [b; c; d; e; f; g; h; a] W (Z.of_nat i) = Ok [b; c; e'; e; f; g; a'; a] /\
      round1 6 7 0 1 2 3 4 5 [c; d; e; f; g; h; a; b] W (Z.of_nat i) = Ok [c; e'; e; f; g; a'; a; b] /\
      round1 5 6 7 0 1 2 3 4 [d; e; f; g; h; a; b; c] W (Z.of_nat i) = Ok [e'; e; f; g; a'; a; b; c] /\
      round1 4 5 6 7 0 1 2 3 [e; f; g; h; a; b; c; d] W (Z.of_nat i) = Ok [e; f; g; a'; a; b; c; e'] /\
      round1 3 4 5 6 7 0 1 2 [f; g; h; a; b; c; d; e] W (Z.of_nat i) = Ok [f; g; a'; a; b; c; e'; e] /\
      round1 2 3 4 5 6 7 0 1 [g; h; a; b; c; d; e; f] W (Z.of_nat i) = Ok [g; a'; a; b; c; e'; e; f] /\
      round1 1 2 3 4 5 6 7 0 [h; a; b; c; d; e; f; g] W (Z.of_nat i) = Ok [a'; a; b; c; e'; e; f; g]).
  { intros i a b c d e f g h Hi Ha Hb Hc Hd He Hf Hg Hh.
    pose proof (G i W a b c d e f g h Hi LW Ha Hb Hc Hd He Hf Hg Hh) as Q. cbv zeta in Q.
    eexists. eexists. split; [|split; [|split; [|exact Q]]].
    - reflexivity.
    - cbn [sha2_round nth]. apply word_sum. auto.
    - cbn [sha2_round nth]. apply word_sum. auto. }
  clear G. induction n; intros i v SV L; auto.
  destruct (state8 _ _ SV) as (a & b & c & d & e & f & g & h & -> & Ha & Hb & Hc & Hd & He & Hf & Hg & Hh). clear SV.
  replace (8 * S n)%nat with (8 + 8 * n)%nat by lia. rewrite seq_app, fold_left_app. cbn [rounds].
  remember (8 * n)%nat as n8 eqn:En8. cbn [seq fold_left]. subst n8.
  replace (Z.of_nat i + 0) with (Z.of_nat i) by lia.
  replace (Z.of_nat i + 1) with (Z.of_nat (S i)) by lia.
  replace (Z.of_nat i + 2) with (Z.of_nat (S (S i))) by lia.
  replace (Z.of_nat i + 3) with (Z.of_nat (S (S (S i)))) by lia.
  replace (Z.of_nat i + 4) with (Z.of_nat (S (S (S (S i))))) by lia.
  replace (Z.of_nat i + 5) with (Z.of_nat (S (S (S (S (S i)))))) by lia.
  replace (Z.of_nat i + 6) with (Z.of_nat (S (S (S (S (S (S i))))))) by lia.
  replace (Z.of_nat i + 7) with (Z.of_nat (S (S (S (S (S (S (S i)))))))) by lia.
  replace (Z.of_nat i + 8) with (Z.of_nat (i + 8)) by lia.
  destruct (ST i a b c d e f g h) as (a1 & e1 & R1 & A1 & B1 & Q & _); auto; try lia. rewrite R1, Q. cbn [bind]. clear R1 Q.
  destruct (ST (S i) a1 a b c e1 e f g) as (a2 & e2 & R1 & A2 & B2 & _ & Q & _); auto; try lia. rewrite R1, Q. cbn [bind]. clear R1 Q.
  destruct (ST (S (S i)) a2 a1 a b e2 e1 e f) as (a3 & e3 & R1 & A3 & B3 & _ & _ & Q & _); auto; try lia. rewrite R1, Q. cbn [bind]. clear R1 Q.
  destruct (ST (S (S (S i))) a3 a2 a1 a e3 e2 e1 e) as (a4 & e4 & R1 & A4 & B4 & _ & _ & _ & Q & _); auto; try lia. rewrite R1, Q. cbn [bind]. clear R1 Q.
  destruct (ST (S (S (S (S i)))) a4 a3 a2 a1 e4 e3 e2 e1) as (a5 & e5 & R1 & A5 & B5 & _ & _ & _ & _ & Q & _); auto; try lia. rewrite R1, Q. cbn [bind]. clear R1 Q.
  destruct (ST (S (S (S (S (S i))))) a5 a4 a3 a2 e5 e4 e3 e2) as (a6 & e6 & R1 & A6 & B6 & _ & _ & _ & _ & _ & Q & _); auto; try lia. rewrite R1, Q. cbn [bind]. clear R1 Q.
  destruct (ST (S (S (S (S (S (S i)))))) a6 a5 a4 a3 e6 e5 e4 e3) as (a7 & e7 & R1 & A7 & B7 & _ & _ & _ & _ & _ & _ & Q & _); auto; try lia. rewrite R1, Q. cbn [bind]. clear R1 Q.
  destruct (ST (S (S (S (S (S (S (S i))))))) a7 a6 a5 a4 e7 e6 e5 e4) as (a8 & e8 & R1 & A8 & B8 & _ & _ & _ & _ & _ & _ & _ & Q); auto; try lia. rewrite R1, Q. cbn [bind]. clear R1 Q.
  apply IHn; [|lia]. split; auto. fa; assumption.
Qed.

Lemma copy8_ok j a b c d e f g h : copy8 8 0 [a; b; c; d; e; f; g; h] (repeat j 8) = Ok [a; b; c; d; e; f; g; h].
Proof. reflexivity. Qed.

Lemma compress256_ok little junk H p : state 32 8 H -> bytes p -> (64 <= length p)%nat ->
  compress256 little junk H p = Ok (hash_block 32 (sha2_next 32 s0_256 s1_256) (sha2_round 32 S0_256 S1_256 sha256_K) 64 H (firstn 64 p)) /\
  state 32 8 (hash_block 32 (sha2_next 32 s0_256 s1_256) (sha2_round 32 S0_256 S1_256 sha256_K) 64 H (firstn 64 p)).
Proof.
  intros SH B L. unfold compress256, hash_block. cbv zeta. change (Z.to_nat (32 / 8)) with 4%nat. change (64 - 16)%nat with 48%nat.
  assert (words 4 (firstn 64 p) = words 4 p) as -> by (unfold words; rewrite cut_firstn; auto; lia).
  rewrite w32_load_ok by (auto; rewrite repeat_length; lia). cbn [bind].
  assert (length (words 4 p) = 16%nat) as L16 by (unfold words; rewrite map_length, cut_length; auto).
  assert (W16: Forall (word 32) (words 4 p)) by (apply (words_ok 4); auto; lia).
  replace 16 with (zlen (words 4 p)) by (unfold zlen; lia).
  rewrite w32_ext_ok by (auto; rewrite ?skipn_length, ?repeat_length; lia). cbn [bind].
  rewrite skipn_all2, app_nil_r by (rewrite skipn_length, repeat_length; lia).
  pose proof (schedule_length (sha2_next 32 s0_256 s1_256) 48 (words 4 p)) as LW. rewrite L16 in LW.
  remember (schedule (sha2_next 32 s0_256 s1_256) 48 (words 4 p)) as W eqn:EW. clear EW. change (16 + 48)%nat with 64%nat in LW.
  pose proof (fold_state 32 8 (fun t => sha2_round 32 S0_256 S1_256 sha256_K t (nth t W 0)) (fun t v => sha2_round_state 32 _ _ _ t _ v ltac:(lia)) (seq 0 64) H SH) as SF.
  pose proof (rounds_ok 32 64 _ _ _ _ W ltac:(lia) round1_256_good LW 8 0 H SH ltac:(lia)) as RO.
  change (Z.of_nat 0) with 0 in RO. change (8 * 8)%nat with 64%nat in RO.
  destruct (state8 _ _ SH) as (a & b & c & d & e & f & g & h & -> & _).
  rewrite copy8_ok. cbn [bind]. rewrite RO. cbn [bind]. clear RO.
  destruct (state8 _ _ SF) as (a' & b' & c' & d' & e' & f' & g' & h' & E & _). rewrite E.
  rewrite add_all8. cbn [combine map]. rewrite !sum2_comm. split; auto.
  split; auto. fa; apply word_sum; lia.
Qed.
Lemma compress512_ok little junk H p : state 64 8 H -> bytes p -> (128 <= length p)%nat ->
  compress512 little junk H p = Ok (hash_block 64 (sha2_next 64 s0_512 s1_512) (sha2_round 64 S0_512 S1_512 sha512_K) 80 H (firstn 128 p)) /\
  state 64 8 (hash_block 64 (sha2_next 64 s0_512 s1_512) (sha2_round 64 S0_512 S1_512 sha512_K) 80 H (firstn 128 p)).
Proof.
  intros SH B L. unfold compress512, hash_block. cbv zeta. change (Z.to_nat (64 / 8)) with 8%nat. change (80 - 16)%nat with 64%nat.
  assert (words 8 (firstn 128 p) = words 8 p) as -> by (unfold words; rewrite cut_firstn; auto; lia).
  rewrite w64_load_ok by (auto; rewrite repeat_length; lia). cbn [bind].
  assert (length (words 8 p) = 16%nat) as L16 by (unfold words; rewrite map_length, cut_length; auto).
  assert (W16: Forall (word 64) (words 8 p)) by (apply (words_ok 8); auto; lia).
  replace 16 with (zlen (words 8 p)) by (unfold zlen; lia).
  rewrite w64_ext_ok by (auto; rewrite ?skipn_length, ?repeat_length; lia). cbn [bind].
  rewrite skipn_all2, app_nil_r by (rewrite skipn_length, repeat_length; lia).
  pose proof (schedule_length (sha2_next 64 s0_512 s1_512) 64 (words 8 p)) as LW. rewrite L16 in LW.
  remember (schedule (sha2_next 64 s0_512 s1_512) 64 (words 8 p)) as W eqn:EW. clear EW. change (16 + 64)%nat with 80%nat in LW.
  pose proof (fold_state 64 8 (fun t => sha2_round 64 S0_512 S1_512 sha512_K t (nth t W 0)) (fun t v => sha2_round_state 64 _ _ _ t _ v ltac:(lia)) (seq 0 80) H SH) as SF.
  pose proof (rounds_ok 64 80 _ _ _ _ W ltac:(lia) round1_512_good LW 10 0 H SH ltac:(lia)) as RO.
  change (Z.of_nat 0) with 0 in RO. change (8 * 10)%nat with 80%nat in RO.
  destruct (state8 _ _ SH) as (a & b & c & d & e & f & g & h & -> & _).
  rewrite copy8_ok. cbn [bind]. rewrite RO. cbn [bind]. clear RO.
  destruct (state8 _ _ SF) as (a' & b' & c' & d' & e' & f' & g' & h' & E & _). rewrite E.
  rewrite add_all8. cbn [combine map]. rewrite !sum2_comm. split; auto.
  split; auto. fa; apply word_sum; lia.
Qed.
