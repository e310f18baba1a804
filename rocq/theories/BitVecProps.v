(** C23-C25: BitVectorT as a list of bits. *)
Require Import Verif.Common Verif.BitVecModel Verif.BitVecProof.
Ltac Zify.zify_post_hook ::= idtac.

(** * Specification: what each operation does to a plain list of bits *)
(** bit i of an array of w-bit blocks, and its first n bits *)
Definition block_bit (w : Z) (buf : list Z) (i : Z) : bool := Z.testbit (nth (Z.to_nat (i / w)) buf 0) (i mod w).
Definition block_bits (w : Z) (buf : list Z) (n : Z) : list bool := map (fun i => block_bit w buf (Z.of_nat i)) (seq 0 (Z.to_nat n)).
(** the n low bits of an integer, lowest first *)
Definition low_bits (x n : Z) : list bool := map (fun i => Z.testbit x (Z.of_nat i)) (seq 0 (Z.to_nat n)).
Definition resize_bits (l : list bool) (n : Z) : list bool := firstn (Z.to_nat n) l ++ repeat false (Z.to_nat n - length l).

Inductive bv_op :=
| OResize (n : Z)
| OClear
| OSet (i : Z)
| OReset (i : Z)
| OSetB (i : Z) (b : bool)
| OInit (buf : list Z) (n : Z)
| OAppendBuf (buf : list Z) (n : Z)
| OAppend64 (x n : Z)
| OAppendVec (v : bitvec)
| OExtractTo (v : bitvec) (pos n : Z).   (* this object is the destination of v.extract(this, pos, n) *)

(** the list after the operation, and whether the operation throws *)
Definition spec_step (w : Z) (l : list bool) (o : bv_op) : list bool * bool :=
  match o with
  | OResize n => (resize_bits l n, false)
  | OClear => ([], false)
  | OSet i => if i <? zlen l then (upd l (Z.to_nat i) true, false) else (l, true)
  | OReset i => if i <? zlen l then (upd l (Z.to_nat i) false, false) else (l, true)
  | OSetB i b => if i <? zlen l then (upd l (Z.to_nat i) b, false) else (l, true)
  | OInit buf n => (block_bits w buf n, false)
  | OAppendBuf buf n => (l ++ block_bits w buf n, false)
  | OAppend64 x n => if n <=? w then (l ++ low_bits x n, false) else (l, true)
  | OAppendVec v => (l ++ block_bits w (bv_v v) (bv_len v), false)
  | OExtractTo v pos n =>
      if (n =? 0) || (pos + n <=? bv_len v)
      then (firstn (Z.to_nat n) (skipn (Z.to_nat pos) (block_bits w (bv_v v) (bv_len v))), false)
      else (resize_bits l n, true)
  end.
Fixpoint spec_run (w : Z) (l : list bool) (os : list bv_op) : list bool * list bool :=
  match os with
  | [] => (l, [])
  | o :: os => let (l', t) := spec_step w l o in let (l'', ts) := spec_run w l' os in (l'', t :: ts)
  end.

(** the same operations on the model of the class *)
Definition model_step (w : Z) (b : bitvec) (o : bv_op) : sres :=
  match o with
  | OResize n => let! b := bv_resize w b n in Ok (b, false)
  | OClear => Ok (bv_clear b, false)
  | OSet i => bv_set w b i
  | OReset i => bv_reset w b i
  | OSetB i x => bv_setb w b i x
  | OInit buf n => let! b := bv_init w b buf n in Ok (b, false)
  | OAppendBuf buf n => let! b := bv_append_buf w b buf n in Ok (b, false)
  | OAppend64 x n => bv_append64 w b x n
  | OAppendVec v => let! b := bv_append w b v in Ok (b, false)
  | OExtractTo v pos n => bv_extract_vec w v b pos n
  end.
Fixpoint model_run (w : Z) (b : bitvec) (os : list bv_op) : res (bitvec * list bool) :=
  match os with
  | [] => Ok (b, [])
  | o :: os => let! (b', t) := model_step w b o in let! (b'', ts) := model_run w b' os in Ok (b'', t :: ts)
  end.

(** arguments the API allows: pointers to enough blocks, lengths far from wrapping size_t;
    OInit: no bits beyond the length in the last block; OAppend64: a full block of a narrow block type
    must fit the block type. *)
Definition blocks (w : Z) (buf : list Z) (n : Z) : Prop := Forall (fun x => 0 <= x < 2 ^ w) buf /\ 0 <= n <= w * zlen buf /\ n <= 2 ^ 63.
Definition clean (w : Z) (buf : list Z) (n : Z) : Prop := forall i, n <= i -> i < w * ((n + w - 1) / w) -> block_bit w buf i = false.
Definition op_ok (w : Z) (l : list bool) (o : bv_op) : Prop :=
  match o with
  | OResize n => 0 <= n <= 2 ^ 63
  | OClear => True
  | OSet i | OReset i | OSetB i _ => 0 <= i
  | OInit buf n => blocks w buf n /\ clean w buf n
  | OAppendBuf buf n => blocks w buf n /\ zlen l + n <= 2 ^ 63
  | OAppend64 x n => 0 <= x < 2 ^ 64 /\ 0 <= n < 2 ^ 64 /\ (n = w -> x < 2 ^ w) /\ (n <= w -> zlen l + n <= 2 ^ 63)
  | OAppendVec v => blocks w (bv_v v) (bv_len v) /\ zlen l + bv_len v <= 2 ^ 63
  | OExtractTo v pos n => blocks w (bv_v v) (bv_len v) /\ 0 <= pos <= 2 ^ 63 /\ 0 <= n < 2 ^ 63
  end.
Fixpoint ops_ok (w : Z) (l : list bool) (os : list bv_op) : Prop :=
  match os with [] => True | o :: os => op_ok w l o /\ ops_ok w (fst (spec_step w l o)) os end.

Section W.
Variable w : Z.
Hypothesis Hw : 0 < w <= 64.
Notation vbit := (vbit w).
Notation words := (words w).

(** the object holds n bits f(0..n) and nothing beyond *)
Definition holds (b : bitvec) (n : Z) (f : Z -> bool) : Prop :=
  bv_len b = n /\ 0 <= n <= 2 ^ 63 /\ words (bv_v b) /\ w * zlen (bv_v b) - w < n <= w * zlen (bv_v b) /\
  forall i, 0 <= i -> vbit (bv_v b) i = (i <? n) && f i.
Definition rep (b : bitvec) (l : list bool) : Prop := holds b (zlen l) (fun i => nth (Z.to_nat i) l false).

Lemma holds_ext b n f g : (forall i, 0 <= i < n -> f i = g i) -> holds b n f -> holds b n g.
Proof. intros E (A & B & C & D & F). repeat split; auto; try lia. intros i Hi. rewrite F by auto. destruct (i <? n) eqn:?; auto. rewrite E by lia. auto. Qed.
Lemma holds_rep b n f l : holds b n f -> zlen l = n -> (forall i, 0 <= i < n -> f i = nth (Z.to_nat i) l false) -> rep b l.
Proof. intros H E F. unfold rep. rewrite E. eapply holds_ext; [|exact H]. auto. Qed.
Lemma roundup_eq n k : 0 <= n <= 2 ^ 63 + 64 -> w * k - w < n <= w * k -> RoundupBit w n = k.
Proof.
  intros H1 H2. destruct (roundup_spec w Hw n ltac:(lia) ltac:(lia)) as (m & E & H & _). rewrite E.
  assert (m <= k) by (apply (wle w Hw); lia). assert (k <= m) by (apply (wle w Hw); lia). lia.
Qed.
Lemma words_app a b : words a -> words b -> words (a ++ b).
Proof. intros. apply Forall_app. auto. Qed.
Lemma words_firstn n a : words a -> words (firstn n a).
Proof. intros H. apply Forall_forall. intros x Hx. apply (proj1 (Forall_forall _ _) H). rewrite <- (firstn_skipn n a). apply in_or_app; auto. Qed.
Lemma words_skipn n a : words a -> words (skipn n a).
Proof. intros H. apply Forall_forall. intros x Hx. apply (proj1 (Forall_forall _ _) H). rewrite <- (firstn_skipn n a). apply in_or_app; auto. Qed.
Lemma nth_skipn' {A} (l : list A) n k d : nth k (skipn n l) d = nth (n + k) l d.
Proof. revert l. induction n; intros [|h t]; simpl; auto. destruct k; auto. Qed.
Lemma nth_firstn' {A} (l : list A) n k d : (k < n)%nat -> nth k (firstn n l) d = nth k l d.
Proof. revert n k. induction l; intros [|n] [|k] H; simpl; auto; try lia. apply IHl. lia. Qed.
Lemma vbit_skipn l q i : 0 <= i -> 0 <= q -> vbit (skipn (Z.to_nat q) l) i = vbit l (w * q + i).
Proof.
  intros Hi Hq. destruct (split_idx w Hw i Hi) as (k & j & E & Hk & Hj & _). subst i. replace (w * q + (w * k + j)) with (w * (q + k) + j) by ring.
  rewrite !vbit_word by (auto; lia). rewrite nth_skipn'. do 2 f_equal. lia.
Qed.
Lemma vbit_join a b q i : zlen a = q -> 0 <= i -> vbit (a ++ b) i = if i <? w * q then vbit a i else vbit b (i - w * q).
Proof.
  intros Ea Hi. destruct (split_idx w Hw i Hi) as (k & j & E & Hk & Hj & _). subst i. pose proof (zlen_nonneg a). destruct (_ <? _) eqn:El.
  - assert (k < q) by (pose proof (wcase w Hw k q); pose proof (wcase w Hw q k); lia). rewrite !vbit_word by (auto; lia). rewrite app_nth1; auto. unfold zlen in *. lia.
  - assert (q <= k) by (pose proof (wcase w Hw k q); pose proof (wcase w Hw q k); lia). replace (w * k + j - w * q) with (w * (k - q) + j) by ring.
    rewrite !vbit_word by (auto; lia). rewrite app_nth2 by (unfold zlen in *; lia). do 2 f_equal. unfold zlen in *. lia.
Qed.
Lemma vbit_firstn a q i : 0 <= i < w * q -> 0 <= q -> vbit (firstn (Z.to_nat q) a) i = vbit a i.
Proof.
  intros Hi Hq. destruct (split_idx w Hw i ltac:(lia)) as (k & j & E & Hk & Hj & _). subst i.
  assert (k < q) by (pose proof (wcase w Hw k q); pose proof (wcase w Hw q k); lia). rewrite !vbit_word by (auto; lia). rewrite nth_firstn' by lia. auto.
Qed.

Lemma vresize_len v n : 0 <= n -> zlen (vresize v n) = n.
Proof. intros. unfold vresize, zlen. rewrite app_length, firstn_length, repeat_length. lia. Qed.
Lemma vresize_words v n : words v -> words (vresize v n).
Proof. intros. apply words_app; [apply words_firstn; auto|]. apply Forall_forall. intros x Hx. apply repeat_spec in Hx. subst. split; [lia|]. apply Z.pow_pos_nonneg; lia. Qed.
Lemma nth_repeat0 k n : nth k (repeat 0 n) 0 = 0.
Proof. revert k. induction n; intros [|k]; simpl; auto. Qed.
Lemma vresize_bit v n i : 0 <= i -> 0 <= n -> vbit (vresize v n) i = (i <? w * n) && vbit v i.
Proof.
  intros Hi Hn. destruct (split_idx w Hw i Hi) as (k & j & E & Hk & Hj & _). subst i. rewrite !vbit_word by auto.
  assert (w * k + j < w * n <-> k < n) by (pose proof (wcase w Hw k n); pose proof (wcase w Hw n k); lia).
  destruct (_ <? _) eqn:El; cbn [andb].
  - f_equal. unfold vresize. destruct (Nat.lt_ge_cases (Z.to_nat k) (length v)).
    + rewrite app_nth1 by (rewrite firstn_length; lia). apply nth_firstn'. lia.
    + rewrite app_nth2 by (rewrite firstn_length; lia). rewrite nth_repeat0. rewrite nth_overflow by lia. auto.
  - rewrite nth_overflow; [apply Z.testbit_0_l|]. pose proof (vresize_len v n Hn). unfold zlen in *. lia.
Qed.

Lemma resize_holds b n f m : holds b n f -> 0 <= m <= 2 ^ 63 -> exists b', bv_resize w b m = Ok b' /\ holds b' m (fun i => (i <? n) && f i).
Proof.
  intros (A & B & C & D & F) Hm. unfold bv_resize. destruct (roundup_spec w Hw m ltac:(lia) ltac:(lia)) as (k & Ek & Hk & Hk0). rewrite Ek. clear Ek.
  destruct (m mod w =? 0) eqn:E.
  - eexists. split; [reflexivity|]. repeat split; cbn [bv_len bv_v]; try rewrite vresize_len by auto; try lia.
    + apply vresize_words; auto.
    + intros i Hi. rewrite vresize_bit, F by lia. assert (w * k = m). { pose proof (Z.div_mod m w ltac:(lia)). assert (k = m / w) by nia. nia. } rewrite H. auto.
  - pose proof (vresize_len (bv_v b) k Hk0). assert (0 < m). { destruct (Z.eq_dec m 0); [subst; rewrite Z.mod_0_l in E; lia|lia]. } assert (0 < k) by nia.
    rewrite rd_ok by lia. cbn [bind]. rewrite wr_ok by (unfold zlen in *; lia). cbn [bind]. eexists. split; [reflexivity|].
    pose proof (Z.mod_pos_bound m w ltac:(lia)). rewrite mask_ones.
    repeat split; cbn [bv_len bv_v]; unfold zlen in *; try rewrite upd_length; try lia.
    + apply words_upd; [apply vresize_words; auto|]. apply word_land_ones; lia.
    + intros i Hi. rewrite vbit_upd by (unfold zlen; try lia; auto).
      assert (M: m = w * (k - 1) + m mod w). { pose proof (Z.div_mod m w ltac:(lia)). assert (k - 1 = m / w) by nia. nia. }
      destruct (split_idx w Hw i Hi) as (k1 & j & E1 & Hk1 & Hj & Ed & Em). rewrite Ed, Em; clear Ed Em. 
      pose proof (vresize_bit (bv_v b) k i Hi ltac:(lia)) as VB. rewrite F in VB by auto.
      destruct (k1 =? k - 1) eqn:Ekk.
      * assert (k1 = k - 1) by lia. rewrite tb_ones by (auto; lia). subst k1. rewrite <- (vbit_word w Hw) by (auto; lia). rewrite <- E1, VB. destruct (i <? m) eqn:?, (j <? m mod w) eqn:?; cbn [andb]; try lia; auto. destruct (i <? w * k) eqn:?; auto. lia.
      * rewrite VB. assert (i < w * k <-> i < m) by (pose proof (wcase w Hw k1 (k-1)); pose proof (wcase w Hw (k-1) k1); pose proof (wcase w Hw k1 k); lia).
        destruct (i <? w * k) eqn:?, (i <? m) eqn:?; auto; lia.
Qed.

Lemma lnot_bit x r j : 0 <= j -> 0 <= r -> Z.testbit (Z.land x (Z.lnot (Z.shiftl 1 r))) j = Z.testbit x j && negb (j =? r).
Proof. intros. rewrite Z.land_spec, Z.lnot_spec by auto. f_equal. f_equal. rewrite Z.shiftl_1_l, Z.pow2_bits_eqb by lia. apply Z.eqb_sym. Qed.
Lemma lor_bit x r j : 0 <= j -> 0 <= r -> Z.testbit (Z.lor x (Z.shiftl 1 r)) j = Z.testbit x j || (j =? r).
Proof. intros. rewrite Z.lor_spec. f_equal. rewrite Z.shiftl_1_l, Z.pow2_bits_eqb by lia. apply Z.eqb_sym. Qed.
Lemma idx_split i i' : 0 <= i -> 0 <= i' -> (i =? i') = (i / w =? i' / w) && (i mod w =? i' mod w).
Proof. intros. pose proof (Z.div_mod i w ltac:(lia)). pose proof (Z.div_mod i' w ltac:(lia)). destruct (i / w =? i' / w) eqn:?, (i mod w =? i' mod w) eqn:?, (i =? i') eqn:?; auto; cbn [andb]; nia. Qed.
Lemma idx_in b n f i : holds b n f -> 0 <= i < n -> 0 <= i / w < zlen (bv_v b).
Proof. intros (A & B & C & D & F) Hi. split; [apply Z.div_pos; lia|]. apply Z.div_lt_upper_bound; lia. Qed.

Lemma set_holds b n f i : holds b n f -> 0 <= i < n -> exists b', bv_set w b i = Ok (b', false) /\ holds b' n (fun k => if k =? i then true else f k).
Proof.
  intros H Hi. pose proof (idx_in _ _ _ _ H Hi) as I. destruct H as (A & B & C & D & F). unfold bv_set. destruct (_ <=? i) eqn:?; [lia|]. unfold SetBlockBit. rewrite rd_ok by auto. cbn [bind]. rewrite wr_ok by auto. cbn [bind].
  eexists. split; [reflexivity|]. pose proof (Z.mod_pos_bound i w ltac:(lia)). repeat split; cbn [bv_len bv_v]; unfold zlen in *; try rewrite upd_length; try lia.
  - apply words_upd; auto. apply word_lor; auto. apply word_nth; auto. apply word_pow2; auto.
  - intros k Hk. rewrite vbit_upd by (unfold zlen; auto; lia). pose proof (Z.mod_pos_bound k w ltac:(lia)). rewrite lor_bit, (idx_split k i) by lia.
    destruct (k / w =? i / w) eqn:E; cbn [andb]; auto. specialize (F k Hk). unfold BitVecProof.vbit in F. assert (k / w = i / w) as E' by lia. rewrite E' in F. rewrite F. destruct (k mod w =? i mod w) eqn:?; cbn [andb orb].
    + assert (k = i) as -> by (pose proof (Z.div_mod i w ltac:(lia)); pose proof (Z.div_mod k w ltac:(lia)); nia). destruct (i <? n) eqn:?; [|lia]. apply orb_true_r.
    + apply orb_false_r.
Qed.
Lemma reset_holds b n f i : holds b n f -> 0 <= i < n -> exists b', bv_reset w b i = Ok (b', false) /\ holds b' n (fun k => if k =? i then false else f k).
Proof.
  intros H Hi. pose proof (idx_in _ _ _ _ H Hi) as I. destruct H as (A & B & C & D & F). unfold bv_reset. destruct (_ <=? i) eqn:?; [lia|]. unfold ResetBlockBit. rewrite rd_ok by auto. cbn [bind]. rewrite wr_ok by auto. cbn [bind].
  eexists. split; [reflexivity|]. pose proof (Z.mod_pos_bound i w ltac:(lia)). repeat split; cbn [bv_len bv_v]; unfold zlen in *; try rewrite upd_length; try lia.
  - apply words_upd; auto. apply (word_land w Hw). apply word_nth; auto.
  - intros k Hk. rewrite vbit_upd by (unfold zlen; auto; lia). pose proof (Z.mod_pos_bound k w ltac:(lia)). rewrite lnot_bit, (idx_split k i) by lia.
    destruct (k / w =? i / w) eqn:E; cbn [andb]; auto. specialize (F k Hk). unfold BitVecProof.vbit in F. assert (k / w = i / w) as E' by lia. rewrite E' in F. rewrite F. destruct (k mod w =? i mod w) eqn:?; cbn [andb orb negb].
    + rewrite !andb_false_r. auto.
    + apply andb_true_r.
Qed.
Lemma get_holds b n f i : holds b n f -> 0 <= i < n -> bv_get w b i = Ok (f i).
Proof.
  intros H Hi. pose proof (idx_in _ _ _ _ H Hi) as I. destruct H as (A & B & C & D & F). unfold bv_get. destruct (_ <=? i) eqn:?; [lia|]. unfold GetBlockBit. rewrite rd_ok by auto. cbn [bind]. f_equal.
  pose proof (Z.mod_pos_bound i w ltac:(lia)). specialize (F i ltac:(lia)). destruct (i <? n) eqn:?; [|lia]. cbn [andb] in F. rewrite <- F. unfold BitVecProof.vbit.
  set (x := nth _ _ _). rewrite Z.shiftl_1_l. destruct (Z.testbit x (i mod w)) eqn:T.
  - destruct (_ =? 0) eqn:Z0; auto. exfalso. assert (Z.testbit (Z.land x (2 ^ (i mod w))) (i mod w) = true) by (rewrite Z.land_spec, T, Z.pow2_bits_true by lia; auto).
    replace (Z.land x (2 ^ (i mod w))) with 0 in H0 by lia. rewrite Z.testbit_0_l in H0. discriminate.
  - assert (Z.land x (2 ^ (i mod w)) = 0). { apply Z.bits_inj'. intros k Hk. rewrite Z.land_spec, Z.pow2_bits_eqb, Z.testbit_0_l by lia. destruct (_ =? k) eqn:?; [|apply andb_false_r]. assert (i mod w = k) by lia. subst k. rewrite T. auto. }
    rewrite H0. auto.
Qed.

Lemma append_buf_holds b n f src m : holds b n f -> words src -> 0 <= m <= w * zlen src -> n + m <= 2 ^ 63 ->
  exists b', bv_append_buf w b src m = Ok b' /\ holds b' (n + m) (fun i => if i <? n then f i else vbit src (i - n)).
Proof.
  intros H Ws Hm Hl. unfold bv_append_buf. destruct (m =? 0) eqn:E0.
  { assert (m = 0) by lia. subst. exists b. split; auto. rewrite Z.add_0_r. eapply holds_ext; [|exact H]. intros i Hi. cbn beta. destruct (i <? n) eqn:?; auto; lia. }
  destruct (resize_holds b n f (n + m) H ltac:(destruct H; lia)) as (b' & E & H'). destruct H as (A & B & C & D & F). rewrite A. rewrite Z.mod_small by lia. rewrite E. cbn [bind]. clear E.
  destruct H' as (A' & B' & C' & D' & F').
  pose proof (Z.mod_pos_bound n w ltac:(lia)) as R. pose proof (Z.div_mod n w ltac:(lia)) as DM. set (q := n / w) in *. set (r := n mod w) in *.
  assert (0 <= q) by (apply Z.div_pos; lia). assert (q < zlen (bv_v b')) by (pose proof (wcase w Hw (zlen (bv_v b')) q); lia). destruct (_ <=? q) eqn:?; [lia|].
  set (dst := skipn (Z.to_nat q) (bv_v b')). set (head := firstn (Z.to_nat q) (bv_v b')).
  assert (Lh: zlen head = q) by (unfold head, zlen in *; rewrite firstn_length; lia).
  assert (Ld: zlen dst = zlen (bv_v b') - q) by (unfold dst, zlen in *; rewrite skipn_length; lia).
  assert (Wd: words dst) by (apply words_skipn; auto). assert (Wh: words head) by (apply words_firstn; auto).
  destruct (roundup_spec w Hw m ltac:(lia) ltac:(lia)) as (mk & Emk & Hmk & _).
  assert (mk <= zlen src) by (apply (wle w Hw); lia).
  assert (REC: exists dst', (if r =? 0 then CopyBit w dst (Some src) m else shiftLeftBit w dst src m r) = Ok dst' /\ length dst' = length dst /\ words dst' /\
    forall i, 0 <= i -> vbit dst' i = if i <? r then vbit dst i else (i <? m + r) && vbit src (i - r)).
  { destruct (r =? 0) eqn:Er.
    - assert (r = 0) by lia. assert (Emd: mk = zlen dst). { assert (mk <= zlen dst) by (apply (wle w Hw); lia). assert (zlen dst <= mk) by (apply (wle w Hw); lia). lia. }
      destruct (C25_CopyBit w Hw dst (Some src) (fun j => nth (Z.to_nat j) src 0) m) as (d' & E & L & W & X); try lia; auto.
      + eapply src_is_le; [apply src_is_some|lia].
      + intros j. apply word_nth; auto.
      + exists d'. repeat split; auto. intros i Hi. rewrite X by auto. rewrite H2, Z.add_0_r, Z.sub_0_r. destruct (i <? 0) eqn:?; [lia|]. destruct (i <? m) eqn:?; auto. rewrite Emk. destruct (i <? w * mk) eqn:?; auto. rewrite vbit_over by (auto; lia). auto.
    - assert (Hdk: RoundupBit w (m + r) = zlen dst) by (apply roundup_eq; lia).
      destruct (shiftLeftBit_spec w Hw dst src m r) as (d' & E & L & W & X); try lia; auto.
      exists d'. repeat split; auto. intros i Hi. rewrite X by auto. destruct (i <? r) eqn:?; auto. destruct (i <? m + r) eqn:?; auto. rewrite Hdk. destruct (i <? w * _) eqn:?; auto. rewrite vbit_over by (auto; lia). auto. }
  destruct REC as (dst' & E & L & W & X). rewrite E. cbn [bind]. eexists. split; [reflexivity|].
  assert (Lt: zlen (head ++ dst') = zlen (bv_v b')) by (rewrite zlen_app; unfold zlen in *; lia).
  repeat split; cbn [bv_len bv_v]; try lia; auto.
  - apply words_app; auto.
  - intros i Hi. rewrite (vbit_join head dst' q) by (auto; lia). destruct (i <? w * q) eqn:Eq.
    + unfold head. rewrite vbit_firstn, F' by lia. destruct (i <? n) eqn:?, (i <? n + m) eqn:?; auto; lia.
    + rewrite X by lia. replace (i - w * q - r) with (i - n) by lia. destruct (i - w * q <? r) eqn:E1.
      * unfold dst. rewrite vbit_skipn by lia. replace (w * q + (i - w * q)) with i by lia. rewrite F' by auto. destruct (i <? n) eqn:?, (i <? n + m) eqn:?; auto; lia.
      * destruct (i - w * q <? m + r) eqn:?, (i <? n + m) eqn:?, (i <? n) eqn:?; auto; lia.
Qed.

Lemma append64_holds b n f x m : holds b n f -> 0 <= x < 2 ^ 64 -> 0 <= m <= w -> (m = w -> x < 2 ^ w) -> n + m <= 2 ^ 63 ->
  exists b', bv_append64 w b x m = Ok (b', false) /\ holds b' (n + m) (fun i => if i <? n then f i else Z.testbit x (i - n)).
Proof.
  intros H Hx Hm Hxw Hl. unfold bv_append64. destruct (m =? 0) eqn:E0.
  { assert (m = 0) by lia. subst. exists b. split; auto. rewrite Z.add_0_r. eapply holds_ext; [|exact H]. intros i Hi. cbn beta. destruct (i <? n) eqn:?; auto; lia. }
  destruct (w <? m) eqn:?; [lia|].
  set (y := if m <? w then Z.land x (GetMaskBit m) else x).
  assert (Y: word w y /\ forall j, 0 <= j -> Z.testbit y j = (j <? m) && Z.testbit x j).
  { unfold y. destruct (m <? w) eqn:?.
    - rewrite mask_ones. split; [apply word_land_ones; lia|]. intros. apply tb_ones; lia.
    - assert (m = w) by lia. assert (word w x) by (unfold word; lia). split; auto. intros j Hj. destruct (j <? m) eqn:?; auto. apply (tb_high w); auto. lia. }
  destruct Y as [Yw Yb]. clearbody y.
  destruct (resize_holds b n f (n + m) H ltac:(destruct H; lia)) as (b' & E & H'). destruct H as (A & B & C & D & F). rewrite A. rewrite Z.mod_small by lia. rewrite E. cbn [bind]. clear E.
  destruct H' as (A' & B' & C' & D' & F').
  pose proof (Z.mod_pos_bound n w ltac:(lia)) as R. pose proof (Z.div_mod n w ltac:(lia)) as DM. set (q := n / w) in *. set (r := n mod w) in *.
  assert (0 <= q) by (apply Z.div_pos; lia). assert (Q: q < zlen (bv_v b')) by (pose proof (wcase w Hw (zlen (bv_v b')) q); lia).
  assert (Ny: forall j, j < 0 -> Z.testbit y j = false) by (intros; apply Z.testbit_neg_r; auto).
  destruct (r =? 0) eqn:Er.
  - rewrite wr_ok by (unfold zlen in *; lia). cbn [bind]. eexists. split; [reflexivity|]. rewrite Z.mod_small by (exact Yw).
    repeat split; cbn [bv_len bv_v]; unfold zlen in *; try rewrite upd_length; try lia.
    + apply words_upd; auto.
    + intros i Hi. rewrite vbit_upd by (unfold zlen; auto; lia). rewrite F' by auto. destruct (split_idx w Hw i Hi) as (k & j & Ei & Hk & Hj & Ed & Em). rewrite Ed, Em; clear Ed Em. 
      destruct (k =? q) eqn:Ekq.
      * assert (k = q) by lia. subst k. rewrite Yb by lia. replace (i - n) with j by lia. destruct (j <? m) eqn:?, (i <? n + m) eqn:?; auto; try lia. cbn [andb]. destruct (i <? n) eqn:?; auto; lia.
      * assert (k < q \/ q + 1 <= k) as [K|K] by lia.
        -- pose proof (wcase w Hw k q). assert (i < n) by (pose proof (wle' w Hw (k+1) q); lia). destruct (i <? n + m) eqn:?, (i <? n) eqn:?; auto; lia.
        -- assert (n + m <= i) by (pose proof (wle' w Hw (q+1) k); lia). destruct (i <? n + m) eqn:?; auto; lia.
  - rewrite rd_ok by lia. cbn [bind]. rewrite wr_ok by (unfold zlen in *; lia). cbn [bind].
    set (z := Z.lor (nth (Z.to_nat q) (bv_v b') 0) _).
    assert (Wz: word w z). { apply word_lor; auto. apply word_nth; auto. apply Z.mod_pos_bound. apply Z.pow_pos_nonneg; lia. }
    assert (Zb: forall j, 0 <= j < w -> Z.testbit z j = vbit (bv_v b') (w * q + j) || Z.testbit y (j - r)).
    { intros j Hj. unfold z. rewrite Z.lor_spec, vbit_word by (auto; lia). f_equal. rewrite !tb_mod by lia. rewrite Z.shiftl_spec by lia. destruct (j <? w) eqn:?, (j <? 64) eqn:?; auto; lia. }
    clearbody z.
    assert (LU: zlen (upd (bv_v b') (Z.to_nat q) z) = zlen (bv_v b')) by (unfold zlen; rewrite upd_length; auto).
    assert (WU: words (upd (bv_v b') (Z.to_nat q) z)) by (apply words_upd; auto).
    assert (BU: forall i, 0 <= i -> i < w * (q + 1) -> vbit (upd (bv_v b') (Z.to_nat q) z) i = (i <? n + m) && (if i <? n then f i else Z.testbit x (i - n))).
    { intros i Hi Hi2. rewrite vbit_upd by (auto; lia). rewrite F' by auto. destruct (split_idx w Hw i Hi) as (k & j & Ei & Hk & Hj & Ed & Em). rewrite Ed, Em; clear Ed Em. destruct (k =? q) eqn:Ekq.
      - assert (k = q) by lia. subst k. rewrite Zb by lia. rewrite <- Ei, F' by lia. replace (j - r) with (i - n) by lia.
        destruct (i <? n) eqn:?.
        + rewrite Ny by lia. destruct (i <? n + m) eqn:?; [|lia]. apply orb_false_r.
        + rewrite Yb by lia. destruct (i - n <? m) eqn:?, (i <? n + m) eqn:?; auto; lia.
      - assert (K: k < q) by (pose proof (wcase w Hw k (q + 1)); pose proof (wcase w Hw (q + 1) k); lia).
        assert (i < n) by (pose proof (wle' w Hw (k+1) q); lia). destruct (i <? n + m) eqn:?, (i <? n) eqn:?; auto; lia. }
    destruct (w <? r + m) eqn:Eover.
    + assert (Q1: q + 1 < zlen (bv_v b')) by (pose proof (wcase w Hw (zlen (bv_v b')) (q + 1)); lia).
      rewrite wr_ok by (unfold zlen in *; lia). cbn [bind]. eexists. split; [reflexivity|].
      repeat split; cbn [bv_len bv_v]; try (unfold zlen in *; rewrite !upd_length; lia); try lia.
      * apply words_upd; auto. apply Z.mod_pos_bound. apply Z.pow_pos_nonneg; lia.
      * intros i Hi. rewrite vbit_upd by (auto; lia). destruct (split_idx w Hw i Hi) as (k & j & Ei & Hk & Hj & Ed & Em). rewrite Ed, Em. destruct (k =? q + 1) eqn:Ekq.
        -- assert (k = q + 1) by lia. clear Ed; subst k. rewrite tb_mod, Z.shiftr_spec by lia. rewrite Yb by lia. replace (j + (w - r)) with (i - n) by lia.
           destruct (j <? w) eqn:?; [|lia]. cbn [andb]. destruct (i - n <? m) eqn:?, (i <? n + m) eqn:?; auto; try lia. destruct (i <? n) eqn:?; auto. lia.
        -- assert (k < q + 1 \/ q + 1 + 1 <= k) as [K|K] by lia.
           ++ apply BU; auto. pose proof (wle' w Hw (k+1) (q+1)). lia.
           ++ pose proof (wle' w Hw (q+1+1) k). rewrite vbit_upd by (auto; lia). rewrite Ed. destruct (k =? q) eqn:?; [lia|]. rewrite F' by auto. destruct (i <? n + m) eqn:?; auto; lia.
    + cbn [bind]. eexists. split; [reflexivity|]. repeat split; cbn [bv_len bv_v]; auto; try lia.
      intros i Hi. destruct (Z_lt_le_dec i (w * (q + 1))); [apply BU; auto|]. rewrite vbit_upd by (auto; lia). rewrite F' by auto.
      destruct (split_idx w Hw i Hi) as (k & j & Ei & Hk & Hj & Ed & Em). rewrite Ed; clear Ed. destruct (k =? q) eqn:?; [exfalso; assert (k = q) by lia; subst; lia|]. destruct (i <? n + m) eqn:?; auto; lia.
Qed.

Lemma extract_buf_holds b n f dst pos m : bv_len b = n -> words (bv_v b) -> n <= w * zlen (bv_v b) -> n <= 2 ^ 63 -> (forall i, 0 <= i < n -> vbit (bv_v b) i = f i) ->
  words dst -> 0 <= pos -> 0 <= m -> pos + m <= n -> w * zlen dst - w < m <= w * zlen dst -> 
  exists dst', bv_extract_buf w b dst pos m = Ok dst' /\ length dst' = length dst /\ words dst' /\ forall i, 0 <= i -> vbit dst' i = (i <? m) && f (pos + i).
Proof.
  intros A C D B F Wd Hp Hm Hr Hd. unfold bv_extract_buf. destruct (m =? 0) eqn:E0.
  { assert (M0: m = 0) by lia. exists dst. repeat split; auto. intros i Hi. destruct (i <? m) eqn:?; [lia|]. apply vbit_over; auto. rewrite M0 in *. assert (zlen dst = 0) by (unfold zlen in *; nia). lia. }
  rewrite A, Z.mod_small by lia. destruct (n <? pos + m) eqn:?; [lia|].
  pose proof (Z.mod_pos_bound pos w ltac:(lia)) as R. pose proof (Z.div_mod pos w ltac:(lia)) as DM. set (q := pos / w) in *. set (r := pos mod w) in *.
  assert (0 <= q) by (apply Z.div_pos; lia). assert (Q: q < zlen (bv_v b)) by (pose proof (wcase w Hw (zlen (bv_v b)) q); lia). destruct (_ <=? q) eqn:?; [lia|].
  set (src := skipn (Z.to_nat q) (bv_v b)). assert (Ls: zlen src = zlen (bv_v b) - q) by (unfold src, zlen in *; rewrite skipn_length; lia).
  assert (Ws: words src) by (apply words_skipn; auto).
  assert (Sb: forall i, 0 <= i < m -> vbit src (i + r) = f (pos + i)). { intros i Hi. unfold src. rewrite vbit_skipn by lia. replace (w * q + (i + r)) with (pos + i) by lia. apply F. lia. }
  assert (Rd: RoundupBit w m = zlen dst) by (apply roundup_eq; lia).
  destruct (r =? 0) eqn:Er.
  - assert (R0: r = 0) by lia.
    assert (zlen dst <= zlen src) by (apply (wle w Hw); lia).
    destruct (C25_CopyBit w Hw dst (Some src) (fun j => nth (Z.to_nat j) src 0) m) as (d' & E & L & W & X); try lia; auto.
    + eapply src_is_le; [apply src_is_some|lia].
    + intros j. apply word_nth; auto.
    + exists d'. repeat split; auto. intros i Hi. rewrite X by auto. destruct (i <? m) eqn:?; cbn [andb].
      * rewrite <- Sb by lia. rewrite R0, Z.add_0_r. auto.
      * rewrite Rd. destruct (i <? w * _) eqn:?; auto. apply vbit_over; auto; lia.
  - destruct (roundup_spec w Hw (m + r) ltac:(lia) ltac:(lia)) as (mk & Emk & Hmk & _).
    assert (mk <= zlen src) by (apply (wle w Hw); lia).
    destruct (shiftRightBit_spec w Hw dst src m r) as (d' & E & L & W & X); try lia; auto.
    exists d'. repeat split; auto. intros i Hi. rewrite X by auto. destruct (i <? m) eqn:?; cbn [andb]; [apply Sb; lia|]. rewrite Rd. destruct (i <? w * _) eqn:?; auto. apply vbit_over; auto; lia.
Qed.

Lemma extract_holds b n f pos m : holds b n f -> 0 <= pos -> 0 <= m <= w -> pos + m <= n ->
  exists x, bv_extract w b pos m = Ok x /\ word w x /\ forall j, 0 <= j -> Z.testbit x j = (j <? m) && f (pos + j).
Proof.
  intros (A & B & C & D & F) Hp Hm Hr. unfold bv_extract. destruct (m =? 0) eqn:E0.
  { exists 0. split; auto. split; [split; [lia|apply Z.pow_pos_nonneg; lia]|]. intros j Hj. rewrite Z.testbit_0_l. destruct (j <? m) eqn:?; auto; lia. }
  rewrite A, Z.mod_small by lia. destruct (_ || _) eqn:?; [lia|].
  pose proof (Z.mod_pos_bound pos w ltac:(lia)) as R. pose proof (Z.div_mod pos w ltac:(lia)) as DM. set (q := pos / w) in *. set (r := pos mod w) in *.
  assert (0 <= q) by (apply Z.div_pos; lia). assert (Q: q < zlen (bv_v b)) by (pose proof (wcase w Hw (zlen (bv_v b)) q); lia).
  assert (REC: exists v, (if r =? 0 then rd (bv_v b) q
    else if q =? zlen (bv_v b) - 1 then let! x := rd (bv_v b) q in Ok (shrT x r)
    else let! x := rd (bv_v b) q in let! y := rd (bv_v b) (q + 1) in Ok (Z.lor (shrT x r) (shlT w y (w - r)))) = Ok v /\ word w v /\ forall j, 0 <= j < m -> Z.testbit v j = f (pos + j)).
  { assert (FV: forall k j, 0 <= k -> 0 <= j < w -> Z.testbit (nth (Z.to_nat k) (bv_v b) 0) j = (w * k + j <? n) && f (w * k + j)) by (intros; rewrite <- (vbit_word w Hw) by auto; apply F; nia).
    destruct (r =? 0) eqn:Er; [|destruct (q =? _) eqn:Eq].
    - rewrite rd_ok by lia. eexists. split; [reflexivity|]. split; [apply word_nth; auto|]. intros j Hj. rewrite FV by lia. replace (w * q + j) with (pos + j) by lia. destruct (_ <? n) eqn:?; auto; lia.
    - rewrite rd_ok by lia. eexists. split; [reflexivity|]. split; [apply word_shr; auto; [apply word_nth; auto|lia]|]. intros j Hj. rewrite tb_shr by lia.
      assert (w * (q + 1) = w * zlen (bv_v b)) by (f_equal; lia). rewrite FV by lia. replace (w * q + (j + r)) with (pos + j) by lia. destruct (_ <? n) eqn:?; auto; lia.
    - rewrite !rd_ok by lia. eexists. split; [reflexivity|]. split; [apply word_lor; auto; [apply word_shr; auto; [apply word_nth; auto|lia]|apply word_shl; auto]|]. intros j Hj. rewrite Z.lor_spec, tb_shr, tb_shl by lia.
      destruct (j <? w) eqn:?; [|lia]. cbn [andb]. destruct (Z_lt_le_dec (j + r) w).
      + rewrite (Z.testbit_neg_r _ (j - (w - r))) by lia. rewrite orb_false_r, FV by lia. replace (w * q + (j + r)) with (pos + j) by lia. destruct (_ <? n) eqn:?; auto; lia.
      + rewrite (tb_high w _ (j + r)) by (try lia; apply word_nth; auto). cbn [orb]. rewrite FV by lia. replace (w * (q + 1) + (j - (w - r))) with (pos + j) by lia. destruct (_ <? n) eqn:?; auto; lia. }
  destruct REC as (v & E & Wv & V). rewrite E. cbn [bind]. destruct (m <? w) eqn:?.
  - rewrite mask_ones. eexists. split; [reflexivity|]. split; [apply word_land_ones; lia|]. intros j Hj. rewrite tb_ones by lia. destruct (j <? m) eqn:?; auto. rewrite V by lia. auto.
  - eexists. split; [reflexivity|]. split; auto. intros j Hj. destruct (j <? m) eqn:?; [rewrite V by lia; auto|]. apply (tb_high w); auto. lia.
Qed.

Lemma init_holds b n0 f buf n : holds b n0 f -> blocks w buf n -> clean w buf n -> exists b', bv_init w b buf n = Ok b' /\ holds b' n (vbit buf).
Proof.
  intros H (Wb & Hn & Hn2) Cl. destruct (resize_holds b n0 f n H ltac:(lia)) as (b' & E & A & B & C & D & F). unfold bv_init. rewrite E. cbn [bind].
  assert (zlen (bv_v b') <= zlen buf) by (apply (wle w Hw); lia).
  destruct (copy_loop_spec (Some buf) (fun j => nth (Z.to_nat j) buf 0) (length (bv_v b')) 0 (bv_v b')) as (d & E1 & L & _ & X); try lia.
  - eapply src_is_le; [apply src_is_some|unfold zlen in *; lia].
  - unfold zlen; lia.
  - rewrite E1. cbn [bind]. eexists. split; [reflexivity|].
    assert (Ed: d = firstn (length (bv_v b')) buf).
    { apply (nth_ext _ _ 0 0); [unfold zlen in *; rewrite firstn_length; lia|]. intros k Hk. specialize (X (Z.of_nat k) ltac:(lia)). rewrite Nat2Z.id in X. rewrite X. rewrite nth_firstn' by lia. destruct (_ && _) eqn:?; [auto|unfold zlen in *; lia]. }
    assert (Ld: zlen d = zlen (bv_v b')) by (unfold zlen; lia).
    repeat split; cbn [bv_len bv_v]; try lia.
    + rewrite Ed. apply words_firstn. auto.
    + intros i Hi. destruct (Z_lt_le_dec i (w * zlen (bv_v b'))).
      * rewrite Ed. replace (length (bv_v b')) with (Z.to_nat (zlen (bv_v b'))) by (unfold zlen; lia). rewrite vbit_firstn by (unfold zlen in *; lia). destruct (i <? n) eqn:?; auto. apply Cl; [lia|].
        replace ((n + w - 1) / w) with (zlen (bv_v b')); [lia|]. pose proof (roundup_eq n (zlen (bv_v b')) ltac:(lia) ltac:(lia)) as RE. unfold RoundupBit in RE. rewrite Z.mod_small in RE by lia. auto.
      * rewrite vbit_over by (auto; lia). destruct (i <? n) eqn:?; auto; lia.
Qed.

(** ** from bit functions to lists *)
Lemma nth_map_seq {A} (g : nat -> A) n k d : (k < n)%nat -> nth k (map g (seq 0 n)) d = g k.
Proof. intros. rewrite (nth_indep _ _ (g 0%nat)) by (rewrite map_length, seq_length; auto). rewrite map_nth, seq_nth by auto. auto. Qed.
Lemma zlen_block_bits buf n : 0 <= n -> zlen (block_bits w buf n) = n.
Proof. intros. unfold block_bits, zlen. rewrite map_length, seq_length. lia. Qed.
Lemma nth_block_bits buf n i : 0 <= i < n -> nth (Z.to_nat i) (block_bits w buf n) false = vbit buf i.
Proof. intros. unfold block_bits. rewrite nth_map_seq by lia. rewrite Z2Nat.id by lia. auto. Qed.
Lemma zlen_low_bits x n : 0 <= n -> zlen (low_bits x n) = n.
Proof. intros. unfold low_bits, zlen. rewrite map_length, seq_length. lia. Qed.
Lemma nth_low_bits x n i : 0 <= i < n -> nth (Z.to_nat i) (low_bits x n) false = Z.testbit x i.
Proof. intros. unfold low_bits. rewrite nth_map_seq by lia. rewrite Z2Nat.id by lia. auto. Qed.
Lemma zlen_resize_bits l n : 0 <= n -> zlen (resize_bits l n) = n.
Proof. intros. unfold resize_bits, zlen. rewrite app_length, firstn_length, repeat_length. lia. Qed.
Lemma nth_resize_bits l n i : 0 <= i < n -> nth (Z.to_nat i) (resize_bits l n) false = nth (Z.to_nat i) l false.
Proof.
  intros. unfold resize_bits. destruct (Nat.lt_ge_cases (Z.to_nat i) (length l)).
  - rewrite app_nth1 by (rewrite firstn_length; lia). apply nth_firstn'. lia.
  - rewrite app_nth2 by (rewrite firstn_length; lia). rewrite (nth_overflow l) by lia. destruct (nth_in_or_default (Z.to_nat i - length (firstn (Z.to_nat n) l)) (repeat false (Z.to_nat n - length l)) false) as [I|I]; auto. apply repeat_spec in I; auto.
Qed.
Lemma nth_app_bits (l1 l2 : list bool) i : 0 <= i -> nth (Z.to_nat i) (l1 ++ l2) false = if i <? zlen l1 then nth (Z.to_nat i) l1 false else nth (Z.to_nat (i - zlen l1)) l2 false.
Proof. intros. unfold zlen. destruct (_ <? _) eqn:E; [apply app_nth1; lia|]. rewrite app_nth2 by lia. f_equal. lia. Qed.
Lemma rep_len b l : rep b l -> 0 <= zlen l <= 2 ^ 63.
Proof. intros (_ & B & _). auto. Qed.
Lemma zlen_upd {A} (l : list A) k v : zlen (upd l k v) = zlen l.
Proof. unfold zlen. rewrite upd_length. auto. Qed.
Lemma nth_upd_bits (l : list bool) i b k : 0 <= i < zlen l -> 0 <= k -> nth (Z.to_nat k) (upd l (Z.to_nat i) b) false = if k =? i then b else nth (Z.to_nat k) l false.
Proof.
  intros. rewrite nth_upd. destruct (k =? i) eqn:E.
  - assert (k = i) as -> by lia. rewrite Nat.eqb_refl. destruct (_ <? _)%nat eqn:E2; auto. apply Nat.ltb_ge in E2. unfold zlen in *. lia.
  - destruct (Z.to_nat k =? Z.to_nat i)%nat eqn:E2; auto. apply Nat.eqb_eq in E2. lia.
Qed.

Theorem C23_step : forall b l o, rep b l -> op_ok w l o ->
  exists b', model_step w b o = Ok (b', snd (spec_step w l o)) /\ rep b' (fst (spec_step w l o)).
Proof.
  intros b l o R K. pose proof (rep_len b l R) as Lb. pose proof R as (Alen & _ & _ & _ & _). destruct o as [n| |i|i|i x|buf n|buf n|x n|v|v pos n]; cbn [op_ok] in K; cbn [model_step spec_step].
  - destruct (resize_holds b _ _ n R K) as (b' & E & H). rewrite E. cbn [bind]. exists b'. split; auto. cbn [fst]. eapply holds_rep; [exact H|apply zlen_resize_bits; lia|].
    intros i Hi. cbn beta. rewrite nth_resize_bits by lia. destruct (i <? zlen l) eqn:?; auto. cbn [andb]. rewrite nth_overflow; auto. unfold zlen in *. lia.
  - eexists. split; [reflexivity|]. cbn [fst]. assert (0 <= 2 ^ 63) by lia. repeat split; cbn [bv_clear bv_len bv_v]; auto; try (unfold zlen; cbn [length Z.of_nat]; lia); try constructor.
    intros i Hi. rewrite vbit_over; auto; unfold zlen; cbn [length Z.of_nat]; lia.
  - destruct (i <? zlen l) eqn:Ei; cbn [fst snd].
    + destruct (set_holds b _ _ i R ltac:(lia)) as (b' & E & H). exists b'. split; auto. eapply holds_rep; [exact H|apply zlen_upd|]. intros k Hk. cbn beta. rewrite nth_upd_bits by lia. auto.
    + exists b. split; auto. unfold bv_set. destruct (_ <=? i) eqn:?; auto. lia.
  - destruct (i <? zlen l) eqn:Ei; cbn [fst snd].
    + destruct (reset_holds b _ _ i R ltac:(lia)) as (b' & E & H). exists b'. split; auto. eapply holds_rep; [exact H|apply zlen_upd|]. intros k Hk. cbn beta. rewrite nth_upd_bits by lia. auto.
    + exists b. split; auto. unfold bv_reset. destruct (_ <=? i) eqn:?; auto. lia.
  - unfold bv_setb. destruct (i <? zlen l) eqn:Ei; cbn [fst snd].
    + destruct x.
      * destruct (set_holds b _ _ i R ltac:(lia)) as (b' & E & H). exists b'. split; auto. eapply holds_rep; [exact H|apply zlen_upd|]. intros k Hk. cbn beta. rewrite nth_upd_bits by lia. auto.
      * destruct (reset_holds b _ _ i R ltac:(lia)) as (b' & E & H). exists b'. split; auto. eapply holds_rep; [exact H|apply zlen_upd|]. intros k Hk. cbn beta. rewrite nth_upd_bits by lia. auto.
    + exists b. split; auto. unfold bv_set, bv_reset. destruct x, (_ <=? i) eqn:?; auto; lia.
  - destruct K as [K1 K2]. destruct (init_holds b _ _ buf n R K1 K2) as (b' & E & H). rewrite E. cbn [bind fst snd]. exists b'. split; auto. destruct K1 as (_ & K1 & _). eapply holds_rep; [exact H|apply zlen_block_bits; lia|].
    intros i Hi. rewrite nth_block_bits by lia. auto.
  - destruct K as ((W & K1 & _) & K2). destruct (append_buf_holds b _ _ buf n R W K1 K2) as (b' & E & H). rewrite E. cbn [bind fst snd]. exists b'. split; auto. eapply holds_rep; [exact H|rewrite zlen_app, zlen_block_bits by lia; lia|].
    intros i Hi. cbn beta. rewrite nth_app_bits by lia. destruct (i <? zlen l) eqn:?; auto. rewrite nth_block_bits by lia. auto.
  - destruct K as (K1 & K2 & K3 & K4). destruct (n <=? w) eqn:En; cbn [fst snd].
    + destruct (append64_holds b _ _ x n R K1 ltac:(lia) K3 ltac:(lia)) as (b' & E & H). exists b'. split; auto. eapply holds_rep; [exact H|rewrite zlen_app, zlen_low_bits by lia; lia|].
      intros i Hi. cbn beta. rewrite nth_app_bits by lia. destruct (i <? zlen l) eqn:?; auto. rewrite nth_low_bits by lia. auto.
    + exists b. split; auto. unfold bv_append64. destruct (n =? 0) eqn:?; [lia|]. destruct (w <? n) eqn:?; auto; lia.
  - destruct K as ((W & K1 & _) & K2). destruct (append_buf_holds b _ _ (bv_v v) (bv_len v) R W K1 K2) as (b' & E & H). unfold bv_append. rewrite E. cbn [bind fst snd]. exists b'. split; auto. eapply holds_rep; [exact H|rewrite zlen_app, zlen_block_bits by lia; lia|].
    intros i Hi. cbn beta. rewrite nth_app_bits by lia. destruct (i <? zlen l) eqn:?; auto. rewrite nth_block_bits by lia. auto.
  - destruct K as ((W & K1 & K1') & K2 & K3). unfold bv_extract_vec. destruct (resize_holds b _ _ n R ltac:(lia)) as (b1 & E & H). rewrite E. cbn [bind]. clear E.
    destruct ((n =? 0) || _) eqn:Eo; cbn [fst snd].
    + pose proof H as (A & B & C & D & F).
      destruct (n =? 0) eqn:En.
      { assert (n = 0) by lia. unfold bv_extract_buf. rewrite En. eexists. split; [reflexivity|]. replace (Z.to_nat n) with O by lia. cbn [firstn].
        eapply holds_rep with (n := n); [|unfold zlen; cbn [length]; lia|intros; lia]. destruct b1; exact H. }
      cbn [orb] in Eo.
      destruct (extract_buf_holds v (bv_len v) (vbit (bv_v v)) (bv_v b1) pos n) as (d & E & L & Wd & X); auto; try lia.
      rewrite E. eexists. split; [reflexivity|]. eapply holds_rep with (n := n) (f := fun i => vbit (bv_v v) (pos + i)).
      * assert (zlen d = zlen (bv_v b1)) by (unfold zlen; lia). repeat split; cbn [bv_len bv_v]; auto; try lia.
      * pose proof (zlen_block_bits (bv_v v) (bv_len v) ltac:(lia)) as LL. unfold zlen in *. rewrite firstn_length, skipn_length. lia.
      * intros i Hi. cbn beta. rewrite nth_firstn', nth_skipn' by lia. replace (Z.to_nat pos + Z.to_nat i)%nat with (Z.to_nat (pos + i)) by lia. rewrite nth_block_bits by lia. auto.
    + unfold bv_extract_buf. destruct (n =? 0) eqn:En; [discriminate|]. cbn [orb] in Eo. rewrite Z.mod_small by lia. destruct (_ <? _) eqn:?; [|lia]. exists b1. split; auto.
      eapply holds_rep; [exact H|apply zlen_resize_bits; lia|].
      intros i Hi. cbn beta. rewrite nth_resize_bits by lia. destruct (i <? zlen l) eqn:?; auto. cbn [andb]. rewrite nth_overflow; auto. unfold zlen in *. lia.
Qed.

Lemma rep_empty : rep bv_empty [].
Proof.
  repeat split; cbn [bv_empty bv_len bv_v]; auto; try (unfold zlen; cbn [length Z.of_nat]; lia); try constructor.
  intros i Hi. rewrite vbit_over; auto; unfold zlen; cbn [length Z.of_nat]; lia.
Qed.

Theorem C23_run : forall os b l, rep b l -> ops_ok w l os ->
  exists b', model_run w b os = Ok (b', snd (spec_run w l os)) /\ rep b' (fst (spec_run w l os)).
Proof.
  induction os as [|o os IH]; intros b l R K.
  - exists b. auto.
  - cbn [model_run spec_run ops_ok] in *. destruct K as [K1 K2]. destruct (C23_step b l o R K1) as (b1 & E & R1). rewrite E. cbn [bind].
    destruct (spec_step w l o) as [l1 t]. cbn [fst snd] in *. destruct (IH b1 l1 R1 K2) as (b2 & E2 & R2). rewrite E2. cbn [bind].
    destruct (spec_run w l1 os) as [l2 ts]. exists b2. auto.
Qed.

(** Everything an observer can ask of the object. *)
Definition observed (b : bitvec) (l : list bool) : Prop :=
  bv_len b = zlen l /\
  (forall i, 0 <= i < zlen l -> bv_get w b i = Ok (nth (Z.to_nat i) l false)) /\
  (forall i, zlen l <= i -> bv_get w b i = Exn) /\
  (forall pos n, 0 <= pos <= 2 ^ 63 -> 0 <= n < 2 ^ 63 ->
     if (n =? 0) || ((n <=? w) && (pos + n <=? zlen l))
     then exists x, bv_extract w b pos n = Ok x /\ 0 <= x < 2 ^ w /\ low_bits x n = firstn (Z.to_nat n) (skipn (Z.to_nat pos) l) /\ x < 2 ^ n
     else bv_extract w b pos n = Exn) /\
  (forall pos n dst, 0 <= pos <= 2 ^ 63 -> 0 <= n < 2 ^ 63 -> Forall (fun x => 0 <= x < 2 ^ w) dst -> zlen dst = (n + w - 1) / w ->
     if (n =? 0) || (pos + n <=? zlen l)
     then exists d, bv_extract_buf w b dst pos n = Ok d /\ length d = length dst /\ block_bits w d n = firstn (Z.to_nat n) (skipn (Z.to_nat pos) l)
     else bv_extract_buf w b dst pos n = Exn).

Lemma list_ext (l1 l2 : list bool) n : zlen l1 = n -> zlen l2 = n -> (forall i, 0 <= i < n -> nth (Z.to_nat i) l1 false = nth (Z.to_nat i) l2 false) -> l1 = l2.
Proof. intros A B H. apply (nth_ext _ _ false false); [unfold zlen in *; lia|]. intros k Hk. specialize (H (Z.of_nat k)). rewrite Nat2Z.id in H. apply H. unfold zlen in *; lia. Qed.
Lemma zlen_slice (l : list bool) pos n : 0 <= pos -> 0 <= n -> pos + n <= zlen l -> zlen (firstn (Z.to_nat n) (skipn (Z.to_nat pos) l)) = n.
Proof. intros. unfold zlen in *. rewrite firstn_length, skipn_length. lia. Qed.
Lemma nth_slice (l : list bool) pos n i : 0 <= pos -> 0 <= i < n -> nth (Z.to_nat i) (firstn (Z.to_nat n) (skipn (Z.to_nat pos) l)) false = nth (Z.to_nat (pos + i)) l false.
Proof. intros. rewrite nth_firstn', nth_skipn' by lia. f_equal. lia. Qed.

Lemma rep_observed b l : rep b l -> observed b l.
Proof.
  intros R. pose proof R as (A & B & C & D & F). pose proof (rep_len b l R) as Lb. split; [auto|]. split; [|split; [|split]].
  - intros i Hi. apply (get_holds _ _ _ _ R Hi).
  - intros i Hi. unfold bv_get. destruct (_ <=? i) eqn:?; auto. lia.
  - intros pos n Hp Hn. destruct (n =? 0) eqn:En; cbn [orb].
    { assert (n = 0) as -> by lia. unfold bv_extract. cbn [Z.eqb]. exists 0. split; auto. split; [split; [lia|apply Z.pow_pos_nonneg; lia]|]. split; [reflexivity|lia]. }
    destruct ((n <=? w) && _) eqn:Ec.
    + destruct (extract_holds b _ _ pos n R ltac:(lia) ltac:(lia) ltac:(lia)) as (x & E & W & X). exists x. split; auto. split; auto. split.
      * apply (list_ext _ _ n); [apply zlen_low_bits; lia|apply zlen_slice; lia|]. intros i Hi. rewrite nth_low_bits, nth_slice, X by lia. destruct (i <? n) eqn:?; auto; lia.
      * assert (Z.land x (Z.ones n) = x). { apply Z.bits_inj'. intros j Hj. rewrite tb_ones, X by lia. destruct (j <? n); auto. }
        rewrite <- H. apply (word_land_ones n); lia.
    + unfold bv_extract. rewrite En. destruct (_ || _) eqn:E2; auto. rewrite Z.mod_small in E2 by lia. lia.
  - intros pos n dst Hp Hn Wd Ld. destruct (n =? 0) eqn:En; cbn [orb].
    { assert (n = 0) as -> by lia. exists dst. unfold bv_extract_buf. cbn [Z.eqb]. auto. }
    destruct (pos + n <=? zlen l) eqn:Ec.
    + assert (HL: w * zlen dst - w < n <= w * zlen dst). { rewrite Ld. pose proof (Z.div_mod (n + w - 1) w ltac:(lia)). pose proof (Z.mod_pos_bound (n + w - 1) w ltac:(lia)). lia. }
      destruct (extract_buf_holds b (zlen l) (fun i => nth (Z.to_nat i) l false) dst pos n) as (d & E & L & W & X); auto; try lia.
      { intros i Hi. rewrite F by lia. destruct (i <? zlen l) eqn:?; auto; lia. }
      exists d. split; auto. split; auto. apply (list_ext _ _ n); [apply zlen_block_bits; lia|apply zlen_slice; lia|]. intros i Hi. rewrite nth_block_bits, nth_slice, X by lia. destruct (i <? n) eqn:?; auto; lia.
    + unfold bv_extract_buf. rewrite En. rewrite Z.mod_small by lia. destruct (_ <? _) eqn:?; auto. lia.
Qed.

(** C23: every history of operations from the empty vector runs without undefined behaviour, throws
    exactly when the list specification says so, and leaves an object observably equal to the list. *)
Theorem C23_history : forall os, ops_ok w [] os ->
  exists b, model_run w bv_empty os = Ok (b, snd (spec_run w [] os)) /\ observed b (fst (spec_run w [] os)).
Proof. intros os K. destruct (C23_run os _ _ rep_empty K) as (b & E & R). exists b. split; auto. apply rep_observed; auto. Qed.

(** ** C24: equality *)
Lemma eq_list_iff a b : eq_list a b = true <-> a = b.
Proof.
  revert b. induction a as [|x a IH]; intros [|y b]; cbn [eq_list]; split; intros H; try discriminate; auto.
  - apply andb_true_iff in H. destruct H as [H1 H2]. apply IH in H2. f_equal; auto. lia.
  - injection H as -> ->. rewrite Z.eqb_refl. apply IH. auto.
Qed.
Lemma vec_ext a b : words a -> words b -> zlen a = zlen b -> (forall i, 0 <= i -> vbit a i = vbit b i) -> a = b.
Proof.
  intros Wa Wb L H. apply (nth_ext _ _ 0 0); [unfold zlen in *; lia|]. intros k Hk. apply Z.bits_inj'. intros j Hj. destruct (Z_lt_le_dec j w).
  - specialize (H (w * Z.of_nat k + j) ltac:(nia)). rewrite !(vbit_word w Hw) in H by lia. rewrite !Nat2Z.id in H. auto.
  - rewrite !(tb_high w) by (auto; apply word_nth; auto). auto.
Qed.
(** Two vectors reached by any histories compare equal iff they occupy the same number of blocks and
    agree bit for bit when padded with zeros. *)
Theorem C24_equality : forall os1 os2 b1 b2 t1 t2, ops_ok w [] os1 -> ops_ok w [] os2 ->
  model_run w bv_empty os1 = Ok (b1, t1) -> model_run w bv_empty os2 = Ok (b2, t2) ->
  let l1 := fst (spec_run w [] os1) in let l2 := fst (spec_run w [] os2) in
  (bv_eq b1 b2 = true <-> (zlen l1 + w - 1) / w = (zlen l2 + w - 1) / w /\ forall i, nth i l1 false = nth i l2 false) /\
  (zlen l1 = zlen l2 -> (bv_eq b1 b2 = true <-> l1 = l2)).
Proof.
  intros os1 os2 b1 b2 t1 t2 K1 K2 E1 E2 l1 l2.
  destruct (C23_run os1 _ _ rep_empty K1) as (b1' & E1' & R1). destruct (C23_run os2 _ _ rep_empty K2) as (b2' & E2' & R2).
  rewrite E1 in E1'. rewrite E2 in E2'. assert (b1' = b1) by congruence. assert (b2' = b2) by congruence. clear E1 E2 E1' E2'. subst b1' b2'. fold l1 in R1. fold l2 in R2. clearbody l1 l2. clear K1 K2.
  assert (Z1: (zlen l1 + w - 1) / w = zlen (bv_v b1)).
  { destruct R1 as (A & B & C & D & F). pose proof (roundup_eq (zlen l1) (zlen (bv_v b1)) ltac:(lia) D) as RE. unfold RoundupBit in RE. rewrite Z.mod_small in RE by lia. auto. }
  assert (Z2: (zlen l2 + w - 1) / w = zlen (bv_v b2)).
  { destruct R2 as (A & B & C & D & F). pose proof (roundup_eq (zlen l2) (zlen (bv_v b2)) ltac:(lia) D) as RE. unfold RoundupBit in RE. rewrite Z.mod_small in RE by lia. auto. }
  assert (N: forall (l : list bool) i, 0 <= i -> (i <? zlen l) && nth (Z.to_nat i) l false = nth (Z.to_nat i) l false).
  { intros l i Hi. destruct (i <? zlen l) eqn:?; auto. cbn [andb]. rewrite nth_overflow; auto. unfold zlen in *; lia. }
  assert (M: bv_eq b1 b2 = true <-> (zlen l1 + w - 1) / w = (zlen l2 + w - 1) / w /\ forall i, nth i l1 false = nth i l2 false).
  { rewrite Z1, Z2. unfold bv_eq. rewrite eq_list_iff. destruct R1 as (A & B & C & D & F), R2 as (A' & B' & C' & D' & F'). split.
    - intros E. split; [congruence|]. intros i. specialize (F (Z.of_nat i) ltac:(lia)). specialize (F' (Z.of_nat i) ltac:(lia)). rewrite N in F, F' by lia. rewrite Nat2Z.id in F, F'. congruence.
    - intros [E H]. apply vec_ext; auto. intros i Hi. rewrite F, F', !N by auto. auto. }
  split; auto. intros L. rewrite M. split; [intros [_ H]; apply (list_ext _ _ (zlen l1)); auto|]. intros ->. split; auto.
Qed.

(** ** C25: extraction is the right shift of the block array *)
Theorem C25_ShiftRight : forall b dst pos n, bv_len b <= w * zlen (bv_v b) -> bv_len b <= 2 ^ 63 -> Forall (fun x => 0 <= x < 2 ^ w) (bv_v b) ->
  Forall (fun x => 0 <= x < 2 ^ w) dst -> 0 <= pos -> 0 <= n -> pos + n <= bv_len b -> zlen dst = (n + w - 1) / w ->
  exists d, bv_extract_buf w b dst pos n = Ok d /\ length d = length dst /\
  forall i, 0 <= i -> block_bit w d i = (i <? n) && block_bit w (bv_v b) (pos + i).
Proof.
  intros b dst pos n H1 H2 W Wd Hp Hn Hl Ld.
  assert (HL: w * zlen dst - w < n <= w * zlen dst). { rewrite Ld. pose proof (Z.div_mod (n + w - 1) w ltac:(lia)). pose proof (Z.mod_pos_bound (n + w - 1) w ltac:(lia)). lia. }
  destruct (extract_buf_holds b (bv_len b) (vbit (bv_v b)) dst pos n) as (d & E & L & _ & X); auto. exists d. auto.
Qed.
(** ** C25 in terms of the block arrays.  [src = None] is the in-place call (src == dst). *)
Definition source (src : option (list Z)) (dst : list Z) : list Z := match src with Some s => s | None => dst end.
Theorem C25_copy : forall dst src n, 0 <= n <= 2 ^ 63 -> n <= w * zlen dst -> n <= w * zlen (source src dst) ->
  Forall (fun x => 0 <= x < 2 ^ w) dst -> Forall (fun x => 0 <= x < 2 ^ w) (source src dst) ->
  exists dst', CopyBit w dst src n = Ok dst' /\ length dst' = length dst /\ Forall (fun x => 0 <= x < 2 ^ w) dst' /\
  forall i, 0 <= i -> block_bit w dst' i =
    if i <? n then block_bit w (source src dst) i else if i <? w * ((n + w - 1) / w) then false else block_bit w dst i.
Proof.
  intros dst src n Hn Hd Hs Wd Ws. destruct (roundup_spec w Hw n ltac:(lia) ltac:(lia)) as (k & Ek & Hk & Hk0).
  assert (Ek': (n + w - 1) / w = k) by (unfold RoundupBit in Ek; rewrite Z.mod_small in Ek by lia; auto).
  assert (k <= zlen dst) by (apply (wle w Hw); lia). assert (k <= zlen (source src dst)) by (apply (wle w Hw); lia).
  destruct (C25_CopyBit w Hw dst src (fun j => nth (Z.to_nat j) (source src dst) 0) n) as (d & E & L & W & X); try lia; auto.
  - rewrite Ek. destruct src; cbn [source] in *; (eapply src_is_le; [apply src_is_some || apply src_is_none|lia]).
  - intros j. apply word_nth; auto.
  - exists d. repeat split; auto. rewrite Ek'. rewrite Ek in X. exact X.
Qed.
Theorem C25_shift_left : forall dst src n shift ext, 0 < n <= 2 ^ 63 -> n <= w * zlen dst -> n <= w * zlen (source src dst) ->
  Forall (fun x => 0 <= x < 2 ^ w) dst -> Forall (fun x => 0 <= x < 2 ^ w) (source src dst) -> 0 <= shift < w -> 0 <= ext < 2 ^ w ->
  let total := w * ((n + w - 1) / w) in
  let bit i := (0 <=? i) && (i <? n) && block_bit w (source src dst) i in
  exists dst' ret, ShiftLeftBit w dst src n shift ext = Ok (dst', ret) /\ length dst' = length dst /\ Forall (fun x => 0 <= x < 2 ^ w) dst' /\
  (forall i, 0 <= i < total -> block_bit w dst' i = bit (i - shift) || Z.testbit ext i) /\
  (forall i, total <= i -> block_bit w dst' i = block_bit w dst i) /\
  (forall i, 0 <= i -> Z.testbit ret i = bit (total + i - shift)).
Proof.
  intros dst src n shift ext Hn Hd Hs Wd Ws Hsh He total bit. destruct (roundup_spec w Hw n ltac:(lia) ltac:(lia)) as (k & Ek & Hk & Hk0).
  assert (Ek': (n + w - 1) / w = k) by (unfold RoundupBit in Ek; rewrite Z.mod_small in Ek by lia; auto).
  assert (k <= zlen dst) by (apply (wle w Hw); lia). assert (k <= zlen (source src dst)) by (apply (wle w Hw); lia).
  destruct (C25_ShiftLeftBit w Hw dst src (fun j => nth (Z.to_nat j) (source src dst) 0) n shift ext) as (d & ret & E & L & W & X); try lia; auto.
  - rewrite Ek. destruct src; cbn [source] in *; (eapply src_is_le; [apply src_is_some || apply src_is_none|lia]).
  - intros j. apply word_nth; auto.
  - exists d, ret. split; auto. split; auto. split; auto. unfold total. rewrite Ek'. rewrite Ek in X. exact X.
Qed.
End W.

(** ** Findings *)
(** C24: vectors of different length compare equal. *)
Theorem C24_length_finding : exists b1 b2, model_run 8 bv_empty [OResize 3] = Ok (b1, [false]) /\ model_run 8 bv_empty [OResize 5] = Ok (b2, [false]) /\ bv_eq b1 b2 = true /\ bv_len b1 <> bv_len b2.
Proof. eexists. eexists. split; [reflexivity|]. split; [reflexivity|]. split; [reflexivity|discriminate]. Qed.
(** C24: init from a block with bits beyond the length; equal bits compare different, growth shows a one,
    and append(uint64) ors into it. *)
Theorem C24_dirty_finding : exists b b2, bv_init 8 bv_empty [15] 3 = Ok b /\ bv_init 8 bv_empty [7] 3 = Ok b2 /\
  (forall i, 0 <= i < 3 -> bv_get 8 b i = Ok true /\ bv_get 8 b2 i = Ok true) /\ bv_eq b b2 = false /\
  (exists b', bv_resize 8 b 4 = Ok b' /\ bv_get 8 b' 3 = Ok true) /\
  (exists b', bv_append64 8 b 0 1 = Ok (b', false) /\ bv_get 8 b' 3 = Ok true).
Proof.
  eexists. eexists. split; [reflexivity|]. split; [reflexivity|]. split.
  - intros i Hi. assert (i = 0 \/ i = 1 \/ i = 2) as [-> |[-> | ->]] by lia; split; reflexivity.
  - split; [reflexivity|]. split; eexists; split; reflexivity.
Qed.
(** C23: append(uint64_t) of a full narrow block does not mask the value: bits beyond the block size reach
    the padding and become visible. *)
Theorem C23_append_narrow_finding : exists b b', model_run 8 bv_empty [OResize 4; OAppend64 0x100 8] = Ok (b, [false; false]) /\
  bv_len b = 12 /\ bv_resize 8 b 16 = Ok b' /\ bv_get 8 b' 12 = Ok true /\ bv_v b <> bv_v (mk_bv 12 [0; 0]).
Proof. eexists. eexists. split; [reflexivity|]. split; [reflexivity|]. split; [reflexivity|]. split; [reflexivity|discriminate]. Qed.
(** C23: the range check of extract wraps: pos + n overflows size_t and the read is out of bounds. *)
Theorem C23_extract_wrap_finding : exists b, bv_resize 64 bv_empty 64 = Ok b /\ bv_extract 64 b (2 ^ 64 - 1) 1 = UB.
Proof. eexists. split; reflexivity. Qed.
(** C23: extract(BitVectorT&, ...) resizes its destination before throwing. *)
Theorem C23_extract_dst_finding : exists b d, model_run 8 bv_empty [OResize 3] = Ok (b, [false]) /\ model_run 8 bv_empty [OResize 2] = Ok (d, [false]) /\
  exists d', bv_extract_vec 8 b d 0 9 = Ok (d', true) /\ bv_len d' = 9.
Proof. eexists. eexists. split; [reflexivity|]. split; [reflexivity|]. eexists. split; reflexivity. Qed.

(** ** The hypotheses are met *)
Example C23_nonvacuous :
  let os := [OAppend64 0xA5 7; OAppend64 0x1F 8; OResize 20; OSet 17; OSet 20; OReset 0; OAppendBuf [0xFF; 0x0F; 0xFF] 13; OAppendVec (mk_bv 5 [0x15]);
             OExtractTo (mk_bv 20 [1; 2; 0xC]) 3 15; OInit [3; 1] 9] in
  ops_ok 8 [] os /\ spec_run 8 [] os = (block_bits 8 [3; 1] 9, [false; false; false; false; true; false; false; false; false; false]) /\
  model_run 8 bv_empty os = Ok (mk_bv 9 [3; 1], [false; false; false; false; true; false; false; false; false; false]).
Proof.
  cbn zeta. assert (0 < 2 ^ 63) by reflexivity. assert (2 ^ 8 = 256) by reflexivity. assert (0 < 2 ^ 64) by reflexivity. split; [|split; reflexivity].
  cbn [ops_ok op_ok]. unfold blocks, clean. 
  assert (E: forall l : list Z, Forall (fun x => 0 <= x < 256) l <-> forallb (fun x => (0 <=? x) && (x <? 256)) l = true).
  { intros l. rewrite forallb_forall, Forall_forall. split; intros G x Hx; specialize (G x Hx); lia. }
  rewrite H0, !E.
  repeat match goal with |- _ /\ _ => split | |- True => exact I | |- forallb _ _ = true => reflexivity | |- _ <= 2 ^ 63 => vm_compute; discriminate | |- _ < _ => vm_compute; reflexivity | |- _ <= _ => vm_compute; discriminate | |- _ -> _ => intros end; try discriminate; try (vm_compute; congruence).
  assert (i = 9 \/ i = 10 \/ i = 11 \/ i = 12 \/ i = 13 \/ i = 14 \/ i = 15) as D. { change (8 * ((9 + 8 - 1) / 8)) with 16 in *. lia. }
  repeat (destruct D as [-> |D]; [reflexivity|]). subst. reflexivity.
Qed.
Example C25_nonvacuous : ShiftLeftBit 8 [0; 0; 9] (Some [0x81; 0xC3]) 16 3 5 = Ok ([0x0D; 0x1C; 9], 6).
Proof. reflexivity. Qed.
Example C25_copy_nonvacuous : CopyBit 8 [1; 2; 9] (Some [0x81; 0xC3]) 12 = Ok [0x81; 0x03; 9].
Proof. reflexivity. Qed.
Example C25_right_nonvacuous : bv_extract_buf 8 (mk_bv 16 [0x81; 0xC3]) [0; 0] 5 10 = Ok [0x1C; 2].
Proof. reflexivity. Qed.

Print Assumptions C23_history.
Print Assumptions C24_equality.
Print Assumptions C25_copy.
Print Assumptions C25_shift_left.
Print Assumptions C25_ShiftLeft_edge.
Print Assumptions C25_ShiftRight.
Print Assumptions C24_length_finding.
Print Assumptions C24_dirty_finding.
Print Assumptions C23_append_narrow_finding.
Print Assumptions C23_extract_wrap_finding.
Print Assumptions C23_extract_dst_finding.
