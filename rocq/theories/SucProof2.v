Require Import Verif.Common Verif.StreamModel Verif.EndianModel Verif.SerializerModel Verif.BitVecModel Verif.BitVecProof Verif.Cnt Verif.SucModel Verif.SucProof.

(** the counters in the 64-bit word of a block *)
Lemma get_set_same x i v : 1 <= i <= 3 -> 0 <= v < 256 -> get_b (set_b x i v) i = v.
Proof.
  intros Hi Hv. unfold set_b, get_b. assert (i = 1 \/ i = 2 \/ i = 3) as [-> |[-> | ->]] by lia.
  - change (2 ^ (32 + 8 * 1)) with 1099511627776. lia.
  - change (2 ^ (32 + 8 * 2)) with 281474976710656. lia.
  - change (2 ^ (32 + 8 * 3)) with 72057594037927936. lia.
Qed.
Lemma get_set_other x i j v : 1 <= i <= 3 -> 1 <= j <= 3 -> i <> j -> 0 <= v < 256 -> get_b (set_b x j v) i = get_b x i.
Proof.
  intros Hi Hj Hn Hv. unfold set_b, get_b. assert (i = 1 \/ i = 2 \/ i = 3) as [-> |[-> | ->]] by lia; assert (j = 1 \/ j = 2 \/ j = 3) as [-> |[-> | ->]] by lia; try lia;
  change (2 ^ (32 + 8 * 1)) with 1099511627776; change (2 ^ (32 + 8 * 2)) with 281474976710656; change (2 ^ (32 + 8 * 3)) with 72057594037927936; lia.
Qed.
Lemma low40_set x j v : 1 <= j <= 3 -> (set_b x j v) mod 2 ^ 40 = x mod 2 ^ 40.
Proof.
  intros Hj. unfold set_b, get_b. assert (j = 1 \/ j = 2 \/ j = 3) as [-> |[-> | ->]] by lia;
  change (2 ^ (32 + 8 * 1)) with 1099511627776; change (2 ^ (32 + 8 * 2)) with 281474976710656; change (2 ^ (32 + 8 * 3)) with 72057594037927936; change (2 ^ 40) with 1099511627776; lia.
Qed.
Lemma get_a_set x j v : 1 <= j <= 3 -> get_a (set_b x j v) = get_a x.
Proof.
  intros Hj. unfold get_a, set_b, get_b. assert (j = 1 \/ j = 2 \/ j = 3) as [-> |[-> | ->]] by lia;
  change (2 ^ (32 + 8 * 1)) with 1099511627776; change (2 ^ (32 + 8 * 2)) with 281474976710656; change (2 ^ (32 + 8 * 3)) with 72057594037927936; change (2 ^ 32) with 4294967296; lia.
Qed.
Lemma get_set_a x v : 0 <= v < 2 ^ 32 -> get_a (set_a x v) = v.
Proof. unfold get_a, set_a, get_a. change (2 ^ 32) with 4294967296. lia. Qed.
Ltac Zify.zify_post_hook ::= idtac.

Lemma land3 z : Z.land z 3 = z mod 4. Proof. change 3 with (Z.ones 2). rewrite Z.land_ones by lia. auto. Qed.
Lemma land63 z : Z.land z 63 = z mod 64. Proof. change 63 with (Z.ones 6). rewrite Z.land_ones by lia. auto. Qed.
Section V.
Variables x64 wide withSelect : bool.
Variable wd : Z -> Z.   (* the words *)
Hypothesis wdw : forall i, 0 <= wd i < 2 ^ 64.
Definition F (i : Z) : bool := Z.testbit (wd (i / 64)) (i mod 64).
Lemma F_word k j : 0 <= j < 64 -> F (64 * k + j) = Z.testbit (wd k) j.
Proof. intros. unfold F. replace ((64 * k + j) / 64) with k by (apply Z.div_unique with j; lia). replace ((64 * k + j) mod 64) with j by (apply Z.mod_unique with k; lia). auto. Qed.
Definition G (b : bool) (i : Z) : bool := if b then F i else negb (F i).
Definition wdb (b : bool) (k : Z) : Z := if b then wd k else 2 ^ 64 - 1 - wd k.
Lemma not_bit v j : 0 <= v < 2 ^ 64 -> 0 <= j < 64 -> Z.testbit (2 ^ 64 - 1 - v) j = negb (Z.testbit v j).
Proof.
  intros Hv Hj. replace (2 ^ 64 - 1 - v) with (Z.lxor v (2 ^ 64 - 1)) by (apply lxor_sub; lia). change (2 ^ 64 - 1) with (Z.ones 64). rewrite Z.lxor_spec, Z.testbit_ones_nonneg by lia. destruct (j <? 64) eqn:?; [|lia]. apply xorb_true_r.
Qed.
Lemma G_word b k j : 0 <= j < 64 -> G b (64 * k + j) = Z.testbit (wdb b k) j.
Proof. intros Hj. unfold G, wdb. rewrite F_word by auto. destruct b; auto. rewrite not_bit; auto. Qed.
Lemma cnt_word b k j : 0 <= k -> 0 <= j <= 64 -> cnt (G b) (64 * k + j) = cnt (G b) (64 * k) + cnt (Z.testbit (wdb b k)) j.
Proof. intros. rewrite cnt_add by lia. f_equal. apply cnt_ext. intros i Hi. apply G_word. lia. Qed.
Lemma cnt_false_G n : 0 <= n -> cnt (G false) n = n - cnt (G true) n.
Proof. intros. apply cnt_negb. auto. Qed.

Definition A (blk : block) : Z := if wide then b_a64 blk mod 2 ^ 40 else get_a (b_a64 blk).
Definition blk_ok (k : Z) (blk : block) : Prop :=
  b_org blk = [wd (4 * k); wd (4 * k + 1); wd (4 * k + 2); wd (4 * k + 3)] /\
  A blk = cnt (G true) (256 * k) /\
  forall j, 1 <= j <= 3 -> get_b (b_a64 blk) j = cnt (G true) (256 * k + 64 * j) - cnt (G true) (256 * k).
Definition built (blks : list block) : Prop := forall k, 0 <= k < zlen blks -> exists blk, rd blks k = Ok blk /\ blk_ok k blk.

(** where the words come from *)
Definition source_ok (buf : option (list Z)) (blkNum n : Z) (blks : list block) : Prop :=
  match buf with
  | Some bf => 0 <= blkNum <= zlen bf /\ (forall i, 0 <= i -> wd i = if i <? blkNum then nth (Z.to_nat i) bf 0 else 0)
  | None => True
  end.
Definition org_ok (buf : option (list Z)) (k : Z) (blk : block) : Prop :=
  match buf with
  | Some _ => length (b_org blk) = 4%nat
  | None => b_org blk = [wd (4 * k); wd (4 * k + 1); wd (4 * k + 2); wd (4 * k + 3)]
  end.

Lemma read_word bf blkNum i : 0 <= i -> 0 <= blkNum <= zlen bf -> (forall i, 0 <= i -> wd i = if i <? blkNum then nth (Z.to_nat i) bf 0 else 0) ->
  (if Z.min i blkNum <? blkNum then let! v := rd bf (Z.min i blkNum) in Ok (v, Z.min i blkNum + 1) else Ok (0, Z.min i blkNum)) = Ok (wd i, Z.min (i + 1) blkNum).
Proof.
  intros Hi Hb W. rewrite W by auto. destruct (Z.min i blkNum <? blkNum) eqn:E.
  - assert (i < blkNum) by lia. replace (Z.min i blkNum) with i by lia. rewrite rd_ok by lia. cbn [bind]. destruct (i <? blkNum) eqn:?; [|lia]. do 2 f_equal. lia.
  - destruct (i <? blkNum) eqn:?; [lia|]. do 2 f_equal. lia.
Qed.

Lemma cnt_256 k : 0 <= k -> 
  cnt (G true) (256 * k + 64) = cnt (G true) (256 * k) + cnt (Z.testbit (wd (4 * k))) 64 /\
  cnt (G true) (256 * k + 128) = cnt (G true) (256 * k + 64) + cnt (Z.testbit (wd (4 * k + 1))) 64 /\
  cnt (G true) (256 * k + 192) = cnt (G true) (256 * k + 128) + cnt (Z.testbit (wd (4 * k + 2))) 64 /\
  cnt (G true) (256 * (k + 1)) = cnt (G true) (256 * k + 192) + cnt (Z.testbit (wd (4 * k + 3))) 64.
Proof.
  intros Hk. pose proof (cnt_word true (4 * k) 64 ltac:(lia) ltac:(lia)) as H1. pose proof (cnt_word true (4 * k + 1) 64 ltac:(lia) ltac:(lia)) as H2. pose proof (cnt_word true (4 * k + 2) 64 ltac:(lia) ltac:(lia)) as H3. pose proof (cnt_word true (4 * k + 3) 64 ltac:(lia) ltac:(lia)) as H4. cbn [wdb] in *.
  replace (64 * (4 * k)) with (256 * k) in * by lia. replace (64 * (4 * k + 1)) with (256 * k + 64) in * by lia. replace (64 * (4 * k + 2)) with (256 * k + 128) in * by lia. replace (64 * (4 * k + 3)) with (256 * k + 192) in * by lia.
  replace (256 * k + 64 + 64) with (256 * k + 128) in * by lia. replace (256 * k + 128 + 64) with (256 * k + 192) in * by lia. replace (256 * (k + 1)) with (256 * k + 192 + 64) by lia. auto.
Qed.

Lemma init_sub_spec buf blkNum blks n k org a64 : 0 <= k -> source_ok buf blkNum n blks -> org_ok buf k (mk_blk org a64) ->
  let c0 := cnt (G true) (256 * k) in
  exists blk pos', init_sub x64 4 0 buf blkNum (Z.min (4 * k) blkNum) c0 0 (mk_blk org a64) = Ok (blk, pos', cnt (G true) (256 * (k + 1))) /\
    (buf <> None -> pos' = Z.min (4 * (k + 1)) blkNum) /\
    b_org blk = [wd (4 * k); wd (4 * k + 1); wd (4 * k + 2); wd (4 * k + 3)] /\ A blk = A (mk_blk org a64) /\
    forall j, 1 <= j <= 3 -> get_b (b_a64 blk) j = cnt (G true) (256 * k + 64 * j) - cnt (G true) (256 * k).
Proof.
  intros Hk Hs Ho c0. destruct (cnt_256 k Hk) as (C1 & C2 & C3 & C4).
  set (p0 := cnt (Z.testbit (wd (4 * k))) 64) in *. set (p1 := cnt (Z.testbit (wd (4 * k + 1))) 64) in *. set (p2 := cnt (Z.testbit (wd (4 * k + 2))) 64) in *. set (p3 := cnt (Z.testbit (wd (4 * k + 3))) 64) in *.
  assert (0 <= p0 <= 64) by (apply cnt_bounds; lia). assert (0 <= p1 <= 64) by (apply cnt_bounds; lia). assert (0 <= p2 <= 64) by (apply cnt_bounds; lia).
  set (x1 := set_b a64 1 p0). set (x2 := set_b x1 2 (p0 + p1)). set (x3 := set_b x2 3 (p0 + p1 + p2)).
  assert (FIN: forall pos', (buf <> None -> pos' = Z.min (4 * (k + 1)) blkNum) -> exists blk pos'', @Ok (block * Z * Z) (mk_blk [wd (4 * k); wd (4 * k + 1); wd (4 * k + 2); wd (4 * k + 3)] x3, pos', c0 + p0 + p1 + p2 + p3) = Ok (blk, pos'', cnt (G true) (256 * (k + 1))) /\
    (buf <> None -> pos'' = Z.min (4 * (k + 1)) blkNum) /\
    b_org blk = [wd (4 * k); wd (4 * k + 1); wd (4 * k + 2); wd (4 * k + 3)] /\ A blk = A (mk_blk org a64) /\
    forall j, 1 <= j <= 3 -> get_b (b_a64 blk) j = cnt (G true) (256 * k + 64 * j) - cnt (G true) (256 * k)).
  { intros pos' Hp. do 2 eexists. split; [rewrite C4, C3, C2, C1; reflexivity|]. split; [exact Hp|]. cbn [b_org b_a64]. split; auto. split.
    - unfold A. cbn [b_a64]. unfold x3, x2, x1. rewrite !low40_set, !get_a_set by lia. auto.
    - intros j Hj. assert (j = 1 \/ j = 2 \/ j = 3) as [-> |[-> | ->]] by lia.
      + change (64 * 1) with 64. unfold x3, x2, x1. rewrite !get_set_other, get_set_same by lia. lia.
      + change (64 * 2) with 128. unfold x3, x2. rewrite !get_set_other, get_set_same by lia. lia.
      + change (64 * 3) with 192. unfold x3. rewrite get_set_same by lia. lia. }
  cbn [init_sub]. destruct buf as [bf|].
  - destruct Hs as [Hb W]. cbn [org_ok b_org] in Ho. destruct org as [|o0 [|o1 [|o2 [|o3 [|]]]]]; try discriminate.
    rewrite (read_word bf blkNum (4 * k)) by (auto; lia). cbn [bind b_org]. change (wr [o0; o1; o2; o3] 0 (wd (4 * k))) with (Ok [wd (4 * k); o1; o2; o3]). cbn [bind b_org b_a64]. change (0 <? 0) with false. cbn [bind].
    rewrite (read_word bf blkNum (4 * k + 1)) by (auto; lia). cbn [bind b_org]. change (wr [wd (4 * k); o1; o2; o3] (0 + 1) (wd (4 * k + 1))) with (Ok [wd (4 * k); wd (4 * k + 1); o2; o3]). cbn [bind b_org b_a64]. change (0 <? 0 + 1) with true. cbn [bind].
    replace (4 * k + 1 + 1) with (4 * k + 2) by lia.
    rewrite (read_word bf blkNum (4 * k + 2)) by (auto; lia). cbn [bind b_org]. change (wr [wd (4 * k); wd (4 * k + 1); o2; o3] (0 + 1 + 1) (wd (4 * k + 2))) with (Ok [wd (4 * k); wd (4 * k + 1); wd (4 * k + 2); o3]). cbn [bind b_org b_a64]. change (0 <? 0 + 1 + 1) with true. cbn [bind].
    replace (4 * k + 2 + 1) with (4 * k + 3) by lia.
    rewrite (read_word bf blkNum (4 * k + 3)) by (auto; lia). cbn [bind b_org]. change (wr [wd (4 * k); wd (4 * k + 1); wd (4 * k + 2); o3] (0 + 1 + 1 + 1) (wd (4 * k + 3))) with (Ok [wd (4 * k); wd (4 * k + 1); wd (4 * k + 2); wd (4 * k + 3)]). cbn [bind b_org b_a64]. change (0 <? 0 + 1 + 1 + 1) with true. cbn [bind].
    rewrite !popcnt64_cnt. fold p0 p1 p2 p3. rewrite Z.add_0_l. change (0 + 1) with 1. change (1 + 1) with 2. change (2 + 1) with 3. rewrite !Z.mod_small by lia. fold x1 x2 x3. apply FIN. intros _. f_equal. lia.
  - cbn [org_ok b_org] in Ho. rewrite Ho. cbn [b_org b_a64].
    change (rd [wd (4 * k); wd (4 * k + 1); wd (4 * k + 2); wd (4 * k + 3)] 0) with (Ok (wd (4 * k))). cbn [bind b_org b_a64]. change (0 <? 0) with false. cbn [bind].
    change (rd [wd (4 * k); wd (4 * k + 1); wd (4 * k + 2); wd (4 * k + 3)] (0 + 1)) with (Ok (wd (4 * k + 1))). cbn [bind b_org b_a64]. change (0 <? 0 + 1) with true. cbn [bind].
    change (rd [wd (4 * k); wd (4 * k + 1); wd (4 * k + 2); wd (4 * k + 3)] (0 + 1 + 1)) with (Ok (wd (4 * k + 2))). cbn [bind b_org b_a64]. change (0 <? 0 + 1 + 1) with true. cbn [bind].
    change (rd [wd (4 * k); wd (4 * k + 1); wd (4 * k + 2); wd (4 * k + 3)] (0 + 1 + 1 + 1)) with (Ok (wd (4 * k + 3))). cbn [bind b_org b_a64]. change (0 <? 0 + 1 + 1 + 1) with true. cbn [bind].
    rewrite !popcnt64_cnt. fold p0 p1 p2 p3. rewrite Z.add_0_l. change (0 + 1) with 1. change (1 + 1) with 2. change (2 + 1) with 3. rewrite !Z.mod_small by lia. fold x1 x2 x3. apply FIN. congruence.
Qed.

(** the loop over the blocks *)
Lemma init_blocks_spec buf blkNum n all : source_ok buf blkNum n all -> forall blks k pos,
  0 <= k -> 256 * (k + zlen blks) <= maxBitSize wide + 255 -> (buf <> None -> pos = Z.min (4 * k) blkNum) ->
  (forall i, 0 <= i < zlen blks -> exists blk, rd blks i = Ok blk /\ org_ok buf (k + i) blk) ->
  exists blks', init_blocks x64 wide blks buf blkNum pos (cnt (G true) (256 * k)) = Ok (blks', cnt (G true) (256 * (k + zlen blks))) /\ length blks' = length blks /\
    forall i, 0 <= i < zlen blks -> exists blk, rd blks' i = Ok blk /\ blk_ok (k + i) blk.
Proof.
  intros Hs. induction blks as [|blk blks IH]; intros k pos Hk Hn Hp Ho.
  - exists []. cbn [init_blocks]. unfold zlen; cbn [length]. replace (k + Z.of_nat 0) with k by lia. split; auto. split; auto. intros. lia.
  - cbn [init_blocks]. rewrite zlen_cons in *. pose proof (zlen_nonneg blks).
    destruct (Ho 0 ltac:(lia)) as (blk0 & E0 & O0). cbn in E0. injection E0 as <-. rewrite Z.add_0_r in O0.
    pose proof (cnt_bounds (G true) (256 * k) ltac:(lia)) as B.
    assert (PRE: exists a64, (if wide then Ok (cnt (G true) (256 * k) mod 2 ^ 40) else if 4294967295 <? cnt (G true) (256 * k) then Exn else Ok (set_a (b_a64 blk) (cnt (G true) (256 * k)))) = Ok a64 /\ A (mk_blk (b_org blk) a64) = cnt (G true) (256 * k)).
    { unfold A, maxBitSize in *. destruct wide.
      - eexists. split; [reflexivity|]. cbn [b_a64]. rewrite Z.mod_mod by lia. apply Z.mod_small. lia.
      - destruct (_ <? _) eqn:?; [lia|]. eexists. split; [reflexivity|]. cbn [b_a64]. apply get_set_a. lia. }
    destruct PRE as (a64 & Ea & Aa). rewrite Ea. cbn [bind].
    assert (POS: exists blk1 pos1, init_sub x64 4 0 buf blkNum pos (cnt (G true) (256 * k)) 0 (mk_blk (b_org blk) a64) = Ok (blk1, pos1, cnt (G true) (256 * (k + 1))) /\
        (buf <> None -> pos1 = Z.min (4 * (k + 1)) blkNum) /\ blk_ok k blk1).
    { assert (O1: org_ok buf k (mk_blk (b_org blk) a64)) by (destruct buf; exact O0). destruct buf as [bf|].
      - rewrite Hp by discriminate. destruct (init_sub_spec (Some bf) blkNum all n k (b_org blk) a64 Hk Hs O1) as (b1 & q1 & E & P & X & Y & Z1). exists b1, q1. split; [exact E|]. split; auto. split; auto. split; auto. rewrite Y. exact Aa.
      - assert (AnyPos: forall m j p c s b, init_sub x64 m j None blkNum p c s b = let! (b', p', c') := init_sub x64 m j None blkNum (Z.min (4 * k) blkNum) c s b in Ok (b', p, c')).
        { induction m; intros; cbn [init_sub]; [auto|]. destruct (rd (b_org b) j); cbn [bind]; auto. }
        destruct (init_sub_spec None blkNum all n k (b_org blk) a64 Hk Hs O1) as (b1 & q1 & E & P & X & Y & Z1). rewrite AnyPos, E. cbn [bind]. exists b1, pos. split; auto. split; [congruence|]. split; auto. split; auto. rewrite Y. exact Aa. }
    destruct POS as (blk1 & pos1 & E1 & P1 & B1). rewrite E1. cbn [bind].
    destruct (IH (k + 1) pos1 ltac:(lia) ltac:(lia) P1) as (blks' & E2 & L & H2).
    { intros i Hi. destruct (Ho (i + 1) ltac:(lia)) as (b & Eb & Ob). exists b. split; [|replace (k + 1 + i) with (k + (i + 1)) by lia; auto].
      unfold rd in *. destruct (i + 1 <? 0) eqn:?; [lia|]. destruct (i <? 0) eqn:?; [lia|]. replace (Z.to_nat (i + 1)) with (S (Z.to_nat i)) in Eb by lia. exact Eb. }
    replace (k + 1 + zlen blks) with (k + (1 + zlen blks)) in * by lia. rewrite E2. cbn [bind]. eexists. split; [reflexivity|]. split; [cbn [length]; lia|].
    intros i Hi. destruct (Z.eq_dec i 0) as [-> |].
    + exists blk1. split; auto. rewrite Z.add_0_r. auto.
    + destruct (H2 (i - 1) ltac:(lia)) as (b & Eb & Ob). exists b. split; [|replace (k + i) with (k + 1 + (i - 1)) by lia; auto].
      unfold rd in *. destruct (i - 1 <? 0) eqn:?; [lia|]. destruct (i <? 0) eqn:?; [lia|]. replace (Z.to_nat i) with (S (Z.to_nat (i - 1))) by lia. exact Eb.
Qed.

(** ** queries *)
Variable blks : list block.
Let n := zlen blks.
Hypothesis B : built blks.
Hypothesis Hn : 256 * n <= 2 ^ 40.

Lemma n_nonneg : 0 <= n. Proof. apply zlen_nonneg. Qed.
Lemma rank_a_ok b i : 0 <= i < n -> rank_a wide b blks i = Ok (cnt (G b) (256 * i)).
Proof.
  intros Hi. destruct (B i Hi) as (blk & E & O & Ab & Bb). unfold rank_a. rewrite E. cbn [bind]. fold (A blk). rewrite Ab. destruct b; auto. f_equal. rewrite cnt_false_G by lia. rewrite Z.mod_small; [lia|].
  pose proof (cnt_bounds (G true) (256 * i) ltac:(lia)). lia.
Qed.
Lemma get_b_ok b L i : 0 <= L < n -> 1 <= i <= 3 -> blk_get_b b blks L i = Ok (cnt (G b) (256 * L + 64 * i) - cnt (G b) (256 * L)).
Proof.
  intros HL Hi. destruct (B L HL) as (blk & E & O & Ab & Bb). unfold blk_get_b. rewrite E. cbn [bind]. rewrite Bb by auto. destruct b; auto. f_equal. rewrite !cnt_false_G by lia.
  pose proof (cnt_step (G true) (256 * L) (256 * L + 64 * i) ltac:(lia)). pose proof (cnt_mono (G true) (256 * L) (256 * L + 64 * i) ltac:(lia)). rewrite Z.mod_small; lia.
Qed.
Lemma org_rd L i : 0 <= L < n -> 0 <= i <= 3 -> exists blk, rd blks L = Ok blk /\ rd (b_org blk) i = Ok (wd (4 * L + i)).
Proof.
  intros HL Hi. destruct (B L HL) as (blk & E & O & _). exists blk. split; auto. rewrite O. assert (i = 0 \/ i = 1 \/ i = 2 \/ i = 3) as [-> |[-> |[-> | ->]]] by lia; rewrite ?Z.add_0_r; reflexivity.
Qed.

(** the select table *)
Definition sampled (b : bool) (r p : Z) : Prop :=
  0 <= p <= n /\ (forall k, 0 <= k < p -> cnt (G b) (256 * k) < r) /\ (p < n -> r <= cnt (G b) (256 * p)).
Hypothesis Hn32 : n < 2 ^ 32.
Lemma sel_while_spec b r : forall fuel pos, 0 <= pos < n -> n - pos < Z.of_nat fuel -> (forall k, 0 <= k < pos -> cnt (G b) (256 * k) < r) ->
  exists p, sel_while wide fuel b blks pos r = Ok p /\ pos <= p /\ sampled b r p.
Proof.
  induction fuel; intros pos Hp Hf H; [lia|]. cbn [sel_while]. rewrite rank_a_ok by auto. cbn [bind]. destruct (_ <? r) eqn:E.
  - rewrite Z.mod_small by lia. assert (H': forall k, 0 <= k < pos + 1 -> cnt (G b) (256 * k) < r) by (intros k Hk; destruct (Z.eq_dec k pos) as [-> |]; [lia|apply H; lia]).
    fold n. destruct (pos + 1 =? n) eqn:E1.
    + exists (pos + 1). split; auto. split; [lia|]. split; [lia|]. split; auto. lia.
    + destruct (IHfuel (pos + 1) ltac:(lia) ltac:(lia) H') as (p & Ep & P1 & P2). exists p. split; auto. split; auto. lia.
  - exists pos. split; auto. split; [lia|]. split; [lia|]. split; auto. intros. lia.
Qed.
Lemma sel_loop_spec b num : num <= cnt (G b) (256 * n) -> forall m i pos, 0 <= i -> (i + Z.of_nat m - 1) * 1024 < num -> 0 <= pos < n ->
  (forall k, 0 <= k < pos -> cnt (G b) (256 * k) < i * 1024) ->
  exists tbl, sel_loop wide m i b blks pos = Ok tbl /\ length tbl = m /\ forall j, (j < m)%nat -> sampled b ((i + Z.of_nat j) * 1024) (nth j tbl 0).
Proof.
  intros Hnum. induction m; intros i pos Hi Hm Hp H.
  - exists []. split; auto. split; auto. intros. lia.
  - cbn [sel_loop]. destruct (sel_while_spec b (i * posUnit) (S (length blks)) pos Hp) as (p & E & P & S); [unfold n, zlen in *; lia|unfold posUnit; auto|]. rewrite E. cbn [bind]. unfold posUnit in S.
    destruct m as [|m].
    + cbn [sel_loop bind]. exists [p]. split; auto. split; auto. intros j Hj. replace j with O by lia. cbn [nth]. replace (i + Z.of_nat 0) with i by lia. auto.
    + pose proof S as (S1 & S2 & S3). assert (p < n).
      { destruct (Z.eq_dec p n) as [-> |]; [|lia]. exfalso. specialize (S2 (n - 1) ltac:(lia)). pose proof (cnt_step (G b) (256 * (n - 1)) (256 * n) ltac:(lia)). lia. }
      destruct (IHm (i + 1) p ltac:(lia) ltac:(lia) ltac:(lia)) as (tbl & E2 & L & T). { intros k Hk. specialize (S2 k Hk). lia. }
      rewrite E2. cbn [bind]. exists (p :: tbl). split; auto. split; [cbn [length]; lia|]. intros [|j] Hj; cbn [nth].
      * replace (i + Z.of_nat 0) with i by lia. auto.
      * replace (i + Z.of_nat (Datatypes.S j)) with (i + 1 + Z.of_nat j) by lia. apply T. lia.
Qed.
Definition tbl_ok (b : bool) (num : Z) (tbl : list Z) : Prop :=
  zlen tbl = (num + 1023) / 1024 /\ forall i, 0 <= i < zlen tbl -> sampled b (i * 1024) (nth (Z.to_nat i) tbl 0).
Lemma initSelTblSub_spec b num : 0 <= num <= cnt (G b) (256 * n) -> exists tbl, initSelTblSub wide b blks num = Ok tbl /\ tbl_ok b num tbl.
Proof.
  intros Hnum. unfold initSelTblSub, getBlockNum, posUnit. pose proof (cnt_bounds (G b) (256 * n) ltac:(pose proof n_nonneg; lia)). replace (num + 1024 - 1) with (num + 1023) by lia. rewrite Z.mod_small by lia.
  pose proof (Z.div_mod (num + 1023) 1024 ltac:(lia)). pose proof (Z.mod_pos_bound (num + 1023) 1024 ltac:(lia)). set (m := (num + 1023) / 1024) in *.
  assert (0 <= m) by (apply Z.div_pos; lia).
  destruct (Z.eq_dec n 0) as [E0|].
  - rewrite E0 in *. assert (m = 0) by (rewrite cnt_0 in Hnum by lia; lia). exists []. split; [replace (Z.to_nat m) with O by lia; reflexivity|]. split; [fold m; unfold zlen; cbn [length]; lia|]. unfold zlen; cbn [length]. intros. lia.
  - destruct (sel_loop_spec b num ltac:(lia) (Z.to_nat m) 0 0) as (tbl & E & L & T); try lia. exists tbl. split; auto. split; [unfold zlen; fold m; lia|]. intros i Hi. specialize (T (Z.to_nat i) ltac:(unfold zlen in *; lia)). rewrite Z2Nat.id in T by lia. exact T.
Qed.

(** the binary search *)
Lemma bsearch_spec b rank : forall fuel L R, 0 <= L <= R -> R <= n -> R - L < Z.of_nat fuel ->
  (forall k, 0 <= k < L -> cnt (G b) (256 * k) < rank) -> (R < n -> rank <= cnt (G b) (256 * R)) ->
  exists p, bsearch wide fuel b blks L R rank = Ok p /\ 0 <= p <= n /\ (forall k, 0 <= k < p -> cnt (G b) (256 * k) < rank) /\ (p < n -> rank <= cnt (G b) (256 * p)).
Proof.
  induction fuel; intros L R HL HR Hf H1 H2; [lia|]. cbn [bsearch]. destruct (L <? R) eqn:E.
  - set (M := (L + R) / 2). assert (L <= M < R). { pose proof (Z.div_mod (L + R) 2 ltac:(lia)). pose proof (Z.mod_pos_bound (L + R) 2 ltac:(lia)). fold M in H. lia. }
    rewrite rank_a_ok by lia. cbn [bind]. destruct (_ <? rank) eqn:E2.
    + apply IHfuel; auto; try lia. intros k Hk. pose proof (cnt_mono (G b) (256 * k) (256 * M) ltac:(lia)). lia.
    + apply IHfuel; auto; try lia.
  - assert (L = R) by lia. subst. exists R. split; auto. split; [lia|]. split; auto.
Qed.
Lemma word_while_spec b L rank : 0 <= L < n -> 1 <= rank -> cnt (G b) (256 * L) + rank <= cnt (G b) (256 * (L + 1)) -> forall m i, 0 <= i -> i + Z.of_nat m = 3 -> cnt (G b) (256 * L + 64 * i) - cnt (G b) (256 * L) < rank ->
  exists p, word_while m b blks L i rank = Ok p /\ 0 <= p <= 3 /\ cnt (G b) (256 * L + 64 * p) - cnt (G b) (256 * L) < rank <= cnt (G b) (256 * L + 64 * p + 64) - cnt (G b) (256 * L).
Proof.
  intros HL Hr Hr2. induction m; intros i Hi Hm H; cbn [word_while].
  - exists i. split; auto. split; [lia|]. split; auto. assert (i = 3) by lia. subst. replace (256 * L + 64 * 3 + 64) with (256 * (L + 1)) by lia. lia.
  - rewrite get_b_ok by lia. cbn [bind]. destruct (rank <=? _) eqn:E.
    + exists i. split; auto. split; [lia|]. split; auto. replace (256 * L + 64 * i + 64) with (256 * L + 64 * (i + 1)) by lia. lia.
    + apply IHm; lia.
Qed.

Variable sv : sucvec.
Hypothesis Hblk : sv_blk sv = blks.
Variable blkNum : Z.
Hypothesis HbN : 0 <= blkNum /\ 64 * blkNum <= 256 * n.
Hypothesis Hsz : forall b, sv_sizeb sv b = cnt (G b) (64 * blkNum).
Hypothesis Htbl : withSelect = true -> tbl_ok true (sv_num1 sv) (sv_sel1 sv) /\ tbl_ok false (sv_num0 sv) (sv_sel0 sv).

Lemma select_spec b rank : withSelect = true -> 0 <= rank ->
  exists p, sv_select x64 wide withSelect sv b rank = Ok p /\
    if rank <? cnt (G b) (64 * blkNum) then is_sel (G b) (rank + 1) p /\ p < 64 * blkNum else p = NotFound.
Proof.
  intros HS Hr. unfold sv_select. rewrite HS. cbn [negb]. rewrite Hsz. destruct (_ <=? rank) eqn:E0.
  { exists NotFound. split; auto. destruct (rank <? _) eqn:?; auto; lia. }
  destruct (rank <? _) eqn:E1; [|lia]. rewrite Hblk.
  set (num := cnt (G b) (64 * blkNum)) in *. pose proof (cnt_mono (G b) (64 * blkNum) (256 * n) ltac:(lia)) as MN. fold num in MN.
  pose proof (cnt_bounds (G b) (256 * n) ltac:(lia)).
  set (tbl := if b then sv_sel1 sv else sv_sel0 sv).
  assert (T: tbl_ok b num tbl). { unfold num. rewrite <- Hsz. destruct (Htbl HS). unfold tbl. destruct b; auto. }
  destruct T as [TL T]. unfold posUnit. pose proof (Z.div_mod rank 1024 ltac:(lia)) as D1. pose proof (Z.mod_pos_bound rank 1024 ltac:(lia)). set (q := rank / 1024) in *. 
  pose proof (Z.div_mod (num + 1023) 1024 ltac:(lia)). pose proof (Z.mod_pos_bound (num + 1023) 1024 ltac:(lia)).
  assert (0 <= q < zlen tbl) by (split; [apply Z.div_pos; lia|lia]).
  rewrite rd_ok by auto. cbn [bind]. destruct (T q ltac:(auto)) as (Q1 & Q2 & Q3). set (L0 := nth (Z.to_nat q) tbl 0) in *.
  assert (RR: exists R, (if zlen tbl - 1 <=? q then Ok (zlen blks) else rd tbl (q + 1)) = Ok R /\ L0 <= R <= n /\ (R < n -> rank + 1 <= cnt (G b) (256 * R))).
  { destruct (_ <=? q) eqn:Eq.
    - exists n. split; auto. split; [lia|]. lia.
    - rewrite rd_ok by lia. eexists. split; [reflexivity|]. destruct (T (q + 1) ltac:(lia)) as (S1 & S2 & S3). set (R := nth (Z.to_nat (q + 1)) tbl 0) in *. split.
      + split; [|lia]. destruct (Z_le_gt_dec L0 R); auto. exfalso. specialize (Q2 R ltac:(lia)). specialize (S3 ltac:(lia)). lia.
      + intros HR. specialize (S3 HR). lia. }
  destruct RR as (R & ER & HR1 & HR2). rewrite ER. cbn [bind].
  destruct (bsearch_spec b (rank + 1) (S (length blks)) L0 R) as (p & Ep & P1 & P2 & P3); auto; try lia.
  { unfold n, zlen in *. lia. } { intros k Hk. specialize (Q2 k Hk). lia. }
  rewrite Ep. cbn [bind].
  assert (0 < p). { destruct (Z.eq_dec p 0) as [-> |]; [|lia]. exfalso. destruct (Z.eq_dec n 0) as [E|]; [rewrite E in *; rewrite cnt_0 in MN by lia; lia|]. specialize (P3 ltac:(lia)). rewrite cnt_0 in P3 by lia. lia. }
  destruct (0 <? p) eqn:?; [|lia]. set (L := p - 1). assert (HL: 0 <= L < n) by (unfold L; lia).
  rewrite rank_a_ok by auto. cbn [bind]. specialize (P2 L ltac:(unfold L; lia)).
  assert (P4: rank + 1 <= cnt (G b) (256 * (L + 1))). { unfold L. replace (p - 1 + 1) with p by lia. destruct (Z.eq_dec p n) as [-> |]; [lia|apply P3; lia]. }
  pose proof (cnt_bounds (G b) (256 * L) ltac:(lia)). rewrite Z.mod_small by lia. set (rk := rank + 1 - cnt (G b) (256 * L)) in *.
  destruct (word_while_spec b L rk HL ltac:(lia) ltac:(lia) 3 0) as (i & Ei & I1 & I2); try lia. { replace (256 * L + 64 * 0) with (256 * L) by lia. lia. }
  rewrite Ei. cbn [bind].
  assert (ER2: (if 0 <? i then let! r := blk_get_b b blks L i in Ok ((rk - r) mod 2 ^ 64) else Ok rk) = Ok (rk - (cnt (G b) (256 * L + 64 * i) - cnt (G b) (256 * L)))).
  { destruct (0 <? i) eqn:?.
    - rewrite get_b_ok by lia. cbn [bind]. pose proof (cnt_mono (G b) (256 * L) (256 * L + 64 * i) ltac:(lia)). rewrite Z.mod_small by lia. auto.
    - assert (i = 0) by lia. subst i. f_equal. replace (256 * L + 64 * 0) with (256 * L) by lia. lia. }
  rewrite ER2. cbn [bind]. clear ER2. destruct (org_rd L i HL ltac:(lia)) as (blk & Eb & Eo). rewrite Eb. cbn [bind]. rewrite Eo. cbn [bind].
  set (r2 := rk - (cnt (G b) (256 * L + 64 * i) - cnt (G b) (256 * L))).
  change (if b then wd (4 * L + i) else 2 ^ 64 - 1 - wd (4 * L + i)) with (wdb b (4 * L + i)).
  assert (W: 0 <= wdb b (4 * L + i) < 2 ^ 64) by (unfold wdb; pose proof (wdw (4 * L + i)); destruct b; lia).
  pose proof (cnt_word b (4 * L + i) 64 ltac:(lia) ltac:(lia)) as CW. replace (64 * (4 * L + i)) with (256 * L + 64 * i) in CW by lia.
  destruct (C28_select64 x64 (wdb b (4 * L + i)) r2 W ltac:(unfold r2; lia)) as (s & Es & S). rewrite Es. cbn [bind]. eexists. split; [reflexivity|].
  destruct (r2 <=? _) eqn:E2; [|unfold r2 in E2; lia]. destruct S as [S1 S2].
  assert (SEL: is_sel (G b) (rank + 1) (s + (L * 256 + i * 64))).
  { replace (s + (L * 256 + i * 64)) with (256 * L + 64 * i + s) by lia. apply is_sel_shift; [lia|]. replace (rank + 1 - cnt (G b) (256 * L + 64 * i)) with r2 by (unfold r2, rk; lia).
    eapply is_sel_ext with (n := 64); [|exact S1|exact S2]. intros j Hj. replace (256 * L + 64 * i + j) with (64 * (4 * L + i) + j) by lia. rewrite G_word by lia. auto. }
  split; auto. destruct (is_sel_exists (G b) (64 * blkNum) (rank + 1) ltac:(lia) ltac:(fold num; lia)) as (p' & SP & LP). rewrite (is_sel_unique _ _ _ _ SEL SP). auto.
Qed.

Lemma rank1_spec pos : 0 <= pos -> sv_bitSize sv <= 64 * blkNum -> sv_rank1 x64 wide sv pos = Ok (if pos <? sv_bitSize sv then cnt (G true) pos else cnt (G true) (64 * blkNum)).
Proof.
  intros Hp Hb. unfold sv_rank1. rewrite <- Hsz. cbn [sv_sizeb]. destruct (_ <=? pos) eqn:E; destruct (pos <? _) eqn:?; try lia; auto.
  pose proof (Z.div_mod pos 256 ltac:(lia)) as D. pose proof (Z.mod_pos_bound pos 256 ltac:(lia)). set (q := pos / 256) in *.
  set (x := pos mod 256) in *. pose proof (Z.div_mod x 64 ltac:(lia)) as D2. pose proof (Z.mod_pos_bound x 64 ltac:(lia)). set (r := x / 64) in *. set (s := x mod 64) in *.
  assert (0 <= r <= 3) by (split; [apply Z.div_pos; lia|apply Z.lt_succ_r; apply Z.div_lt_upper_bound; lia]). assert (0 <= q < n) by (split; [apply Z.div_pos; lia|lia]).
  assert (E1: pos / 64 = 4 * q + r) by (symmetry; apply Z.div_unique with s; lia). assert (E2: pos mod 64 = s) by (symmetry; apply Z.mod_unique with (4 * q + r); lia).
  cbv zeta. rewrite land63, !land3. rewrite E1, E2. replace ((4 * q + r) mod 4) with r by (apply Z.mod_unique with q; lia).
  rewrite Hblk. destruct (B q ltac:(auto)) as (blk & Eb & O & Ab & Bb). destruct (org_rd q r ltac:(auto) ltac:(lia)) as (blk' & Eb' & Eo). rewrite Eb in Eb'. injection Eb' as <-. rewrite Eb. cbn [bind]. rewrite Eo. cbn [bind]. cbv zeta. change (if wide then b_a64 blk mod 2 ^ 40 else get_a (b_a64 blk)) with (A blk).
  assert (ER: (if 0 <? r then A blk + get_b (b_a64 blk) r else A blk) = cnt (G true) (256 * q + 64 * r)). { rewrite Ab. destruct (0 <? r) eqn:?; [rewrite Bb by lia; lia|]. f_equal. lia. }
  rewrite ER, popcnt64_cnt. unfold makeBitMask64. rewrite Z.shiftl_1_l. replace (2 ^ s - 1) with (Z.ones s) by (rewrite Z.ones_equiv; lia).
  pose proof (cnt_word true (4 * q + r) s ltac:(lia) ltac:(lia)) as CW. replace (64 * (4 * q + r)) with (256 * q + 64 * r) in CW by lia. replace (256 * q + 64 * r + s) with pos in CW by lia. cbn [wdb] in CW.
  assert (CM: cnt (Z.testbit (Z.land (wd (4 * q + r)) (Z.ones s))) 64 = cnt (Z.testbit (wd (4 * q + r))) s) by (rewrite Z.land_ones by lia; apply cnt_mod'; lia).
  rewrite CM, <- CW. pose proof (cnt_bounds (G true) pos Hp). rewrite Z.mod_small by lia. auto.
Qed.
Lemma get_spec pos : 0 <= pos -> sv_bitSize sv <= 64 * blkNum -> sv_get sv pos = if pos <? sv_bitSize sv then Ok (F pos) else Exn.
Proof.
  intros Hp Hb. unfold sv_get. destruct (_ <=? pos) eqn:E; destruct (pos <? _) eqn:?; try lia; auto.
  pose proof (Z.div_mod pos 256 ltac:(lia)) as D. pose proof (Z.mod_pos_bound pos 256 ltac:(lia)). set (q := pos / 256) in *.
  set (x := pos mod 256) in *. pose proof (Z.div_mod x 64 ltac:(lia)) as D2. pose proof (Z.mod_pos_bound x 64 ltac:(lia)). set (r := x / 64) in *. set (s := x mod 64) in *.
  assert (0 <= r <= 3) by (split; [apply Z.div_pos; lia|apply Z.lt_succ_r; apply Z.div_lt_upper_bound; lia]). assert (0 <= q < n) by (split; [apply Z.div_pos; lia|lia]).
  assert (E1: pos / 64 = 4 * q + r) by (symmetry; apply Z.div_unique with s; lia). assert (E2: pos mod 64 = s) by (symmetry; apply Z.mod_unique with (4 * q + r); lia).
  cbv zeta. rewrite land63, !land3. unfold F. rewrite E1, E2. replace ((4 * q + r) mod 4) with r by (apply Z.mod_unique with q; lia).
  rewrite Hblk. destruct (org_rd q r ltac:(auto) ltac:(lia)) as (blk & Eb & Eo). rewrite Eb. cbn [bind]. rewrite Eo. cbn [bind]. f_equal.
  set (v := wd (4 * q + r)). rewrite Z.shiftl_1_l. destruct (Z.testbit v s) eqn:T.
  - destruct (_ =? 0) eqn:Z0; auto. exfalso. assert (Z.testbit (Z.land v (2 ^ s)) s = true) by (rewrite Z.land_spec, T, Z.pow2_bits_true by lia; auto).
    replace (Z.land v (2 ^ s)) with 0 in H3 by lia. rewrite Z.testbit_0_l in H3. discriminate.
  - assert (Z.land v (2 ^ s) = 0). { apply Z.bits_inj'. intros k Hk. rewrite Z.land_spec, Z.pow2_bits_eqb, Z.testbit_0_l by lia. destruct (s =? k) eqn:?; [|apply andb_false_r]. assert (s = k) by lia. subst k. replace (Z.testbit v s) with false. auto. }
    rewrite H3. auto.
Qed.
End V.
