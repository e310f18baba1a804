(** C26-C29: SucVectorT answers rank, get and select queries about a list of bits. *)
Require Import Verif.Common Verif.StreamModel Verif.StreamProps Verif.EndianModel Verif.EndianProps Verif.SerializerModel Verif.SerializerProps Verif.BitVecModel Verif.BitVecProof Verif.BitVecProps Verif.Cnt Verif.SucModel Verif.SucProof Verif.SucProof2.
Ltac Zify.zify_post_hook ::= idtac.

(** * Specification, about plain lists of bits *)
Definition count (b : bool) (l : list bool) : Z := zlen (filter (Bool.eqb b) l).
(** p is the position of the r-th (from 0) bit of value b *)
Definition position (b : bool) (r : Z) (l : list bool) (p : Z) : Prop :=
  0 <= p < zlen l /\ nth (Z.to_nat p) l (negb b) = b /\ count b (firstn (Z.to_nat p) l) = r.
Definition seqZ (n : Z) : list Z := map Z.of_nat (seq 0 (Z.to_nat n)).

(** what select gives when there is no such position: size_t(-1) *)
Definition none : Z := 0xffffffffffffffff.
(** the answers of an object about the bits l; pad is what follows l in the last word or block *)
Record answers (x64 wide withSelect : bool) (sv : sucvec) (l pad : list bool) : Prop := {
  a_size : sv_size sv = zlen l;
  a_sizeb : forall b, sv_sizeb sv b = count b (l ++ pad);
  a_get : forall pos, 0 <= pos -> sv_get sv pos = if pos <? zlen l then Ok (nth (Z.to_nat pos) l false) else Exn;
  a_rank : forall b pos, 0 <= pos < zlen l -> sv_rank x64 wide sv b pos = Ok (count b (firstn (Z.to_nat pos) l));
  a_rank_end : forall pos, zlen l <= pos < 2 ^ 64 -> sv_rank x64 wide sv true pos = Ok (count true (l ++ pad)) /\
    sv_rank x64 wide sv false pos = Ok ((pos - count true (l ++ pad)) mod 2 ^ 64);
  a_select : withSelect = true -> forall b r, 0 <= r -> exists p, sv_select x64 wide withSelect sv b r = Ok p /\
    if r <? count b (l ++ pad) then position b r (l ++ pad) p else p = none
}.
(** each block is an array of four words *)
Definition shape_ok (sv : sucvec) : Prop := Forall (fun b => length (b_org b) = 4%nat) (sv_blk sv).

(** * lists and counting functions *)
Lemma count_app b l m : count b (l ++ m) = count b l + count b m.
Proof. unfold count. rewrite filter_app, zlen_app. auto. Qed.
Lemma count_cnt b l n : 0 <= n <= zlen l -> count b (firstn (Z.to_nat n) l) = cnt (fun i => Bool.eqb b (nth (Z.to_nat i) l false)) n.
Proof.
  intros [H0 H1]. revert H1. pattern n. apply Zind; [| |auto].
  - intros. rewrite cnt_0 by lia. reflexivity.
  - intros m Hm IH H1. rewrite cnt_S by auto. rewrite <- IH by lia. replace (Z.to_nat (m + 1)) with (S (Z.to_nat m)) by lia.
    assert (E: firstn (S (Z.to_nat m)) l = firstn (Z.to_nat m) l ++ [nth (Z.to_nat m) l false]).
    { clear IH. unfold zlen in H1. assert (Z.to_nat m < length l)%nat by lia. revert H. generalize (Z.to_nat m). clear. induction l; intros k Hk; cbn [length] in *; [lia|]. destruct k; auto. cbn [firstn nth app]. f_equal. apply IHl. lia. }
    rewrite E, count_app. f_equal. unfold count. cbn [filter]. destruct (Bool.eqb b _); reflexivity.
Qed.
Lemma count_all b l : count b l = cnt (fun i => Bool.eqb b (nth (Z.to_nat i) l false)) (zlen l).
Proof. rewrite <- count_cnt by (pose proof (zlen_nonneg l); lia). unfold zlen. rewrite Nat2Z.id, firstn_all. auto. Qed.

Section P.
Variables x64 wide withSelect : bool.

(** from the invariant to the answers *)
Lemma answers_intro wd sv l pad blkNum :
  (forall i, 0 <= wd i < 2 ^ 64) -> built wide wd (sv_blk sv) -> 256 * zlen (sv_blk sv) <= 2 ^ 40 -> (withSelect = true -> zlen (sv_blk sv) < 2 ^ 32) ->
  0 <= blkNum -> 64 * blkNum <= 256 * zlen (sv_blk sv) -> (forall b, sv_sizeb sv b = cnt (G wd b) (64 * blkNum)) ->
  (withSelect = true -> tbl_ok wd (sv_blk sv) true (sv_num1 sv) (sv_sel1 sv) /\ tbl_ok wd (sv_blk sv) false (sv_num0 sv) (sv_sel0 sv)) ->
  zlen (l ++ pad) = 64 * blkNum -> sv_bitSize sv = zlen l -> (forall i, 0 <= i < 64 * blkNum -> F wd i = nth (Z.to_nat i) (l ++ pad) false) ->
  answers x64 wide withSelect sv l pad.
Proof.
  intros W B Hn Hn32 Hb0 Hb Hsz Ht HL Hs HF.
  assert (Hll: 0 <= zlen l <= 64 * blkNum) by (rewrite zlen_app in HL; pose proof (zlen_nonneg l); pose proof (zlen_nonneg pad); lia).
  assert (HG: forall b i, 0 <= i < 64 * blkNum -> G wd b i = Bool.eqb b (nth (Z.to_nat i) (l ++ pad) false)).
  { intros b i Hi. unfold G. rewrite HF by auto. destruct b, (nth (Z.to_nat i) (l ++ pad) false); auto. }
  assert (HC: forall b n, 0 <= n <= 64 * blkNum -> cnt (G wd b) n = count b (firstn (Z.to_nat n) (l ++ pad))).
  { intros b n Hnn. rewrite count_cnt by lia. apply cnt_ext. intros. apply HG. lia. }
  assert (HC1: forall b n, 0 <= n <= zlen l -> cnt (G wd b) n = count b (firstn (Z.to_nat n) l)).
  { intros b n Hnn. rewrite HC by lia. rewrite firstn_app. replace (Z.to_nat n - length l)%nat with O by (unfold zlen in *; lia). cbn [firstn]. rewrite app_nil_r. auto. }
  assert (HA: forall b, cnt (G wd b) (64 * blkNum) = count b (l ++ pad)).
  { intros b. rewrite HC by lia. f_equal. apply firstn_all2. unfold zlen in *. lia. }
  assert (R1: forall pos, 0 <= pos -> sv_rank1 x64 wide sv pos = Ok (if pos <? sv_bitSize sv then cnt (G wd true) pos else cnt (G wd true) (64 * blkNum))).
  { intros pos Hp. apply (rank1_spec x64 wide withSelect wd W (sv_blk sv) B Hn sv eq_refl blkNum (conj Hb0 Hb) Hsz pos Hp). lia. }
  constructor.
  - exact Hs.
  - intros b. rewrite Hsz, HA. auto.
  - intros pos Hp. rewrite (get_spec wide withSelect wd W (sv_blk sv) B sv eq_refl blkNum (conj Hb0 Hb) Hsz pos Hp) by lia. rewrite Hs. destruct (pos <? zlen l) eqn:E; auto. rewrite HF by lia. rewrite app_nth1 by (unfold zlen in *; lia). auto.
  - intros b pos Hp. assert (R: sv_rank1 x64 wide sv pos = Ok (count true (firstn (Z.to_nat pos) l))).
    { rewrite R1, Hs by lia. destruct (_ <? _) eqn:?; [|lia]. rewrite HC1 by lia. auto. }
    unfold sv_rank, sv_rank0. destruct b; rewrite R; auto. cbn [bind]. f_equal. rewrite <- !HC1 by lia. rewrite cnt_false_G by lia. pose proof (cnt_bounds (G wd true) pos ltac:(lia)). apply Z.mod_small. lia.
  - intros pos Hp. assert (R: sv_rank1 x64 wide sv pos = Ok (count true (l ++ pad))).
    { rewrite R1, Hs by lia. destruct (_ <? _) eqn:?; [lia|]. rewrite HA. auto. }
    unfold sv_rank, sv_rank0. rewrite R. auto.
  - intros HS b r Hr. destruct (select_spec x64 wide withSelect wd W (sv_blk sv) B Hn (Hn32 HS) sv eq_refl blkNum (conj Hb0 Hb) Hsz Ht b r HS Hr) as (p & E & P). exists p. split; auto. rewrite HA in P. destruct (r <? _); auto.
    destruct P as [(S0 & S1 & S2) S3]. split; [lia|]. rewrite HG in S1 by lia. split.
    + rewrite (nth_indep _ _ false) by (unfold zlen in *; lia). symmetry. apply Bool.eqb_prop. auto.
    + rewrite <- HC by lia. lia.
Qed.

(** the limit under which the object is built: with select on, the block number is a 32-bit counter *)
Definition limit : Z := if wide then (if withSelect then 2 ^ 40 - 256 else 2 ^ 40) else 2 ^ 32.

Lemma initBlock_spec wd sv buf blkNum :
  (forall i, 0 <= wd i < 2 ^ 64) -> source_ok wd buf blkNum (zlen (sv_blk sv)) (sv_blk sv) ->
  (forall i, 0 <= i < zlen (sv_blk sv) -> exists blk, rd (sv_blk sv) i = Ok blk /\ org_ok wd buf i blk) ->
  256 * zlen (sv_blk sv) <= (if wide then 2 ^ 40 else 2 ^ 32) -> (withSelect = true -> zlen (sv_blk sv) < 2 ^ 32) ->
  0 <= blkNum -> 64 * blkNum <= 256 * zlen (sv_blk sv) -> (forall i, blkNum <= i -> wd i = 0) ->
  exists sv', initBlock x64 wide withSelect sv buf blkNum = Ok sv' /\
    sv_bitSize sv' = sv_bitSize sv /\ sv_freezed sv' = true /\ zlen (sv_blk sv') = zlen (sv_blk sv) /\ built wide wd (sv_blk sv') /\ (forall b, sv_sizeb sv' b = cnt (G wd b) (64 * blkNum)) /\
    (withSelect = true -> tbl_ok wd (sv_blk sv') true (sv_num1 sv') (sv_sel1 sv') /\ tbl_ok wd (sv_blk sv') false (sv_num0 sv') (sv_sel0 sv')).
Proof.
  intros W Hs Ho Hn Hn32 Hb0 Hb Hz. set (n := zlen (sv_blk sv)) in *. assert (0 <= n) by apply zlen_nonneg.
  assert (Hn40: 256 * n <= 2 ^ 40) by (destruct wide; lia).
  destruct (init_blocks_spec x64 wide wd W buf blkNum n (sv_blk sv) Hs (sv_blk sv) 0 0) as (blks & E & L & BB); try lia.
  { unfold maxBitSize. fold n. destruct wide; lia. }
  { intros i Hi. destruct (Ho i Hi) as (b & X & Y). exists b. auto. }
  rewrite Z.mul_0_r, cnt_0 in E by lia. fold n in E. rewrite Z.add_0_l in E.
  assert (Lz: zlen blks = n) by (unfold n, zlen; lia).
  assert (B: built wide wd blks). { intros k Hk. rewrite Lz in Hk. destruct (BB k Hk) as (b & X & Y). rewrite Z.add_0_l in Y. eauto. }
  assert (C: cnt (G wd true) (256 * n) = cnt (G wd true) (64 * blkNum)).
  { replace (256 * n) with (64 * blkNum + (256 * n - 64 * blkNum)) by lia. rewrite cnt_add by lia. rewrite (cnt_false (fun i => G wd true (64 * blkNum + i))); [lia|]. intros i Hi. cbn [G]. unfold F. rewrite Hz; [apply Z.testbit_0_l|]. apply Z.div_le_lower_bound; lia. }
  set (num1 := cnt (G wd true) (256 * n)) in *. pose proof (cnt_bounds (G wd true) (64 * blkNum) ltac:(lia)).
  assert (N0: (blkNum * 64 - num1) mod 2 ^ 64 = cnt (G wd false) (64 * blkNum)) by (rewrite cnt_false_G by lia; rewrite Z.mod_small; lia).
  unfold initBlock. rewrite E. cbn [bind]. rewrite N0. destruct withSelect.
  - specialize (Hn32 eq_refl).
    destruct (initSelTblSub_spec wide wd W blks B ltac:(rewrite Lz; auto) ltac:(rewrite Lz; auto) false (cnt (G wd false) (64 * blkNum))) as (t0 & T0 & K0).
    { rewrite Lz. split; [apply cnt_nonneg|apply cnt_mono; lia]. }
    destruct (initSelTblSub_spec wide wd W blks B ltac:(rewrite Lz; auto) ltac:(rewrite Lz; auto) true num1) as (t1 & T1 & K1).
    { rewrite Lz. fold num1. lia. }
    rewrite T0. cbn [bind]. rewrite T1. cbn [bind]. eexists. split; [reflexivity|]. cbn [sv_bitSize sv_freezed sv_blk sv_num1 sv_num0 sv_sel1 sv_sel0]. repeat (split; auto). intros []; cbn [sv_sizeb]; auto.
  - eexists. split; [reflexivity|]. cbn [sv_bitSize sv_freezed sv_blk]. repeat (split; auto); try discriminate. intros []; cbn [sv_sizeb sv_num1 sv_num0]; auto.
Qed.

Lemma forall_firstn {A} (P : A -> Prop) n l : Forall P l -> Forall P (firstn n l).
Proof. intros H. revert n. induction H; intros [|n]; cbn [firstn]; auto. Qed.
Lemma ceil_div n k : 0 <= n -> 0 < k -> 0 <= (n + k - 1) / k /\ n <= k * ((n + k - 1) / k) < n + k.
Proof. intros Hn Hk. pose proof (Z.div_mod (n + k - 1) k ltac:(lia)). pose proof (Z.mod_pos_bound (n + k - 1) k Hk). split; [apply Z.div_pos; lia|lia]. Qed.
Lemma rd_forall {A} (P : A -> Prop) l i : Forall P l -> 0 <= i < zlen l -> exists x, rd l i = Ok x /\ P x.
Proof.
  intros H Hi. destruct (nth_error l (Z.to_nat i)) as [x|] eqn:E.
  - exists x. split; [|rewrite Forall_forall in H; apply H; eapply nth_error_In; eauto]. unfold rd. destruct (i <? 0) eqn:?; [lia|]. rewrite E. auto.
  - apply nth_error_None in E. unfold zlen in Hi. lia.
Qed.
Lemma nth_map_seqZ {A} (f : Z -> A) n i d : 0 <= i < n -> nth (Z.to_nat i) (map f (seqZ n)) d = f i.
Proof. intros Hi. unfold seqZ. rewrite map_map. rewrite nth_map_seq by lia. f_equal. lia. Qed.
Lemma zlen_map_seqZ {A} (f : Z -> A) n : 0 <= n -> zlen (map f (seqZ n)) = n.
Proof. intros. unfold seqZ, zlen. rewrite !map_length, seq_length. lia. Qed.

(** C26/C27 for init: the bits come from an array of 64-bit words *)
Theorem C26_init : forall old buf bitSize, shape_ok old -> Forall (fun x => 0 <= x < 2 ^ 64) buf -> 0 <= bitSize <= limit -> bitSize <= 64 * zlen buf ->
  exists sv pad, sv_init x64 wide withSelect old buf bitSize = Ok sv /\ sv_freezed sv = true /\
    block_bits 64 buf bitSize ++ pad = block_bits 64 buf (64 * ((bitSize + 63) / 64)) /\
    answers x64 wide withSelect sv (block_bits 64 buf bitSize) pad.
Proof.
  intros old buf bitSize Sh Hw Hl Hbuf. unfold sv_init, sv_resize.
  assert (HL: bitSize <= maxBitSize wide) by (unfold limit, maxBitSize in *; destruct wide, withSelect; lia). destruct (_ <? bitSize) eqn:?; [lia|]. cbn [bind].
  assert (maxBitSize wide <= 2 ^ 40) by (unfold maxBitSize; destruct wide; lia). rewrite (Z.mod_small (bitSize + 63)) by lia.
  destruct (ceil_div bitSize 64 ltac:(lia) ltac:(lia)) as [K0 K1]. replace (bitSize + 64 - 1) with (bitSize + 63) in * by lia. set (blkNum := (bitSize + 63) / 64) in *.
  destruct (ceil_div blkNum 4 ltac:(lia) ltac:(lia)) as [T0 T1]. replace (blkNum + 4 - 1) with (blkNum + 3) in * by lia. set (n := (blkNum + 3) / 4) in *.
  cbn [sv_blk]. set (bl := resize_blk (sv_blk old) (Z.to_nat n)).
  assert (Ln: zlen bl = n). { unfold bl, resize_blk, zlen. rewrite app_length, firstn_length, repeat_length. lia. }
  assert (Sb: Forall (fun b => length (b_org b) = 4%nat) bl). { unfold bl, resize_blk. apply Forall_app. split; [apply forall_firstn; auto|]. apply Forall_forall. intros b Hb. apply repeat_spec in Hb. subst. auto. }
  set (wd := fun i => if (0 <=? i) && (i <? blkNum) then nth (Z.to_nat i) buf 0 else 0).
  assert (W: forall i, 0 <= wd i < 2 ^ 64). { intros i. unfold wd. destruct (_ && _) eqn:?; [|lia]. rewrite Forall_forall in Hw. apply Hw. apply nth_In. unfold zlen in *. lia. }
  set (sv0 := mk_sv bitSize (sv_num0 old) (sv_num1 old) false bl (sv_sel0 old) (sv_sel1 old)).
  assert (blkNum <= zlen buf) by lia.
  assert (256 * n <= limit + 255 /\ (wide = true -> withSelect = true -> n < 2 ^ 32) /\ 256 * n <= (if wide then 2 ^ 40 else 2 ^ 32)) as (N1 & N2 & N3).
  { assert (256 * n < bitSize + 64 + 4 * 64) by lia. assert (exists q, n = q) as [q Q] by eauto. unfold limit in *. destruct wide, withSelect; repeat split; intros; lia. }
  destruct (initBlock_spec wd sv0 (Some buf) blkNum W) as (sv & E & E1 & E2 & E3 & E4 & E5 & E6); cbn [sv0 sv_blk]; rewrite ?Ln; auto.
  { split; [lia|]. intros i Hi. unfold wd. destruct (0 <=? i) eqn:?; [|lia]. auto. }
  { intros i Hi. destruct (rd_forall _ bl i Sb ltac:(lia)) as (b & X & Y). exists b. split; auto. }
  { intros HS. destruct wide; [apply N2; auto|lia]. }
  { lia. }
  { intros i Hi. unfold wd. destruct (_ && _) eqn:?; [lia|auto]. }
  exists sv, (skipn (Z.to_nat bitSize) (block_bits 64 buf (64 * blkNum))). split; [exact E|]. split; auto.
  assert (LE: block_bits 64 buf bitSize = firstn (Z.to_nat bitSize) (block_bits 64 buf (64 * blkNum))).
  { unfold block_bits. rewrite firstn_map. f_equal. replace (Z.to_nat (64 * blkNum)) with (Z.to_nat bitSize + Z.to_nat (64 * blkNum - bitSize))%nat by lia. rewrite seq_app, firstn_app, firstn_all2, seq_length, Nat.sub_diag by (rewrite seq_length; lia). cbn [firstn]. rewrite app_nil_r. auto. }
  split; [rewrite LE; apply firstn_skipn|].
  apply (answers_intro wd) with (blkNum := blkNum); auto.
  - rewrite E3. cbn [sv0 sv_blk]. rewrite Ln. destruct wide; lia.
  - rewrite E3. cbn [sv0 sv_blk]. rewrite Ln. intros HS. destruct wide; [apply N2; auto|lia].
  - rewrite E3. cbn [sv0 sv_blk]. lia.
  - rewrite LE, firstn_skipn. rewrite zlen_block_bits; lia.
  - rewrite E1. cbn [sv0 sv_bitSize]. rewrite zlen_block_bits; lia.
  - intros i Hi. rewrite LE, firstn_skipn. rewrite nth_block_bits by lia. unfold F, block_bit, wd. destruct (_ && _) eqn:EE; auto. exfalso. pose proof (Z.div_pos i 64 ltac:(lia) ltac:(lia)). pose proof (Z.div_lt_upper_bound i 64 blkNum ltac:(lia) ltac:(lia)). lia.
Qed.

(** the other way to build: resize(bitSize), set(i) for some positions in any order, ready() *)
Fixpoint set_all (sv : sucvec) (idxs : list Z) : res sucvec :=
  match idxs with [] => Ok sv | i :: rest => let! sv := sv_set sv i in set_all sv rest end.
Definition build (old : sucvec) (bitSize : Z) (idxs : list Z) : res sucvec :=
  let! (sv, _) := sv_resize wide old bitSize true in let! sv := set_all sv idxs in sv_ready x64 wide withSelect sv.

Definition orgs (wd : Z -> Z) (blks : list block) : Prop :=
  forall i, 0 <= i < zlen blks -> exists blk, rd blks i = Ok blk /\ b_org blk = [wd (4 * i); wd (4 * i + 1); wd (4 * i + 2); wd (4 * i + 3)].
Lemma rd_upd {A} (l : list A) i j x : 0 <= i < zlen l -> 0 <= j -> rd (upd l (Z.to_nat i) x) j = if j =? i then Ok x else rd l j.
Proof.
  intros Hi Hj. unfold rd. destruct (j <? 0) eqn:?; [lia|]. destruct (j =? i) eqn:E.
  - replace j with i by lia. rewrite nth_error_upd_eq by (unfold zlen in *; lia). auto.
  - rewrite nth_error_upd_ne by lia. auto.
Qed.
Lemma set_orgs wd sv i : orgs wd (sv_blk sv) -> sv_freezed sv = false -> 0 <= i < sv_bitSize sv -> sv_bitSize sv <= 256 * zlen (sv_blk sv) ->
  let wd' := fun k => if k =? i / 64 then Z.lor (wd k) (Z.shiftl 1 (i mod 64)) else wd k in
  exists sv', sv_set sv i = Ok sv' /\ orgs wd' (sv_blk sv') /\ sv_freezed sv' = false /\ sv_bitSize sv' = sv_bitSize sv /\ zlen (sv_blk sv') = zlen (sv_blk sv).
Proof.
  intros O Fz Hi Hb wd'. unfold sv_set. rewrite Fz. destruct (_ <=? i) eqn:?; [lia|].
  pose proof (Z.div_mod i 256 ltac:(lia)) as D. pose proof (Z.mod_pos_bound i 256 ltac:(lia)). set (q := i / 256) in *.
  set (x := i mod 256) in *. pose proof (Z.div_mod x 64 ltac:(lia)) as D2. pose proof (Z.mod_pos_bound x 64 ltac:(lia)). set (r := x / 64) in *. set (s := x mod 64) in *.
  assert (0 <= r <= 3) by (split; [apply Z.div_pos; lia|apply Z.lt_succ_r; apply Z.div_lt_upper_bound; lia]). assert (Hq: 0 <= q < zlen (sv_blk sv)) by (split; [apply Z.div_pos; lia|lia]).
  assert (E1: i / 64 = 4 * q + r) by (symmetry; apply Z.div_unique with s; lia). assert (E2: i mod 64 = s) by (symmetry; apply Z.mod_unique with (4 * q + r); lia).
  destruct (O q Hq) as (blk & Eb & Eo). rewrite Eb. cbn [bind].
  assert (exists org, (let! v := rd (b_org blk) r in wr (b_org blk) r (Z.lor v (Z.shiftl 1 s))) = Ok org /\ org = [wd' (4 * q); wd' (4 * q + 1); wd' (4 * q + 2); wd' (4 * q + 3)]) as (org & Ew & Ev).
  { rewrite Eo. unfold wd'. rewrite E1, E2. eexists. split; [|reflexivity].
    assert (r = 0 \/ r = 1 \/ r = 2 \/ r = 3) as [-> |[-> |[-> | ->]]] by lia;
    rewrite ?Z.add_0_r, ?Z.eqb_refl;
    repeat match goal with |- context [?a =? ?b] => destruct (Z.eqb_spec a b); [lia|] end; reflexivity. }
  destruct (rd (b_org blk) r) eqn:Er; try discriminate. cbn [bind] in *. rewrite Ew. cbn [bind]. rewrite wr_ok by auto. cbn [bind].
  eexists. split; [reflexivity|]. cbn [sv_blk sv_freezed sv_bitSize]. split; [|split; [auto|split; [auto|unfold zlen; rewrite upd_length; auto]]].
  assert (ZL: zlen (upd (sv_blk sv) (Z.to_nat q) (mk_blk org (b_a64 blk))) = zlen (sv_blk sv)) by (unfold zlen; rewrite upd_length; auto).
  intros k Hk. rewrite ZL in Hk. rewrite rd_upd by lia. destruct (k =? q) eqn:Ek.
  - eexists. split; [reflexivity|]. cbn [b_org]. replace k with q by lia. auto.
  - destruct (O k ltac:(lia)) as (b & X & Y). exists b. split; auto. rewrite Y. unfold wd'. rewrite E1.
    repeat match goal with |- context [?a =? 4 * q + r] => destruct (Z.eqb_spec a (4 * q + r)); [lia|] end. auto.
Qed.
Lemma set_all_orgs : forall idxs wd sv, orgs wd (sv_blk sv) -> (forall i, 0 <= wd i < 2 ^ 64) -> sv_freezed sv = false -> Forall (fun i => 0 <= i < sv_bitSize sv) idxs -> sv_bitSize sv <= 256 * zlen (sv_blk sv) ->
  exists sv' wd', set_all sv idxs = Ok sv' /\ orgs wd' (sv_blk sv') /\ (forall i, 0 <= wd' i < 2 ^ 64) /\ sv_bitSize sv' = sv_bitSize sv /\ zlen (sv_blk sv') = zlen (sv_blk sv) /\
    (forall i, 0 <= i -> F wd' i = F wd i || existsb (Z.eqb i) idxs).
Proof.
  induction idxs as [|i idxs IH]; intros wd sv O W Fz Hf Hb; cbn [set_all].
  - exists sv, wd. repeat (split; auto); try apply W. intros. cbn [existsb]. rewrite orb_false_r. auto.
  - inversion Hf as [|? ? Hi Hf']; subst. destruct (set_orgs wd sv i O Fz Hi Hb) as (sv1 & E & O1 & F1 & B1 & L1). rewrite E. cbn [bind].
    set (wd1 := fun k => if k =? i / 64 then Z.lor (wd k) (Z.shiftl 1 (i mod 64)) else wd k) in *.
    pose proof (Z.mod_pos_bound i 64 ltac:(lia)) as Hm.
    assert (W1: forall k, 0 <= wd1 k < 2 ^ 64).
    { intros k. unfold wd1. destruct (_ =? _); auto. rewrite Z.shiftl_1_l. pose proof (W k). split; [apply Z.lor_nonneg; split; [lia|apply Z.pow_nonneg; lia]|].
      destruct (Z.eq_dec (Z.lor (wd k) (2 ^ (i mod 64))) 0) as [-> |]; [lia|]. apply Z.log2_lt_pow2; [assert (0 <= Z.lor (wd k) (2 ^ (i mod 64))) by (apply Z.lor_nonneg; split; [lia|apply Z.pow_nonneg; lia]); lia|].
      rewrite Z.log2_lor by (try apply Z.pow_nonneg; lia). rewrite Z.log2_pow2 by lia. destruct (Z.eq_dec (wd k) 0) as [-> |]; [cbn; lia|]. pose proof (proj1 (Z.log2_lt_pow2 (wd k) 64 ltac:(lia)) ltac:(lia)). lia. }
    destruct (IH wd1 sv1 O1 W1 F1) as (sv2 & wd2 & E2 & O2 & W2 & B2 & L2 & H2); [rewrite B1; auto|lia|].
    exists sv2, wd2. repeat (split; auto); try apply W2; try lia. intros j Hj. rewrite H2 by auto. cbn [existsb]. rewrite orb_assoc. f_equal.
    unfold F, wd1. pose proof (Z.mod_pos_bound j 64 ltac:(lia)). destruct (j / 64 =? i / 64) eqn:Eq.
    + rewrite lor_bit by lia. f_equal. pose proof (Z.div_mod i 64 ltac:(lia)). pose proof (Z.div_mod j 64 ltac:(lia)). destruct (Z.eqb_spec (j mod 64) (i mod 64)), (Z.eqb_spec j i); auto; subst; lia.
    + destruct (Z.eqb_spec j i); [subst; lia|]. rewrite orb_false_r. auto.
Qed.
Theorem C26_ready : forall old bitSize idxs, 0 <= bitSize <= limit -> Forall (fun i => 0 <= i < bitSize) idxs ->
  exists sv, build old bitSize idxs = Ok sv /\ sv_freezed sv = true /\
    answers x64 wide withSelect sv (map (fun i => existsb (Z.eqb i) idxs) (seqZ bitSize)) (repeat false (Z.to_nat (256 * ((bitSize + 255) / 256) - bitSize))).
Proof.
  intros old bitSize idxs Hl Hf. unfold build, sv_resize.
  assert (HL: bitSize <= maxBitSize wide) by (unfold limit, maxBitSize in *; destruct wide, withSelect; lia). destruct (_ <? bitSize) eqn:?; [lia|]. cbn [bind].
  assert (maxBitSize wide <= 2 ^ 40) by (unfold maxBitSize; destruct wide; lia). rewrite (Z.mod_small (bitSize + 63)) by lia.
  destruct (ceil_div bitSize 64 ltac:(lia) ltac:(lia)) as [K0 K1]. replace (bitSize + 64 - 1) with (bitSize + 63) in * by lia. set (blkNum := (bitSize + 63) / 64) in *.
  destruct (ceil_div blkNum 4 ltac:(lia) ltac:(lia)) as [T0 T1]. replace (blkNum + 4 - 1) with (blkNum + 3) in * by lia. set (n := (blkNum + 3) / 4) in *.
  destruct (ceil_div bitSize 256 ltac:(lia) ltac:(lia)) as [U0 U1]. replace (bitSize + 256 - 1) with (bitSize + 255) in * by lia.
  assert (NE: (bitSize + 255) / 256 = n) by lia. rewrite NE in *.
  set (sv0 := mk_sv bitSize (sv_num0 old) (sv_num1 old) false (repeat blk_zero (Z.to_nat n)) (sv_sel0 old) (sv_sel1 old)).
  assert (Ln: zlen (sv_blk sv0) = n) by (unfold zlen; cbn [sv0 sv_blk]; rewrite repeat_length; lia).
  destruct (set_all_orgs idxs (fun _ => 0) sv0) as (sv1 & wd & E & O & W & B1 & L1 & HF); auto.
  { intros i Hi. rewrite Ln in Hi. exists blk_zero. split; auto. unfold rd. cbn [sv0 sv_blk]. destruct (i <? 0) eqn:?; [lia|].
    rewrite (nth_error_nth' _ blk_zero) by (rewrite repeat_length; lia). rewrite nth_repeat. auto. }
  { intros. lia. }
  { rewrite Ln. cbn [sv0 sv_bitSize]. lia. }
  rewrite E. cbn [bind]. unfold sv_ready. rewrite Ln in L1. cbn [sv0 sv_bitSize] in B1. rewrite L1.
  assert ((wide = true -> withSelect = true -> n < 2 ^ 32) /\ 256 * n <= (if wide then 2 ^ 40 else 2 ^ 32)) as (N2 & N3).
  { unfold limit in *. destruct wide, withSelect; repeat split; intros; lia. }
  set (wd' := fun i => if (0 <=? i) && (i <? 4 * n) then wd i else 0).
  destruct (initBlock_spec wd' sv1 None (n * 4)) as (sv & E' & E1 & E2 & E3 & E4 & E5 & E6); try rewrite L1; auto; try lia.
  { intros i. unfold wd'. destruct (_ && _); [auto|lia]. }
  { exact I. }
  { intros i Hi. destruct (O i ltac:(rewrite L1; auto)) as (b & X & Y). exists b. split; auto. cbn [org_ok]. rewrite Y. unfold wd'.
    repeat match goal with |- context [(?a <=? ?b) && (?c <? ?d)] => destruct (Z.leb_spec a b); [|lia]; destruct (Z.ltb_spec c d); [|lia] end. auto. }
  { intros HS. destruct wide; [apply N2; auto|lia]. }
  { intros i Hi. unfold wd'. destruct (_ && _) eqn:?; [lia|auto]. }
  exists sv. split; [exact E'|]. split; auto.
  set (l := map _ (seqZ bitSize)). assert (Ll: zlen l = bitSize) by (apply zlen_map_seqZ; lia).
  assert (LP: zlen (l ++ repeat false (Z.to_nat (256 * n - bitSize))) = 64 * (n * 4)) by (rewrite zlen_app, Ll; unfold zlen; rewrite repeat_length; lia).
  apply (answers_intro wd') with (blkNum := n * 4); auto; try (rewrite E3, L1; destruct wide; lia); try lia.
  - intros i. unfold wd'. destruct (_ && _); [auto|lia].
  - intros i Hi. assert (Fi: F wd' i = existsb (Z.eqb i) idxs).
    { transitivity (F wd i); [|rewrite HF by lia; unfold F; rewrite Z.testbit_0_l; auto]. unfold F, wd'. destruct (_ && _) eqn:EE; auto. exfalso. pose proof (Z.div_pos i 64 ltac:(lia) ltac:(lia)). pose proof (Z.div_lt_upper_bound i 64 (4 * n) ltac:(lia) ltac:(lia)). lia. }
    rewrite Fi. destruct (Z_lt_ge_dec i bitSize).
    + rewrite app_nth1 by (unfold zlen in *; lia). unfold l. rewrite nth_map_seqZ by lia. auto.
    + rewrite app_nth2 by (unfold zlen in *; lia). rewrite nth_repeat. apply not_true_is_false. intros Ht. apply existsb_exists in Ht as (k & K & K2). rewrite Forall_forall in Hf. specialize (Hf k K). lia.
Qed.
End P.

(** a vector that has been initialised or made ready refuses set *)
Theorem C26_frozen : forall x64 wide withSelect old sv, 
  ((exists buf bitSize, sv_init x64 wide withSelect old buf bitSize = Ok sv) \/ sv_ready x64 wide withSelect old = Ok sv) -> forall i, sv_set sv i = Exn.
Proof.
  intros x64 wide withSelect old sv H i.
  assert (F: forall o buf n sv', initBlock x64 wide withSelect o buf n = Ok sv' -> sv_freezed sv' = true).
  { intros o buf n sv'. unfold initBlock. destruct (init_blocks _ _ _ _ _ _ _) as [[blks num1]| | |]; try discriminate. cbn [bind]. destruct withSelect.
    - destruct (initSelTblSub _ false _ _); try discriminate. cbn [bind]. destruct (initSelTblSub _ true _ _); try discriminate. cbn [bind]. intros E; inversion E; auto.
    - intros E; inversion E; auto. }
  assert (sv_freezed sv = true) as E.
  { destruct H as [(buf & n & H)|H]; [|eapply F; eauto]. unfold sv_init in H. destruct (sv_resize _ _ _) as [[o n']| | |]; try discriminate. eapply F; eauto. }
  unfold sv_set. rewrite E. auto.
Qed.
(** * C26/C27 read off: no set bit follows the l *)
Lemma count_none l : Forall (fun x => x = false) l -> count true l = 0 /\ count false l = zlen l.
Proof. induction 1; [auto|]. subst. unfold count in *. cbn [filter Bool.eqb]. rewrite !zlen_cons. lia. Qed.
Theorem C26_rank_get : forall x64 wide withSelect sv l pad, answers x64 wide withSelect sv l pad -> Forall (fun x => x = false) pad ->
  (forall pos, 0 <= pos < 2 ^ 64 -> sv_rank x64 wide sv true pos = Ok (count true (firstn (Z.to_nat pos) l))) /\
  (forall pos, 0 <= pos <= zlen l -> zlen l < 2 ^ 64 -> sv_rank x64 wide sv false pos = Ok (count false (firstn (Z.to_nat pos) l))) /\
  (forall pos, 0 <= pos < zlen l -> sv_get sv pos = Ok (nth (Z.to_nat pos) l false)) /\
  (forall pos, zlen l <= pos -> sv_get sv pos = Exn).
Proof.
  intros x64 wide wS sv l pad A Hp. destruct (count_none _ Hp) as [P1 P0].
  assert (AE: forall pos, zlen l <= pos -> firstn (Z.to_nat pos) l = l) by (intros; apply firstn_all2; unfold zlen in *; lia).
  assert (TF: forall m, count true m + count false m = zlen m). { induction m as [|[] m]; unfold count in *; cbn [filter Bool.eqb]; rewrite ?zlen_cons; auto; lia. }
  split; [|split; [|split]].
  - intros pos H. destruct (Z_lt_ge_dec pos (zlen l)); [apply (a_rank _ _ _ _ _ _ A); lia|]. rewrite (proj1 (a_rank_end _ _ _ _ _ _ A pos ltac:(lia))), AE, count_app, P1 by lia. f_equal. lia.
  - intros pos H H2. destruct (Z_lt_ge_dec pos (zlen l)); [apply (a_rank _ _ _ _ _ _ A); lia|]. rewrite (proj2 (a_rank_end _ _ _ _ _ _ A pos ltac:(lia))), AE, count_app, P1 by lia. f_equal. pose proof (TF l). unfold count in *. pose proof (zlen_nonneg (filter (Bool.eqb true) l)). pose proof (zlen_nonneg (filter (Bool.eqb false) l)). rewrite Z.mod_small; lia.
  - intros pos H. rewrite (a_get _ _ _ _ _ _ A) by lia. destruct (_ <? _) eqn:?; [auto|lia].
  - intros pos H. pose proof (zlen_nonneg l). rewrite (a_get _ _ _ _ _ _ A) by lia. destruct (_ <? _) eqn:?; [lia|auto].
Qed.
Lemma count_firstn b l n : count b (firstn n l) <= count b l.
Proof. rewrite <- (firstn_skipn n l) at 2. rewrite count_app. unfold count at 3. pose proof (zlen_nonneg (filter (Bool.eqb b) (skipn n l))). lia. Qed.
Lemma count_lt b l p : 0 <= p < zlen l -> nth (Z.to_nat p) l (negb b) = b -> count b (firstn (Z.to_nat p) l) < count b l.
Proof.
  intros Hp Hn. rewrite count_cnt, count_all by lia. apply cnt_lt; auto. rewrite (nth_indep _ _ (negb b)) by (unfold zlen in *; lia). rewrite Hn. apply Bool.eqb_reflx.
Qed.
Lemma position_in b r l pad p : position b r (l ++ pad) p -> r < count b l -> position b r l p.
Proof.
  intros (P0 & P1 & P2) H. rewrite zlen_app in P0. assert (p < zlen l).
  { destruct (Z_lt_ge_dec p (zlen l)); auto. exfalso. rewrite firstn_app, firstn_all2, count_app in P2 by (unfold zlen in *; lia). assert (0 <= count b (firstn (Z.to_nat p - length l) pad)) by apply zlen_nonneg. lia. }
  split; [lia|]. rewrite app_nth1 in P1 by (unfold zlen in *; lia). split; auto. rewrite firstn_app in P2. replace (Z.to_nat p - length l)%nat with O in P2 by (unfold zlen in *; lia). cbn [firstn] in P2. rewrite app_nil_r in P2. auto.
Qed.
Lemma position_out b r l pad p : position b r (l ++ pad) p -> count b l <= r -> zlen l <= p.
Proof.
  intros (P0 & P1 & P2) H. destruct (Z_lt_ge_dec p (zlen l)); [exfalso|lia]. rewrite app_nth1 in P1 by (unfold zlen in *; lia). rewrite firstn_app in P2. replace (Z.to_nat p - length l)%nat with O in P2 by (unfold zlen in *; lia). cbn [firstn] in P2. rewrite app_nil_r in P2.
  pose proof (count_lt b l p ltac:(lia) P1). lia.
Qed.
Lemma position_unique b r l p q : position b r l p -> position b r l q -> p = q.
Proof.
  intros (P0 & P1 & P2) (Q0 & Q1 & Q2). rewrite count_cnt in P2, Q2 by lia. apply (is_sel_unique (fun i => Bool.eqb b (nth (Z.to_nat i) l false)) (r + 1)); (split; [lia|split; [|lia]]).
  - rewrite (nth_indep _ _ (negb b)) by (unfold zlen in *; lia). rewrite P1. apply Bool.eqb_reflx.
  - rewrite (nth_indep _ _ (negb b)) by (unfold zlen in *; lia). rewrite Q1. apply Bool.eqb_reflx.
Qed.
(** select: the position when there is one; else size_t(-1), except that select0 may point into the padding.
    Inverse to rank both ways. *)
Theorem C27_select : forall x64 wide sv l pad, answers x64 wide true sv l pad -> Forall (fun x => x = false) pad ->
  (forall b r, 0 <= r < count b l -> exists p, sv_select x64 wide true sv b r = Ok p /\ position b r l p /\ sv_rank x64 wide sv b p = Ok r) /\
  (forall r, count true l <= r -> sv_select x64 wide true sv true r = Ok none) /\
  (forall r, count false l <= r -> exists p, sv_select x64 wide true sv false r = Ok p /\
     (if r <? count false l + zlen pad then zlen l <= p < zlen l + zlen pad else p = none)) /\
  (forall b p, 0 <= p < zlen l -> nth (Z.to_nat p) l (negb b) = b -> exists r, sv_rank x64 wide sv b p = Ok r /\ sv_select x64 wide true sv b r = Ok p).
Proof.
  intros x64 wide sv l pad A Hp. destruct (count_none _ Hp) as [P1 P0]. pose proof (zlen_nonneg pad) as ZP. pose proof (a_select _ _ _ _ _ _ A eq_refl) as S.
  assert (C0: forall b, 0 <= count b pad /\ 0 <= count b l) by (intros []; unfold count; split; apply zlen_nonneg).
  split; [|split; [|split]].
  - intros b r Hr. destruct (S b r ltac:(lia)) as (p & E & P). rewrite count_app in P. destruct (C0 b). destruct (_ <? _) eqn:?; [|lia]. apply position_in in P; [|lia]. exists p. split; auto. split; auto. destruct P as (Q0 & Q1 & Q2). rewrite (a_rank _ _ _ _ _ _ A) by lia. rewrite Q2. auto.
  - intros r Hr. destruct (C0 true). destruct (S true r ltac:(lia)) as (p & E & P). rewrite count_app in P. destruct (_ <? _) eqn:?; [lia|]. subst. auto.
  - intros r Hr. destruct (C0 false). destruct (S false r ltac:(lia)) as (p & E & P). rewrite count_app, P0 in P. exists p. split; auto. destruct (_ <? _) eqn:?; auto. pose proof (position_out _ _ _ _ _ P ltac:(lia)). destruct P as (Q0 & _). rewrite zlen_app in Q0. lia.
  - intros b p Hpp Hn. pose proof (count_lt b l p Hpp Hn). eexists. split; [apply (a_rank _ _ _ _ _ _ A); lia|].
    set (r := count b (firstn (Z.to_nat p) l)) in *. assert (0 <= r) by apply zlen_nonneg. destruct (S b r ltac:(lia)) as (q & E & P). rewrite count_app in P. destruct (C0 b). destruct (_ <? _) eqn:?; [|lia]. apply position_in in P; [|lia]. rewrite E. f_equal. apply (position_unique b r l); auto. split; auto.
Qed.

(** * C29: save and load *)
Definition blk_wf (b : block) : Prop := length (b_org b) = 4%nat /\ Forall (fun x => 0 <= x < 2 ^ 64) (b_org b) /\ 0 <= b_a64 b < 2 ^ 64.
(** every object of the class: its members are in the range of their types *)
Definition sv_wf (sv : sucvec) : Prop :=
  0 <= sv_bitSize sv < 2 ^ 64 /\ 0 <= sv_num0 sv < 2 ^ 64 /\ 0 <= sv_num1 sv < 2 ^ 64 /\
  Forall blk_wf (sv_blk sv) /\ zlen (sv_blk sv) < 2 ^ 64 /\
  Forall (fun x => 0 <= x < 2 ^ 32) (sv_sel0 sv) /\ zlen (sv_sel0 sv) < 2 ^ 64 /\ Forall (fun x => 0 <= x < 2 ^ 32) (sv_sel1 sv) /\ zlen (sv_sel1 sv) < 2 ^ 64.

Lemma of_to_le n x : 0 <= x < 256 ^ Z.of_nat n -> of_le (to_le n x) = x.
Proof. intros Hx. rewrite of_le_value, to_le_value. apply Z.mod_small. auto. Qed.
Lemma len_to_le n x : length (to_le n x) = n.
Proof. apply to_le_length. Qed.
Lemma blk_rt b : blk_wf b -> length (blk_bytes b) = 40%nat /\ bytes_blk (blk_bytes b) = b.
Proof.
  destruct b as [org a]. intros (L & Fo & Ha). cbn [b_org b_a64] in *. destruct org as [|o0 [|o1 [|o2 [|o3 [|]]]]]; try discriminate.
  inversion Fo as [|? ? H0 Fo1]; subst. inversion Fo1 as [|? ? H1 Fo2]; subst. inversion Fo2 as [|? ? H2 Fo3]; subst. inversion Fo3 as [|? ? H3 _]; subst.
  unfold blk_bytes, bytes_blk. cbn [b_org b_a64 map concat]. rewrite app_nil_r, <- !app_assoc.
  split; [rewrite !app_length, !len_to_le; reflexivity|].
  pose proof (len_to_le 8 o0) as L0. pose proof (len_to_le 8 o1) as L1. pose proof (len_to_le 8 o2) as L2. pose proof (len_to_le 8 o3) as L3. pose proof (len_to_le 8 a) as L4.
  change 16%nat with (8 + 8)%nat. change 24%nat with (8 + (8 + 8))%nat. change 32%nat with (8 + (8 + (8 + 8)))%nat.
  assert (SK: forall (u v : list Z) k, length u = 8%nat -> skipn (8 + k) (u ++ v) = skipn k v). { intros u v k Hu. rewrite skipn_app, Hu. rewrite (skipn_all2 u) by lia. cbn [app]. f_equal. lia. }
  assert (FI: forall (u v : list Z), length u = 8%nat -> firstn 8 (u ++ v) = u). { intros u v Hu. rewrite <- Hu. rewrite firstn_app, Nat.sub_diag, firstn_all. cbn [firstn]. apply app_nil_r. }
  assert (SK0: forall (u v : list Z), length u = 8%nat -> skipn 8 (u ++ v) = v). { intros u v Hu. change 8%nat with (8 + 0)%nat. rewrite SK by auto. auto. }
  rewrite !SK, !SK0, !FI by auto. change (S (S (S (S (S (S (S (S (8 + 8))))))))) with (8 + (8 + 8))%nat. rewrite !SK, !SK0, !FI by auto. rewrite (firstn_all2 (to_le 8 a)) by lia. rewrite !of_to_le by (change (256 ^ Z.of_nat 8) with (2 ^ 64); auto). auto.
Qed.
Lemma chunks_concat {A} (sz : nat) (tob : A -> list Z) ofb (l : list A) : Forall (fun x => length (tob x) = sz /\ ofb (tob x) = x) l ->
  map ofb (chunks (length l) sz (concat (map tob l))) = l.
Proof.
  induction 1 as [|x l [Hl Hx] _ IH]; [auto|]. cbn [length chunks map concat]. set (C := concat (map tob l)) in *.
  assert (E1: firstn sz (tob x ++ C) = tob x) by (rewrite <- Hl; apply firstn_app_exact). assert (E2: skipn sz (tob x ++ C) = C) by (rewrite <- Hl; apply skipn_app_exact). rewrite E1, E2, Hx, IH. auto.
Qed.
Lemma concat_len {A} (sz : nat) (tob : A -> list Z) ofb (l : list A) : Forall (fun x => length (tob x) = sz /\ ofb (tob x) = x) l -> zlen (concat (map tob l)) = zlen l * Z.of_nat sz.
Proof. induction 1 as [|x l [Hl Hx] _ IH]; [auto|]. cbn [map concat]. rewrite zlen_app, zlen_cons. rewrite IH. unfold zlen at 1. rewrite Hl. lia. Qed.
Lemma u64_rt x : 0 <= x < 2 ^ 64 -> exists enc, saveVariableInt true u64 x = Ok enc /\ forall rest sched, exists sched', loadVariableInt true u64 (mk_is (enc ++ rest) sched) = Ok (x, mk_is rest sched').
Proof. intros Hx. destruct (C09_variable_int true u64 x) as (enc & S & _ & L & _); [right; auto|unfold in_range; auto|eauto]. Qed.
Lemma podvec_rt {A} (sz : nat) (tob : A -> list Z) ofb (l : list A) : Forall (fun x => length (tob x) = sz /\ ofb (tob x) = x) l -> zlen l < 2 ^ 64 ->
  exists enc, savePodVec tob l = Ok enc /\ forall rest sched, exists sched', loadPodVec sz ofb (mk_is (enc ++ rest) sched) = Ok (l, mk_is rest sched').
Proof.
  intros Hl Hn. pose proof (zlen_nonneg l). destruct (u64_rt (zlen l) ltac:(lia)) as (h & S & L). unfold savePodVec, loadPodVec. rewrite S. cbn [bind]. eexists. split; [reflexivity|].
  intros rest sched. rewrite <- app_assoc. destruct (L (concat (map tob l) ++ rest) sched) as (s1 & E). rewrite E. cbn [bind].
  destruct (0 <? zlen l) eqn:E0.
  - destruct (C11_read_exact (zlen l * Z.of_nat sz) (concat (map tob l) ++ rest) s1 ltac:(lia)) as [R _]. destruct (R _ _ eq_refl (concat_len sz tob ofb l Hl)) as (s2 & E2). rewrite E2. cbn [bind]. rewrite to_nat_zlen, chunks_concat by auto. eauto.
  - destruct l; [eauto|]. rewrite zlen_cons in E0. pose proof (zlen_nonneg l). lia.
Qed.
(** the loaded object has every member of the saved one except freezed_, which keeps its value; without
    select the select tables are not transferred *)
Theorem C29_load_save : forall withSelect sv old, sv_wf sv ->
  exists enc, sv_save withSelect sv = Ok enc /\
    forall rest sched, exists sched' sv', sv_load withSelect old (mk_is (enc ++ rest) sched) = Ok (sv', mk_is rest sched') /\
      sv' = mk_sv (sv_bitSize sv) (sv_num0 sv) (sv_num1 sv) (sv_freezed old) (sv_blk sv) (if withSelect then sv_sel0 sv else sv_sel0 old) (if withSelect then sv_sel1 sv else sv_sel1 old).
Proof.
  intros ws sv old (H1 & H2 & H3 & H4 & H5 & H6 & H7 & H8 & H9).
  destruct (u64_rt _ H1) as (e1 & S1 & L1). destruct (u64_rt _ H2) as (e2 & S2 & L2). destruct (u64_rt _ H3) as (e3 & S3 & L3).
  destruct (podvec_rt 40 blk_bytes bytes_blk (sv_blk sv)) as (e4 & S4 & L4); [eapply Forall_impl; [|exact H4]; intros b Hb; apply blk_rt; auto|auto|].
  assert (R32: forall l, Forall (fun x => 0 <= x < 2 ^ 32) l -> Forall (fun x => length (to_le 4 x) = 4%nat /\ of_le (to_le 4 x) = x) l).
  { intros l Hl. eapply Forall_impl; [|exact Hl]. intros x Hx. split; [apply len_to_le|]. apply of_to_le. change (256 ^ Z.of_nat 4) with (2 ^ 32). auto. }
  destruct (podvec_rt 4 (to_le 4) of_le (sv_sel0 sv) (R32 _ H6) H7) as (e5 & S5 & L5). destruct (podvec_rt 4 (to_le 4) of_le (sv_sel1 sv) (R32 _ H8) H9) as (e6 & S6 & L6).
  unfold sv_save, sv_load. rewrite S1, S2, S3, S4. cbn [bind]. destruct ws.
  - rewrite S5, S6. cbn [bind]. eexists. split; [reflexivity|]. intros rest sched. rewrite <- !app_assoc.
    destruct (L1 (e2 ++ e3 ++ e4 ++ e5 ++ e6 ++ rest) sched) as (s1 & ->). cbn [bind]. destruct (L2 (e3 ++ e4 ++ e5 ++ e6 ++ rest) s1) as (s2 & ->). cbn [bind]. destruct (L3 (e4 ++ e5 ++ e6 ++ rest) s2) as (s3 & ->). cbn [bind].
    destruct (L4 (e5 ++ e6 ++ rest) s3) as (s4 & ->). cbn [bind]. destruct (L5 (e6 ++ rest) s4) as (s5 & ->). cbn [bind]. destruct (L6 rest s5) as (s6 & ->). cbn [bind]. eauto.
  - cbn [bind]. eexists. split; [reflexivity|]. intros rest sched. rewrite <- !app_assoc.
    destruct (L1 (e2 ++ e3 ++ e4 ++ rest) sched) as (s1 & ->). cbn [bind]. destruct (L2 (e3 ++ e4 ++ rest) s1) as (s2 & ->). cbn [bind]. destruct (L3 (e4 ++ rest) s2) as (s3 & ->). cbn [bind].
    destruct (L4 rest s3) as (s4 & ->). cbn [bind]. eauto.
Qed.
(** the loaded vector answers every query as the saved one *)
Theorem C29_same_answers : forall x64 wide withSelect sv old enc rest sched sv' is', sv_wf sv -> sv_save withSelect sv = Ok enc ->
  sv_load withSelect old (mk_is (enc ++ rest) sched) = Ok (sv', is') ->
  is_data is' = rest /\ sv_size sv' = sv_size sv /\ (forall b, sv_sizeb sv' b = sv_sizeb sv b) /\ (forall pos, sv_get sv' pos = sv_get sv pos) /\
  (forall b pos, sv_rank x64 wide sv' b pos = sv_rank x64 wide sv b pos) /\ (forall b r, sv_select x64 wide withSelect sv' b r = sv_select x64 wide withSelect sv b r).
Proof.
  intros x64 wide ws sv old enc rest sched sv' is' W S L. destruct (C29_load_save ws sv old W) as (enc' & S' & L'). rewrite S in S'. injection S' as <-. destruct (L' rest sched) as (sc & sv2 & E & Es). rewrite L in E. injection E as -> ->. rewrite Es.
  split; auto. split; auto. split; [intros []; auto|]. split; auto. split; [intros [] pos; auto|].
  intros b r. unfold sv_select. destruct ws; auto.
Qed.
(** what init and ready produce can be saved *)
Lemma set_b_range x j v : 1 <= j <= 3 -> 0 <= v < 256 -> 0 <= x < 2 ^ 64 -> 0 <= set_b x j v < 2 ^ 64.
Proof.
  intros Hj Hv Hx. unfold set_b, get_b. assert (exists p q, 2 ^ 64 = 2 ^ (32 + 8 * j) * 256 * q /\ 2 ^ (32 + 8 * j) = p /\ 0 < p /\ 0 < q) as (p & q & E1 & E2 & Hp & Hq).
  { exists (2 ^ (32 + 8 * j)), (2 ^ (24 - 8 * j)). split; [change 256 with (2 ^ 8); rewrite <- !Z.pow_add_r by lia; f_equal; lia|]. repeat split; auto; apply Z.pow_pos_nonneg; lia. }
  rewrite E1, E2 in *. pose proof (Z.div_mod x p ltac:(lia)). pose proof (Z.mod_pos_bound x p Hp). set (y := x / p) in *. pose proof (Z.div_mod y 256 ltac:(lia)). pose proof (Z.mod_pos_bound y 256 ltac:(lia)). set (z := y / 256) in *. set (g := y mod 256) in *.
  assert (0 <= y) by (apply Z.div_pos; lia). assert (0 <= z) by (apply Z.div_pos; lia).
  assert (y < 256 * q) by (apply Z.div_lt_upper_bound; lia). assert (z < q) by lia. nia.
Qed.
Lemma rd_in {A} (P : A -> Prop) l i x : Forall P l -> rd l i = Ok x -> P x.
Proof. intros H E. unfold rd in E. destruct (i <? 0); [discriminate|]. destruct (nth_error l _) eqn:N; [|discriminate]. injection E as <-. rewrite Forall_forall in H. apply H. eapply nth_error_In; eauto. Qed.
Lemma wr_forall {A} (P : A -> Prop) l i x l' : Forall P l -> P x -> wr l i x = Ok l' -> Forall P l' /\ length l' = length l.
Proof.
  intros H Hx E. unfold wr in E. destruct (_ || _) eqn:?; [discriminate|]. injection E as <-. split; [|apply upd_length]. apply Forall_forall. intros y Hy. apply In_nth_error in Hy as [k Hk].
  destruct (Nat.eq_dec k (Z.to_nat i)) as [-> |]; [rewrite nth_error_upd_eq in Hk by lia; congruence|]. rewrite nth_error_upd_ne in Hk by auto. rewrite Forall_forall in H. apply H. eapply nth_error_In; eauto.
Qed.
Definition buf_words (buf : option (list Z)) : Prop := match buf with Some b => Forall (fun x => 0 <= x < 2 ^ 64) b | None => True end.
Lemma init_sub_wf x64 buf blkNum : buf_words buf -> forall n j pos num1 sub blk blk' pos' num1', 0 <= j -> j + Z.of_nat n <= 4 -> blk_wf blk ->
  init_sub x64 n j buf blkNum pos num1 sub blk = Ok (blk', pos', num1') -> blk_wf blk' /\ num1 <= num1' <= num1 + 64 * Z.of_nat n.
Proof.
  intros HB. induction n; intros j pos num1 sub blk blk' pos' num1' Hj Hn W E; cbn [init_sub] in E.
  - injection E as <- _ <-. split; auto. lia.
  - destruct W as (W1 & W2 & W3).
    match type of E with bind ?m _ = _ => destruct m as [[[v org] q]| | |] eqn:Em end; try discriminate. cbn [bind] in E.
    assert (V: 0 <= v < 2 ^ 64 /\ length org = 4%nat /\ Forall (fun x => 0 <= x < 2 ^ 64) org).
    { destruct buf as [bf|].
      - match type of Em with bind ?m _ = _ => destruct m as [[v0 q0]| | |] eqn:Ev end; try discriminate. cbn [bind] in Em.
        destruct (wr (b_org blk) j v0) as [o| | |] eqn:Ew; try discriminate. cbn [bind] in Em. injection Em as <- <- <-.
        assert (0 <= v0 < 2 ^ 64). { destruct (pos <? blkNum); [|injection Ev as <- _; lia]. destruct (rd bf pos) eqn:Er; try discriminate. cbn [bind] in Ev. injection Ev as <- _. apply (rd_in _ _ _ _ HB Er). }
        split; auto. destruct (wr_forall _ _ _ _ _ W2 H Ew). split; [congruence|auto].
      - destruct (rd (b_org blk) j) eqn:Er; try discriminate. cbn [bind] in Em. injection Em as <- <- <-. split; auto. apply (rd_in _ _ _ _ W2 Er). }
    destruct V as (V1 & V2 & V3). apply IHn in E; [|lia|lia|].
    + destruct E as [E1 E2]. split; auto. rewrite popcnt64_cnt in E2. pose proof (cnt_bounds (Z.testbit v) 64 ltac:(lia)). lia.
    + split; [auto|]. split; [auto|]. cbn [b_a64]. destruct (0 <? j) eqn:?; auto. apply set_b_range; auto; [lia|]. apply Z.mod_pos_bound. lia.
Qed.
Lemma init_blocks_wf x64 wide buf blkNum : buf_words buf -> forall blks pos num1 blks' num1', Forall blk_wf blks -> 0 <= num1 ->
  init_blocks x64 wide blks buf blkNum pos num1 = Ok (blks', num1') -> Forall blk_wf blks' /\ zlen blks' = zlen blks /\ num1 <= num1' <= num1 + 256 * zlen blks.
Proof.
  intros HB. induction blks as [|blk blks IH]; intros pos num1 blks' num1' W Hn E; cbn [init_blocks] in E.
  - injection E as <- <-. rewrite zlen_nil. repeat split; auto; lia.
  - inversion W as [|? ? (W1 & W2 & W3) W']; subst. match type of E with bind ?m _ = _ => destruct m as [a64| | |] eqn:Em end; try discriminate. cbn [bind] in E.
    assert (0 <= a64 < 2 ^ 64).
    { destruct wide; [injection Em as <-; pose proof (Z.mod_pos_bound num1 (2 ^ 40) ltac:(lia)); lia|]. destruct (_ <? num1) eqn:?; [discriminate|]. injection Em as <-. unfold set_a, get_a. pose proof (Z.div_mod (b_a64 blk) (2 ^ 32) ltac:(lia)). pose proof (Z.mod_pos_bound (b_a64 blk) (2 ^ 32) ltac:(lia)).
      pose proof (Z.div_pos (b_a64 blk) (2 ^ 32) ltac:(lia) ltac:(lia)). pose proof (Z.div_lt_upper_bound (b_a64 blk) (2 ^ 32) (2 ^ 32) ltac:(lia) ltac:(lia)). lia. }
    match type of E with bind ?m _ = _ => destruct m as [[[b q] m1]| | |] eqn:Es end; try discriminate. cbn [bind] in E.
    apply (init_sub_wf x64 buf blkNum HB) in Es; [|lia|lia|split; [exact W1|split; [exact W2|exact H]]]. destruct Es as [B1 B2].
    match type of E with bind ?m _ = _ => destruct m as [[bl m2]| | |] eqn:Eb end; try discriminate. cbn [bind] in E. injection E as <- <-.
    apply IH in Eb; auto; [|lia]. destruct Eb as (C1 & C2 & C3). rewrite !zlen_cons. repeat split; auto; lia.
Qed.
Lemma sel_while_range wide r b blks : forall fuel pos p, 0 <= pos < 2 ^ 32 -> sel_while wide fuel b blks pos r = Ok p -> 0 <= p < 2 ^ 32.
Proof.
  induction fuel; intros pos p Hp E; cbn [sel_while] in E; [discriminate|]. destruct (rank_a wide b blks pos); try discriminate. cbn [bind] in E. pose proof (Z.mod_pos_bound (pos + 1) (2 ^ 32) ltac:(lia)). destruct (_ <? r); [|congruence]. destruct (_ =? zlen blks); [congruence|]. eauto.
Qed.
Lemma sel_loop_range wide b blks : forall n i pos tbl, 0 <= pos < 2 ^ 32 -> sel_loop wide n i b blks pos = Ok tbl -> Forall (fun x => 0 <= x < 2 ^ 32) tbl /\ length tbl = n.
Proof.
  induction n; intros i pos tbl Hp E; cbn [sel_loop] in E; [injection E as <-; auto|]. destruct (sel_while wide _ b blks pos _) as [p| | |] eqn:Ew; try discriminate. cbn [bind] in E. apply sel_while_range in Ew; auto.
  destruct (sel_loop wide n (i + 1) b blks p) as [t| | |] eqn:El; try discriminate. cbn [bind] in E. injection E as <-. apply IHn in El as [T1 T2]; auto. split; [constructor; auto|cbn [length]; lia].
Qed.
Lemma initSelTblSub_range wide b blks num tbl : 0 <= num -> initSelTblSub wide b blks num = Ok tbl -> Forall (fun x => 0 <= x < 2 ^ 32) tbl /\ zlen tbl < 2 ^ 64.
Proof.
  intros Hn E. unfold initSelTblSub in E. apply sel_loop_range in E as [T1 T2]; [|lia]. split; auto. unfold zlen. rewrite T2. unfold getBlockNum, posUnit. pose proof (Z.mod_pos_bound (num + 1024 - 1) (2 ^ 64) ltac:(lia)). pose proof (Z.div_pos ((num + 1024 - 1) mod 2 ^ 64) 1024 ltac:(lia) ltac:(lia)). pose proof (Z.div_lt_upper_bound ((num + 1024 - 1) mod 2 ^ 64) 1024 (2 ^ 64) ltac:(lia) ltac:(lia)). lia.
Qed.
Lemma initBlock_wf x64 wide ws sv buf blkNum sv' : sv_wf sv -> zlen (sv_blk sv) <= 2 ^ 33 -> buf_words buf -> initBlock x64 wide ws sv buf blkNum = Ok sv' -> sv_wf sv'.
Proof.
  intros (H1 & H2 & H3 & H4 & H5 & H6 & H7 & H8 & H9) HL HB E. unfold initBlock in E.
  destruct (init_blocks x64 wide (sv_blk sv) buf blkNum 0 0) as [[bl num1]| | |] eqn:Eb; try discriminate. cbn [bind] in E. apply init_blocks_wf in Eb; auto; [|lia]. destruct Eb as (B1 & B2 & B3).
  pose proof (Z.mod_pos_bound (blkNum * 64 - num1) (2 ^ 64) ltac:(lia)). set (num0 := (blkNum * 64 - num1) mod 2 ^ 64) in *. destruct ws.
  - destruct (initSelTblSub wide false bl num0) as [t0| | |] eqn:E0; try discriminate. cbn [bind] in E. destruct (initSelTblSub wide true bl num1) as [t1| | |] eqn:E1; try discriminate. cbn [bind] in E. injection E as <-.
    apply initSelTblSub_range in E0; [|lia]. apply initSelTblSub_range in E1; [|lia]. unfold sv_wf. cbn [sv_bitSize sv_num0 sv_num1 sv_blk sv_sel0 sv_sel1]. rewrite B2. intuition lia.
  - injection E as <-. unfold sv_wf. cbn [sv_bitSize sv_num0 sv_num1 sv_blk sv_sel0 sv_sel1]. rewrite B2. intuition lia.
Qed.
Lemma blk_zero_wf : blk_wf blk_zero. Proof. repeat split; cbn; try lia. repeat constructor; lia. Qed.
Lemma resize_wf wide sv n c sv' k : sv_wf sv -> 0 <= n -> sv_resize wide sv n c = Ok (sv', k) -> sv_wf sv' /\ zlen (sv_blk sv') <= 2 ^ 33.
Proof.
  intros (H1 & H2 & H3 & H4 & H5 & H6 & H7 & H8 & H9) Hn E. unfold sv_resize in E. destruct (_ <? n) eqn:EL; [discriminate|]. injection E as <- <-. cbn [sv_blk].
  assert (n <= 2 ^ 40) by (unfold maxBitSize in EL; destruct wide; lia). rewrite Z.mod_small by lia. pose proof (Z.div_pos (n + 63) 64 ltac:(lia) ltac:(lia)). pose proof (Z.div_lt_upper_bound (n + 63) 64 (2 ^ 34 + 1) ltac:(lia) ltac:(lia)). set (m := (n + 63) / 64) in *.
  pose proof (Z.div_pos (m + 3) 4 ltac:(lia) ltac:(lia)). pose proof (Z.div_lt_upper_bound (m + 3) 4 (2 ^ 33) ltac:(lia) ltac:(lia)). set (t := (m + 3) / 4) in *.
  match goal with |- sv_wf (mk_sv _ _ _ _ ?b _ _) /\ _ => assert (B: Forall blk_wf b /\ zlen b = t) end.
  { destruct c.
    - split; [apply Forall_forall; intros b Hb; apply repeat_spec in Hb; subst; apply blk_zero_wf|]. unfold zlen. rewrite repeat_length. lia.
    - unfold resize_blk. split; [apply Forall_app; split; [apply forall_firstn; auto|apply Forall_forall; intros b Hb; apply repeat_spec in Hb; subst; apply blk_zero_wf]|]. unfold zlen. rewrite app_length, firstn_length, repeat_length. lia. }
  destruct B as [B1 B2]. unfold sv_wf. cbn [sv_bitSize sv_num0 sv_num1 sv_blk sv_sel0 sv_sel1]. rewrite B2. intuition lia.
Qed.
Theorem C29_init_saves : forall x64 wide withSelect old buf bitSize sv, sv_wf old -> Forall (fun x => 0 <= x < 2 ^ 64) buf -> 0 <= bitSize ->
  sv_init x64 wide withSelect old buf bitSize = Ok sv -> sv_wf sv.
Proof.
  intros x64 wide ws old buf n sv W Hb Hn E. unfold sv_init in E. destruct (sv_resize wide old n false) as [[s k]| | |] eqn:Er; try discriminate. cbn [bind] in E. apply resize_wf in Er as [R1 R2]; auto. apply (initBlock_wf _ _ _ _ _ _ _ R1 R2) in E; auto.
Qed.

(** * Findings *)
(** bits after bitSize in the last word are counted: bitSize 1, word 3 *)
Theorem C26_dirty_finding : exists sv, sv_init false false true sv_empty [3] 1 = Ok sv /\ sv_size sv = 1 /\
  sv_sizeb sv true = 2 /\ sv_rank false false sv true 1 = Ok 2 /\ sv_select false false true sv true 1 = Ok 1.
Proof. eexists. split; [vm_compute; reflexivity|]. vm_compute. auto. Qed.
(** rank0 beyond the size is not clamped *)
Theorem C26_rank0_finding : exists sv, sv_init false false true sv_empty [0] 1 = Ok sv /\ sv_rank false false sv false 1 = Ok 1 /\ sv_rank false false sv false 9 = Ok 9.
Proof. eexists. split; [vm_compute; reflexivity|]. vm_compute. auto. Qed.
(** the number of zeros depends on how the same bits were built: 64 and 256 for one bit *)
Theorem C27_zeros_finding : exists sv sv', sv_init false false true sv_empty [0] 1 = Ok sv /\ build false false true sv_empty 1 [] = Ok sv' /\
  sv_sizeb sv false = 64 /\ sv_sizeb sv' false = 256 /\ sv_select false false true sv false 100 = Ok none /\ sv_select false false true sv' false 100 = Ok 100.
Proof. do 2 eexists. split; [vm_compute; reflexivity|]. split; [vm_compute; reflexivity|]. vm_compute. auto. Qed.
(** a loaded vector accepts set() although its index is then stale *)
Theorem C29_freezed_finding : exists sv enc sv' sv'' is', sv_init false false true sv_empty [0] 2 = Ok sv /\ sv_set sv 0 = Exn /\ sv_save true sv = Ok enc /\
  sv_load true sv_empty (mk_is enc []) = Ok (sv', is') /\ sv_set sv' 0 = Ok sv'' /\ sv_get sv'' 0 = Ok true /\ sv_sizeb sv'' true = 0.
Proof. do 5 eexists. split; [vm_compute; reflexivity|]. split; [vm_compute; reflexivity|]. split; [vm_compute; reflexivity|]. split; [vm_compute; reflexivity|]. split; [vm_compute; reflexivity|]. vm_compute. auto. Qed.

(** the block number is a uint32_t: with 2^32 blocks the search for a sample past the last block wraps and never ends *)
Lemma sel_while_wraps b blks r : zlen blks = 2 ^ 32 -> (forall k, 0 <= k < 2 ^ 32 -> exists a, rank_a true b blks k = Ok a /\ a < r) ->
  forall fuel pos, 0 <= pos < 2 ^ 32 -> sel_while true fuel b blks pos r = Fuel.
Proof.
  intros L H. induction fuel; intros pos Hp; cbn [sel_while]; [auto|]. destruct (H pos Hp) as (a & E & Ha). rewrite E. cbn [bind]. destruct (a <? r) eqn:?; [|lia]. rewrite L. pose proof (Z.mod_pos_bound (pos + 1) (2 ^ 32) ltac:(lia)). destruct (_ =? 2 ^ 32) eqn:?; [lia|]. apply IHfuel. auto.
Qed.
Definition ones64 : Z := 2 ^ 64 - 1.
Definition wrap_buf : list Z := repeat ones64 15 ++ repeat 0 (Z.to_nat (2 ^ 34 - 19)) ++ repeat ones64 4.
Lemma wrap_nth i : 0 <= i < 2 ^ 34 -> nth (Z.to_nat i) wrap_buf 0 = if (i <? 15) || (2 ^ 34 - 4 <=? i) then ones64 else 0.
Proof.
  intros Hi. unfold wrap_buf. set (m := Z.to_nat (2 ^ 34 - 19)). assert (Hm: Z.of_nat m = 2 ^ 34 - 19) by (unfold m; lia). clearbody m. destruct (i <? 15) eqn:E1.
  - cbn [orb]. rewrite app_nth1 by (rewrite repeat_length; lia). rewrite (nth_indep _ _ ones64) by (rewrite repeat_length; lia). apply nth_repeat.
  - rewrite app_nth2 by (rewrite repeat_length; lia). rewrite repeat_length. destruct (2 ^ 34 - 4 <=? i) eqn:E2; cbn [orb].
    + rewrite app_nth2 by (rewrite repeat_length; lia). rewrite repeat_length, (nth_indep _ _ ones64) by (rewrite repeat_length; lia). apply nth_repeat.
    + rewrite app_nth1 by (rewrite repeat_length; lia). apply nth_repeat.
Qed.
Lemma resize_value wide sv n k t : n <= maxBitSize wide -> ((n + 63) mod 2 ^ 64) / 64 = k -> Z.to_nat ((k + 3) / 4) = t ->
  sv_resize wide sv n false = Ok (mk_sv n (sv_num0 sv) (sv_num1 sv) false (resize_blk (sv_blk sv) t) (sv_sel0 sv) (sv_sel1 sv), k).
Proof. intros H <- <-. unfold sv_resize. destruct (_ <? n) eqn:?; [lia|]. auto. Qed.
Definition wrap_wd (buf : list Z) (i : Z) : Z := if (0 <=? i) && (i <? 2 ^ 34) then nth (Z.to_nat i) buf 0 else 0.
Definition wraps (buf : list Z) : Prop := forall i, 0 <= i < 2 ^ 34 -> nth (Z.to_nat i) buf 0 = if (i <? 15) || (2 ^ 34 - 4 <=? i) then ones64 else 0.
Lemma wrap_word buf : wraps buf -> forall i, 0 <= wrap_wd buf i < 2 ^ 64.
Proof. intros WN i. unfold wrap_wd. destruct (_ && _) eqn:?; [|lia]. rewrite WN by lia. destruct (_ || _); unfold ones64; lia. Qed.
Lemma wrap_F buf : wraps buf -> forall i, 0 <= i < 2 ^ 40 -> F (wrap_wd buf) i = (i <? 960) || (2 ^ 40 - 256 <=? i).
Proof.
  intros WN i Hi. unfold F, wrap_wd. pose proof (Z.div_mod i 64 ltac:(lia)). pose proof (Z.mod_pos_bound i 64 ltac:(lia)). pose proof (Z.div_pos i 64 ltac:(lia) ltac:(lia)). set (q := i / 64) in *. destruct (_ && _) eqn:?; [|lia]. rewrite WN by lia.
    destruct (q <? 15) eqn:?, (2 ^ 34 - 4 <=? q) eqn:?, (i <? 960) eqn:?, (2 ^ 40 - 256 <=? i) eqn:?; try lia; cbn [orb]; rewrite ?Z.testbit_0_l; auto; unfold ones64; change (2 ^ 64 - 1) with (Z.ones 64); rewrite Z.testbit_ones_nonneg by lia; lia.
Qed.
Lemma cnt_true f n : 0 <= n -> (forall i, 0 <= i < n -> f i = true) -> cnt f n = n.
Proof. intros Hn Hf. pose proof (cnt_negb f n Hn). rewrite (cnt_false (fun i => negb (f i))) in H; [lia|]. intros i Hi. rewrite Hf; auto. Qed.
(* the three ranges, for any function and bounds *)
Lemma cnt_two f a c n : 0 <= a <= c -> c <= n -> (forall i, 0 <= i < n -> f i = (i <? a) || (c <=? i)) -> cnt f c = a /\ cnt f n = a + (n - c).
Proof.
  intros Ha Hc Hf. assert (C1: cnt f a = a) by (apply cnt_true; [lia|]; intros i Hi; rewrite Hf by lia; lia).
  assert (C2: cnt f c = a). { replace c with (a + (c - a)) by lia. rewrite cnt_add by lia. rewrite (cnt_false (fun i => f (a + i))); [lia|]. intros i Hi. rewrite Hf by lia. lia. }
  split; auto. replace n with (c + (n - c)) at 1 by lia. rewrite cnt_add, C2 by lia. rewrite (cnt_true (fun i => f (c + i))); [lia|lia|]. intros i Hi. rewrite Hf by lia. lia.
Qed.
Lemma wrap_cnt buf : wraps buf -> forall n, n = 2 ^ 40 -> cnt (F (wrap_wd buf)) (n - 256) = 960 /\ cnt (F (wrap_wd buf)) n = 1216.
Proof.
  intros WN n Hn. destruct (cnt_two (F (wrap_wd buf)) 960 (n - 256) n) as [A1 A2]; [lia|lia| |].
  - intros i Hi. rewrite wrap_F by (auto; lia). replace (n - 256) with (2 ^ 40 - 256) by lia. auto.
  - split; [auto|]. rewrite A2. lia.
Qed.
Lemma wrap_blocks x64 buf blks0 blks num1 n m : wraps buf -> zlen buf = m -> m = 2 ^ 34 -> n = 2 ^ 32 -> zlen blks0 = n -> Forall (fun b => length (b_org b) = 4%nat) blks0 ->
  init_blocks x64 true blks0 (Some buf) m 0 0 = Ok (blks, num1) ->
  num1 = 1216 /\ zlen blks = n /\ (forall k, 0 <= k < n -> exists a, rank_a true true blks k = Ok a /\ a < 1024) /\ rank_a true true blks 0 = Ok 0.
Proof.
  intros WN LB Hm Hn LS Sh Eb. pose proof (wrap_word buf WN) as W.
  destruct (init_blocks_spec x64 true (wrap_wd buf) W (Some buf) m n blks0) with (blks := blks0) (k := 0) (pos := 0) as (bl & E & L & BB); try lia.
  { split; [lia|]. intros i Hi. unfold wrap_wd. destruct (0 <=? i) eqn:?; [|lia]. rewrite Hm. auto. }
  { unfold maxBitSize. lia. }
  { intros i Hi. destruct (rd_forall _ blks0 i Sh Hi) as (b & X & Y). exists b. auto. }
  rewrite Z.mul_0_r, cnt_0, LS, Z.add_0_l in E by lia. rewrite Eb in E. destruct (wrap_cnt buf WN (256 * n) ltac:(lia)) as [C2 C3].
  change (G (wrap_wd buf) true) with (F (wrap_wd buf)) in E. rewrite C3 in E. injection E as -> ->. split; auto.
  assert (Lz: zlen bl = n) by (unfold zlen in *; lia). split; auto.
  assert (B: built true (wrap_wd buf) bl). { intros k Hk. rewrite Lz, <- LS in Hk. destruct (BB k Hk) as (b & X & Y). rewrite Z.add_0_l in Y. eauto. }
  assert (R: forall k, 0 <= k < n -> rank_a true true bl k = Ok (cnt (F (wrap_wd buf)) (256 * k))). { intros k Hk. apply (rank_a_ok true (wrap_wd buf)) with (b := true); auto; lia. }
  split; [|rewrite R by lia; rewrite cnt_0 by lia; auto]. intros k Hk. eexists. split; [apply R; auto|].
  pose proof (cnt_mono (F (wrap_wd buf)) (256 * k) (256 * n - 256) ltac:(lia)). lia.
Qed.
Lemma init_value x64 wide ws sv buf n : sv_init x64 wide ws sv buf n = let! (sv, blkNum) := sv_resize wide sv n false in initBlock x64 wide ws sv (Some buf) blkNum.
Proof. auto. Qed.
Lemma wrap_init x64 buf : wraps buf -> zlen buf = 2 ^ 34 -> forall sv, sv_init x64 true true sv_empty buf (2 ^ 40) <> Ok sv.
Proof.
  intros WN LB sv E. rewrite init_value in E. destruct (Z_of_nat_complete (2 ^ 32) ltac:(lia)) as (N & HN).
  assert (exists m, m = 2 ^ 34) as (m & Hm) by eauto.
  rewrite (resize_value true sv_empty (2 ^ 40) m N) in E; [|reflexivity|rewrite Hm; reflexivity|replace ((m + 3) / 4) with (2 ^ 32) by (rewrite Hm; reflexivity); rewrite HN; apply Nat2Z.id]. cbn [bind] in E.
  unfold initBlock in E. cbn [sv_blk sv_empty] in E. destruct (init_blocks x64 true (resize_blk [] N) (Some buf) m 0 0) as [[bl num1]| | |] eqn:Eb; [|discriminate E|discriminate E|discriminate E]. cbn [bind] in E.
  destruct (wrap_blocks x64 buf (resize_blk [] N) bl num1 (2 ^ 32) m) as (-> & L & R & R0); auto; [lia| | |].
  { unfold resize_blk, zlen. rewrite app_length, firstn_length, repeat_length. cbn [length]. lia. }
  { unfold resize_blk. rewrite firstn_nil. apply Forall_forall. intros b Hb. apply repeat_spec in Hb. subst. auto. }
  destruct (initSelTblSub true false bl _) as [t0| | |]; [|discriminate E|discriminate E|discriminate E]. cbn [bind] in E.
  unfold initSelTblSub in E. change (Z.to_nat (getBlockNum 1216 posUnit)) with 2%nat in E. cbn [sel_loop] in E.
  assert (W0: sel_while true (S (length bl)) true bl 0 (0 * posUnit) = Ok 0) by (cbn [sel_while]; rewrite R0; auto). rewrite W0 in E. cbn [bind] in E.
  change ((0 + 1) * posUnit) with 1024 in E. rewrite (sel_while_wraps true bl 1024 L R) in E by lia. discriminate E.
Qed.
Lemma wrap_len : zlen wrap_buf = 2 ^ 34.
Proof. unfold wrap_buf. rewrite !zlen_app. unfold zlen. rewrite !repeat_length, Z2Nat.id by lia. reflexivity. Qed.
(** wrap_buf: 2^40 bits, of which the first 960 and the last 256 are set *)
Theorem C27_block_counter_finding :
  zlen wrap_buf = 2 ^ 34 /\ Forall (fun x => 0 <= x < 2 ^ 64) wrap_buf /\
  (forall x64 sv, sv_init x64 true true sv_empty wrap_buf (2 ^ 40) <> Ok sv) /\
  (forall x64 blks0 blks num1, zlen blks0 = 2 ^ 32 -> Forall (fun b => length (b_org b) = 4%nat) blks0 ->
     init_blocks x64 true blks0 (Some wrap_buf) (2 ^ 34) 0 0 = Ok (blks, num1) -> 1024 < num1 /\ forall fuel, sel_while true fuel true blks 0 1024 = Fuel).
Proof.
  split; [apply wrap_len|]. split.
  - unfold wrap_buf. repeat (apply Forall_app; split); apply Forall_forall; intros x Hx; apply repeat_spec in Hx; subst; unfold ones64; lia.
  - split.
    + intros x64. apply wrap_init; [exact wrap_nth|apply wrap_len].
    + intros x64 blks0 blks num1 L Sh E. destruct (wrap_blocks x64 wrap_buf blks0 blks num1 (2 ^ 32) (2 ^ 34) wrap_nth wrap_len eq_refl eq_refl L Sh E) as (-> & L' & R & _). split; [lia|]. intros fuel. apply sel_while_wraps; auto. lia.
Qed.

(** * Non-vacuity *)
Example C26_nonvacuous : Forall (fun x => 0 <= x < 2 ^ 64) [5; 2 ^ 63; 0; 1; 9] /\ shape_ok sv_empty /\
  exists sv, sv_init true true true sv_empty [5; 2 ^ 63; 0; 1; 9] 260 = Ok sv /\ sv_get sv 127 = Ok true /\ sv_rank true true sv true 257 = Ok 5 /\
    sv_select true true true sv true 5 = Ok 259 /\ sv_select true true true sv true 4 = Ok 256 /\ sv_select true true true sv false 1 = Ok 3.
Proof. split; [repeat constructor; lia|]. split; [constructor|]. eexists. split; [vm_compute; reflexivity|]. vm_compute. auto. Qed.
Example C26_ready_nonvacuous : exists sv, build true true true sv_empty 300 [299; 0; 256; 0] = Ok sv /\ sv_rank true true sv true 300 = Ok 3 /\ sv_select true true true sv true 2 = Ok 299.
Proof. eexists. split; [vm_compute; reflexivity|]. vm_compute. auto. Qed.
Example C29_nonvacuous : exists sv enc sv' is', sv_init true true true sv_empty [5; 2 ^ 63; 0; 1; 9] 260 = Ok sv /\ sv_wf sv_empty /\ sv_save true sv = Ok enc /\
  sv_load true sv_empty (mk_is (enc ++ [7]) [1]) = Ok (sv', is') /\ sv_select true true true sv' true 5 = Ok 259.
Proof. do 4 eexists. split; [vm_compute; reflexivity|]. split; [repeat split; try constructor; cbn; lia|]. split; [vm_compute; reflexivity|]. split; [vm_compute; reflexivity|]. vm_compute. auto. Qed.
Example C28_nonvacuous : select64 true (2 ^ 63 + 256) 2 = Ok 63 /\ popcnt64 false (2 ^ 63 + 256) = 2 /\ bsf64 true (2 ^ 63 + 256) = Ok 8 /\ bsr64 false (2 ^ 63 + 256) = Ok 63.
Proof. vm_compute. auto. Qed.

Print Assumptions C26_init.
Print Assumptions C26_ready.
Print Assumptions C26_rank_get.
Print Assumptions C27_select.
Print Assumptions C28_select64.
Print Assumptions C28_popcnt.
Print Assumptions C28_bsf_bsr.
Print Assumptions C29_load_save.
Print Assumptions C29_same_answers.
Print Assumptions C29_init_saves.
Print Assumptions C27_block_counter_finding.
