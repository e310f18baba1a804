(** C129: the naive reference of wm_bench_smpl and WaveletMatrix *)
Require Import Verif.Common Verif.SucModel Verif.WaveletModel Verif.WaveletProps Verif.WmBenchModel.
Ltac Zify.zify_post_hook ::= idtac.

Lemma count_ok v val : forall n, (n <= length v)%nat -> count_to v val n = Ok (occ val (firstn n v)).
Proof.
  induction v as [|x v IH]; intros [|n] H; cbn [length] in H; cbn [count_to firstn]; try reflexivity; [exfalso; lia|].
  rewrite IH by lia. cbn [bind]. f_equal. unfold occ. cbn [count_occ]. destruct (Z.eq_dec x val) as [->|N]; [rewrite Z.eqb_refl; lia|]. destruct (Z.eqb_spec x val); [congruence|lia].
Qed.
Lemma lt_ok v val : forall n i ret, 0 <= i -> (Z.to_nat i + n <= length v)%nat -> lt_loop n v val i ret = Ok (ret + occLt val (firstn n (skipn (Z.to_nat i) v))).
Proof.
  induction n as [|n IH]; intros i ret I H; cbn [lt_loop]; [unfold occLt; cbn [firstn filter]; f_equal; unfold zlen; cbn [length]; lia|].
  unfold rd. destruct (Z.ltb_spec i 0); [exfalso; lia|]. destruct (nth_error v (Z.to_nat i)) as [x|] eqn:E; [|apply nth_error_None in E; exfalso; lia]. cbn [bind].
  rewrite IH by lia. replace (Z.to_nat (i + 1)) with (S (Z.to_nat i)) by lia. f_equal.
  assert (K : skipn (Z.to_nat i) v = x :: skipn (S (Z.to_nat i)) v).
  { clear - E. revert E. generalize (Z.to_nat i). induction v as [|y v IH]; intros [|k] E; cbn in E; try discriminate; [injection E as ->; reflexivity|]. cbn [skipn]. rewrite (IH k E). reflexivity. }
  rewrite K. cbn [firstn]. unfold occLt. cbn [filter]. destruct (x <? val); [rewrite zlen_cons|]; lia.
Qed.
Lemma sel_ok val : forall r n i, 1 <= n < 2 ^ 64 ->
  (n <= occ val r -> exists p, sel_loop r val n i = i + p /\ 0 <= p < zlen r /\ nth (Z.to_nat p) r 0 = val /\ occ val (before p r) = n - 1) /\
  (occ val r < n -> sel_loop r val n i = NotFound).
Proof.
  induction r as [|x r IH]; intros n i N; cbn [sel_loop].
  - split; [|reflexivity]. unfold occ. cbn [count_occ]. intros. exfalso. lia.
  - rewrite zlen_cons. pose proof (zlen_nonneg r). assert (O : occ val (x :: r) = (if x =? val then 1 else 0) + occ val r).
    { unfold occ. cbn [count_occ]. destruct (Z.eq_dec x val) as [->|D]; [rewrite Z.eqb_refl; lia|]. destruct (Z.eqb_spec x val); [congruence|lia]. }
    assert (B : forall p, 0 <= p -> before (p + 1) (x :: r) = x :: before p r) by (intros p P; unfold before; replace (Z.to_nat (p + 1)) with (S (Z.to_nat p)) by lia; reflexivity).
    assert (OC : forall l, occ val (x :: l) = (if x =? val then 1 else 0) + occ val l).
    { intros l. unfold occ. cbn [count_occ]. destruct (Z.eq_dec x val) as [->|D]; [rewrite Z.eqb_refl; lia|]. destruct (Z.eqb_spec x val); [congruence|lia]. }
    rewrite O. destruct (Z.eqb_spec x val) as [->|D].
    + rewrite Z.mod_small by lia. destruct (Z.eqb_spec (n - 1) 0) as [Z0|Z0].
      * split; [|pose proof (occ_nonneg val r); intros; exfalso; lia]. intros _. exists 0. split; [lia|]. split; [lia|]. split; [reflexivity|]. unfold before. cbn [Z.to_nat firstn]. unfold occ. cbn. lia.
      * destruct (IH (n - 1) (i + 1) ltac:(lia)) as [I1 I2]. split; [|intros; apply I2; lia]. intros L. destruct (I1 ltac:(lia)) as (p & E & P & Nt & Oc). exists (p + 1). split; [lia|]. split; [lia|].
        split; [replace (Z.to_nat (p + 1)) with (S (Z.to_nat p)) by lia; exact Nt|]. rewrite B by lia. rewrite OC, Oc. lia.
    + destruct (Z.eqb_spec n 0); [exfalso; lia|]. destruct (IH n (i + 1) N) as [I1 I2]. split; [|intros; apply I2; lia]. intros L. destruct (I1 ltac:(lia)) as (p & E & P & Nt & Oc). exists (p + 1). split; [lia|]. split; [lia|].
      split; [replace (Z.to_nat (p + 1)) with (S (Z.to_nat p)) by lia; exact Nt|]. rewrite B by lia. rewrite OC, Oc. lia.
Qed.
(** there is one place of the r-th val *)
Lemma place_unique val v r p q : 0 <= p < zlen v -> nth (Z.to_nat p) v 0 = val -> occ val (before p v) = r ->
  0 <= q < zlen v -> nth (Z.to_nat q) v 0 = val -> occ val (before q v) = r -> p = q.
Proof.
  assert (W : forall p q, 0 <= p < zlen v -> nth (Z.to_nat p) v 0 = val -> occ val (before p v) = r -> occ val (before q v) = r -> ~ p < q).
  { intros a b A1 A2 A3 B3 L. pose proof (occ_succ val v a A1) as S. rewrite A2, Z.eqb_refl in S. pose proof (occ_mono val v (a + 1) b ltac:(lia)). lia. }
  intros. assert (~ p < q) by eauto. assert (~ q < p) by eauto. lia.
Qed.
Lemma select_spec v val r : 0 <= r < 2 ^ 64 - 1 -> zlen v < 2 ^ 64 ->
  (r < occ val v -> 0 <= nv_select v val r < zlen v /\ nth (Z.to_nat (nv_select v val r)) v 0 = val /\ occ val (before (nv_select v val r) v) = r) /\
  (occ val v <= r -> nv_select v val r = NotFound).
Proof.
  intros R Lv. unfold nv_select. rewrite Z.mod_small by lia. destruct (sel_ok val v (r + 1) 0 ltac:(lia)) as [S1 S2]. split; [|intros; apply S2; lia].
  intros L. destruct (S1 ltac:(lia)) as (p & -> & P & Nt & O). cbn [Z.add]. split; [exact P|]. split; [exact Nt|lia].
Qed.

(** C129: on every sequence of bytes the naive functions and the wavelet matrix give the same answers, wherever the naive ones are defined *)
Theorem C129_same : forall x64 wide svSelect old v, reusable old -> zlen v < 2 ^ 32 -> Forall (fun x => 0 <= x < 256) v ->
  exists w, wm_init x64 wide svSelect true old v 8 = Ok w /\
    (forall i, 0 <= i < zlen v -> nv_get v i = wm_get x64 wide w i) /\
    (forall c pos, 0 <= c < 256 -> 0 <= pos <= zlen v -> nv_rank v c pos = wm_rank x64 wide w c pos) /\
    (7 * zlen v < 2 ^ 32 -> forall c pos, 0 <= c < 256 -> 0 <= pos <= zlen v -> nv_rankLt v c pos = wm_rankLt x64 wide w c pos) /\
    (forall c r, 0 <= c < 256 -> 0 <= r < 2 ^ 64 - 1 -> wm_select x64 wide true w c r = Ok (nv_select v c r)) /\
    (forall tbl, Forall (fun q => 0 <= fst q < 256 /\ 0 <= snd q < 2 ^ 64 - 1) tbl -> check x64 wide true w v tbl = Ok true).
Proof.
  intros x64 wide ss old v Ho L F. destruct (C30_wavelet x64 wide ss true old v 8 Ho) as (w & E & (A1 & A2 & A3 & A4 & A5 & A6 & A7) & _); [split; [lia|]; split; [exact L|exact F]|].
  exists w. split; [exact E|]. change (2 ^ 8) with 256 in *.
  assert (SEL : forall c r, 0 <= c < 256 -> 0 <= r < 2 ^ 64 - 1 -> wm_select x64 wide true w c r = Ok (nv_select v c r)).
  { intros c r C R. destruct (A7 c r C ltac:(lia)) as (p & -> & P1 & P2). destruct (select_spec v c r R ltac:(lia)) as [S1 S2]. f_equal.
    destruct (Z.ltb_spec r (occ c v)) as [B|B].
    - destruct (P1 B) as (Q1 & Q2 & Q3). destruct (S1 B) as (T1 & T2 & T3). now apply (place_unique c v r).
    - rewrite (P2 B), (S2 B). reflexivity. }
  split; [|split; [|split; [|split]]].
  - intros i I. destruct (A3 ltac:(lia) i I) as [-> _]. unfold nv_get, rd. destruct (Z.ltb_spec i 0); [exfalso; lia|]. rewrite (nth_error_nth' v 0) by (unfold zlen in I; lia). reflexivity.
  - intros c pos C P. rewrite A5 by lia. apply count_ok. unfold zlen in P. lia.
  - intros H7 c pos C P. rewrite A6 by lia. unfold nv_rankLt. rewrite lt_ok by (unfold zlen in P; cbn [Z.to_nat Nat.add]; lia). reflexivity.
  - exact SEL.
  - induction 1 as [|[c pos] t [H1 H2] _ IH]; cbn [check]; [reflexivity|]. cbn [fst snd] in *. rewrite SEL by auto. cbn [bind]. rewrite Z.eqb_refl. exact IH.
Qed.
(** the naive functions read out of range behind the end, where rank and rankLt of WaveletMatrix count all, and get throws *)
Theorem C129_behind : forall v c pos, zlen v < pos -> nv_get v pos = UB /\ nv_rank v c pos = UB /\ nv_rankLt v c pos = UB.
Proof.
  intros v c pos P. pose proof (zlen_nonneg v). unfold zlen in *. split; [|split].
  - unfold nv_get, rd. destruct (Z.ltb_spec pos 0); [reflexivity|]. destruct (nth_error v (Z.to_nat pos)) eqn:E; [|reflexivity]. assert ((Z.to_nat pos < length v)%nat) by (apply nth_error_Some; congruence). exfalso. lia.
  - unfold nv_rank. assert (G : (length v < Z.to_nat pos)%nat) by lia. revert G. generalize (Z.to_nat pos). clear. induction v as [|x v IH]; intros [|n] G; cbn [length] in G; try (exfalso; lia); cbn [count_to]; [reflexivity|]. rewrite IH by lia. reflexivity.
  - unfold nv_rankLt. assert (G : forall n i ret, 0 <= i -> Z.of_nat (length v) < i + Z.of_nat n -> i <= Z.of_nat (length v) -> lt_loop n v c i ret = UB).
    { induction n as [|n IH]; intros i ret I G1 G2; [exfalso; lia|]. cbn [lt_loop]. unfold rd. destruct (Z.ltb_spec i 0); [exfalso; lia|]. destruct (nth_error v (Z.to_nat i)) as [x|] eqn:E; [|reflexivity]. cbn [bind].
      assert ((Z.to_nat i < length v)%nat) by (apply nth_error_Some; congruence). apply IH; lia. }
    apply G; lia.
Qed.
(** ** Finding: Naive::select of wm_bench_smpl with n = NotFound adds 1 to it, gets 0 and finds the value in the first place if another value is there; WaveletMatrix says NotFound *)
Theorem C129_wrap_finding : nv_select [1; 2] 2 NotFound = 0 /\ exists w, wm_init true true true true wm_empty [1; 2] 8 = Ok w /\ wm_select true true true w 2 NotFound = Ok NotFound.
Proof. split; [reflexivity|]. eexists. split; [vm_compute; reflexivity|]. vm_compute. reflexivity. Qed.
Example C129_case : nv_select [3; 7; 3; 3] 3 1 = 2 /\ nv_select [3; 7; 3; 3] 3 3 = NotFound /\ nv_rank [3; 7; 3; 3] 3 3 = Ok 2 /\ nv_rankLt [3; 7; 3; 3] 7 4 = Ok 3 /\ Forall (fun x => 0 <= x < 256) [3; 7; 3; 3] /\ reusable wm_empty.
Proof. repeat split; try (repeat constructor; lia). Qed.
Print Assumptions C129_same.
Print Assumptions C129_behind.
Print Assumptions C129_wrap_finding.
