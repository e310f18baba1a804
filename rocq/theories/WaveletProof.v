(** Proofs about the wavelet matrix model: the layers, walking down, the tables. *)
Require Import Verif.Common Verif.EndianModel Verif.SerializerModel Verif.BitVecModel Verif.BitVecProof Verif.BitVecProps Verif.SucModel Verif.SucProps Verif.WaveletModel.
Ltac Zify.zify_post_hook ::= idtac.

Lemma getPos_testbit v p : 0 <= p -> getPos v p = Z.testbit v p.
Proof.
  intros Hp. unfold getPos. destruct (Z.testbit v p) eqn:E.
  - apply negb_true_iff, Z.eqb_neq. intros H. apply (f_equal (fun x => Z.testbit x p)) in H. rewrite Z.land_spec, Z.shiftl_spec, Z.sub_diag, E, Z.bits_0 in H by auto. discriminate.
  - apply negb_false_iff, Z.eqb_eq. apply Z.bits_inj'. intros k Hk. rewrite Z.land_spec, Z.shiftl_spec, Z.bits_0 by auto. destruct (Z.eq_dec k p).
    + subst. rewrite E. auto.
    + replace (Z.testbit 1 (k - p)) with false; [apply andb_false_r|]. symmetry. destruct (Z_lt_ge_dec k p); [apply Z.testbit_neg_r; lia|]. replace 1 with (2 ^ 0) by auto. apply Z.pow2_bits_false. lia.
Qed.
Lemma countZero_filter l p : 0 <= p -> countZero l p = zlen (filter (fun x => negb (Z.testbit x p)) l).
Proof.
  intros Hp. unfold countZero. f_equal. apply filter_ext. intros a. rewrite <- getPos_testbit by auto. unfold getPos. rewrite negb_involutive. auto.
Qed.
Lemma zlen_filter_split {A} (f : A -> bool) l : zlen (filter f l) + zlen (filter (fun x => negb (f x)) l) = zlen l.
Proof. induction l; [auto|]. cbn [filter]. destruct (f a); cbn [negb]; rewrite !zlen_cons; lia. Qed.
Lemma filter_filter {A} (f g : A -> bool) l : filter f (filter g l) = filter (fun x => g x && f x) l.
Proof. induction l; auto. cbn [filter]. destruct (g a); cbn [filter andb]; [destruct (f a)|]; rewrite ?IHl; auto. Qed.
Lemma zlen_resize_l {A} (d : A) l n : 0 <= n -> zlen (resize_l d l n) = n.
Proof. intros. unfold resize_l, zlen. rewrite app_length, firstn_length, repeat_length. lia. Qed.
Lemma zlen_repeat {A} (d : A) n : zlen (repeat d n) = Z.of_nat n.
Proof. unfold zlen. rewrite repeat_length. auto. Qed.
Lemma rd_upd_eq {A} (l : list A) i v : 0 <= i < zlen l -> rd (upd l (Z.to_nat i) v) i = Ok v.
Proof. intros H. unfold rd. destruct (i <? 0) eqn:?; [lia|]. rewrite nth_error_upd_eq by (unfold zlen in *; lia). auto. Qed.
Lemma rd_upd_ne {A} (l : list A) i j v : 0 <= i -> 0 <= j -> i <> j -> rd (upd l (Z.to_nat i) v) j = rd l j.
Proof. intros Hi Hj N. unfold rd. destruct (j <? 0) eqn:?; [lia|]. rewrite nth_error_upd_ne by lia. auto. Qed.

Section Fill.
Variables (bitPos : Z) (cur : list Z).
Hypothesis Hb : 0 <= bitPos.
Let bit x := Z.testbit x bitPos.
Let nbit x := negb (bit x).
Notation Z0 l := (filter nbit l).
Notation O1 l := (filter bit l).

Lemma fill_spec last : forall rest pre next bv g0 g1, cur = pre ++ rest ->
  holds 64 bv (zlen cur) (fun i => (i <? zlen pre) && bit (nth (Z.to_nat i) cur 0)) ->
  (last = false -> next = Z0 pre ++ g0 ++ O1 pre ++ g1 /\ zlen g0 = zlen (Z0 rest) /\ zlen g1 = zlen (O1 rest)) ->
  exists next' bv', wm_fill (length rest) (zlen pre) bitPos last cur next bv (zlen (Z0 pre)) (zlen (Z0 cur) + zlen (O1 pre)) = Ok (next', bv') /\
    (last = false -> next' = Z0 cur ++ O1 cur) /\ holds 64 bv' (zlen cur) (fun i => bit (nth (Z.to_nat i) cur 0)).
Proof.
  induction rest as [|x rest IH]; intros pre next bv g0 g1 HC HB HN.
  - cbn [length wm_fill]. exists next, bv. split; auto. rewrite app_nil_r in HC. subst pre. split.
    + intros L. destruct (HN L) as (-> & G0 & G1). destruct g0; [|rewrite zlen_cons in G0; cbn [filter] in G0; rewrite zlen_nil in G0; pose proof (zlen_nonneg g0); lia]. destruct g1; [|rewrite zlen_cons in G1; cbn [filter] in G1; rewrite zlen_nil in G1; pose proof (zlen_nonneg g1); lia]. rewrite app_nil_r. auto.
    + eapply holds_ext; [|exact HB]. intros i Hi. cbn beta. destruct (i <? zlen cur) eqn:?; [auto|lia].
  - cbn [length wm_fill]. assert (rd cur (zlen pre) = Ok x) as -> by (rewrite HC; apply rd_app_exact). cbn [bind]. rewrite getPos_testbit by auto. change (Z.testbit x bitPos) with (bit x).
    assert (Hlt: 0 <= zlen pre < zlen cur) by (rewrite HC, zlen_app, zlen_cons; pose proof (zlen_nonneg pre); pose proof (zlen_nonneg rest); lia).
    assert (Nx: nth (Z.to_nat (zlen pre)) cur 0 = x) by (rewrite HC, to_nat_zlen, app_nth2, Nat.sub_diag by lia; auto).
    assert (exists bv', (if bit x then let! (bv0, thrown) := bv_set 64 bv (zlen pre) in if thrown : bool then Exn else Ok bv0 else Ok bv) = Ok bv' /\
       holds 64 bv' (zlen cur) (fun i => (i <? zlen (pre ++ [x])) && bit (nth (Z.to_nat i) cur 0))) as (bv1 & -> & HB1).
    { destruct (bit x) eqn:E.
      - destruct (set_holds 64 ltac:(lia) bv _ _ (zlen pre) HB Hlt) as (b' & -> & H'). cbn [bind]. exists b'. split; auto. eapply holds_ext; [|exact H']. intros i Hi. cbn beta. rewrite zlen_app, zlen_cons, zlen_nil. destruct (Z.eqb_spec i (zlen pre)) as [->|].
        + rewrite Nx, E. destruct (_ <? _) eqn:?; [auto|lia].
        + destruct (i <? zlen pre) eqn:?, (i <? zlen pre + (1 + 0)) eqn:?; auto; lia.
      - exists bv. split; auto. eapply holds_ext; [|exact HB]. intros i Hi. cbn beta. rewrite zlen_app, zlen_cons, zlen_nil. destruct (Z.eq_dec i (zlen pre)) as [->|].
        + rewrite Nx, E, !andb_false_r. auto.
        + destruct (i <? zlen pre) eqn:?, (i <? zlen pre + (1 + 0)) eqn:?; auto; lia. }
    cbn [bind]. assert (HC': cur = (pre ++ [x]) ++ rest) by (rewrite <- app_assoc; auto).
    assert (LP: zlen pre + 1 = zlen (pre ++ [x])) by (rewrite zlen_app, zlen_cons, zlen_nil; lia). rewrite LP.
    assert (FZ: Z0 (pre ++ [x]) = Z0 pre ++ (if bit x then [] else [x])) by (rewrite filter_app; cbn [filter]; unfold nbit at 2; destruct (bit x); auto).
    assert (FO: O1 (pre ++ [x]) = O1 pre ++ (if bit x then [x] else [])) by (rewrite filter_app; cbn [filter]; destruct (bit x); auto).
    destruct last.
    + assert (forall z o, exists next' bv', wm_fill (length rest) (zlen (pre ++ [x])) bitPos true cur next bv1 z o = Ok (next', bv') /\ holds 64 bv' (zlen cur) (fun i => bit (nth (Z.to_nat i) cur 0))) as G.
      { intros z o. destruct (IH (pre ++ [x]) next bv1 [] [] HC' HB1 ltac:(discriminate)) as (n' & b' & E1 & _ & E3). exists n', b'. split; auto. rewrite <- E1. clear. generalize (zlen (Z0 (pre ++ [x]))) (zlen (Z0 cur) + zlen (O1 (pre ++ [x]))) (zlen (pre ++ [x])) z o bv1 next. generalize (length rest). induction n; intros; auto. cbn [wm_fill]. destruct (rd cur z2); auto. cbn [bind]. destruct (if getPos a bitPos then _ else _); auto. cbn [bind]. apply IHn. }
      destruct (G (zlen (Z0 pre)) (zlen (Z0 cur) + zlen (O1 pre))) as (n' & b' & E1 & E2). exists n', b'. split; auto. split; auto. discriminate.
    + destruct (HN eq_refl) as (EN & G0 & G1). clear HN.
      assert (FC: zlen (Z0 cur) = zlen (Z0 pre) + zlen g0). { rewrite HC, filter_app, zlen_app, G0. auto. }
      cbn [filter] in G0, G1. unfold nbit at 1 in G0. pose proof (zlen_nonneg (Z0 pre)). pose proof (zlen_nonneg (O1 pre)). destruct (bit x) eqn:EB; cbn [negb] in G0.
      * destruct g1 as [|y g1]; [rewrite zlen_cons, zlen_nil in G1; pose proof (zlen_nonneg (O1 rest)); lia|].
        assert (wr next (zlen (Z0 cur) + zlen (O1 pre)) x = Ok (Z0 pre ++ g0 ++ (O1 pre ++ [x]) ++ g1)) as ->.
        { rewrite EN. replace (zlen (Z0 cur) + zlen (O1 pre)) with (zlen (Z0 pre ++ g0 ++ O1 pre)) by (rewrite !zlen_app; lia). replace (Z0 pre ++ g0 ++ O1 pre ++ y :: g1) with ((Z0 pre ++ g0 ++ O1 pre) ++ y :: g1) by (rewrite <- !app_assoc; auto).
          rewrite wr_ok by (rewrite !zlen_app, zlen_cons; pose proof (zlen_nonneg (Z0 pre)); pose proof (zlen_nonneg g0); pose proof (zlen_nonneg (O1 pre)); pose proof (zlen_nonneg g1); lia). rewrite to_nat_zlen, upd_app_exact. rewrite <- !app_assoc. auto. }
        cbn [bind]. destruct (IH (pre ++ [x]) (Z0 pre ++ g0 ++ (O1 pre ++ [x]) ++ g1) bv1 g0 g1 HC' HB1) as (n' & b' & E1 & E2 & E3).
        { intros _. rewrite FZ, FO, app_nil_r. rewrite !zlen_cons in G1. repeat split; auto. lia. }
        exists n', b'. split; auto. rewrite <- E1. rewrite FZ, FO, app_nil_r. f_equal. rewrite zlen_app, zlen_cons, zlen_nil. lia.
      * destruct g0 as [|y g0]; [rewrite zlen_cons, zlen_nil in G0; pose proof (zlen_nonneg (Z0 rest)); lia|].
        assert (wr next (zlen (Z0 pre)) x = Ok ((Z0 pre ++ [x]) ++ g0 ++ O1 pre ++ g1)) as ->.
        { rewrite EN. rewrite wr_ok by (rewrite zlen_app; cbn [app]; rewrite zlen_cons; pose proof (zlen_nonneg (g0 ++ O1 pre ++ g1)); lia). cbn [app]. rewrite to_nat_zlen, upd_app_exact. rewrite <- app_assoc. auto. }
        cbn [bind]. destruct (IH (pre ++ [x]) ((Z0 pre ++ [x]) ++ g0 ++ O1 pre ++ g1) bv1 g0 g1 HC' HB1) as (n' & b' & E1 & E2 & E3).
        { intros _. rewrite FZ, FO, app_nil_r. rewrite !zlen_cons in G0. repeat split; auto. lia. }
        exists n', b'. split; auto. rewrite <- E1. rewrite FZ, FO, app_nil_r. f_equal. rewrite zlen_app, zlen_cons, zlen_nil. lia.
Qed.
End Fill.

Section V.
Variables x64 wide svSelect : bool.
Variables (vec : list Z) (len : Z).
Hypothesis Hlen : 0 <= len <= 16.
Hypothesis Hvec : zlen vec < 2 ^ 32.
Hypothesis Hval : Forall (fun x => 0 <= x < 2 ^ len) vec.
Notation size := (zlen vec).

(** the bit looked at in layer i, and the layers *)
Definition bit (i : Z) (x : Z) : bool := Z.testbit x (len - 1 - i).
Definition nbit (i : Z) (x : Z) : bool := negb (bit i x).
Fixpoint lay (i : nat) : list Z :=
  match i with O => vec | S i' => filter (nbit (Z.of_nat i')) (lay i') ++ filter (bit (Z.of_nat i')) (lay i') end.

Lemma lay_count (f : Z -> bool) i : zlen (filter f (lay i)) = zlen (filter f vec).
Proof.
  induction i; auto. cbn [lay]. rewrite filter_app, zlen_app, !filter_filter, <- IHi. pose proof (zlen_filter_split (bit (Z.of_nat i)) (filter f (lay i))) as H. rewrite !filter_filter in H.
  rewrite <- H, Z.add_comm. f_equal; f_equal; apply filter_ext; intros; apply andb_comm.
Qed.
Lemma lay_len i : zlen (lay i) = size.
Proof. pose proof (lay_count (fun _ => true) i) as H. assert (T: forall l : list Z, filter (fun _ => true) l = l) by (induction l; cbn [filter]; congruence). rewrite !T in H. auto. Qed.

(** what layer i of an object must answer *)
Definition ones (i p : Z) : Z := zlen (filter (bit i) (firstn (Z.to_nat p) (lay (Z.to_nat i)))).
Definition zeros (i : Z) : Z := zlen (filter (nbit i) vec).
Definition layer_ok (i : Z) (sv : sucvec) : Prop :=
  (forall p, 0 <= p <= size -> sv_rank1 x64 wide sv p = Ok (ones i p)) /\
  (forall p, 0 <= p < size -> sv_get sv p = Ok (bit i (nth (Z.to_nat p) (lay (Z.to_nat i)) 0))) /\
  (forall p, size <= p -> sv_get sv p = Exn).

Lemma ones_bounds i p : 0 <= p <= size -> 0 <= ones i p <= p.
Proof.
  intros Hp. unfold ones. split; [apply zlen_nonneg|]. pose proof (zlen_filter_split (bit i) (firstn (Z.to_nat p) (lay (Z.to_nat i)))). set (a := filter (fun x => negb _) _) in *. pose proof (zlen_nonneg a). pose proof (lay_len (Z.to_nat i)). assert (zlen (firstn (Z.to_nat p) (lay (Z.to_nat i))) = p) by (unfold zlen in *; rewrite firstn_length; lia). lia.
Qed.
Lemma zeros_bounds i : 0 <= zeros i <= size.
Proof. unfold zeros. split; [apply zlen_nonneg|]. pose proof (zlen_filter_split (nbit i) vec). set (a := filter (fun x => negb _) _) in *. pose proof (zlen_nonneg a). lia. Qed.

Lemma holds_bits bv n f l : holds 64 bv n f -> zlen l = n -> (forall i, 0 <= i < n -> f i = nth (Z.to_nat i) l false) ->
  block_bits 64 (bv_v bv) n = l /\ Forall (fun x => 0 <= x < 2 ^ 64) (bv_v bv) /\ n <= 64 * zlen (bv_v bv) /\ bv_len bv = n /\
  forall i, n <= i -> block_bit 64 (bv_v bv) i = false.
Proof.
  intros (A & B & C & D & F) Hl Hf. split; [|split; [|split; [|split]]]; auto; try lia.
  - apply (nth_ext _ _ false false); [unfold block_bits; rewrite map_length, seq_length; unfold zlen in *; lia|].
    intros k Hk. assert (Hk': (k < Z.to_nat n)%nat) by (unfold block_bits in Hk; rewrite map_length, seq_length in Hk; auto).
    unfold block_bits. rewrite nth_map_seq by lia. cbn [Nat.add]. specialize (F (Z.of_nat k) ltac:(lia)). unfold vbit in F. unfold block_bit. rewrite F. destruct (_ <? n) eqn:?; [|lia]. cbn [andb]. rewrite Hf by lia. f_equal. lia.
  - intros i Hi. unfold block_bit. specialize (F i ltac:(lia)). unfold vbit in F. rewrite F. destruct (i <? n) eqn:?; [lia|auto].
Qed.

Lemma count_map (f : Z -> bool) l : count true (map f l) = zlen (filter f l).
Proof. unfold count. induction l; auto. cbn [map filter]. destruct (f a); cbn [Bool.eqb]; rewrite ?zlen_cons; lia. Qed.
Lemma wf_shape sv : sv_wf sv -> shape_ok sv.
Proof. intros (_ & _ & _ & H & _). unfold shape_ok. eapply Forall_impl; [|exact H]. intros b (E & _). auto. Qed.
Lemma wf_empty : sv_wf sv_empty.
Proof. repeat split; cbn; try lia; constructor. Qed.

Lemma layer_init i old bv : 0 <= i < len -> sv_wf old -> holds 64 bv size (fun k => bit i (nth (Z.to_nat k) (lay (Z.to_nat i)) 0)) ->
  exists sv, sv_init x64 wide svSelect old (bv_v bv) (bv_len bv) = Ok sv /\ layer_ok i sv /\ sv_wf sv.
Proof.
  intros Hi W HB. set (l := map (bit i) (lay (Z.to_nat i))). assert (Ll: zlen l = size) by (unfold l, zlen; rewrite map_length; apply lay_len).
  destruct (holds_bits _ _ _ l HB Ll) as (E1 & E2 & E3 & E4 & E5).
  { intros k Hk. rewrite (nth_indep l _ (bit i 0)) by (unfold zlen in *; lia). unfold l. rewrite map_nth. auto. }
  rewrite E4. destruct (C26_init x64 wide svSelect old (bv_v bv) size (wf_shape _ W) E2) as (sv & pad & I1 & _ & I2 & I3); auto.
  { pose proof (zlen_nonneg vec). unfold limit. destruct wide, svSelect; lia. }
  exists sv. split; auto. split; [|eapply C29_init_saves; eauto using zlen_nonneg]. rewrite E1 in I2, I3.
  assert (PF: Forall (fun x => x = false) pad).
  { apply Forall_forall. intros x Hx. destruct (In_nth pad x false Hx) as (k & Hk & <-).
    assert (nth k pad false = nth (length l + k) (l ++ pad) false) as -> by (rewrite app_nth2 by lia; f_equal; lia).
    assert (LK: (length l + k < length (l ++ pad))%nat) by (rewrite app_length; lia). rewrite I2 in LK |- *. unfold block_bits in *. rewrite map_length, seq_length in LK. rewrite nth_map_seq by lia. apply E5. unfold zlen in *. lia. }
  destruct (C26_rank_get _ _ _ _ _ _ I3 PF) as (R1 & R0 & G1 & G2). rewrite Ll in *. pose proof (zlen_nonneg vec). split; [|split].
  - intros p Hp. change (sv_rank1 x64 wide sv p) with (sv_rank x64 wide sv true p). rewrite R1 by lia. f_equal. unfold l, ones. rewrite firstn_map. apply count_map.
  - intros p Hp. rewrite G1 by lia. f_equal. rewrite (nth_indep l _ (bit i 0)) by (unfold zlen in *; lia). apply map_nth.
  - intros p Hp. apply G2. lia.
Qed.

Lemma layers_spec off : (forall i, 0 <= i < len -> rd off i = Ok (zeros i)) ->
  forall n i svv next, Z.of_nat n = len - i -> 0 <= i -> zlen next = size -> zlen svv = len -> Forall sv_wf svv ->
  exists svv', wm_layers x64 wide svSelect n i len size off svv (lay (Z.to_nat i)) next = Ok svv' /\ zlen svv' = len /\ Forall sv_wf svv' /\
    (forall k, 0 <= k < i -> rd svv' k = rd svv k) /\ (forall k, i <= k < len -> exists sv, rd svv' k = Ok sv /\ layer_ok k sv).
Proof.
  intros Ho. induction n; intros i svv next Hn Hi Hx Ls Fs.
  - exists svv. cbn [wm_layers]. repeat split; auto. intros; lia.
  - cbn [wm_layers]. pose proof (zlen_nonneg vec) as NV. destruct (resize_holds 64 ltac:(lia) bv_empty 0 (fun _ => false) size) as (bv & Eb & Hb); [|lia|].
    { repeat split; cbn [bv_empty bv_len bv_v]; try (rewrite zlen_nil; lia); try lia; try constructor. intros k Hk. unfold vbit. destruct (Z.to_nat (k / 64)); cbn [nth]; rewrite Z.bits_0; destruct (k <? 0) eqn:?; auto. }
    rewrite Eb. cbn [bind]. rewrite Ho by lia. cbn [bind]. assert (LL: zlen (lay (Z.to_nat i)) = size) by apply lay_len.
    assert (ZE: zlen (filter (nbit i) (lay (Z.to_nat i))) = zeros i) by apply lay_count.
    assert (OE: zlen (filter (bit i) (lay (Z.to_nat i))) = size - zeros i) by (rewrite lay_count; unfold zeros; pose proof (zlen_filter_split (bit i) vec) as H; change (fun x => negb (bit i x)) with (nbit i) in H; lia).
    pose proof (zeros_bounds i).
    destruct (fill_spec (len - 1 - i) (lay (Z.to_nat i)) ltac:(lia) (i =? len - 1) (lay (Z.to_nat i)) [] next bv (firstn (Z.to_nat (zeros i)) next) (skipn (Z.to_nat (zeros i)) next)) as (next' & bv' & E1 & E2 & E3); auto.
    { rewrite LL. eapply holds_ext; [|exact Hb]. intros k Hk. cbn beta. rewrite andb_false_r. rewrite zlen_nil. destruct (k <? 0) eqn:?; [lia|auto]. }
    { intros _. cbn [filter app]. rewrite firstn_skipn. split; auto. change (fun x => negb (Z.testbit x (len - 1 - i))) with (nbit i). change (fun x => Z.testbit x (len - 1 - i)) with (bit i). rewrite ZE, OE. unfold zlen in *. rewrite firstn_length, skipn_length. lia. }
    change (fun x => negb (Z.testbit x (len - 1 - i))) with (nbit i) in *. change (fun x => Z.testbit x (len - 1 - i)) with (bit i) in *. cbn [filter] in E1. rewrite !zlen_nil, ZE in E1. rewrite Z.add_0_r in E1.
    replace (Z.to_nat size) with (length (lay (Z.to_nat i))) by (unfold zlen in *; lia). rewrite E1. cbn [bind].
    destruct (rd_forall sv_wf svv i Fs ltac:(lia)) as (old & -> & Wo). cbn [bind]. rewrite LL in E3. destruct (layer_init i old bv' ltac:(lia) Wo E3) as (sv & -> & Lo & Ws). cbn [bind].
    rewrite wr_ok by lia. cbn [bind].
    assert (LS: zlen (upd svv (Z.to_nat i) sv) = len) by (unfold zlen in *; rewrite upd_length; auto).
    assert (FS: Forall sv_wf (upd svv (Z.to_nat i) sv)). { apply Forall_forall. intros x Hin. destruct (In_nth _ _ sv_empty Hin) as (k & Hk & Ek). rewrite upd_length in Hk. destruct (Nat.eq_dec k (Z.to_nat i)).
      - subst k. pose proof (nth_error_upd_eq svv (Z.to_nat i) sv Hk) as Q. apply (nth_error_nth _ _ sv_empty) in Q. rewrite Q in Ek. subst; auto.
      - pose proof (nth_error_upd_ne svv (Z.to_nat i) k sv ltac:(congruence)) as Q. rewrite (nth_error_nth' svv sv_empty Hk) in Q. apply (nth_error_nth _ _ sv_empty) in Q. rewrite Q in Ek. subst. rewrite Forall_forall in Fs. apply Fs. apply nth_In. auto. }
    assert (KEEP: forall svv', (forall k, 0 <= k < i + 1 -> rd svv' k = rd (upd svv (Z.to_nat i) sv) k) -> (forall k, 0 <= k < i -> rd svv' k = rd svv k) /\ rd svv' i = Ok sv).
    { intros svv' H'. split; [intros k Hk; rewrite H' by lia; apply rd_upd_ne; lia|]. rewrite H' by lia. apply rd_upd_eq. lia. }
    destruct n.
    + cbn [wm_layers]. exists (upd svv (Z.to_nat i) sv). destruct (KEEP _ (fun k _ => eq_refl)) as (K1 & K2). repeat split; auto. intros k Hk. assert (k = i) as -> by lia. exists sv. auto.
    + assert (i =? len - 1 = false) by (apply Z.eqb_neq; lia). rewrite (E2 H0).
      replace (filter (nbit i) (lay (Z.to_nat i)) ++ filter (bit i) (lay (Z.to_nat i))) with (lay (Z.to_nat (i + 1))) by (replace (Z.to_nat (i + 1)) with (S (Z.to_nat i)) by lia; cbn [lay]; rewrite Z2Nat.id by lia; auto).
      destruct (IHn (i + 1) (upd svv (Z.to_nat i) sv) (lay (Z.to_nat i)) ltac:(lia) ltac:(lia) LL LS FS) as (svv' & Q1 & Q2 & Q3 & Q4 & Q5).
      exists svv'. destruct (KEEP _ Q4) as (K1 & K2). repeat split; auto. intros k Hk. destruct (Z.eq_dec k i) as [->|]; [exists sv; auto|apply Q5; lia].
Qed.

(** ** walking down the layers *)
Definition step (i : Z) (b : bool) (p : Z) : Z := if b then zeros i + ones i p else p - ones i p.
Lemma step_firstn i b p : 0 <= i -> 0 <= p <= size ->
  0 <= step i b p <= size /\
  firstn (Z.to_nat (step i b p)) (lay (Z.to_nat (i + 1))) = (if b then filter (nbit i) (lay (Z.to_nat i)) else []) ++ filter (fun x => Bool.eqb b (bit i x)) (firstn (Z.to_nat p) (lay (Z.to_nat i))) /\
  forall x, p < size -> nth (Z.to_nat p) (lay (Z.to_nat i)) 0 = x -> bit i x = b -> step i b p < size /\ nth (Z.to_nat (step i b p)) (lay (Z.to_nat (i + 1))) 0 = x.
Proof.
  intros Hi Hp. replace (Z.to_nat (i + 1)) with (S (Z.to_nat i)) by lia. pose proof (lay_len (S (Z.to_nat i))) as LL1. cbn [lay] in *. rewrite Z2Nat.id in * by lia. set (L := lay (Z.to_nat i)) in *.
  assert (LL: zlen L = size) by apply lay_len. assert (EL: L = firstn (Z.to_nat p) L ++ skipn (Z.to_nat p) L) by (symmetry; apply firstn_skipn).
  remember (firstn (Z.to_nat p) L) as A eqn:EA. remember (skipn (Z.to_nat p) L) as B eqn:EB0.
  assert (LA: zlen A = p) by (rewrite EA; unfold zlen in *; rewrite firstn_length; lia).
  assert (FT: forall l, filter (fun x => Bool.eqb true (bit i x)) l = filter (bit i) l) by (intros l; apply filter_ext; intros a; destruct (bit i a); auto).
  assert (FF: forall l, filter (fun x => Bool.eqb false (bit i x)) l = filter (nbit i) l) by (intros l; apply filter_ext; intros a; unfold nbit; destruct (bit i a); auto).
  assert (S1: step i b p = zlen ((if b then filter (nbit i) L else []) ++ filter (fun x => Bool.eqb b (bit i x)) A)).
  { rewrite zlen_app. unfold step, ones. fold L. rewrite <- EA. destruct b; rewrite ?FT, ?FF.
    - unfold zeros. rewrite <- (lay_count _ (Z.to_nat i)). fold L. auto.
    - rewrite zlen_nil. pose proof (zlen_filter_split (bit i) A) as H. change (fun x => negb (bit i x)) with (nbit i) in H. lia. }
  assert (exists C, filter (nbit i) L ++ filter (bit i) L = ((if b then filter (nbit i) L else []) ++ filter (fun x => Bool.eqb b (bit i x)) A) ++ C /\ (C = filter (fun x => Bool.eqb b (bit i x)) B ++ (if b then [] else filter (bit i) L))) as (C & EC & EC').
  { eexists. split; [|reflexivity]. destruct b; rewrite ?FT, ?FF.
    - rewrite app_nil_r, <- app_assoc. f_equal. rewrite EL at 1. apply filter_app.
    - cbn [app]. rewrite app_assoc. f_equal. rewrite EL at 1. apply filter_app. }
  assert (LT := LL1).
  rewrite EC in LT |- *. rewrite S1. rewrite to_nat_zlen. split; [|split].
  - rewrite zlen_app in LT. pose proof (zlen_nonneg C). split; [apply zlen_nonneg|]. lia.
  - apply firstn_app_exact.
  - intros x Hlt Hx Hb. assert (exists B', B = x :: B') as (B' & EB).
    { destruct B as [|y B'] eqn:E. - pose proof (f_equal zlen EL) as Q. rewrite app_nil_r in Q. lia.
      - exists B'. rewrite EL in Hx. rewrite app_nth2 in Hx by (unfold zlen in LA; lia). replace (Z.to_nat p - length A)%nat with O in Hx by (unfold zlen in LA; lia). cbn [nth] in Hx. congruence. }
    rewrite EB in EC'. cbn [filter] in EC'. rewrite Hb, Bool.eqb_reflx in EC'. cbn [app] in EC'. rewrite EC' in LT |- *. split.
    + rewrite zlen_app, zlen_cons in LT. match type of LT with context [1 + zlen ?r] => pose proof (zlen_nonneg r) end. lia.
    + rewrite app_nth2 by lia. rewrite Nat.sub_diag. auto.
Qed.

(** the part of a value seen before layer i *)
Definition top (i x : Z) : Z := x / 2 ^ (len - i).
Lemma top_step i x : 0 <= i < len -> top (i + 1) x = 2 * top i x + Z.b2z (bit i x).
Proof.
  intros Hi. unfold top, bit. replace (len - (i + 1)) with (len - 1 - i) by lia. rewrite Z.testbit_spec' by lia. replace (len - i) with ((len - 1 - i) + 1) by lia.
  rewrite Z.pow_add_r by lia. rewrite <- Z.div_div by (try apply Z.pow_nonzero; lia). change (2 ^ 1) with 2. pose proof (Z.div_mod (x / 2 ^ (len - 1 - i)) 2 ltac:(lia)). lia.
Qed.
Lemma top_0 x : 0 <= x < 2 ^ len -> top 0 x = 0.
Proof. intros. unfold top. rewrite Z.sub_0_r. apply Z.div_small. auto. Qed.
Lemma top_len x : top len x = x.
Proof. unfold top. rewrite Z.sub_diag. apply Z.div_1_r. Qed.
Definition same (i val x : Z) : bool := top i x =? top i val.
Definition less (i val x : Z) : bool := top i x <? top i val.
Lemma same_step i val x : 0 <= i < len -> same (i + 1) val x = same i val x && Bool.eqb (bit i val) (bit i x).
Proof. intros Hi. unfold same. rewrite !top_step by auto. destruct (bit i val), (bit i x); cbn [Z.b2z Bool.eqb]; lia. Qed.
Lemma less_step i val x : 0 <= i < len -> less (i + 1) val x = less i val x || (same i val x && bit i val && nbit i x).
Proof. intros Hi. unfold same, less, nbit. rewrite !top_step by auto. destruct (bit i val), (bit i x); cbn [Z.b2z negb]; lia. Qed.

Fixpoint walk (n : nat) (i val p : Z) : Z := match n with O => p | S n' => walk n' (i + 1) val (step i (bit i val) p) end.
Fixpoint walkLt (n : nat) (i val p ret : Z) : Z :=
  match n with O => ret | S n' => walkLt n' (i + 1) val (step i (bit i val) p) (if bit i val then ret + (p - ones i p) else ret) end.
Lemma walk_bounds : forall n i val p, 0 <= i -> 0 <= p <= size -> 0 <= walk n i val p <= size.
Proof. induction n; intros i val p Hi Hp; cbn [walk]; auto. apply IHn; [lia|]. apply step_firstn; auto. Qed.

Lemma zlen_firstn (l : list Z) p : 0 <= p <= zlen l -> zlen (firstn (Z.to_nat p) l) = p.
Proof. clear. intros. unfold zlen in *. rewrite firstn_length. lia. Qed.
Lemma zeros_firstn i p : 0 <= p <= size -> p - ones i p = zlen (filter (nbit i) (firstn (Z.to_nat p) (lay (Z.to_nat i)))).
Proof.
  intros Hp. unfold ones. pose proof (zlen_filter_split (bit i) (firstn (Z.to_nat p) (lay (Z.to_nat i)))) as H. change (fun x => negb (bit i x)) with (nbit i) in H. rewrite zlen_firstn in H by (rewrite lay_len; auto). lia.
Qed.

Lemma walk_inv pos val : forall n i p f ret retf, Z.of_nat n = len - i -> 0 <= i -> 0 <= p <= size -> 0 <= f <= size ->
  firstn (Z.to_nat p) (lay (Z.to_nat i)) = firstn (Z.to_nat f) (lay (Z.to_nat i)) ++ filter (same i val) (firstn pos vec) ->
  ret - retf = zlen (filter (less i val) (firstn pos vec)) ->
  walk n i val p - walk n i val f = zlen (filter (fun x => x =? val) (firstn pos vec)) /\
  walkLt n i val p ret - walkLt n i val f retf = zlen (filter (fun x => x <? val) (firstn pos vec)).
Proof.
  induction n; intros i p f ret retf Hn Hi Hp Hf HI HR.
  - assert (i = len) by lia. subst i. cbn [walk walkLt]. rewrite HR. split.
    + apply (f_equal zlen) in HI. rewrite zlen_app, !zlen_firstn in HI by (rewrite lay_len; auto). replace (p - f) with (zlen (filter (same len val) (firstn pos vec))) by lia. f_equal. apply filter_ext. intros x. unfold same. rewrite !top_len. auto.
    + f_equal. apply filter_ext. intros x. unfold less. rewrite !top_len. auto.
  - cbn [walk walkLt]. destruct (step_firstn i (bit i val) p Hi Hp) as (B1 & S1 & _). destruct (step_firstn i (bit i val) f Hi Hf) as (B2 & S2 & _).
    apply IHn; auto; try lia.
    + rewrite S1, S2, HI, filter_app, <- app_assoc. f_equal. f_equal. rewrite filter_filter. apply filter_ext. intros x. rewrite same_step by lia. auto.
    + assert (Hless: zlen (filter (less (i + 1) val) (firstn pos vec)) = zlen (filter (less i val) (firstn pos vec)) + (if bit i val then zlen (filter (nbit i) (filter (same i val) (firstn pos vec))) else 0)).
      { clear HI HR S1 S2. generalize (firstn pos vec). intros l. induction l as [|x l IHl]; [destruct (bit i val); auto|]. cbn [filter]. rewrite (less_step i val x) by lia.
        destruct (less i val x) eqn:E1.
        - assert (same i val x = false) as -> by (unfold same, less in *; lia). cbn [orb]. rewrite !zlen_cons, IHl. lia.
        - cbn [orb]. destruct (same i val x); cbn [andb filter]; [|destruct (bit i val); rewrite IHl; lia]. destruct (bit i val); cbn [andb]; [|rewrite IHl; lia]. destruct (nbit i x); rewrite ?zlen_cons, IHl; lia. }
      rewrite Hless. destruct (bit i val); [|lia]. rewrite !zeros_firstn by auto. rewrite HI, filter_app, zlen_app. lia.
Qed.

Theorem walk_rank val pos : 0 <= val < 2 ^ len -> 0 <= pos <= size ->
  walk (Z.to_nat len) 0 val pos - walk (Z.to_nat len) 0 val 0 = zlen (filter (fun x => x =? val) (firstn (Z.to_nat pos) vec)) /\
  walkLt (Z.to_nat len) 0 val pos 0 - walkLt (Z.to_nat len) 0 val 0 0 = zlen (filter (fun x => x <? val) (firstn (Z.to_nat pos) vec)).
Proof.
  intros Hv Hp. apply walk_inv; try lia.
  - cbn [lay Z.to_nat firstn app]. assert (G: forall l, Forall (fun x => 0 <= x < 2 ^ len) l -> filter (same 0 val) l = l).
    { induction 1; auto. cbn [filter]. unfold same at 1. rewrite !top_0 by auto. cbn. f_equal. auto. }
    rewrite G; auto. apply forall_firstn. auto.
  - cbn [Z.to_nat]. assert (G: forall l, Forall (fun x => 0 <= x < 2 ^ len) l -> filter (less 0 val) l = []).
    { induction 1; auto. cbn [filter]. unfold less at 1. rewrite !top_0 by auto. cbn. auto. }
    rewrite G; auto. apply forall_firstn. auto.
Qed.

(** a found element stays found *)
Lemma walk_nth x : forall n i p, Z.of_nat n = len - i -> 0 <= i -> 0 <= p < size -> nth (Z.to_nat p) (lay (Z.to_nat i)) 0 = x ->
  walk n i x p < size.
Proof.
  induction n; intros i p Hn Hi Hp Hx; cbn [walk]; [lia|]. destruct (step_firstn i (bit i x) p Hi ltac:(lia)) as (B & _ & S). destruct (S x ltac:(lia) Hx eq_refl) as (S1 & S2). apply IHn; auto; lia.
Qed.

Lemma walkLt_bounds val : forall n i p ret, 0 <= i -> 0 <= p <= size -> 0 <= ret -> ret <= walkLt n i val p ret <= ret + size * Z.of_nat n.
Proof.
  induction n; intros i p ret Hi Hp Hr; cbn [walkLt]; [lia|]. destruct (step_firstn i (bit i val) p Hi Hp) as (B & _). pose proof (ones_bounds i p Hp).
  assert (size * Z.of_nat (S n) = size * Z.of_nat n + size) by nia. destruct (bit i val); [specialize (IHn (i + 1) (step i true p) (ret + (p - ones i p)) ltac:(lia) B ltac:(lia))|specialize (IHn (i + 1) (step i false p) ret ltac:(lia) B ltac:(lia))]; lia.
Qed.

(** ** the model follows the walk *)
Variables (svv : list sucvec) (off : list Z).
Hypothesis Hsvv : forall k, 0 <= k < len -> exists sv, rd svv k = Ok sv /\ layer_ok k sv.
Hypothesis Hoff : forall k, 0 <= k < len -> rd off k = Ok (zeros k).

Lemma msize p : 0 <= p <= size -> p mod 2 ^ 64 = p.
Proof. intros. apply Z.mod_small. lia. Qed.

Section W.
Variables (maxVal : Z) (from fromLt : list Z) (sel : list (list Z)).
Let w := mk_wm maxVal len size svv off from fromLt sel.

Lemma rank_loop_walk val : forall n i p, Z.of_nat n = len - i -> 0 <= i -> 0 <= p <= size -> rank_loop x64 wide w n i val p = Ok (walk n i val p).
Proof.
  induction n; intros i p Hn Hi Hp; cbn [rank_loop walk]; auto. cbn [w w_svv w_off]. destruct (Hsvv i ltac:(lia)) as (sv & -> & R & _). cbn [bind]. rewrite R by auto. cbn [bind].
  rewrite getPos_testbit by lia. replace (Z.of_nat n) with (len - 1 - i) by lia. change (Z.testbit val (len - 1 - i)) with (bit i val).
  destruct (step_firstn i (bit i val) p Hi Hp) as (B & _). unfold step in B. destruct (bit i val) eqn:E.
  - rewrite Hoff by lia. cbn [bind]. rewrite msize by auto. unfold step. apply IHn; lia.
  - cbn [bind]. rewrite msize by auto. unfold step. apply IHn; lia.
Qed.
Lemma rankLt_loop_walk val : forall n i p ret, Z.of_nat n = len - i -> 0 <= i -> 0 <= p <= size -> 0 <= ret -> ret + size * Z.of_nat n < 2 ^ 64 ->
  rankLt_loop x64 wide w n i val p ret = Ok (walkLt n i val p ret).
Proof.
  induction n; intros i p ret Hn Hi Hp Hr Hr2; cbn [rankLt_loop walkLt]; auto. cbn [w w_svv w_off]. destruct (Hsvv i ltac:(lia)) as (sv & -> & R & _). cbn [bind]. rewrite R by auto. cbn [bind].
  rewrite getPos_testbit by lia. replace (Z.of_nat n) with (len - 1 - i) by lia. change (Z.testbit val (len - 1 - i)) with (bit i val).
  destruct (step_firstn i (bit i val) p Hi Hp) as (B & _). pose proof (ones_bounds i p Hp). unfold step in B.
  assert (size * Z.of_nat (S n) = size * Z.of_nat n + size) by nia. pose proof (zlen_nonneg vec). assert (0 <= size * Z.of_nat n) by nia.
  destruct (bit i val) eqn:E.
  - rewrite Hoff by lia. cbn [bind]. rewrite msize by auto. rewrite (Z.mod_small (ret + _)) by lia. unfold step. apply IHn; lia.
  - rewrite msize by auto. unfold step. apply IHn; lia.
Qed.
Lemma bits_top i x : 0 <= x -> 0 <= i < len -> Z.lor (Z.shiftl (top i x) 1) (Z.b2z (bit i x)) = top (i + 1) x.
Proof.
  intros Hx Hi. rewrite top_step by auto. rewrite Z.shiftl_mul_pow2 by lia. change (2 ^ 1) with 2. rewrite (Z.mul_comm (top i x)).
  destruct (bit i x); cbn [Z.b2z].
  - rewrite Z.lor_comm. destruct (top i x) as [|q|q] eqn:E; auto. exfalso. unfold top in E. pose proof (Z.div_pos x (2 ^ (len - i)) Hx ltac:(apply Z.pow_pos_nonneg; lia)). lia.
  - rewrite Z.lor_0_r. lia.
Qed.
Lemma top_bounds i x : 0 <= i <= len -> 0 <= x < 2 ^ len -> 0 <= top i x < 2 ^ 64.
Proof.
  intros Hi Hx. unfold top. assert (0 < 2 ^ (len - i)) by (apply Z.pow_pos_nonneg; lia). split; [apply Z.div_pos; lia|]. apply Z.le_lt_trans with x; [apply Z.div_le_upper_bound; nia|]. assert (2 ^ len <= 2 ^ 16) by (apply Z.pow_le_mono_r; lia). lia.
Qed.
Lemma get2_loop_walk x : 0 <= x < 2 ^ len -> forall n i p, Z.of_nat n = len - i -> 0 <= i -> 0 <= p < size -> nth (Z.to_nat p) (lay (Z.to_nat i)) 0 = x ->
  get2_loop x64 wide w n i (top i x) p = Ok (x, walk n i x p).
Proof.
  intros Hx. induction n; intros i p Hn Hi Hp Hnth; cbn [get2_loop walk].
  - assert (i = len) by lia. subst i. rewrite top_len. auto.
  - cbn [w w_svv w_off]. destruct (Hsvv i ltac:(lia)) as (sv & -> & R & G & _). cbn [bind]. rewrite G by auto. cbn [bind]. rewrite Hnth. rewrite R by lia. cbn [bind].
    rewrite bits_top by lia. rewrite (Z.mod_small (top (i + 1) x)) by (apply top_bounds; lia). destruct (step_firstn i (bit i x) p Hi ltac:(lia)) as (B & _ & S). destruct (S x ltac:(lia) Hnth eq_refl) as (S1 & S2). unfold step in *. destruct (bit i x).
    + rewrite Hoff by lia. cbn [bind]. rewrite msize by auto. apply IHn; auto; lia.
    + cbn [bind]. rewrite msize by auto. apply IHn; auto; lia.
Qed.
Lemma get_loop_walk x : 0 <= x < 2 ^ len -> forall n i p, Z.of_nat n = len - 1 - i -> 0 <= i -> 0 <= p < size -> nth (Z.to_nat p) (lay (Z.to_nat i)) 0 = x ->
  get_loop x64 wide w n i (top i x) p = Ok x.
Proof.
  intros Hx. induction n; intros i p Hn Hi Hp Hnth; cbn [get_loop]; cbn [w w_svv w_off]; destruct (Hsvv i ltac:(lia)) as (sv & -> & R & G & _); cbn [bind]; rewrite G by auto; cbn [bind]; rewrite Hnth;
    rewrite bits_top by lia; rewrite (Z.mod_small (top (i + 1) x)) by (apply top_bounds; lia).
  - replace (i + 1) with len by lia. rewrite top_len. auto.
  - rewrite R by lia. cbn [bind]. destruct (step_firstn i (bit i x) p Hi ltac:(lia)) as (B & _ & S). destruct (S x ltac:(lia) Hnth eq_refl) as (S1 & S2). unfold step in *. destruct (bit i x).
    + rewrite Hoff by lia. cbn [bind]. rewrite msize by auto. apply IHn; auto; lia.
    + cbn [bind]. rewrite msize by auto. apply IHn; auto; lia.
Qed.
End W.

(** ** the tables *)
Lemma bit_sum n i pos u : Z.of_nat (S n) = len - i -> 0 <= i -> pos mod 2 ^ Z.of_nat (S n) = 0 -> 0 <= u < 2 ^ Z.of_nat (S n) -> bit i (pos + u) = (2 ^ Z.of_nat n <=? u).
Proof.
  intros Hn Hi Hm Hu. unfold bit. replace (len - 1 - i) with (Z.of_nat n) by lia. rewrite Nat2Z.inj_succ, Z.pow_succ_r in * by lia. set (P := 2 ^ Z.of_nat n) in *. assert (0 < P) by (apply Z.pow_pos_nonneg; lia).
  apply eq_true_iff_eq. rewrite Z.testbit_true by lia. fold P. rewrite Z.leb_le. pose proof (Z.div_mod pos (2 * P) ltac:(lia)) as D. rewrite Hm in D. set (q := pos / (2 * P)) in *.
  destruct (Z_lt_ge_dec u P).
  - replace ((pos + u) / P) with (2 * q); [|apply (Z.div_unique _ _ _ u); lia]. rewrite Z.mul_comm, Z.mod_mul by lia. lia.
  - replace ((pos + u) / P) with (q * 2 + 1); [|apply (Z.div_unique _ _ _ (u - P)); lia]. rewrite Z.add_comm, Z.mod_add by lia. change (1 mod 2) with 1. lia.
Qed.

Lemma mod_half pos P : 0 < P -> pos mod (2 * P) = 0 -> pos mod P = 0.
Proof. intros HP Hm. apply Z.mod_divide; [lia|]. apply Z.mod_divide in Hm; [|lia]. eapply Z.divide_trans; [|apply Hm]. exists 2. lia. Qed.
Lemma from_tbl_spec : forall n i pos tbl p, Z.of_nat n = len - i -> 0 <= i -> 0 <= p <= size -> 0 <= pos -> pos mod 2 ^ Z.of_nat n = 0 -> pos + 2 ^ Z.of_nat n <= zlen tbl ->
  exists tbl', initFromTbl x64 wide svv off n tbl pos p i = Ok tbl' /\ zlen tbl' = zlen tbl /\
    forall v, 0 <= v -> rd tbl' v = if (pos <=? v) && (v <? pos + 2 ^ Z.of_nat n) then Ok (walk n i v p) else rd tbl v.
Proof.
  induction n; intros i pos tbl p Hn Hi Hp Hpos Hm Hl.
  - cbn [initFromTbl walk]. change (2 ^ Z.of_nat 0) with 1 in *. rewrite wr_ok by lia. eexists. split; [reflexivity|]. split; [unfold zlen; rewrite upd_length; auto|]. intros v Hv. rewrite Z.mod_small by lia. destruct (Z.eq_dec v pos) as [->|].
    + rewrite rd_upd_eq by lia. destruct (_ && _) eqn:?; [auto|lia].
    + rewrite rd_upd_ne by lia. destruct (_ && _) eqn:?; [lia|auto].
  - pose proof (bit_sum n i pos) as BS. cbn [initFromTbl]. rewrite Z.shiftl_mul_pow2, Z.mul_1_l by lia. rewrite Nat2Z.inj_succ, Z.pow_succ_r in * by lia. assert (HP: 0 < 2 ^ Z.of_nat n) by (apply Z.pow_pos_nonneg; lia).
    destruct (Hsvv i ltac:(lia)) as (sv & -> & R & _). cbn [bind]. unfold sv_rank, sv_rank0. rewrite R by auto. cbn [bind].
    destruct (step_firstn i false p Hi Hp) as (B0 & _). destruct (step_firstn i true p Hi Hp) as (B1 & _). unfold step in B0, B1. rewrite msize by auto.
    assert (M0: pos mod 2 ^ Z.of_nat n = 0) by (apply mod_half; auto).
    destruct (IHn (i + 1) pos tbl (p - ones i p) ltac:(lia) ltac:(lia) B0 Hpos M0 ltac:(lia)) as (t1 & E1 & L1 & T1). rewrite E1. cbn [bind]. rewrite Hoff by lia. cbn [bind]. rewrite msize by lia.
    destruct (IHn (i + 1) (pos + 2 ^ Z.of_nat n) t1 (ones i p + zeros i) ltac:(lia) ltac:(lia) ltac:(lia) ltac:(lia)) as (t2 & E2 & L2 & T2).
    { rewrite <- (Z.mul_1_l (2 ^ Z.of_nat n)) at 1. rewrite Z.mod_add by lia. auto. }
    { lia. }
    rewrite E2. exists t2. split; auto. split; [lia|]. intros v Hv. rewrite T2, T1 by lia. cbn [walk].
    destruct ((pos <=? v) && (v <? pos + 2 * 2 ^ Z.of_nat n)) eqn:EV.
    + assert (bit i v = (2 ^ Z.of_nat n <=? v - pos)) as EB. { rewrite <- (BS (v - pos)); try lia. f_equal. lia. } rewrite EB. unfold step.
      destruct (2 ^ Z.of_nat n <=? v - pos) eqn:?.
      * destruct ((pos + _ <=? v) && _) eqn:?; [|lia]. rewrite (Z.add_comm (ones i p)). auto.
      * destruct ((pos + _ <=? v) && _) eqn:?; [lia|]. destruct ((pos <=? v) && (v <? pos + 2 ^ Z.of_nat n)) eqn:?; [auto|lia].
    + destruct ((pos + _ <=? v) && _) eqn:?; [lia|]. destruct ((pos <=? v) && (v <? pos + 2 ^ Z.of_nat n)) eqn:?; [lia|auto].
Qed.
Lemma fromLt_tbl_spec : forall n i pos tbl p ret, Z.of_nat n = len - i -> 0 <= i -> 0 <= p <= size -> 0 <= pos -> pos mod 2 ^ Z.of_nat n = 0 -> pos + 2 ^ Z.of_nat n <= zlen tbl ->
  0 <= ret -> ret + size * Z.of_nat n < 2 ^ 64 ->
  exists tbl', initFromLtTbl x64 wide svv off n tbl pos p ret i = Ok tbl' /\ zlen tbl' = zlen tbl /\
    forall v, 0 <= v -> rd tbl' v = if (pos <=? v) && (v <? pos + 2 ^ Z.of_nat n) then Ok (walkLt n i v p ret mod 2 ^ 32) else rd tbl v.
Proof.
  induction n; intros i pos tbl p ret Hn Hi Hp Hpos Hm Hl Hr Hr2.
  - cbn [initFromLtTbl walkLt]. change (2 ^ Z.of_nat 0) with 1 in *. rewrite wr_ok by lia. eexists. split; [reflexivity|]. split; [unfold zlen; rewrite upd_length; auto|]. intros v Hv. destruct (Z.eq_dec v pos) as [->|].
    + rewrite rd_upd_eq by lia. destruct (_ && _) eqn:?; [auto|lia].
    + rewrite rd_upd_ne by lia. destruct (_ && _) eqn:?; [lia|auto].
  - pose proof (bit_sum n i pos) as BS. cbn [initFromLtTbl]. rewrite Z.shiftl_mul_pow2, Z.mul_1_l by lia. assert (HS: size * Z.of_nat (S n) = size * Z.of_nat n + size) by nia. rewrite HS in Hr2. rewrite Nat2Z.inj_succ, Z.pow_succ_r in * by lia. assert (HP: 0 < 2 ^ Z.of_nat n) by (apply Z.pow_pos_nonneg; lia).
    destruct (Hsvv i ltac:(lia)) as (sv & -> & R & _). cbn [bind]. rewrite R by auto. cbn [bind].
    destruct (step_firstn i false p Hi Hp) as (B0 & _). destruct (step_firstn i true p Hi Hp) as (B1 & _). pose proof (ones_bounds i p Hp). unfold step in B0, B1. rewrite msize by auto.
    assert (M0: pos mod 2 ^ Z.of_nat n = 0) by (apply mod_half; auto).
    pose proof (zlen_nonneg vec). assert (0 <= size * Z.of_nat n) by nia.
    destruct (IHn (i + 1) pos tbl (p - ones i p) ret ltac:(lia) ltac:(lia) B0 Hpos M0 ltac:(lia) Hr ltac:(lia)) as (t1 & E1 & L1 & T1). rewrite E1. cbn [bind]. rewrite Hoff by lia. cbn [bind]. rewrite (msize (zeros i + _)) by lia. rewrite (Z.mod_small (ret + p - _)) by lia.
    destruct (IHn (i + 1) (pos + 2 ^ Z.of_nat n) t1 (zeros i + ones i p) (ret + p - ones i p) ltac:(lia) ltac:(lia) ltac:(lia) ltac:(lia)) as (t2 & E2 & L2 & T2); try lia.
    { rewrite <- (Z.mul_1_l (2 ^ Z.of_nat n)) at 1. rewrite Z.mod_add by lia. auto. }
    rewrite E2. exists t2. split; auto. split; [lia|]. intros v Hv. rewrite T2, T1 by lia. cbn [walkLt].
    destruct ((pos <=? v) && (v <? pos + 2 * 2 ^ Z.of_nat n)) eqn:EV.
    + assert (bit i v = (2 ^ Z.of_nat n <=? v - pos)) as EB. { rewrite <- (BS (v - pos)); try lia. f_equal. lia. } rewrite EB. unfold step.
      destruct (2 ^ Z.of_nat n <=? v - pos) eqn:?.
      * destruct ((pos + _ <=? v) && _) eqn:?; [|lia]. replace (ret + p - ones i p) with (ret + (p - ones i p)) by lia. auto.
      * destruct ((pos + _ <=? v) && _) eqn:?; [lia|]. destruct ((pos <=? v) && (v <? pos + 2 ^ Z.of_nat n)) eqn:?; [auto|lia].
    + destruct ((pos + _ <=? v) && _) eqn:?; [lia|]. destruct ((pos <=? v) && (v <? pos + 2 ^ Z.of_nat n)) eqn:?; [lia|auto].
Qed.
End V.
