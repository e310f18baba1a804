(** C30, C61: the wavelet matrix. *)
Require Import Verif.Common Verif.StreamModel Verif.StreamProps Verif.EndianModel Verif.EndianProps Verif.SerializerModel Verif.SerializerProps Verif.BitVecModel Verif.BitVecProps Verif.SucModel Verif.SucProps Verif.WaveletModel Verif.WaveletProof.
Ltac Zify.zify_post_hook ::= idtac.

(** * Specification *)
(** number of v in l, number of values of l smaller than v; the first pos values *)
Definition occ (v : Z) (l : list Z) : Z := Z.of_nat (count_occ Z.eq_dec l v).
Definition occLt (v : Z) (l : list Z) : Z := zlen (filter (fun x => x <? v) l).
Definition before (pos : Z) (l : list Z) : list Z := firstn (Z.to_nat pos) l.

(** the sequences of the theorems: fewer than 2^32 values of valBitLen bits *)
Definition input_ok (vec : list Z) (valBitLen : Z) : Prop :=
  0 <= valBitLen <= 16 /\ zlen vec < 2 ^ 32 /\ Forall (fun x => 0 <= x < 2 ^ valBitLen) vec.
(** objects init may be called on: a new one, one already initialised, one that was loaded *)
Definition reusable (w : wmatrix) : Prop :=
  Forall sv_wf (w_svv w) /\ Forall (fun t => t = [] \/ rd t 0 = Ok 0) (w_sel w).

(** * Proofs *)
Lemma filter_occ v l : zlen (filter (fun x => x =? v) l) = occ v l.
Proof.
  unfold occ, zlen. f_equal. induction l as [|x l IH]; auto. cbn [filter count_occ]. destruct (Z.eq_dec x v) as [->|N].
  - rewrite Z.eqb_refl. cbn [length]. lia.
  - destruct (x =? v) eqn:?; [lia|auto].
Qed.
Lemma occ_app v a b : occ v (a ++ b) = occ v a + occ v b.
Proof. unfold occ. rewrite count_occ_app. lia. Qed.
Lemma occ_nonneg v l : 0 <= occ v l.
Proof. unfold occ. lia. Qed.
Lemma occ_le v l : occ v l <= zlen l.
Proof. unfold occ, zlen. pose proof (count_occ_bound Z.eq_dec v l). lia. Qed.
Lemma before_succ l p d : 0 <= p < zlen l -> before (p + 1) l = before p l ++ [nth (Z.to_nat p) l d].
Proof.
  intros Hp. unfold before, zlen in *. replace (Z.to_nat (p + 1)) with (S (Z.to_nat p)) by lia. assert (H: (Z.to_nat p < length l)%nat) by lia. revert H. generalize (Z.to_nat p). clear Hp. induction l; intros [|n] H; cbn [length] in H; try lia; auto. cbn [firstn nth app]. f_equal. apply IHl. lia.
Qed.
Lemma before_all l p : zlen l <= p -> before p l = l.
Proof. intros. unfold before, zlen in *. apply firstn_all2. lia. Qed.
Lemma occ_succ v l p : 0 <= p < zlen l -> occ v (before (p + 1) l) = occ v (before p l) + (if nth (Z.to_nat p) l 0 =? v then 1 else 0).
Proof.
  intros. rewrite (before_succ l p 0) by auto. rewrite occ_app. f_equal. unfold occ. cbn [count_occ]. destruct (Z.eq_dec _ v) as [->|N]; [rewrite Z.eqb_refl; auto|]. destruct (_ =? v) eqn:?; [lia|auto].
Qed.
Lemma occ_mono v l p q : 0 <= p <= q -> occ v (before p l) <= occ v (before q l).
Proof.
  intros H. unfold before. replace (Z.to_nat q) with (Z.to_nat p + (Z.to_nat q - Z.to_nat p))%nat by lia. rewrite <- (firstn_skipn (Z.to_nat p) (firstn (Z.to_nat p + _) l)). rewrite firstn_firstn, Nat.min_l by lia. rewrite occ_app. pose proof (occ_nonneg v (skipn (Z.to_nat p) (firstn (Z.to_nat p + (Z.to_nat q - Z.to_nat p)) l))). lia.
Qed.

Section P.
Variables x64 wide svSelect withSelect : bool.
Variables (vec : list Z) (len : Z).
Hypothesis Hin : input_ok vec len.
Let Hlen : 0 <= len <= 16 := proj1 Hin.
Let Hvec : zlen vec < 2 ^ 32 := proj1 (proj2 Hin).
Let Hval : Forall (fun x => 0 <= x < 2 ^ len) vec := proj2 (proj2 Hin).

(** what init establishes, without the select tables *)
Definition wm_layers_ok (w : wmatrix) : Prop :=
  w_maxVal w = 2 ^ len /\ w_bitLen w = len /\ w_size w = zlen vec /\ zlen (w_svv w) = len /\ Forall sv_wf (w_svv w) /\
  (forall k, 0 <= k < len -> exists sv, rd (w_svv w) k = Ok sv /\ layer_ok x64 wide vec len k sv) /\
  zlen (w_off w) = len /\ (forall k, 0 <= k < len -> rd (w_off w) k = Ok (zeros vec len k)) /\
  zlen (w_from w) = 2 ^ len /\ (forall v, 0 <= v < 2 ^ len -> rd (w_from w) v = Ok (walk vec len (Z.to_nat len) 0 v 0)) /\
  zlen (w_fromLt w) = 2 ^ len /\ (forall v, 0 <= v < 2 ^ len -> rd (w_fromLt w) v = Ok (walkLt vec len (Z.to_nat len) 0 v 0 0 mod 2 ^ 32)).
(** the select table of v: entry k > 0 is the position after the 256 k-th v *)
Definition sel_ok (v : Z) (t : list Z) : Prop :=
  zlen t = getBlockNum (occ v vec) 256 /\
  forall k, 0 <= k < zlen t -> exists x, rd t k = Ok x /\ 0 <= x <= zlen vec /\ occ v (before x vec) = 256 * k /\ (k = 0 -> x = 0).
Definition wm_ok (w : wmatrix) : Prop :=
  wm_layers_ok w /\
  (withSelect = true -> zlen (w_sel w) = 2 ^ len /\ forall v, 0 <= v < 2 ^ len -> exists t, rd (w_sel w) v = Ok t /\ sel_ok v t).

Lemma pow_len : 0 < 2 ^ len <= 2 ^ 16.
Proof. split; [apply Z.pow_pos_nonneg; lia|apply Z.pow_le_mono_r; lia]. Qed.
Lemma clamp pos : 0 <= pos -> 0 <= (if zlen vec <? pos then zlen vec else pos) <= zlen vec /\ before (if zlen vec <? pos then zlen vec else pos) vec = before pos vec.
Proof. intros. pose proof (zlen_nonneg vec). destruct (zlen vec <? pos) eqn:?; split; try lia; auto. rewrite !before_all by lia. auto. Qed.
Lemma wm_eta w : w = mk_wm (w_maxVal w) (w_bitLen w) (w_size w) (w_svv w) (w_off w) (w_from w) (w_fromLt w) (w_sel w).
Proof. destruct w; auto. Qed.
Lemma rank_ok w val pos : wm_layers_ok w -> 0 <= val < 2 ^ len -> 0 <= pos -> wm_rank x64 wide w val pos = Ok (occ val (before pos vec)).
Proof.
  intros (H1 & H2 & H3 & H4 & H5 & H6 & H7 & H8 & H9 & H10 & _) Hv Hp. unfold wm_rank. destruct (clamp pos Hp) as (C1 & C2). rewrite H3. set (p := if zlen vec <? pos then zlen vec else pos) in *. rewrite H2.
  rewrite (wm_eta w), H2, H3. rewrite (rank_loop_walk x64 wide vec len Hvec (w_svv w) (w_off w) H6 H8) by (auto; lia). cbn [bind w_from]. rewrite H10 by auto. cbn [bind].
  destruct (walk_rank vec len Hlen Hval val p Hv C1) as (W & _). rewrite W, filter_occ. change (firstn (Z.to_nat p) vec) with (before p vec). rewrite C2. rewrite Z.mod_small; auto.
  pose proof (occ_le val (before pos vec)). pose proof (occ_nonneg val (before pos vec)). unfold before in *. unfold zlen in *. rewrite firstn_length in *. lia.
Qed.
Lemma rankLt_ok w val pos : wm_layers_ok w -> (len - 1) * zlen vec < 2 ^ 32 -> 0 <= val < 2 ^ len -> 0 <= pos -> wm_rankLt x64 wide w val pos = Ok (occLt val (before pos vec)).
Proof.
  intros (H1 & H2 & H3 & H4 & H5 & H6 & H7 & H8 & H9 & H10 & H11 & H12) HB Hv Hp. unfold wm_rankLt. destruct (clamp pos Hp) as (C1 & C2). rewrite H3. set (p := if zlen vec <? pos then zlen vec else pos) in *. rewrite H2.
  rewrite (wm_eta w), H2, H3. pose proof (zlen_nonneg vec). assert (zlen vec * len <= zlen vec * 16) by (apply Z.mul_le_mono_nonneg_l; lia).
  rewrite (rankLt_loop_walk x64 wide vec len Hvec (w_svv w) (w_off w) H6 H8) by (auto; rewrite ?Z2Nat.id; lia). cbn [bind w_fromLt]. rewrite H12 by auto. cbn [bind].
  destruct (walk_rank vec len Hlen Hval val p Hv C1) as (_ & W).
  assert (F: 0 <= walkLt vec len (Z.to_nat len) 0 val 0 0 <= Z.max 0 ((len - 1) * zlen vec)).
  { destruct (Z.eq_dec len 0) as [E|]; [rewrite E; cbn; lia|]. replace (Z.to_nat len) with (S (Z.to_nat (len - 1))) by lia. cbn [walkLt]. assert (ones vec len 0 0 = 0) as -> by (pose proof (ones_bounds vec len 0 0); lia).
    destruct (step_firstn vec len 0 (bit len 0 val) 0) as (B & _); try lia. pose proof (walkLt_bounds vec len val (Z.to_nat (len - 1)) (0 + 1) _ 0 ltac:(lia) B ltac:(lia)) as WB. rewrite Z2Nat.id in WB by lia. destruct (bit len 0 val); change (0 + (0 - 0)) with 0; lia. }
  rewrite (Z.mod_small _ (2 ^ 32)) by lia. rewrite W. change (firstn (Z.to_nat p) vec) with (before p vec). rewrite C2. fold (occLt val (before pos vec)). rewrite Z.mod_small; auto. unfold occLt.
  pose proof (zlen_filter_split (fun x => x <? val) (before pos vec)) as FS. pose proof (zlen_nonneg (filter (fun x => negb (x <? val)) (before pos vec))). pose proof (zlen_nonneg (filter (fun x => x <? val) (before pos vec))).
  assert (zlen (before pos vec) <= zlen vec) by (unfold before, zlen; rewrite firstn_length; lia). cbn beta in FS. lia.
Qed.
Lemma get_ok w pos : wm_layers_ok w -> 0 < len -> 0 <= pos < zlen vec -> wm_get x64 wide w pos = Ok (nth (Z.to_nat pos) vec 0).
Proof.
  intros (H1 & H2 & H3 & H4 & H5 & H6 & H7 & H8 & _) Hl Hp. unfold wm_get. rewrite H2. rewrite (wm_eta w), H2, H3.
  set (x := nth (Z.to_nat pos) vec 0). assert (Hx: 0 <= x < 2 ^ len). { rewrite Forall_forall in Hval. apply Hval. apply nth_In. unfold zlen in *. lia. }
  pose proof (get_loop_walk x64 wide vec len Hlen Hvec (w_svv w) (w_off w) H6 H8 (w_maxVal w) (w_from w) (w_fromLt w) (w_sel w) x Hx (Z.to_nat (len - 1)) 0 pos ltac:(lia) ltac:(lia) Hp eq_refl) as G. rewrite top_0 in G by auto. auto.
Qed.
Lemma get_exn w pos : wm_layers_ok w -> 0 < len -> zlen vec <= pos -> wm_get x64 wide w pos = Exn.
Proof.
  intros (H1 & H2 & H3 & H4 & H5 & H6 & H7 & H8 & _) Hl Hp. unfold wm_get. destruct (H6 0 ltac:(lia)) as (sv & E & _ & _ & G). destruct (Z.to_nat _); cbn [get_loop]; rewrite E; cbn [bind]; rewrite G by lia; auto.
Qed.
Lemma get2_ok w pos : wm_layers_ok w -> 0 < len -> 0 <= pos < zlen vec -> wm_get2 x64 wide w pos = Ok (nth (Z.to_nat pos) vec 0, occ (nth (Z.to_nat pos) vec 0) (before pos vec)).
Proof.
  intros W Hl Hp. pose proof W as (H1 & H2 & H3 & H4 & H5 & H6 & H7 & H8 & H9 & H10 & _). unfold wm_get2.
  set (x := nth (Z.to_nat pos) vec 0). assert (Hx: 0 <= x < 2 ^ len). { rewrite Forall_forall in Hval. apply Hval. apply nth_In. unfold zlen in *. lia. }
  pose proof (rank_ok w x pos W Hx ltac:(lia)) as RK. unfold wm_rank in RK.
  rewrite H2, H3 in *. destruct (zlen vec <? pos) eqn:?; [lia|]. rewrite (wm_eta w), H2, H3 in RK |- *. rewrite (rank_loop_walk x64 wide vec len Hvec (w_svv w) (w_off w) H6 H8) in RK by (auto; lia).
  assert (G: get2_loop x64 wide (mk_wm (w_maxVal w) len (zlen vec) (w_svv w) (w_off w) (w_from w) (w_fromLt w) (w_sel w)) (Z.to_nat len) 0 0 pos = Ok (x, walk vec len (Z.to_nat len) 0 x pos)).
  { pose proof (get2_loop_walk x64 wide vec len Hlen Hvec (w_svv w) (w_off w) H6 H8 (w_maxVal w) (w_from w) (w_fromLt w) (w_sel w) x Hx (Z.to_nat len) 0 pos ltac:(lia) ltac:(lia) Hp eq_refl) as G. rewrite top_0 in G by auto. auto. }
  rewrite G. cbn [bind w_from] in *. rewrite H10 in * by auto. cbn [bind] in *. assert (J: forall a b : Z, Ok a = Ok b -> a = b) by congruence. apply J in RK. rewrite RK. auto.
Qed.
Lemma get2_exn w pos : wm_layers_ok w -> 0 < len -> zlen vec <= pos -> wm_get2 x64 wide w pos = Exn.
Proof.
  intros (H1 & H2 & H3 & H4 & H5 & H6 & H7 & H8 & _) Hl Hp. unfold wm_get2. destruct (H6 0 ltac:(lia)) as (sv & E & _ & _ & G). rewrite H2. replace (Z.to_nat len) with (S (Z.to_nat (len - 1))) by lia. cbn [get2_loop]. rewrite E. cbn [bind]. rewrite G; auto. rewrite H3. destruct (_ <? _) eqn:?; lia.
Qed.

(** ** select *)
Section Sel.
Variable w : wmatrix.
Hypothesis Hw : wm_layers_ok w.
Lemma bsearch_ok val t : 0 <= val < 2 ^ len -> forall fuel L R, 0 <= L <= R -> (Z.to_nat (R - L) < fuel)%nat ->
  exists M, wm_bsearch x64 wide fuel w val L R t = Ok M /\ L <= M <= R /\ (forall j, L <= j < M -> occ val (before j vec) < t) /\ (M < R -> t <= occ val (before M vec)).
Proof.
  intros Hv. induction fuel; intros L R HL Hf; [lia|]. cbn [wm_bsearch]. destruct (L <? R) eqn:E; [|exists L; repeat split; intros; try lia].
  set (M := (L + R) / 2). assert (HM: L <= M < R) by (unfold M; pose proof (Z.div_mod (L + R) 2 ltac:(lia)); pose proof (Z.mod_pos_bound (L + R) 2 ltac:(lia)); lia).
  rewrite rank_ok by (auto; lia). cbn [bind]. destruct (_ <? t) eqn:Et.
  - destruct (IHfuel (M + 1) R ltac:(lia) ltac:(lia)) as (M' & EM & B & P1 & P2). exists M'. split; auto. split; [lia|]. split; auto. intros j Hj. destruct (Z_lt_ge_dec M j); [apply P1; lia|]. pose proof (occ_mono val vec j M ltac:(lia)). lia.
  - destruct (IHfuel L M ltac:(lia) ltac:(lia)) as (M' & EM & B & P1 & P2). exists M'. split; auto. split; [lia|]. split; auto. intros _. destruct (Z.eq_dec M' M) as [->|]; [lia|]. apply P2. lia.
Qed.
Lemma select_ok val r t : withSelect = true -> rd (w_sel w) val = Ok t -> sel_ok val t -> 0 <= val < 2 ^ len -> 0 <= r ->
  exists p, wm_select x64 wide withSelect w val r = Ok p /\
    ((r < occ val vec -> 0 <= p < zlen vec /\ nth (Z.to_nat p) vec 0 = val /\ occ val (before p vec) = r) /\ (occ val vec <= r -> p = none)).
Proof.
  intros HS Et (ST1 & ST2) Hv Hr. unfold wm_select. rewrite HS. cbn [negb]. rewrite Et. cbn [bind].
  pose proof (occ_nonneg val vec) as O1. pose proof (occ_le val vec) as O2. unfold getBlockNum in ST1. rewrite Z.mod_small in ST1 by lia.
  assert (D: zlen t = (occ val vec + 255) / 256) by (rewrite ST1; f_equal; lia). pose proof (Z.div_mod (occ val vec + 255) 256 ltac:(lia)) as D1. pose proof (Z.mod_pos_bound (occ val vec + 255) 256 ltac:(lia)). rewrite <- D in D1.
  pose proof (Z.div_mod r 256 ltac:(lia)) as D2. pose proof (Z.mod_pos_bound r 256 ltac:(lia)). set (q := r / 256) in *. assert (0 <= q) by (unfold q; apply Z.div_pos; lia).
  destruct (zlen t <=? q) eqn:Eq; [exists none; split; auto; split; intros; [lia|auto]|].
  destruct (ST2 q ltac:(lia)) as (L & EL & BL & CL & _). rewrite EL. cbn [bind]. destruct Hw as (_ & _ & HSz & _). rewrite HSz.
  assert (HR: exists R, (if zlen t - 1 <=? q then Ok (zlen vec) else rd t (q + 1)) = Ok R /\ 0 <= R <= zlen vec /\ (r < occ val vec -> r + 1 <= occ val (before R vec)) /\ L <= R /\ (occ val vec <= r -> R = zlen vec)).
  { destruct (zlen t - 1 <=? q) eqn:E2.
    - exists (zlen vec). split; auto. rewrite before_all by lia. repeat split; try lia. 
    - destruct (ST2 (q + 1) ltac:(lia)) as (R & ER & BR & CR & _). exists R. split; auto. split; auto. split; [lia|]. split; [|lia]. destruct (Z_le_gt_dec L R); auto. pose proof (occ_mono val vec R L ltac:(lia)). lia. }
  destruct HR as (R & ER & BR & PR & LR & NR). rewrite ER. cbn [bind]. pose proof (zlen_nonneg vec). rewrite (Z.mod_small (r + 1)) by lia.
  destruct (bsearch_ok val (r + 1) Hv (S (S (Z.to_nat (zlen vec)))) L R ltac:(lia) ltac:(lia)) as (M & EM & BM & P1 & P2). rewrite EM. cbn [bind].
  destruct (Z_lt_ge_dec r (occ val vec)) as [C|C].
  - assert (GM: r + 1 <= occ val (before M vec)) by (destruct (Z_lt_ge_dec M R); [auto|replace M with R by lia; auto]).
    assert (HM: L < M) by (destruct (Z.eq_dec L M) as [<-|]; lia). destruct (0 <? M) eqn:?; [|lia]. pose proof (P1 (M - 1) ltac:(lia)) as PM. pose proof (occ_succ val vec (M - 1) ltac:(lia)) as SM. replace (M - 1 + 1) with M in SM by lia.
    destruct (nth (Z.to_nat (M - 1)) vec 0 =? val) eqn:En; [|lia].
    exists (M - 1). split; [|split; [intros _; repeat split; lia|intros; lia]].
    remember (S (Z.to_nat (zlen vec))) as f eqn:Hf. cbn [wm_scan]. rewrite rank_ok by (auto; lia). cbn [bind]. destruct (_ =? r + 1) eqn:?; [lia|]. rewrite HSz. destruct (_ <? M - 1 + 1) eqn:?; [lia|]. rewrite Hf. cbn [wm_scan]. rewrite rank_ok by (auto; lia). cbn [bind]. replace (M - 1 + 1) with M by lia. destruct (occ val (before M vec) =? r + 1) eqn:?; [|lia]. f_equal. apply Z.mod_small. lia.
  - assert (MV: M = zlen vec). { rewrite NR in * by lia. destruct (Z_lt_ge_dec M (zlen vec)) as [l|]; [|lia]. specialize (P2 l). pose proof (occ_mono val vec M (zlen vec) ltac:(lia)). rewrite (before_all vec (zlen vec)) in * by lia. lia. }
    exists none. split; [|split; [intros; lia|auto]].
    assert (N: forall p, 0 <= p -> occ val (before p vec) <> r + 1). { intros p Hp. destruct (Z_lt_ge_dec p (zlen vec)). - pose proof (occ_mono val vec p (zlen vec) ltac:(lia)). rewrite (before_all vec (zlen vec)) in * by lia. lia. - rewrite before_all by lia. lia. }
    set (L0 := if 0 <? M then M - 1 else M). assert (HL0: 0 <= L0 <= zlen vec) by (unfold L0; destruct (0 <? M) eqn:?; lia).
    remember (S (Z.to_nat (zlen vec))) as f eqn:Hf. cbn [wm_scan]. rewrite rank_ok by (auto; lia). cbn [bind]. pose proof (N L0 ltac:(lia)). destruct (_ =? r + 1) eqn:?; [lia|]. rewrite HSz. destruct (_ <? L0 + 1) eqn:?; auto.
    rewrite Hf. cbn [wm_scan]. rewrite rank_ok by (auto; lia). cbn [bind]. pose proof (N (L0 + 1) ltac:(lia)). destruct (occ val (before (L0 + 1) vec) =? r + 1) eqn:?; [lia|]. rewrite HSz. destruct (zlen vec <? L0 + 1 + 1) eqn:?; auto. unfold L0 in *. destruct (0 <? M) eqn:?; lia.
Qed.
Lemma rd_resize0 t n : (t = [] \/ rd t 0 = Ok 0) -> 0 < n -> rd (resize_l 0 t n) 0 = Ok 0.
Proof.
  intros H Hn. unfold resize_l. destruct t as [|a t].
  - rewrite firstn_nil. cbn [app length]. rewrite Nat.sub_0_r. destruct (Z.to_nat n) eqn:?; [lia|auto].
  - destruct H as [H|H]; [discriminate|]. destruct (Z.to_nat n) eqn:?; [lia|]. cbn in H |- *. auto.
Qed.
Lemma alloc_ok : forall n v tbl, v + Z.of_nat n = 2 ^ len -> 0 <= v -> zlen tbl = 2 ^ len ->
  (forall u t, 0 <= u < 2 ^ len -> rd tbl u = Ok t -> t = [] \/ rd t 0 = Ok 0) ->
  exists tbl', sel_alloc x64 wide n v w tbl = Ok tbl' /\ zlen tbl' = 2 ^ len /\ (forall u, 0 <= u < v -> rd tbl' u = rd tbl u) /\
    (forall u, v <= u < 2 ^ len -> exists t, rd tbl' u = Ok t /\ zlen t = getBlockNum (occ u vec) 256 /\ (0 < zlen t -> rd t 0 = Ok 0)).
Proof.
  induction n; intros v tbl Hn Hv Hl Ht; cbn [sel_alloc].
  - exists tbl. repeat split; auto. intros; lia.
  - unfold wm_sizev. rewrite rank_ok; [|auto|lia|destruct Hw as (_ & _ & -> & _); apply zlen_nonneg]. cbn [bind]. destruct Hw as (_ & _ & HSz & _). rewrite HSz, (before_all vec (zlen vec)) by lia.
    rewrite (rd_nth tbl v []) by lia. cbn [bind]. rewrite wr_ok by lia. cbn [bind]. set (t := nth (Z.to_nat v) tbl []). set (tbl1 := upd _ _ _).
    assert (Ht0: t = [] \/ rd t 0 = Ok 0) by (apply (Ht v); [lia|apply rd_nth; lia]).
    pose proof (occ_nonneg v vec). pose proof (occ_le v vec). assert (GB: 0 <= getBlockNum (occ v vec) 256) by (unfold getBlockNum; apply Z.div_pos; [apply Z.mod_pos_bound|]; lia).
    assert (L1: zlen tbl1 = 2 ^ len) by (unfold tbl1, zlen; rewrite upd_length; auto).
    destruct (IHn (v + 1) tbl1) as (tbl' & E & L' & P1 & P2); try lia.
    { intros u t' Hu. destruct (Z.eq_dec u v) as [->|].
      - unfold tbl1. rewrite rd_upd_eq by lia. intros X. injection X as <-. destruct (Z.eq_dec (getBlockNum (occ v vec) 256) 0) as [->|]; [left; reflexivity|]. right. apply rd_resize0; auto. lia.
      - unfold tbl1. rewrite rd_upd_ne by lia. apply Ht. auto. }
    rewrite E. exists tbl'. split; auto. split; auto. split.
    + intros u Hu. rewrite P1 by lia. unfold tbl1. apply rd_upd_ne; lia.
    + intros u Hu. destruct (Z.eq_dec u v) as [->|]; [|apply P2; lia]. rewrite P1 by lia. unfold tbl1. rewrite rd_upd_eq by lia. eexists. split; [reflexivity|]. rewrite zlen_resize_l by auto. split; auto. intros. apply rd_resize0; auto.
Qed.
(** the loop of initSelTbl over the sequence *)
Definition filled (pos u i c : Z) (t : list Z) : Prop :=
  c = occ u (before pos vec) /\ 1 <= i <= 2 ^ 24 /\ (c < i * 256 \/ zlen t <= i) /\ zlen t = getBlockNum (occ u vec) 256 /\
  forall k, 0 <= k < i -> k < zlen t -> exists x, rd t k = Ok x /\ 0 <= x <= zlen vec /\ occ u (before x vec) = 256 * k /\ (k = 0 -> x = 0).
Lemma blk_bound u : 0 <= getBlockNum (occ u vec) 256 <= 2 ^ 24.
Proof.
  pose proof (occ_nonneg u vec). pose proof (occ_le u vec). unfold getBlockNum. rewrite Z.mod_small by lia. split; [apply Z.div_pos; lia|]. apply Z.lt_succ_r. apply Z.div_lt_upper_bound; lia.
Qed.
Lemma fill_ok : forall n pos iT nT tbl, Z.of_nat n = zlen vec - pos -> 0 <= pos -> zlen iT = 2 ^ len -> zlen nT = 2 ^ len -> zlen tbl = 2 ^ len ->
  (forall u, 0 <= u < 2 ^ len -> exists i c t, rd iT u = Ok i /\ rd nT u = Ok c /\ rd tbl u = Ok t /\ filled pos u i c t) ->
  exists tbl', sel_fill n pos vec iT nT tbl = Ok tbl' /\ zlen tbl' = 2 ^ len /\ forall u, 0 <= u < 2 ^ len -> exists t, rd tbl' u = Ok t /\ sel_ok u t.
Proof.
  induction n; intros pos iT nT tbl Hn Hp L1 L2 L3 HI; cbn [sel_fill].
  - exists tbl. split; auto. split; auto. intros u Hu. destruct (HI u Hu) as (i & c & t & _ & _ & Et & F1 & F2 & F3 & F4 & F5). exists t. split; auto. split; auto. intros k Hk. apply F5; [|lia].
    rewrite F1, before_all in F3 by lia. pose proof (occ_nonneg u vec). pose proof (occ_le u vec). unfold getBlockNum in F4. rewrite Z.mod_small in F4 by lia. pose proof (Z.div_mod (occ u vec + 256 - 1) 256 ltac:(lia)). pose proof (Z.mod_pos_bound (occ u vec + 256 - 1) 256 ltac:(lia)). lia.
  - rewrite (rd_nth vec pos 0) by lia. cbn [bind]. set (v := nth (Z.to_nat pos) vec 0). assert (Hv: 0 <= v < 2 ^ len). { rewrite Forall_forall in Hval. apply Hval. apply nth_In. unfold zlen in *. lia. }
    destruct (HI v Hv) as (i & c & t & Ei & Ec & Et & F1 & F2 & F3 & F4 & F5). rewrite Ei, Ec. cbn [bind].
    pose proof (occ_le v (before pos vec)). pose proof (occ_nonneg v (before pos vec)). assert (zlen (before pos vec) = pos) by (unfold before; apply WaveletProof.zlen_firstn; lia). rewrite (Z.mod_small (c + 1)) by lia. rewrite wr_ok by lia. cbn [bind]. rewrite Et. cbn [bind].
    pose proof (occ_succ v vec pos ltac:(lia)) as SV. fold v in SV. rewrite Z.eqb_refl in SV. cbn iota in SV.
    assert (NV: forall u, u <> v -> occ u (before (pos + 1) vec) = occ u (before pos vec)) by (intros u Nu; rewrite occ_succ by lia; fold v; destruct (v =? u) eqn:?; lia).
    pose proof (blk_bound v) as BB. rewrite <- F4 in BB.
    assert (OTH: forall u i0 c0 t0, u <> v -> filled pos u i0 c0 t0 -> filled (pos + 1) u i0 c0 t0). { intros u i0 c0 t0 Nu (A1 & A2). split; [rewrite NV by auto; auto|auto]. }
    assert (LN: zlen (upd nT (Z.to_nat v) (c + 1)) = 2 ^ len) by (unfold zlen; rewrite upd_length; auto).
    destruct (i * 256 <=? c + 1) eqn:E1; [destruct (i <? zlen t) eqn:E2|].
    + rewrite (Z.mod_small (pos + 1)) by lia. rewrite (Z.mod_small (i + 1)) by lia. rewrite !wr_ok by lia. cbn [bind]. rewrite ?wr_ok by lia. cbn [bind]. apply IHn; try lia; try (unfold zlen; rewrite upd_length; auto).
      intros u Hu. destruct (Z.eq_dec u v) as [->|N].
      * exists (i + 1), (c + 1), (upd t (Z.to_nat i) (pos + 1)). rewrite !rd_upd_eq by lia. split; auto. split; auto. split; auto.
        assert (LU: zlen (upd t (Z.to_nat i) (pos + 1)) = zlen t) by (unfold zlen; rewrite upd_length; auto). split; [lia|]. split; [lia|]. split; [lia|]. rewrite LU. split; [auto|]. intros k Hk Hk2. destruct (Z.eq_dec k i) as [->|].
        -- exists (pos + 1). rewrite rd_upd_eq by lia. repeat split; lia.
        -- rewrite rd_upd_ne by lia. apply F5; lia.
      * rewrite !rd_upd_ne by lia. destruct (HI u Hu) as (i0 & c0 & t0 & A1 & A2 & A3 & A4). exists i0, c0, t0. auto.
    + cbn [bind]. apply IHn; try lia. intros u Hu. destruct (Z.eq_dec u v) as [->|N].
      * exists i, (c + 1), t. rewrite !rd_upd_eq by lia. split; auto. split; auto. split; auto. split; [lia|]. split; [lia|]. split; [lia|]. split; auto.
      * rewrite !rd_upd_ne by lia. destruct (HI u Hu) as (i0 & c0 & t0 & A1 & A2 & A3 & A4). exists i0, c0, t0. auto.
    + cbn [bind]. apply IHn; try lia. intros u Hu. destruct (Z.eq_dec u v) as [->|N].
      * exists i, (c + 1), t. rewrite !rd_upd_eq by lia. split; auto. split; auto. split; auto. split; [lia|]. split; [lia|]. split; [lia|]. split; auto.
      * rewrite !rd_upd_ne by lia. destruct (HI u Hu) as (i0 & c0 & t0 & A1 & A2 & A3 & A4). exists i0, c0, t0. auto.
Qed.
End Sel.

Lemma forall_resize {A} (P : A -> Prop) d l n : P d -> Forall P l -> Forall P (resize_l d l n).
Proof. intros. unfold resize_l. apply Forall_app. split; [apply forall_firstn; auto|]. apply Forall_forall. intros x Hx. apply repeat_spec in Hx. subst. auto. Qed.
Lemma rd_repeat {A} (x : A) n i : 0 <= i < Z.of_nat n -> rd (repeat x n) i = Ok x.
Proof. intros. rewrite (rd_nth _ i x) by (rewrite zlen_repeat; lia). rewrite nth_repeat. auto. Qed.
Lemma init_ok old : reusable old -> exists w, wm_init x64 wide svSelect withSelect old vec len = Ok w /\ wm_ok w /\ reusable w.
Proof.
  intros (R1 & R2). unfold wm_init. pose proof pow_len as PL. pose proof (zlen_nonneg vec). destruct (2 ^ 32 <? zlen vec) eqn:?; [lia|]. destruct (16 <? len) eqn:?; [lia|]. rewrite Z.shiftl_mul_pow2, Z.mul_1_l by lia.
  set (off := map _ _). assert (LO: zlen off = len) by (unfold off, zlen; rewrite map_length, seq_length; lia).
  assert (HO: forall k, 0 <= k < len -> rd off k = Ok (zeros vec len k)).
  { intros k Hk. rewrite (rd_nth _ k 0) by lia. f_equal. unfold off. rewrite nth_map_seq by lia. rewrite Z2Nat.id by lia. rewrite countZero_filter by lia. pose proof (zeros_bounds vec len k) as ZB. unfold zeros in *. change (fun x => negb (Z.testbit x (len - 1 - k))) with (nbit len k). apply Z.mod_small. lia. }
  destruct (layers_spec x64 wide svSelect vec len Hvec off HO (Z.to_nat len) 0 (resize_l sv_empty (w_svv old) len) (repeat 0 (Z.to_nat (zlen vec)))) as (svv & Es & Ls & Fs & _ & Hs); try lia.
  { rewrite zlen_repeat. lia. } { apply zlen_resize_l. lia. } { apply forall_resize; auto. apply wf_empty. }
  cbn [Z.to_nat lay] in Es. rewrite Es. cbn [bind].
  assert (Hs': forall k, 0 <= k < len -> exists sv, rd svv k = Ok sv /\ layer_ok x64 wide vec len k sv) by (intros; apply Hs; lia).
  destruct (from_tbl_spec x64 wide vec len Hvec svv off Hs' HO (Z.to_nat len) 0 0 (resize_l 0 (w_from old) (2 ^ len)) 0) as (from & Ef & Lf & Tf); try lia; try (rewrite Z2Nat.id by lia).
  { apply Z.mod_0_l. lia. } { rewrite zlen_resize_l by lia. lia. }
  rewrite Ef. cbn [bind].
  destruct (fromLt_tbl_spec x64 wide vec len Hvec svv off Hs' HO (Z.to_nat len) 0 0 (resize_l 0 (w_fromLt old) (2 ^ len)) 0 0) as (fromLt & Eg & Lg & Tg); try lia; try (rewrite Z2Nat.id by lia).
  { apply Z.mod_0_l. lia. } { rewrite zlen_resize_l by lia. lia. } { assert (zlen vec * len <= zlen vec * 16) by (apply Z.mul_le_mono_nonneg_l; lia). lia. }
  rewrite Eg. cbn [bind]. set (w0 := mk_wm _ _ _ _ _ _ _ (w_sel old)).
  rewrite zlen_resize_l in Lf, Lg by lia. rewrite Z2Nat.id in Tf, Tg by lia.
  assert (W: forall sel, wm_layers_ok (mk_wm (2 ^ len) len (zlen vec) svv off from fromLt sel)).
  { intros sel. unfold wm_layers_ok. cbn. repeat match goal with |- _ /\ _ => split end; auto.
    - intros v Hv. rewrite Tf by lia. destruct (_ && _) eqn:?; [auto|lia].
    - intros v Hv. rewrite Tg by lia. destruct (_ && _) eqn:?; [auto|lia]. }
  unfold wm_initSelTbl. destruct withSelect eqn:Ew; cbn [negb].
  - cbn [w0 w_maxVal w_sel]. assert (LR: zlen (resize_l [] (w_sel old) (2 ^ len)) = 2 ^ len) by (apply zlen_resize_l; lia).
    assert (FR: Forall (fun t => t = [] \/ rd t 0 = Ok 0) (resize_l [] (w_sel old) (2 ^ len))) by (apply forall_resize; auto).
    destruct (alloc_ok w0 (W _) (Z.to_nat (2 ^ len)) 0 _ ltac:(lia) ltac:(lia) LR) as (tb & Ea & La & _ & Pa).
    { intros u t Hu Et. rewrite Forall_forall in FR. apply FR. rewrite (rd_nth _ u []) in Et by lia. injection Et as <-. apply nth_In. unfold zlen in LR. lia. }
    rewrite Ea. cbn [bind]. rewrite (Z.mod_small (zlen vec)) by lia.
    destruct (fill_ok (Z.to_nat (zlen vec)) 0 (repeat 1 (Z.to_nat (2 ^ len))) (repeat 0 (Z.to_nat (2 ^ len))) tb) as (tb' & Eb & Lb & Pb); try lia; try (rewrite zlen_repeat; lia).
    { intros u Hu. destruct (Pa u ltac:(lia)) as (t & Et & Lt & Zt). exists 1, 0, t. rewrite !rd_repeat by lia. split; auto. split; auto. split; auto. unfold filled. change (before 0 vec) with (@nil Z). change (occ u []) with 0. split; auto. split; [lia|]. split; [lia|]. split; auto.
      intros k Hk Hk2. assert (k = 0) as -> by lia. exists 0. split; [apply Zt; lia|]. change (before 0 vec) with (@nil Z). change (occ u []) with 0. lia. }
    rewrite Eb. cbn [bind]. eexists. split; [reflexivity|]. split; [split; [apply W|]|].
    + intros _. cbn [w_sel]. auto.
    + split; [exact Fs|]. cbn [w_sel]. apply Forall_forall. intros t Ht. apply (In_nth _ _ []) in Ht as (n & Hn & <-). destruct (Pb (Z.of_nat n)) as (t & Et & ST1 & ST2); [unfold zlen in Lb; lia|]. rewrite (rd_nth _ _ []) in Et by (unfold zlen; lia). rewrite Nat2Z.id in Et. injection Et as ->.
      destruct t as [|a t]; [auto|]. right. destruct (ST2 0) as (x & Ex & _ & _ & X0); [rewrite zlen_cons; pose proof (zlen_nonneg t); lia|]. rewrite Ex, X0; auto.
  - cbn [bind]. eexists. split; [reflexivity|]. split; [split; [apply W|intros; congruence]|]. split; auto.
Qed.
End P.

(** * Theorems *)
(** C30: init succeeds on every object and every sequence of fewer than 2^32 valBitLen-bit values; its answers *)
Definition answers_ok (x64 wide withSelect : bool) (vec : list Z) (valBitLen : Z) (w : wmatrix) : Prop :=
  wm_size w = zlen vec /\
  (forall v, 0 <= v < 2 ^ valBitLen -> wm_sizev x64 wide w v = Ok (occ v vec)) /\
  (0 < valBitLen -> forall i, 0 <= i < zlen vec -> wm_get x64 wide w i = Ok (nth (Z.to_nat i) vec 0) /\
     wm_get2 x64 wide w i = Ok (nth (Z.to_nat i) vec 0, occ (nth (Z.to_nat i) vec 0) (before i vec))) /\
  (0 < valBitLen -> forall i, zlen vec <= i -> wm_get x64 wide w i = Exn /\ wm_get2 x64 wide w i = Exn) /\
  (forall v pos, 0 <= v < 2 ^ valBitLen -> 0 <= pos -> wm_rank x64 wide w v pos = Ok (occ v (before pos vec))) /\
  ((valBitLen - 1) * zlen vec < 2 ^ 32 -> forall v pos, 0 <= v < 2 ^ valBitLen -> 0 <= pos -> wm_rankLt x64 wide w v pos = Ok (occLt v (before pos vec))) /\
  (forall v r, 0 <= v < 2 ^ valBitLen -> 0 <= r ->
     if withSelect then exists p, wm_select x64 wide withSelect w v r = Ok p /\
       (r < occ v vec -> 0 <= p < zlen vec /\ nth (Z.to_nat p) vec 0 = v /\ occ v (before p vec) = r) /\ (occ v vec <= r -> p = none)
     else wm_select x64 wide withSelect w v r = Exn).
Lemma ok_answers x64 wide withSelect vec len w : input_ok vec len -> wm_ok x64 wide withSelect vec len w -> answers_ok x64 wide withSelect vec len w.
Proof.
  intros Hin (W & S). unfold answers_ok. repeat match goal with |- _ /\ _ => split end.
  - apply W.
  - intros v Hv. unfold wm_sizev. erewrite rank_ok; eauto; [|destruct W as (_ & _ & -> & _); apply zlen_nonneg]. destruct W as (_ & _ & -> & _). rewrite before_all by lia. auto.
  - intros. split; [eapply get_ok; eauto|eapply get2_ok; eauto].
  - intros. split; [eapply get_exn; eauto|eapply get2_exn; eauto].
  - intros. eapply rank_ok; eauto.
  - intros. eapply rankLt_ok; eauto.
  - intros v r Hv Hr. destruct withSelect eqn:Ew; [|reflexivity]. destruct (S eq_refl) as (_ & T). destruct (T v Hv) as (t & Et & St). eapply (select_ok x64 wide true vec len); eauto.
Qed.
Theorem C30_wavelet : forall x64 wide svSelect withSelect old vec valBitLen, reusable old -> input_ok vec valBitLen ->
  exists w, wm_init x64 wide svSelect withSelect old vec valBitLen = Ok w /\ answers_ok x64 wide withSelect vec valBitLen w /\ reusable w.
Proof.
  intros x64 wide ss ws old vec len Ho Hin. destruct (init_ok x64 wide ss ws vec len Hin old Ho) as (w & E & W & R). exists w. split; auto. split; auto. apply ok_answers; auto.
Qed.

(** ** save and load *)
Lemma load_wf (ss : bool) sv old : sv_wf sv -> sv_wf old ->
  sv_wf (mk_sv (sv_bitSize sv) (sv_num0 sv) (sv_num1 sv) (sv_freezed old) (sv_blk sv) (if ss then sv_sel0 sv else sv_sel0 old) (if ss then sv_sel1 sv else sv_sel1 old)).
Proof. intros (A1 & A2 & A3 & A4 & A5 & A6 & A7 & A8 & A9) (B1 & B2 & B3 & B4 & B5 & B6 & B7 & B8 & B9). unfold sv_wf. cbn. destruct ss; repeat split; auto; lia. Qed.
Lemma svv_rt ss svv : Forall sv_wf svv -> forall n i, Z.of_nat n = zlen svv - i -> 0 <= i ->
  exists enc, save_svv ss n i svv = Ok enc /\
    forall old rest sched, zlen old = zlen svv -> Forall sv_wf old ->
    exists svv' sched', load_svv ss n i old (mk_is (enc ++ rest) sched) = Ok (svv', mk_is rest sched') /\ zlen svv' = zlen svv /\ Forall sv_wf svv' /\
      (forall k, 0 <= k < i -> rd svv' k = rd old k) /\
      (forall k, i <= k < zlen svv -> exists sv sv', rd svv k = Ok sv /\ rd svv' k = Ok sv' /\
         (forall x64 wide p, sv_rank1 x64 wide sv' p = sv_rank1 x64 wide sv p) /\ (forall p, sv_get sv' p = sv_get sv p)).
Proof.
  intros HF. induction n; intros i Hn Hi.
  - cbn [save_svv load_svv]. exists []. split; auto. intros old rest sched Lo Fo. exists old, sched. repeat split; auto. intros; lia.
  - destruct (IHn (i + 1) ltac:(lia) ltac:(lia)) as (enc & Es & HL). cbn [save_svv]. rewrite (rd_nth svv i sv_empty) by lia. cbn [bind]. set (sv := nth (Z.to_nat i) svv sv_empty).
    assert (Wsv: sv_wf sv) by (rewrite Forall_forall in HF; apply HF, nth_In; unfold zlen in *; lia).
    destruct (C29_load_save ss sv sv_empty Wsv) as (e1 & E1 & _). rewrite E1, Es. cbn [bind]. eexists. split; [reflexivity|]. intros old rest sched Lo Fo. rewrite <- app_assoc. cbn [load_svv]. rewrite (rd_nth old i sv_empty) by lia. cbn [bind].
    set (o := nth (Z.to_nat i) old sv_empty). assert (Wo: sv_wf o) by (rewrite Forall_forall in Fo; apply Fo, nth_In; unfold zlen in *; lia).
    destruct (C29_load_save ss sv o Wsv) as (e1' & E1' & L1). rewrite E1 in E1'. injection E1' as <-. destruct (L1 (enc ++ rest) sched) as (s1 & sv' & El & Esv). rewrite El. cbn [bind]. rewrite wr_ok by lia. cbn [bind].
    pose proof (load_wf ss sv o Wsv Wo) as W'. rewrite <- Esv in W'.
    destruct (HL (upd old (Z.to_nat i) sv') rest s1) as (svv' & s2 & Er & Lr & Fr & P1 & P2).
    { unfold zlen in *. rewrite upd_length. auto. }
    { clear - Fo W'. revert Fo. generalize (Z.to_nat i). induction old; intros m Fo; [destruct m; constructor|]. apply Forall_cons_iff in Fo as (F1 & F2). destruct m; cbn [upd]; constructor; auto. }
    exists svv', s2. split; auto. split; auto. split; auto. split.
    + intros k Hk. rewrite P1 by lia. apply rd_upd_ne; lia.
    + intros k Hk. destruct (Z.eq_dec k i) as [->|]; [|apply P2; lia]. exists sv, sv'. split; [apply rd_nth; lia|]. split; [rewrite P1 by lia; apply rd_upd_eq; lia|]. rewrite Esv. split; intros; auto.
Qed.
Lemma rt32 l : Forall (fun x => 0 <= x < 2 ^ 32) l -> Forall (fun x => length (to_le 4 x) = 4%nat /\ of_le (to_le 4 x) = x) l.
Proof. intros Hl. eapply Forall_impl; [|exact Hl]. intros x Hx. split; [apply len_to_le|]. apply of_to_le. change (256 ^ Z.of_nat 4) with (2 ^ 32). auto. Qed.
Lemma sel_rt sel : Forall (fun t => Forall (fun x => 0 <= x < 2 ^ 32) t /\ zlen t < 2 ^ 64) sel -> forall n i, Z.of_nat n = zlen sel - i -> 0 <= i ->
  exists enc, save_sel n i sel = Ok enc /\
    forall old rest sched, zlen old = zlen sel -> (forall k, 0 <= k < i -> rd old k = rd sel k) ->
    exists sel' sched', load_sel n i old (mk_is (enc ++ rest) sched) = Ok (sel', mk_is rest sched') /\ zlen sel' = zlen sel /\ (forall k, 0 <= k < zlen sel -> rd sel' k = rd sel k).
Proof.
  intros HF. induction n; intros i Hn Hi.
  - cbn [save_sel load_sel]. exists []. split; auto. intros old rest sched Lo Fo. exists old, sched. repeat split; auto. intros; apply Fo; lia.
  - destruct (IHn (i + 1) ltac:(lia) ltac:(lia)) as (enc & Es & HL). cbn [save_sel]. rewrite (rd_nth sel i []) by lia. cbn [bind]. set (t := nth (Z.to_nat i) sel []).
    assert (Wt: Forall (fun x => 0 <= x < 2 ^ 32) t /\ zlen t < 2 ^ 64) by (rewrite Forall_forall in HF; apply (HF t), nth_In; unfold zlen in *; lia). destruct Wt as (Wt & Wl).
    destruct (podvec_rt 4 (to_le 4) of_le t (rt32 _ Wt) Wl) as (e1 & E1 & L1). rewrite E1, Es. cbn [bind]. eexists. split; [reflexivity|]. intros old rest sched Lo Fo. rewrite <- app_assoc. cbn [load_sel].
    destruct (L1 (enc ++ rest) sched) as (s1 & El). rewrite El. cbn [bind]. rewrite wr_ok by lia. cbn [bind]. apply HL.
    + unfold zlen in *. rewrite upd_length. auto.
    + intros k Hk. destruct (Z.eq_dec k i) as [->|]; [rewrite rd_upd_eq by lia; symmetry; apply rd_nth; lia|]. rewrite rd_upd_ne by lia. apply Fo. lia.
Qed.
Lemma rd_forall_all {A} (P : A -> Prop) (l : list A) : (forall k, 0 <= k < zlen l -> exists x, rd l k = Ok x /\ P x) -> Forall P l.
Proof.
  intros H. apply Forall_forall. intros x Hx. apply In_nth with (d := x) in Hx as (n & Hn & <-). destruct (H (Z.of_nat n)) as (y & Ey & Py); [unfold zlen; lia|]. rewrite (rd_nth l _ x) in Ey by (unfold zlen; lia). rewrite Nat2Z.id in Ey. injection Ey as ->. auto.
Qed.
Lemma nth_error_ext {A} (a : list A) : forall b, (forall n, nth_error a n = nth_error b n) -> a = b.
Proof.
  induction a; intros [|y b] H; auto; try (specialize (H O); discriminate). pose proof (H O) as H0. cbn in H0. injection H0 as ->. f_equal. apply IHa. intros n. apply (H (S n)).
Qed.
Lemma rd_ext_eq {A} (a b : list A) : zlen a = zlen b -> (forall k, 0 <= k < zlen b -> rd a k = rd b k) -> a = b.
Proof.
  intros L H. apply nth_error_ext. intros n. destruct (Nat.ltb n (length b)) eqn:E.
  - apply Nat.ltb_lt in E. specialize (H (Z.of_nat n) ltac:(unfold zlen; lia)). unfold rd in H. destruct (Z.of_nat n <? 0) eqn:?; [lia|]. rewrite Nat2Z.id in H. destruct (nth_error a n) eqn:?, (nth_error b n) eqn:?; congruence.
  - apply Nat.ltb_ge in E. unfold zlen in L. assert (nth_error a n = None) as -> by (apply nth_error_None; lia). symmetry. apply nth_error_None. lia.
Qed.
Lemma save_load_ok x64 wide ss ws vec len w old : input_ok vec len -> wm_ok x64 wide ws vec len w -> reusable w -> reusable old ->
  exists enc, wm_save ss ws w = Ok enc /\
    forall rest sched, exists w' sched', wm_load ss ws old (mk_is (enc ++ rest) sched) = Ok (w', mk_is rest sched') /\ wm_ok x64 wide ws vec len w' /\ reusable w'.
Proof.
  intros Hin (W & S) (Rw1 & Rw2) (Ro1 & Ro2). pose proof Hin as (Hlen & Hvec & Hval). pose proof (pow_len vec len Hin) as PL. pose proof (zlen_nonneg vec) as NV. destruct W as (H1 & H2 & H3 & H4 & H5 & H6 & H7 & H8 & H9 & H10 & H11 & H12).
  destruct (u64_rt (2 ^ len) ltac:(lia)) as (e1 & S1 & L1). destruct (u64_rt len ltac:(lia)) as (e2 & S2 & L2). destruct (u64_rt (zlen vec) ltac:(lia)) as (e3 & S3 & L3).
  destruct (svv_rt ss (w_svv w) H5 (Z.to_nat len) 0 ltac:(lia) ltac:(lia)) as (e4 & S4 & L4).
  assert (Foff: Forall (fun x => 0 <= x < 2 ^ 32) (w_off w)). { apply rd_forall_all. intros k Hk. exists (zeros vec len k). split; [apply H8; lia|]. pose proof (zeros_bounds vec len k). lia. }
  assert (Ffrom: Forall (fun x => 0 <= x < 2 ^ 32) (w_from w)). { apply rd_forall_all. intros k Hk. eexists. split; [apply H10; lia|]. pose proof (walk_bounds vec len (Z.to_nat len) 0 k 0 ltac:(lia) ltac:(lia)). lia. }
  assert (FfromLt: Forall (fun x => 0 <= x < 2 ^ 32) (w_fromLt w)). { apply rd_forall_all. intros k Hk. eexists. split; [apply H12; lia|]. apply Z.mod_pos_bound. lia. }
  destruct (podvec_rt 4 (to_le 4) of_le _ (rt32 _ Foff) ltac:(lia)) as (e5 & S5 & L5). destruct (podvec_rt 4 (to_le 4) of_le _ (rt32 _ Ffrom) ltac:(lia)) as (e6 & S6 & L6). destruct (podvec_rt 4 (to_le 4) of_le _ (rt32 _ FfromLt) ltac:(lia)) as (e7 & S7 & L7).
  assert (SEL: exists e8, (if ws then save_sel (Z.to_nat (2 ^ len)) 0 (w_sel w) else Ok []) = Ok e8 /\
    forall rest sched, exists sched', (if ws then load_sel (Z.to_nat (2 ^ len)) 0 (resize_l [] (w_sel old) (2 ^ len)) (mk_is (e8 ++ rest) sched) else Ok (w_sel old, mk_is (e8 ++ rest) sched)) = Ok (if ws then w_sel w else w_sel old, mk_is rest sched')).
  { destruct ws.
    - destruct (S eq_refl) as (LS & TS). destruct (sel_rt (w_sel w)) with (n := Z.to_nat (2 ^ len)) (i := 0) as (e8 & S8 & L8); try lia.
      { apply rd_forall_all. intros k Hk. destruct (TS k ltac:(lia)) as (t & Et & T1 & T2). exists t. split; auto. pose proof (blk_bound vec len Hin k). split; [|lia]. apply rd_forall_all. intros j Hj. destruct (T2 j Hj) as (x & Ex & Bx & _). exists x. split; auto. lia. }
      exists e8. split; auto. intros rest sched. destruct (L8 (resize_l [] (w_sel old) (2 ^ len)) rest sched) as (sel' & s' & E & Le & Pe); [rewrite zlen_resize_l; lia|intros; lia|]. exists s'. rewrite E. repeat f_equal. apply rd_ext_eq; auto.
    - exists []. split; auto. intros rest sched. exists sched. auto. }
  destruct SEL as (e8 & S8 & L8).
  exists (e1 ++ e2 ++ e3 ++ e4 ++ e5 ++ e6 ++ e7 ++ e8). split.
  - unfold wm_save. rewrite H1, H2, H3, S1, S2, S3. cbn [bind]. rewrite S4. cbn [bind]. rewrite S5, S6, S7. cbn [bind]. rewrite S8. cbn [bind]. reflexivity.
  - intros rest sched. rewrite <- !app_assoc. unfold wm_load. edestruct L1 as (s1 & ->). cbn [bind]. edestruct L2 as (s2 & ->). cbn [bind]. edestruct L3 as (s3 & ->). cbn [bind].
    edestruct (L4 (resize_l sv_empty (w_svv old) len)) as (svv' & s4 & E4 & Lv & Fv & _ & Pv); [rewrite zlen_resize_l; lia|apply forall_resize; auto; apply wf_empty|]. rewrite E4. cbn [bind].
    edestruct L5 as (s5 & ->). cbn [bind]. edestruct L6 as (s6 & ->). cbn [bind]. edestruct L7 as (s7 & ->). cbn [bind]. destruct (L8 rest s7) as (s8 & E8).
    assert (OK: forall sel, (ws = true -> sel = w_sel w) -> wm_ok x64 wide ws vec len (mk_wm (2 ^ len) len (zlen vec) svv' (w_off w) (w_from w) (w_fromLt w) sel)).
    { intros sel Hsel. split.
      - unfold wm_layers_ok. cbn. repeat match goal with |- _ /\ _ => split end; auto; try lia. intros k Hk. destruct (Pv k ltac:(lia)) as (sv & sv' & A1 & A2 & A3 & A4). exists sv'. split; auto. destruct (H6 k Hk) as (sv2 & B1 & B2 & B3 & B4). assert (sv2 = sv) as -> by congruence. repeat split; intros; rewrite ?A3, ?A4; auto.
      - intros Ew. cbn [w_sel]. rewrite (Hsel Ew). auto. }
    destruct ws.
    + rewrite E8. cbn [bind]. do 2 eexists. split; [reflexivity|]. split; [apply OK; auto|]. split; auto.
    + assert (E9: mk_is (e8 ++ rest) s7 = mk_is rest s8) by congruence. rewrite E9. do 2 eexists. split; [reflexivity|]. split; [apply OK; intros; discriminate|]. split; auto.
Qed.
(** C61: whatever init built, loading what save wrote (into any object, whatever the stream's chunks) consumes exactly
    those bytes and the loaded object answers every query of C30 the same way *)
Theorem C61_save_load : forall x64 wide svSelect withSelect old old2 vec valBitLen w, reusable old -> reusable old2 -> input_ok vec valBitLen ->
  wm_init x64 wide svSelect withSelect old vec valBitLen = Ok w ->
  exists enc, wm_save svSelect withSelect w = Ok enc /\
    forall rest sched, exists w' sched', wm_load svSelect withSelect old2 (mk_is (enc ++ rest) sched) = Ok (w', mk_is rest sched') /\
      answers_ok x64 wide withSelect vec valBitLen w' /\ reusable w'.
Proof.
  intros x64 wide ss ws old old2 vec len w Ho Ho2 Hin E. destruct (init_ok x64 wide ss ws vec len Hin old Ho) as (w0 & E0 & W & R). assert (w0 = w) as -> by congruence.
  destruct (save_load_ok x64 wide ss ws vec len w old2 Hin W R Ho2) as (enc & S & L). exists enc. split; auto. intros rest sched. destruct (L rest sched) as (w' & s' & E' & W' & R'). exists w', s'. split; auto. split; auto. apply ok_answers; auto.
Qed.

(** * Findings *)
(** valBitLen 0 (one-letter alphabet): get reads a layer that does not exist *)
Theorem C30_bitlen0_finding : exists w, wm_init true true true true wm_empty [0; 0; 0] 0 = Ok w /\ wm_rank true true w 0 2 = Ok 2 /\ wm_get true true w 0 = UB.
Proof. eexists. split; [vm_compute; reflexivity|]. split; vm_compute; reflexivity. Qed.
(** a value that does not fit in valBitLen bits: accepted without select, out of range with it *)
Theorem C30_value_finding : (exists w, wm_init true true false false wm_empty [5] 2 = Ok w /\ wm_get true true w 0 = Ok 1) /\
  wm_init true true false true wm_empty [5] 2 = UB.
Proof. split; [|vm_compute; reflexivity]. eexists. split; [vm_compute; reflexivity|]. vm_compute. reflexivity. Qed.
(** rankLt: the sum kept in the uint32_t table exceeds 32 bits for large sequences; n zeros of 16 bits, 15 n >= 2^32 *)
Lemma lay_zeros n len i : lay (repeat 0 n) len i = repeat 0 n.
Proof.
  assert (A: forall f : Z -> bool, f 0 = true -> filter f (repeat 0 n) = repeat 0 n) by (intros f Hf; induction n; cbn [repeat filter]; auto; rewrite Hf; f_equal; auto).
  assert (B: forall f : Z -> bool, f 0 = false -> filter f (repeat 0 n) = []) by (clear A; intros f Hf; induction n; cbn [repeat filter]; auto; rewrite Hf; auto).
  induction i; cbn [lay]; auto. rewrite IHi. rewrite A, B; [apply app_nil_r| |]; unfold bit, nbit, bit; rewrite Z.bits_0; auto.
Qed.
Theorem C30_rankLt_finding : forall x64 wide svSelect withSelect n, zlen (repeat 0 n) < 2 ^ 32 -> 2 ^ 32 <= 15 * zlen (repeat 0 n) ->
  exists w r, input_ok (repeat 0 n) 16 /\ wm_init x64 wide svSelect withSelect wm_empty (repeat 0 n) 16 = Ok w /\
    wm_rankLt x64 wide w 65535 0 = Ok r /\ 2 ^ 32 <= r.
Proof.
  intros x64 wide ss ws n Hn Hn2. remember (repeat 0 n) as vec eqn:Hv.
  assert (Hin: input_ok vec 16). { repeat split; try lia. rewrite Hv. apply Forall_forall. intros x Hx. apply repeat_spec in Hx. subst x. lia. }
  destruct (init_ok x64 wide ss ws vec 16 Hin wm_empty) as (w & E & (W & _) & _); [split; constructor|]. exists w.
  destruct W as (H1 & H2 & H3 & H4 & H5 & H6 & H7 & H8 & H9 & H10 & H11 & H12). pose proof (zlen_nonneg vec).
  assert (RK: wm_rankLt x64 wide w 65535 0 = Ok ((walkLt vec 16 (Z.to_nat 16) 0 65535 0 0 - walkLt vec 16 (Z.to_nat 16) 0 65535 0 0 mod 2 ^ 32) mod 2 ^ 64)).
  { unfold wm_rankLt. rewrite H3. destruct (zlen vec <? 0) eqn:?; [lia|]. rewrite H2, (wm_eta w), H2, H3.
    rewrite (rankLt_loop_walk x64 wide vec 16 Hn (w_svv w) (w_off w) H6 H8) by lia. cbn [bind w_fromLt]. rewrite H12 by lia. cbn [bind]. reflexivity. }
  eexists. split; [exact Hin|]. split; [exact E|]. split; [exact RK|].
  assert (ZO: forall i, zeros vec 16 i = zlen vec). { intros i. unfold zeros. f_equal. rewrite Hv. clear. induction n; cbn [repeat filter]; auto. unfold nbit at 1, bit. rewrite Z.bits_0. cbn [negb]. f_equal. auto. }
  assert (ON: forall i p, ones vec 16 i p = 0). { intros i p. unfold ones. rewrite Hv, lay_zeros. assert (F: forall l, Forall (fun x => x = 0) l -> filter (bit 16 i) l = []) by (induction 1 as [|x l Hx Hl IH]; auto; cbn [filter]; subst x; unfold bit at 1; rewrite Z.bits_0; auto). rewrite F; auto. apply forall_firstn. apply Forall_forall. intros x Hx. apply repeat_spec in Hx. auto. }
  assert (F: walkLt vec 16 (Z.to_nat 16) 0 65535 0 0 = 15 * zlen vec).
  { assert (BT: forall i, 0 <= i < 16 -> bit 16 i 65535 = true) by (intros i Hi; unfold bit; change 65535 with (Z.ones 16); apply Z.ones_spec_low; lia).
    assert (G: forall m i ret, 0 <= i -> i + Z.of_nat m <= 16 -> walkLt vec 16 m i 65535 (zlen vec) ret = ret + Z.of_nat m * zlen vec).
    { induction m; intros i ret Hi Hm; cbn [walkLt]; [lia|]. rewrite BT by lia. unfold step. rewrite ZO, !ON, Z.add_0_r. rewrite IHm by lia. lia. }
    change (Z.to_nat 16) with (S 15). assert (HM: exists m, m = 15%nat) by eauto. destruct HM as (m & HM). rewrite <- HM. cbn [walkLt]. rewrite BT by lia. unfold step at 1. rewrite ZO, !ON. rewrite Z.add_0_r, G by lia. lia. }
  rewrite F. pose proof (Z.div_mod (15 * zlen vec) (2 ^ 32) ltac:(lia)). pose proof (Z.mod_pos_bound (15 * zlen vec) (2 ^ 32) ltac:(lia)). assert (1 <= 15 * zlen vec / 2 ^ 32) by (apply Z.div_le_lower_bound; lia).
  rewrite Z.mod_small by lia. lia.
Qed.
(** such sequences exist *)
Example C30_rankLt_finding_nonvacuous : exists n, zlen (repeat 0 n) < 2 ^ 32 /\ 2 ^ 32 <= 15 * zlen (repeat 0 n).
Proof. exists (Z.to_nat (2 ^ 30)). rewrite zlen_repeat, Z2Nat.id by lia. lia. Qed.

(** * the hypotheses are met *)
Example C30_nonvacuous : input_ok [3; 0; 7; 3; 5; 3] 3 /\ reusable wm_empty /\
  exists w, wm_init true true true true wm_empty [3; 0; 7; 3; 5; 3] 3 = Ok w /\ wm_get true true w 2 = Ok 7 /\ wm_get2 true true w 3 = Ok (3, 1) /\ wm_rank true true w 3 5 = Ok 2 /\
    wm_rankLt true true w 5 5 = Ok 3 /\ wm_select true true true w 3 2 = Ok 5 /\ wm_select true true true w 3 3 = Ok none.
Proof.
  split; [unfold input_ok; repeat split; try (vm_compute; discriminate); repeat constructor; lia|]. split; [split; constructor|]. eexists. split; [vm_compute; reflexivity|]. repeat split; vm_compute; reflexivity.
Qed.
(** an object already used for a longer sequence *)
Example C30_reuse_nonvacuous : exists w0 w, wm_init true true false true wm_empty (repeat 1 600 ++ [0; 2]) 2 = Ok w0 /\ reusable w0 /\
  wm_init true true false true w0 (repeat 1 300 ++ [0; 1]) 1 = Ok w /\ wm_select true true true w 1 300 = Ok 301.
Proof.
  assert (I: input_ok (repeat 1 600 ++ [0; 2]) 2). { split; [lia|]. split; [vm_compute; auto|]. apply Forall_app. split; [apply Forall_forall; intros x Hx; apply repeat_spec in Hx; subst; lia|repeat constructor; lia]. }
  destruct (C30_wavelet true true false true wm_empty _ 2 ltac:(split; constructor) I) as (w0 & E0 & _ & R0).
  assert (I1: input_ok (repeat 1 300 ++ [0; 1]) 1). { split; [lia|]. split; [vm_compute; auto|]. apply Forall_app. split; [apply Forall_forall; intros x Hx; apply repeat_spec in Hx; subst; lia|repeat constructor; lia]. }
  destruct (C30_wavelet true true false true w0 _ 1 R0 I1) as (w & E & A & _). exists w0, w. split; auto. split; auto. split; auto.
  destruct A as (_ & _ & _ & _ & _ & _ & S). specialize (S 1 300 ltac:(lia) ltac:(lia)). cbn iota in S. destruct S as (p & Ep & S1 & _). rewrite Ep. f_equal. clear - S1.
  assert (H1: occ 1 (repeat 1 300 ++ [0; 1]) = 301) by (vm_compute; auto). assert (H2: zlen (repeat 1 300 ++ [0; 1]) = 302) by (vm_compute; auto). assert (H3: nth (Z.to_nat 300) (repeat 1 300 ++ [0; 1]) 0 = 0) by (vm_compute; auto).
  revert S1 H1 H2 H3. generalize (repeat 1 300 ++ [0; 1]). intros l S1 H1 H2 H3. destruct (S1 ltac:(lia)) as (B & D & C).
  destruct (Z.eq_dec p 300) as [->|]; [lia|]. pose proof (occ_le 1 (before p l)) as OL. unfold before in OL at 2. rewrite zlen_firstn in OL by lia. lia.
Qed.
Example C61_nonvacuous : exists w enc w' is', wm_init true true true true wm_empty [3; 0; 7; 3; 5; 3] 3 = Ok w /\ wm_save true true w = Ok enc /\
  wm_load true true wm_empty (mk_is (enc ++ [9]) [1; 2]) = Ok (w', is') /\ is_data is' = [9] /\ wm_select true true true w' 3 2 = Ok 5.
Proof. do 4 eexists. split; [vm_compute; reflexivity|]. split; [vm_compute; reflexivity|]. split; [vm_compute; reflexivity|]. split; vm_compute; reflexivity. Qed.

Print Assumptions C30_wavelet.
Print Assumptions C61_save_load.
Print Assumptions C30_rankLt_finding.
