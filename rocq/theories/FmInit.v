(** Proofs for C31: what FMindexT::init builds. *)
Require Import Verif.Common Verif.Cnt Verif.FrequencyModel Verif.FrequencyProps Verif.BitVecModel Verif.BitVecProps Verif.SucModel Verif.SucProps Verif.WaveletModel Verif.WaveletProps Verif.FmModel Verif.FmCore Verif.FmProof.
From Coq Require Import Permutation.
Ltac Zify.zify_post_hook ::= idtac.
Notation occ := WaveletProps.occ.

(** ** counting *)
Lemma occLt_succ c l : occLt (c + 1) l = occLt c l + occ c l.
Proof.
  unfold occLt. rewrite <- filter_occ. induction l as [|x l IH]; [reflexivity|]. cbn [filter]. destruct (Z.ltb_spec x (c + 1)), (Z.ltb_spec x c), (Z.eqb_spec x c); rewrite ?zlen_cons; lia.
Qed.
Lemma occLt_0 l : Forall (fun x => 0 <= x) l -> occLt 0 l = 0.
Proof. unfold occLt. induction 1 as [|x l H _ IH]; [reflexivity|]. cbn [filter]. destruct (Z.ltb_spec x 0); [lia|auto]. Qed.
Lemma occ_cons c x l : occ c (x :: l) = (if x =? c then 1 else 0) + occ c l.
Proof. unfold WaveletProps.occ. cbn [count_occ]. destruct (Z.eq_dec x c) as [-> |N]; [rewrite Z.eqb_refl; lia|]. destruct (Z.eqb_spec x c); lia. Qed.
Lemma occ_eqb c l : FrequencyProps.occ Z.eqb c l = occ c l.
Proof. induction l as [|x l IH]; [reflexivity|]. rewrite occ_cons. cbn [FrequencyProps.occ]. rewrite IH, (Z.eqb_sym c x). auto. Qed.
Lemma occ_in c l : occ c l <> 0 <-> In c l.
Proof. unfold WaveletProps.occ. rewrite (count_occ_In Z.eq_dec l c). lia. Qed.
Definition distinct (text : list Z) : Z := zlen (nodup Z.eq_dec text).
Definition symbol (t16 : bool) (x : Z) : Prop := 0 <= x < 2 ^ tbits t16.

(** ** the table of symbols *)
Definition fq_ok (t16 : bool) (text : list Z) (q : fq) : Prop :=
  (forall x, symbol t16 x -> fq_freq q x = Ok (occ x text)) /\
  (forall x, In x text -> exists i, 0 <= i < fq_size q /\ fq_index q x = Ok i /\ fq_elem q i = Ok x) /\
  (forall i, 0 <= i < fq_size q -> exists x, In x text /\ fq_elem q i = Ok x /\ fq_index q x = Ok i).
Lemma fq_ok_size t16 text q : fq_ok t16 text q -> 0 <= fq_size q -> fq_size q = distinct text.
Proof.
  intros (_ & A & B) S0. set (g := fun i => match fq_elem q (Z.of_nat i) with Ok x => x | _ => 0 end). set (L := map g (seq 0 (Z.to_nat (fq_size q)))).
  assert (forall i, (i < Z.to_nat (fq_size q))%nat -> In (g i) text /\ fq_index q (g i) = Ok (Z.of_nat i)) as G. { intros i Hi. destruct (B (Z.of_nat i) ltac:(lia)) as (x & X1 & X2 & X3). unfold g. rewrite X2. auto. }
  assert (NoDup L) as N.
  { unfold L. assert (forall a n, (a + n <= Z.to_nat (fq_size q))%nat -> NoDup (map g (seq a n))) as X; [|apply X; lia]. intros a n. revert a. induction n as [|n IH]; intros a Ha; cbn; constructor; [|apply IH; lia].
    intros I. apply in_map_iff in I. destruct I as (j & E & J). apply in_seq in J. destruct (G j ltac:(lia)) as [_ X1]. destruct (G a ltac:(lia)) as [_ X2]. rewrite E in X1. rewrite X1 in X2. injection X2. lia. }
  assert (Permutation L (nodup Z.eq_dec text)) as P.
  { apply NoDup_Permutation; auto; [apply NoDup_nodup|]. intros x. rewrite nodup_In. unfold L. rewrite in_map_iff. split.
    - intros (i & <- & I). apply in_seq in I. apply G. lia.
    - intros I. destruct (A x I) as (i & Hi & _ & E). exists (Z.to_nat i). unfold g. rewrite Z2Nat.id by lia. rewrite E. split; auto. apply in_seq. lia. }
  unfold distinct, zlen. rewrite <- (Permutation_length P). unfold L. rewrite map_length, seq_length. lia.
Qed.
Lemma inv_all place : forall s done f, inv Z.eqb 32 done (fm f) -> inv Z.eqb 32 (done ++ s) (fm (fold_left (f_append Z.eqb 32 place) s f)).
Proof. induction s as [|x s IH]; intros done f H; [rewrite app_nil_r; auto|]. cbn [fold_left]. replace (done ++ x :: s) with ((done ++ [x]) ++ s) by (rewrite <- app_assoc; auto). apply IH. apply inv_append; auto; [exact Z.eqb_eq|lia]. Qed.
Lemma vinv_all : forall s done v, vinv 32 false done v -> Forall (elem false) s -> exists v', v_append_all 32 v s = Ok v' /\ vinv 32 false (done ++ s) v'.
Proof.
  induction s as [|x s IH]; intros done v H F; [exists v; rewrite app_nil_r; auto|]. inversion F; subst. cbn [v_append_all]. destruct (vinv_append 32 false ltac:(lia) done v x H ltac:(auto)) as (v' & E & I & _). rewrite E. cbn [bind].
  destruct (IH (done ++ [x]) v' I ltac:(auto)) as (v2 & E2 & I2). exists v2. split; auto. rewrite <- app_assoc in I2. auto.
Qed.

Lemma at_cons x l i : at_ (x :: l) i = if i <=? 0 then x else at_ l (i - 1).
Proof. unfold at_. destruct (Z.leb_spec i 0); [replace (Z.to_nat i) with 0%nat by lia; auto|]. replace (Z.to_nat i) with (S (Z.to_nat (i - 1))) by lia. auto. Qed.
Section Init.
Variables (x64 raw t16 : bool) (sais : list Z -> Z -> Z * list Z) (sort8 : (Z -> Z -> bool) -> list Z -> list Z) (sort16 : list (Z * (Z * Z)) -> list (Z * (Z * Z))) (place : Z * (Z * Z) -> list (Z * (Z * Z)) -> nat) (junk : list Z).
Hypothesis Hs8 : vsrt_ok sort8.
Hypothesis Hs16 : srt_ok Z.gtb sort16.
Hypothesis Hjunk : zlen junk = 256.

Lemma fq_init_ok text : Forall (symbol t16) text -> zlen text < 2 ^ 32 -> exists q, fq_init sort8 sort16 place junk (fq_new t16) text = Ok q /\ fq_ok t16 text q /\ fq_size q = distinct text.
Proof.
  intros F L. assert (forall x, occ x text mod 2 ^ 32 = occ x text) as M by (intros x; pose proof (occ_nonneg x text); pose proof (occ_le x text); apply Z.mod_small; lia).
  assert (exists q, fq_init sort8 sort16 place junk (fq_new t16) text = Ok q /\ fq_ok t16 text q /\ 0 <= fq_size q) as (q & E & O & Z0). 2:{ exists q. split; auto. split; auto. eapply fq_ok_size; eauto. }
  unfold fq_new. destruct t16 eqn:T; cbn [fq_init].
  - eexists. split; [reflexivity|]. set (f := f_init _ _ _ _ _ _). assert (inv Z.eqb 32 text (fm (fold_left (f_append Z.eqb 32 place) text f_clear))) as I.
    { apply (inv_all place text [] f_clear). split; [constructor|]. split; [cbn; tauto|]. intros e. reflexivity. }
    pose proof (answers_ready Z.eqb Z.gtb 32 Z.eqb_eq Z_gtb_total ltac:(lia) sort16 text _ Hs16 I) as (A1 & A2 & A3 & A4 & A5 & A6 & A7). fold (f_init Z.eqb 32 sort16 place f_clear text) in *. fold f in A1, A2, A3, A4, A5, A6, A7.
    assert (f_size f <= zlen text) as SZ. { rewrite A1. unfold FrequencyProps.distinct, zlen. apply inj_le. apply NoDup_incl_length; [apply NoDup_nodup|]. intros x Hx. apply nodup_In in Hx. auto. }
    assert (0 <= f_size f) by apply zlen_nonneg. split; [|auto]. unfold fq_ok. cbn [fq_size fq_freq fq_index fq_elem]. split; [|split].
    + intros x Hx. rewrite A2, occ_eqb, M. auto.
    + intros x Hx. destruct (A3 x Hx) as (i & Hi & Ei). exists i. split; auto. split; auto. destruct (A5 i Hi) as (y & _ & Ey & Iy). assert (y = x) as -> by congruence. rewrite Z.mod_small in Iy by lia. auto.
    + intros i Hi. destruct (A5 i Hi) as (y & Y1 & Ey & Iy). exists y. rewrite Z.mod_small in Iy by lia. auto.
  - unfold v_init. destruct (vinv_all text [] v_new (vinv_new 32 false ltac:(lia))) as (v & E & I). { eapply Forall_impl; [|exact F]. unfold symbol, tbits, elem. auto. }
    rewrite E. cbn [bind]. destruct (ready_spec 32 false ltac:(lia) sort8 junk text v Hs8 Hjunk I) as (v' & E' & _ & _ & (A1 & A2 & A3 & A4 & A5 & A6)). rewrite E'. cbn [bind]. eexists. split; [reflexivity|]. cbn [fq_size]. split; [|lia]. unfold fq_ok. cbn [fq_size fq_freq fq_index fq_elem]. unfold elem in *. split; [|split].
    + intros x Hx. rewrite A1 by exact Hx. rewrite occ_eqb, M. auto.
    + intros x Hx. rewrite Forall_forall in F. destruct (A2 x (F x Hx)) as (i & Hi & E1 & E2). exists i. split; [|auto]. split; [lia|]. apply (A5 i x Hi E2). rewrite occ_eqb, M. apply occ_in. auto.
    + intros i Hi. destruct (A3 i ltac:(lia)) as (x & X1 & X2 & X3). exists x. split; auto. apply occ_in. rewrite <- M, <- occ_eqb. apply (A5 i x ltac:(lia) X2). lia.
Qed.

(** ** cf *)
Definition is_cf (cf v : list Z) (charNum : Z) : Prop := zlen cf = charNum /\ forall c, 0 <= c < charNum -> at_ cf c = occLt c v.
Lemma sums_ok v : zlen v < 2 ^ 32 -> forall l i, (forall k, 0 <= k < zlen l -> at_ l k = occ (i + k) v) -> zlen (sums l (occLt i v)) = zlen l /\ forall k, 0 <= k < zlen l -> at_ (sums l (occLt i v)) k = occLt (i + k) v.
Proof.
  intros Hv. induction l as [|x l IH]; intros i H; [split; auto; intros k Hk; unfold zlen in Hk; cbn in Hk; lia|]. cbn [sums]. pose proof (zlen_nonneg l) as LN. rewrite zlen_cons in *. assert (x = occ i v) as -> by (specialize (H 0 ltac:(lia)); rewrite at_cons, Z.add_0_r in H; auto).
  rewrite <- occLt_succ. rewrite Z.mod_small by (unfold occLt; split; [apply zlen_nonneg|pose proof (filter_zlen_le 0 (fun x => x <? i + 1) v); lia]). destruct (IH (i + 1)) as [L A]. { intros k Hk. specialize (H (k + 1) ltac:(lia)). rewrite at_cons in H. destruct (Z.leb_spec (k + 1) 0); [lia|]. replace (k + 1 - 1) with k in H by lia. rewrite H. f_equal. lia. }
  rewrite zlen_cons, L. split; auto. intros k Hk. rewrite at_cons. destruct (Z.leb_spec k 0); [f_equal; lia|]. rewrite A by lia. f_equal. lia.
Qed.
Lemma at_upd l i j x : 0 <= i < zlen l -> 0 <= j -> at_ (upd l (Z.to_nat i) x) j = if j =? i then x else at_ l j.
Proof.
  intros H Hj. unfold at_. destruct (Z.eqb_spec j i) as [-> |N].
  - apply nth_error_nth. apply nth_error_upd_eq. unfold zlen in H. lia.
  - destruct (nth_error l (Z.to_nat j)) eqn:E.
    + rewrite (nth_error_nth _ _ _ E). apply nth_error_nth. rewrite nth_error_upd_ne by lia. auto.
    + apply nth_error_None in E. rewrite !nth_overflow; auto. rewrite upd_length. auto.
Qed.
Lemma at_neg l c : c < 0 -> at_ l c = at_ l 0.
Proof. intros. unfold at_. replace (Z.to_nat c) with (Z.to_nat 0) by lia. auto. Qed.
Lemma raw_count_ok : forall s tbl N, zlen tbl = N -> Forall (fun c => 1 <= c < N) s -> (forall c, 0 <= at_ tbl c /\ at_ tbl c + occ c s < 2 ^ 32) ->
  exists tbl', raw_count s tbl = Ok tbl' /\ zlen tbl' = N /\ forall c, 0 <= c -> at_ tbl' c = at_ tbl c + occ c s.
Proof.
  induction s as [|x s IH]; intros tbl N L F B; cbn [raw_count].
  - exists tbl. split; auto. split; auto. intros c _. unfold WaveletProps.occ. cbn. lia.
  - inversion F as [|? ? F1 F2]; subst. destruct (Z.leb_spec x 0); [lia|]. rewrite rd_at by lia. cbn [bind]. rewrite wr_ok by lia. cbn [bind]. pose proof (B x) as [B1 B2]. rewrite occ_cons, Z.eqb_refl in B2. pose proof (occ_nonneg x s). rewrite Z.mod_small by lia.
    destruct (IH (upd tbl (Z.to_nat x) (at_ tbl x + 1)) (zlen tbl)) as (tbl' & E & L' & A).
    + unfold zlen. rewrite upd_length. auto.
    + auto.
    + intros c. destruct (B c) as [C1 C2]. rewrite occ_cons in C2. destruct (Z_lt_le_dec c 0) as [Hc|Hc].
      * replace (at_ (upd tbl (Z.to_nat x) (at_ tbl x + 1)) c) with (at_ tbl c). { destruct (x =? c); cbv iota in *; lia. } rewrite (at_neg tbl c), (at_neg _ c) by lia. rewrite at_upd by lia. destruct (Z.eqb_spec 0 x); [lia|auto].
      * rewrite at_upd by lia. rewrite (Z.eqb_sym c x). destruct (x =? c) eqn:Ex; [apply Z.eqb_eq in Ex; subst|]; cbv iota in *; lia.
    + exists tbl'. split; auto. split; auto. intros c Hc. rewrite A by auto. rewrite at_upd, occ_cons, (Z.eqb_sym c x) by lia. destruct (x =? c) eqn:Ex; [apply Z.eqb_eq in Ex; subst|]; cbv iota in *; lia.
Qed.

(** ** the code of a symbol *)
Definition enc_of (q : fq) (x : Z) : Z := if raw then x else match fq_index q x with Ok i => i + 1 | _ => 0 end.
Definition dec_of (q : fq) (c : Z) : Z := if raw then c else match fq_elem q (c - 1) with Ok x => x | _ => 0 end.
Definition dom_of (text : list Z) (x : Z) : Prop := if raw then 1 <= x < 256 else In x text.
Lemma encode_ok text q : raw = false -> fq_ok t16 text q -> fq_size q < 2 ^ tbits t16 -> forall s, (forall x, In x s -> In x text) -> encode_all t16 q s = Ok (map (enc_of q) s).
Proof.
  intros R (_ & A & _) S. induction s as [|x s IH]; intros I; [reflexivity|]. cbn [encode_all map]. destruct (A x (I x (or_introl eq_refl))) as (i & Hi & E & _). rewrite E. cbn [bind]. rewrite IH by (intros; apply I; right; auto). cbn [bind]. rewrite Z.mod_small by lia. unfold enc_of at 2. rewrite R, E. auto.
Qed.
Lemma occ_enc text q : raw = false -> fq_ok t16 text q -> forall k x, 0 <= k < fq_size q -> fq_elem q k = Ok x -> forall s, (forall y, In y s -> In y text) -> occ (k + 1) (map (enc_of q) s) = occ x s.
Proof.
  intros R (_ & A & B) k x Hk Ek. induction s as [|y s IH]; intros I; [reflexivity|]. cbn [map]. rewrite !occ_cons, IH by (intros; apply I; right; auto). f_equal. destruct (A y (I y (or_introl eq_refl))) as (i & Hi & E1 & E2). unfold enc_of. rewrite R, E1.
  destruct (B k Hk) as (z & _ & Z1 & Z2). assert (z = x) as -> by congruence. destruct (Z.eqb_spec y x) as [-> |N].
  - assert (i = k) as -> by congruence. rewrite Z.eqb_refl. auto.
  - destruct (Z.eqb_spec (i + 1) (k + 1)) as [E|]; auto. exfalso. apply N. assert (i = k) as -> by lia. congruence.
Qed.
Lemma freq_sums_ok text q v : raw = false -> fq_ok t16 text q -> v = map (enc_of q) text ++ [0] -> zlen v < 2 ^ 32 -> Forall (symbol t16) text ->
  forall n i, 1 <= i -> i + Z.of_nat n = fq_size q + 1 -> exists l, freq_sums q n i (occLt i v) = Ok l /\ zlen l = Z.of_nat n /\ forall k, 0 <= k < Z.of_nat n -> at_ l k = occLt (i + k) v.
Proof.
  intros R O Ev Lv F. induction n as [|n IH]; intros i Hi Hn; cbn [freq_sums].
  - exists []. split; auto. split; auto. lia.
  - pose proof O as (A0 & A & B). destruct (B (i - 1) ltac:(lia)) as (x & X1 & X2 & X3). rewrite X2. cbn [bind]. rewrite Forall_forall in F. rewrite A0 by (apply F; auto). cbn [bind].
    assert (occ i v = occ x text) as <-. { rewrite Ev, occ_app. replace i with (i - 1 + 1) at 1 by lia. rewrite (occ_enc text q R O (i - 1) x) by (auto; lia). rewrite occ_cons. destruct (Z.eqb_spec 0 i); [lia|]. change (occ i []) with 0. lia. }
    rewrite <- occLt_succ. rewrite Z.mod_small by (unfold occLt; split; [apply zlen_nonneg|pose proof (filter_zlen_le 0 (fun x => x <? i + 1) v); lia]). destruct (IH (i + 1) ltac:(lia) ltac:(lia)) as (l & E & L & Al). rewrite E. cbn [bind]. eexists. split; [reflexivity|]. rewrite zlen_cons, L. split; [lia|]. intros k Hk. rewrite at_cons. destruct (Z.leb_spec k 0); [f_equal; lia|]. rewrite Al by lia. f_equal. lia.
Qed.
(** the texts init accepts *)
Definition text_ok (text : list Z) : Prop :=
  zlen text < 2 ^ 31 - 1 /\ Forall (symbol t16) text /\
  if raw then t16 = false /\ ~ In 0 text else distinct text <= (if t16 then 65534 else 255).
Definition coded (text : list Z) (q : fq) (charNum : Z) : Prop :=
  (forall x, In x text -> dom_of text x) /\ (forall x, dom_of text x -> 1 <= enc_of q x < charNum /\ dec_of q (enc_of q x) = x) /\
  (forall c x, dom_of text x -> c = enc_of q x -> (if raw then Ok c else fq_elem q (c - 1)) = Ok x) /\
  1 <= charNum <= 2 ^ tbits t16 /\ charNum < 2 ^ 16.
Lemma initCf_ok text : text_ok text -> exists cf q charNum, initCf raw t16 sort8 sort16 place junk (fq_new t16) text = Ok (map (enc_of q) text ++ [0], cf, q, charNum) /\
  coded text q charNum /\ is_cf cf (map (enc_of q) text ++ [0]) charNum /\ (raw = false -> fq_ok t16 text q /\ fq_init sort8 sort16 place junk (fq_new t16) text = Ok q).
Proof.
  intros (L & F & C). unfold initCf. destruct (Z.leb_spec (2 ^ 32 - 1) (zlen text)); [lia|].
  destruct raw eqn:R.
  - destruct C as [T Z0]. rewrite T in *. change (Z.shiftl 1 (tbits false)) with 256. change (Z.to_nat (256 - 1)) with 255%nat.
    assert (Forall (fun c => 1 <= c < 256) text) as F1. { apply Forall_forall. intros x Hx. rewrite Forall_forall in F. pose proof (F x Hx) as Fx. unfold symbol in Fx. change (2 ^ tbits false) with 256 in Fx. assert (x <> 0) by (intros ->; auto). lia. }
    assert (forall c, at_ (1 :: repeat 0 255) c = if c <=? 0 then 1 else 0) as A0. { intros c. rewrite at_cons. destruct (c <=? 0); auto. unfold at_. destruct (Nat.lt_ge_cases (Z.to_nat (c - 1)) 255); [apply nth_repeat|apply nth_overflow; rewrite repeat_length; auto]. }
    destruct (raw_count_ok text (1 :: repeat 0 255) 256 eq_refl F1) as (tbl & E & Lt & At). { intros c. rewrite A0. pose proof (occ_le c text). destruct (c <=? 0); lia. }
    rewrite E. cbn [bind]. assert (map (enc_of (fq_new false)) text = text) as M. { unfold enc_of. rewrite R. apply map_id. } exists (sums tbl 0), (fq_new false), 256. rewrite M. split; auto. split; [|split].
    + unfold coded, dom_of, enc_of, dec_of. rewrite R, T. rewrite Forall_forall in F1. split; [auto|]. split; [auto|]. split; [intros; congruence|]. change (2 ^ tbits false) with 256. lia.
    + assert (Forall (fun x => 0 <= x) (text ++ [0])) as P. { apply Forall_app. split; [eapply Forall_impl; [|exact F1]; cbn; intros; lia|repeat constructor; lia]. }
      destruct (sums_ok (text ++ [0])) with (l := tbl) (i := 0) as [S1 S2]. { rewrite zlen_app. change (zlen [0]) with 1. lia. } { intros k Hk. rewrite At, A0, occ_app, occ_cons by lia. change (occ (0 + k) []) with 0. rewrite Z.add_0_l. destruct (Z.leb_spec k 0), (Z.eqb_spec 0 k); lia. }
      rewrite (occLt_0 _ P) in S1, S2. split; [lia|]. intros c Hc. rewrite S2 by lia. f_equal.
    + intros X. discriminate.
  - destruct (fq_init_ok text F ltac:(lia)) as (q & E & O & Sz). rewrite E. cbn [bind]. assert (0 <= distinct text) by apply zlen_nonneg. assert (fq_size q + 1 <= 2 ^ tbits t16 /\ fq_size q + 1 < 2 ^ 16) as [B1 B2] by (rewrite Sz; unfold tbits; destruct t16; lia).
    rewrite Z.shiftl_1_l. destruct (Z.ltb_spec (2 ^ tbits t16) (fq_size q + 1)); [lia|]. rewrite (encode_ok text q) by (auto; lia). cbn [bind]. set (v := map (enc_of q) text ++ [0]).
    assert (zlen v < 2 ^ 32) as Lv. { unfold v. rewrite zlen_app. unfold zlen at 1. rewrite map_length. change (zlen [0]) with 1. fold (zlen text). lia. }
    assert (Forall (fun x => 1 <= x) (map (enc_of q) text)) as P1. { apply Forall_forall. intros y Hy. apply in_map_iff in Hy. destruct Hy as (x & <- & Hx). destruct O as (_ & A & _). destruct (A x Hx) as (i & Hi & Ei & _). unfold enc_of. rewrite R, Ei. lia. }
    assert (occLt 0 v = 0 /\ occLt 1 v = 1) as [V0 V1].
    { assert (occLt 0 v = 0) as V0. { apply occLt_0. apply Forall_app. split; [eapply Forall_impl; [|exact P1]; cbn; intros; lia|repeat constructor; lia]. } split; auto. change 1 with (0 + 1) at 1. rewrite occLt_succ, V0. unfold v. rewrite occ_app, occ_cons. change (occ 0 []) with 0. cbn [Z.eqb]. enough (occ 0 (map (enc_of q) text) = 0) by lia.
      destruct (Z.eq_dec (occ 0 (map (enc_of q) text)) 0) as [|N]; auto. apply occ_in in N. rewrite Forall_forall in P1. pose proof (P1 0 N). lia. }
    destruct (freq_sums_ok text q v R O eq_refl Lv F (Z.to_nat (fq_size q + 1 - 1)) 1 ltac:(lia) ltac:(lia)) as (l & E2 & Ll & Al). rewrite V1 in E2. rewrite E2. cbn [bind]. exists (0 :: l), q, (fq_size q + 1). split; auto. split; [|split; [|auto]].
    + unfold coded, dom_of, enc_of, dec_of. rewrite R. destruct O as (_ & A & B). split; [auto|]. split; [|split; [|lia]].
      * intros x Hx. destruct (A x Hx) as (i & Hi & E3 & E4). rewrite E3. replace (i + 1 - 1) with i by lia. rewrite E4. split; [lia|auto].
      * intros c x Hx ->. destruct (A x Hx) as (i & Hi & E3 & E4). rewrite E3. replace (i + 1 - 1) with i by lia. auto.
    + split; [rewrite zlen_cons, Ll; lia|]. intros c Hc. rewrite at_cons. destruct (Z.leb_spec c 0); [replace c with 0 by lia; auto|]. rewrite Al by lia. f_equal. lia.
Qed.

(** ** the rest of init *)
Lemma initBwt_ok (t sa : list Z) : zlen sa = zlen (t ++ [0]) -> forall l, Forall (fun p => 0 <= p < zlen (t ++ [0])) l -> initBwt (t ++ [0]) (zlen sa) l = Ok (map (prev_char t) l).
Proof.
  intros L. assert (1 <= zlen (t ++ [0])) by (rewrite zlen_app; change (zlen [0]) with 1; pose proof (zlen_nonneg t); lia). induction 1 as [|p l Hp _ IH]; [reflexivity|]. cbn [initBwt map]. rewrite IH, L. unfold prev_char at 2. destruct (Z.ltb_spec 0 p); rewrite rd_at by lia; reflexivity.
Qed.
Lemma bit_loop_ok : forall k x r, 0 <= x < 2 ^ Z.of_nat k -> exists len, bit_loop k x r = r + len /\ 0 <= len /\ x < 2 ^ len /\ (0 < x -> 0 < len) /\ forall j, 0 <= j -> x < 2 ^ j -> len <= j.
Proof.
  induction k as [|k IH]; intros x r Hx; cbn [bit_loop].
  - exists 0. change (2 ^ Z.of_nat 0) with 1 in Hx. change (2 ^ 0) with 1. repeat split; intros; lia.
  - destruct (Z.ltb_spec 0 x).
    + rewrite Nat2Z.inj_succ, Z.pow_succ_r in Hx by lia. rewrite Z.shiftr_div_pow2 by lia. change (2 ^ 1) with 2. pose proof (Z.div_mod x 2 ltac:(lia)) as D. pose proof (Z.mod_pos_bound x 2 ltac:(lia)) as Mb. destruct (IH (x / 2) (r + 1)) as (len & E & L0 & L1 & _ & L2); [lia|]. exists (len + 1). rewrite E. rewrite Z.pow_add_r by lia. change (2 ^ 1) with 2. repeat split; try lia.
      intros j Hj Lj. destruct (Z.eq_dec j 0) as [-> |]; [change (2 ^ 0) with 1 in Lj; lia|]. enough (len <= j - 1) by lia. apply L2; [lia|]. replace j with (j - 1 + 1) in Lj by lia. rewrite Z.pow_add_r in Lj by lia. change (2 ^ 1) with 2 in Lj. lia.
    + exists 0. change (2 ^ 0) with 1. repeat split; intros; try lia.
Qed.
Lemma getBitLen_ok x : 1 <= x < 2 ^ 16 -> 0 < getBitLen x <= 16 /\ x <= 2 ^ getBitLen x.
Proof.
  intros H. unfold getBitLen. destruct (Z.eqb_spec x 0); [lia|]. destruct (bit_loop_ok 64 x 0) as (len & E & L0 & L1 & L2 & L3). { change (Z.of_nat 64) with 64. lia. } rewrite E, Z.add_0_l. specialize (L2 ltac:(lia)). specialize (L3 16 ltac:(lia) ltac:(lia)). lia.
Qed.
Lemma aligned_ok skip : forall l n done bv asa, zlen done + zlen l = n -> holds 64 bv n (fun i => (i <? zlen done) && (at_ done i mod skip =? 0)) ->
  exists bv', aligned skip l (zlen done) bv asa = Ok (bv', asa ++ filter (fun p => p mod skip =? 0) l) /\ holds 64 bv' n (fun i => at_ (done ++ l) i mod skip =? 0).
Proof.
  assert (forall (a b : list Z) i, 0 <= i < zlen a -> at_ (a ++ b) i = at_ a i) as A1 by (intros a b i Hi; unfold at_; rewrite app_nth1; auto; unfold zlen in Hi; lia).
  assert (forall (a b : list Z) x i, i = zlen a -> at_ (a ++ x :: b) i = x) as A2 by (intros a b x i ->; unfold at_; rewrite app_nth2 by (unfold zlen; lia); replace (Z.to_nat (zlen a) - length a)%nat with 0%nat by (unfold zlen; lia); auto).
  induction l as [|p l IH]; intros n done bv asa L H; cbn [aligned filter].
  - exists bv. rewrite !app_nil_r. split; auto. change (zlen []) with 0 in L. eapply holds_ext; [|exact H]. intros i Hi. cbn beta. destruct (Z.ltb_spec i (zlen done)); [auto|lia].
  - rewrite zlen_cons in L. pose proof (zlen_nonneg l). pose proof (zlen_nonneg done). assert (zlen (done ++ [p]) = zlen done + 1) as Z1 by (rewrite zlen_app; auto).
    assert (forall i, 0 <= i < n -> i <> zlen done -> (i <? zlen done) && (at_ done i mod skip =? 0) = (i <? zlen (done ++ [p])) && (at_ (done ++ [p]) i mod skip =? 0)) as X. { intros i Hi Ni. rewrite Z1. destruct (Z.ltb_spec i (zlen done)), (Z.ltb_spec i (zlen done + 1)); try lia; auto. cbn [andb]. rewrite A1 by lia. auto. }
    destruct (p mod skip =? 0) eqn:E.
    + destruct (set_holds 64 ltac:(lia) bv n _ (zlen done) H ltac:(lia)) as (bv1 & S & Hq1). rewrite S. cbn [bind]. rewrite <- Z1. destruct (IH n (done ++ [p]) bv1 (asa ++ [p])) as (bv2 & E2 & Hq2); [lia| |].
      { eapply holds_ext; [|exact Hq1]. intros i Hi. cbn beta. destruct (Z.eqb_spec i (zlen done)) as [Ei|]; [|apply X; auto]. rewrite A2, E by auto. rewrite Z1. destruct (Z.ltb_spec i (zlen done + 1)); [auto|lia]. }
      exists bv2. rewrite E2, <- app_assoc. split; auto. rewrite <- app_assoc in Hq2. auto.
    + rewrite <- Z1. destruct (IH n (done ++ [p]) bv asa) as (bv2 & E2 & Hq2); [lia| |].
      { eapply holds_ext; [|exact H]. intros i Hi. cbn beta. destruct (Z.eq_dec i (zlen done)) as [Ei|]; [|apply X; auto]. rewrite A2, E by auto. rewrite andb_false_r. destruct (Z.ltb_spec i (zlen done)); [lia|auto]. }
      exists bv2. rewrite E2. split; auto. rewrite <- app_assoc in Hq2. auto.
Qed.
Lemma holds_empty : holds 64 bv_empty 0 (fun _ => false).
Proof. unfold holds. cbn [bv_empty bv_len bv_v]. change (zlen (@nil Z)) with 0. split; auto. split; [lia|]. split; [constructor|]. split; [lia|]. intros i Hi. rewrite andb_false_r. apply (BitVecProof.vbit_over 64); [lia|change (zlen (@nil Z)) with 0; lia]. Qed.

Definition sais_ok : Prop := forall v k, 0 < zlen v < 2 ^ 31 -> 1 <= k <= 2 ^ 16 -> Forall (fun c => 0 <= c < k) v -> exists sa, sais v k = (0, sa) /\ is_suffix_array v sa.
Lemma init_ok text skip : sais_ok -> text_ok text -> 0 < skip < 2 ^ 31 -> exists m sa enc bl, fm_init x64 raw t16 sais sort8 sort16 place junk (fm_new t16) text skip = Ok m /\
  let v := map enc text ++ [0] in
  enc = enc_of (m_fq m) /\ is_suffix_array v sa /\ coded text (m_fq m) (m_charNum m) /\ is_cf (m_cf m) v (m_charNum m) /\ (raw = false -> fq_ok t16 text (m_fq m)) /\
  0 < bl /\ m_charNum m <= 2 ^ bl /\ answers_ok x64 false false (bwt (map enc text) sa) bl (m_wm m) /\ m_asa m = filter (fun p => p mod skip =? 0) sa /\
  (forall i, 0 <= i < zlen v -> sv_get (m_apos m) i = Ok (at_ sa i mod skip =? 0)) /\
  (forall i, 0 <= i < zlen v -> sv_rank1 x64 false (m_apos m) i = Ok (zlen (filter (fun p => p mod skip =? 0) (firstn (Z.to_nat i) sa)))) /\
  wm_init x64 false false false wm_empty (bwt (map enc text) sa) bl = Ok (m_wm m) /\ input_ok (bwt (map enc text) sa) bl /\ sv_wf (m_apos m) /\ m_skip m = skip /\
  (raw = false -> fq_init sort8 sort16 place junk (fq_new t16) text = Ok (m_fq m)).
Proof.
  intros Hsais Ht Hk. unfold fm_init. destruct (Z.leb_spec skip 0); [lia|]. destruct (initCf_ok text Ht) as (cf & q & charNum & E & Co & Cf & O0). assert (raw = false -> fq_ok t16 text q) as O by (intros; apply O0; auto). assert (raw = false -> fq_init sort8 sort16 place junk (fq_new t16) text = Ok q) as Oq by (intros; apply O0; auto). clear O0. cbn [fm_new m_fq]. rewrite E. cbn [bind]. set (t := map (enc_of q) text) in *. set (v := t ++ [0]) in *.
  destruct Ht as (L & _ & _). assert (zlen v = zlen text + 1) as Lv. { unfold v. rewrite zlen_app. unfold t, zlen. rewrite map_length. reflexivity. } pose proof (zlen_nonneg text) as T0. pose proof Co as (Co1 & Co2 & Co3 & Co4 & Co5).
  assert (forall x, In x t -> 1 <= x < charNum) as It. { intros y Hy. apply in_map_iff in Hy. destruct Hy as (x & <- & Hx). apply Co2, Co1, Hx. }
  destruct (Hsais v charNum) as (sa & Es & Sa); [lia|lia| |]. { apply Forall_app. split; [apply Forall_forall; intros x Hx; specialize (It x Hx); lia|repeat constructor; lia]. }
  rewrite Es. change (0 =? -1) with false. cbn match. pose proof (sa_len t sa Sa) as Ls. fold v in Ls.
  assert (Forall (fun p => 0 <= p < zlen v) sa) as Fsa. { apply Forall_forall. intros p Hp. apply (In_nth _ _ 0) in Hp. destruct Hp as (i & Hi & <-). pose proof (sa_range t sa Sa (Z.of_nat i)) as R. fold v in R. unfold at_ in R. rewrite Nat2Z.id in R. apply R. rewrite <- Ls. unfold zlen. lia. }
  unfold v at 1. rewrite (initBwt_ok t sa Ls sa Fsa). cbn [bind]. fold (bwt t sa). destruct (getBitLen_ok charNum ltac:(lia)) as [Gb1 Gb2]. pose proof (bwt_len t sa Sa) as Lb. fold v in Lb.
  assert (input_ok (bwt t sa) (getBitLen charNum)) as Iok.
  { split; [lia|]. split; [lia|]. apply Forall_forall. intros x Hx. apply in_map_iff in Hx. destruct Hx as (p & <- & Hp). rewrite Forall_forall in Fsa. specialize (Fsa p Hp). assert (forall q', 0 <= q' < zlen v -> 0 <= at_ v q' < charNum) as Av. { intros q' Hq. assert (In (at_ v q') v) as I by (unfold at_; apply nth_In; unfold zlen in Hq; lia). unfold v in I at 2. apply in_app_or in I. destruct I as [I|[<-|[]]]; [specialize (It _ I)|]; lia. }
    unfold prev_char. fold v. destruct (Z.ltb_spec 0 p); [specialize (Av (p - 1) ltac:(lia))|specialize (Av (zlen v - 1) ltac:(lia))]; lia. }
  destruct (C30_wavelet x64 false false false wm_empty (bwt t sa) (getBitLen charNum)) as (w & Ew & Aw & _); [split; constructor|auto|].
  cbn [m_wm fm_new]. rewrite Ew. cbn [bind]. destruct (resize_holds 64 ltac:(lia) bv_empty 0 (fun _ => false) (zlen v) holds_empty ltac:(lia)) as (bv0 & Eb & Hb). rewrite Eb. cbn [bind].
  destruct (aligned_ok skip sa (zlen v) [] bv0 [] ltac:(change (zlen []) with 0; lia)) as (bv & Ea & Ha). { eapply holds_ext; [|exact Hb]. intros i Hi. change (zlen []) with 0. destruct (Z.ltb_spec i 0); [lia|apply andb_false_r]. }
  change (zlen []) with 0 in Ea. cbn [fm_new m_asa]. rewrite Ea. cbn [bind]. cbn [app] in Ha |- *. destruct Ha as (H1 & H2 & H3 & H4 & H5). cbn [fm_new m_apos].
  destruct (C26_init x64 false false sv_empty (bv_v bv) (bv_len bv)) as (sv & pad & E3 & _ & _ & An). { constructor. } { exact H3. } { unfold limit. rewrite H1. lia. } { lia. }
  rewrite E3. cbn [bind]. eexists _, sa, (enc_of q), (getBitLen charNum). split; [reflexivity|]. cbn [m_fq m_charNum m_cf m_wm m_asa m_apos]. fold t. fold v. rewrite H1 in An.
  assert (forall i, 0 <= i < zlen v -> nth (Z.to_nat i) (block_bits 64 (bv_v bv) (zlen v)) false = (at_ sa i mod skip =? 0)) as NB. { intros i Hi. rewrite nth_block_bits by lia. rewrite H5 by lia. destruct (Z.ltb_spec i (zlen v)); [auto|lia]. }
  assert (zlen (block_bits 64 (bv_v bv) (zlen v)) = zlen v) as ZB by (apply zlen_block_bits; lia).
  assert (sv_wf sv) as Wf. { eapply C29_init_saves; [| | |exact E3]; [|exact H3|lia]. unfold sv_wf, sv_empty. cbn. repeat split; try constructor; try lia. }
  repeat (split; [first [assumption|reflexivity|lia]|]). split; [|split; [|repeat (split; [first [assumption|reflexivity]|]); assumption]].
  - intros i Hi. rewrite (a_get _ _ _ _ _ _ An) by lia. rewrite ZB. destruct (Z.ltb_spec i (zlen v)); [rewrite NB by lia; auto|lia].
  - intros i Hi. fold (sv_rank x64 false sv true i). rewrite (a_rank _ _ _ _ _ _ An) by lia. f_equal. rewrite count_cnt by lia. rewrite <- (cnt_filter_n (fun p => p mod skip =? 0)) by lia. apply cnt_ext. intros k Hkk. rewrite NB by lia. destruct (_ =? 0); auto.
Qed.
End Init.
