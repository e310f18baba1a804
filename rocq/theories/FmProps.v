(** C31: FMindexT finds exactly the occurrences of a key; convertPosition and getPrevString recover the text; save and load. *)
Require Import Verif.Common Verif.Cnt Verif.StreamModel Verif.EndianModel Verif.SerializerModel Verif.SerializerProps Verif.FrequencyModel Verif.FrequencyProps Verif.BitVecModel Verif.BitVecProps Verif.SucModel Verif.SucProps Verif.WaveletModel Verif.WaveletProps Verif.FmModel Verif.FmCore Verif.FmProof Verif.FmInit.
From Coq Require Import Permutation Sorting.Sorted.
Ltac Zify.zify_post_hook ::= idtac.
Notation occ := WaveletProps.occ.
Notation distinct := FmInit.distinct.

(** * Specification.  [occurs], [is_suffix_array], [lex_lt] are in FmCore.v; [text_ok] (the texts init accepts), [symbol] and [distinct] in FmInit.v. *)
(** the keys of the theorems: symbols of T; in raw mode the terminator 0 must not occur *)
Definition key_ok (raw t16 : bool) (key : list Z) : Prop := Forall (symbol t16) key /\ (raw = true -> ~ In 0 key).
(** the last k elements *)
Definition suffix_of {A} (k : nat) (l : list A) : list A := skipn (length l - k) l.
(** m answers for text; convertPosition loops at most skip times *)
Definition index_of (x64 raw t16 : bool) (skip : Z) (text : list Z) (m : fmi) : Prop :=
  forall f, skip <= Z.of_nat f ->
  let pos i := fm_convert x64 t16 f m i in
  (* there is a row for every suffix, the empty one included, which has the first row *)
  wm_size (m_wm m) = zlen text + 1 /\ pos 0 = Ok (zlen text) /\
  (* every row is the position of one suffix (the last is the end of the text), each suffix has one row *)
  (forall i, 0 <= i <= zlen text -> exists p, pos i = Ok p /\ 0 <= p <= zlen text) /\
  (forall p, 0 <= p <= zlen text -> exists i, 0 <= i <= zlen text /\ pos i = Ok p) /\
  (forall i j p, 0 <= i <= zlen text -> 0 <= j <= zlen text -> pos i = Ok p -> pos j = Ok p -> i = j) /\
  (* a key that is found gives the rows of its occurrences, all of them and nothing else *)
  (forall key, key_ok raw t16 key ->
     (key = [] /\ fm_getRange x64 raw t16 m key = Ok None) \/
     (key <> [] /\ fm_getRange x64 raw t16 m key = Ok None /\ forall p, ~ occurs key text p) \/
     (key <> [] /\ exists b e, fm_getRange x64 raw t16 m key = Ok (Some (b, e)) /\ 0 <= b < e /\ e <= zlen text + 1 /\
        forall i p, 0 <= i <= zlen text -> pos i = Ok p -> (b <= i < e <-> occurs key text p))) /\
  (* getPrevString: what precedes the row in the text *)
  (forall i p len, 0 <= i <= zlen text -> pos i = Ok p -> fm_prev x64 raw t16 m i len [] = Ok (suffix_of len (firstn (Z.to_nat p) text))).

(** * Proofs *)
Lemma convert_key_ok t16 text q charNum : fq_ok t16 text q -> coded false t16 text q charNum -> forall key, Forall (symbol t16) key ->
  (convert_key t16 q key = Ok None /\ ~ Forall (fun x => In x text) key) \/ (convert_key t16 q key = Ok (Some (map (enc_of false q) key)) /\ Forall (fun x => In x text) key).
Proof.
  intros (A0 & A & B) Co. induction key as [|c key IH]; intros F; [right; split; [reflexivity|constructor]|]. pose proof (Forall_inv F) as F1. pose proof (Forall_inv_tail F) as F2. cbn [convert_key map]. rewrite A0 by auto. cbn [bind]. destruct (Z.eqb_spec (occ c text) 0) as [E|E].
  - left. split; auto. intros X. pose proof (Forall_inv X) as X1. apply occ_in in X1. auto.
  - apply occ_in in E. destruct (A c E) as (i & Hi & Ei & _). rewrite Ei. cbn [bind]. destruct Co as (_ & Co & _ & C4 & _). assert (enc_of false q c = i + 1) as Ec by (unfold enc_of; rewrite Ei; auto). destruct (Co c) as [C1 _]; [unfold dom_of; auto|]. rewrite Ec in C1. rewrite Z.mod_small by lia.
    destruct (IH F2) as [[E1 N]|[E1 Y]]; rewrite E1; cbn [bind option_map].
    + left. split; auto. intros X. apply N. apply (Forall_inv_tail X).
    + right. split; [rewrite Ec; auto|constructor; auto].
Qed.
Section Fm.
Variables (x64 raw t16 : bool) (sais : list Z -> Z -> Z * list Z) (sort8 : (Z -> Z -> bool) -> list Z -> list Z) (sort16 : list (Z * (Z * Z)) -> list (Z * (Z * Z))) (place : Z * (Z * Z) -> list (Z * (Z * Z)) -> nat) (junk : list Z).
Hypothesis Hs8 : vsrt_ok sort8.
Hypothesis Hs16 : srt_ok Z.gtb sort16.
Hypothesis Hjunk : zlen junk = 256.
Hypothesis Hsais : sais_ok sais.
Notation init := (fm_init x64 raw t16 sais sort8 sort16 place junk).

(** what the queries need *)
Definition good (text : list Z) (skip : Z) (m : fmi) : Prop := (raw = true -> t16 = false) /\ exists sa enc bl charNum, let v := map enc text ++ [0] in
  (forall x, dom_of raw text x -> enc x = enc_of raw (m_fq m) x) /\ is_suffix_array v sa /\ coded raw t16 text (m_fq m) charNum /\ is_cf (m_cf m) v charNum /\ (raw = false -> fq_ok t16 text (m_fq m)) /\
  0 < bl /\ charNum <= 2 ^ bl /\ answers_ok x64 false false (bwt (map enc text) sa) bl (m_wm m) /\ m_asa m = filter (fun p => p mod skip =? 0) sa /\
  (forall i, 0 <= i < zlen v -> sv_get (m_apos m) i = Ok (at_ sa i mod skip =? 0)) /\
  (forall i, 0 <= i < zlen v -> sv_rank1 x64 false (m_apos m) i = Ok (zlen (filter (fun p => p mod skip =? 0) (firstn (Z.to_nat i) sa)))).
Lemma good_index text skip m : zlen text < 2 ^ 31 - 1 -> 0 < skip < 2 ^ 31 -> good text skip m -> index_of x64 raw t16 skip text m.
Proof.
  intros L Hk (RT & sa & enc & bl & charNum & He & Sa & Co & Cf & O & B0 & B1 & Wm & As & Sg & Sr) f Hf. set (v := map enc text ++ [0]) in *.
  assert (zlen v = zlen text + 1) as Lv. { unfold v. rewrite zlen_app. unfold zlen at 1. rewrite map_length. reflexivity. } pose proof Co as (Co1 & Co2 & Co3 & Co4 & Co5).
  assert (forall x, dom_of raw text x -> 1 <= enc x < charNum /\ dec_of raw (m_fq m) (enc x) = x) as Co2' by (intros x Hx; rewrite He by auto; auto).
  assert (forall c x, dom_of raw text x -> c = enc x -> (if raw then Ok c else fq_elem (m_fq m) (c - 1)) = Ok x) as Co3' by (intros c x Hx ->; apply Co3; auto).
  assert (forall i, 0 <= i < zlen v -> fm_convert x64 t16 f m i = Ok (at_ sa i)) as CV. { intros i Hi. eapply (fm_convert_ok x64 raw t16 m text sa enc (dec_of raw (m_fq m)) (dom_of raw text) skip charNum); eauto; lia. }
  pose proof (sa_range (map enc text) sa Sa) as SR. pose proof (sa_surj (map enc text) sa Sa) as SS. pose proof (sa_inj (map enc text) sa Sa) as SI. fold v in SR, SS, SI.
  cbv zeta. repeat split.
  - destruct Wm as (-> & _). pose proof (bwt_len (map enc text) sa Sa) as Lb. fold v in Lb. lia.
  - rewrite CV by (pose proof (zlen_nonneg text); lia). f_equal. pose proof (zlen_nonneg text) as N0. destruct (SS (zlen text) ltac:(lia)) as (i & Hi & Ei).
    destruct (Z.eq_dec i 0) as [->|NZ]; [auto|]. exfalso. destruct Sa as [_ So]. fold v in So. specialize (So 0 i ltac:(lia) ltac:(lia)). rewrite Ei in So.
    assert (suffix v (zlen text) = [0]) as E0. { unfold suffix, v. rewrite skipn_app. rewrite skipn_all2 by (rewrite map_length; unfold zlen; lia). rewrite map_length. replace (Z.to_nat (zlen text) - length text)%nat with 0%nat by (unfold zlen; lia). reflexivity. }
    rewrite E0 in So. pose proof (SR 0 ltac:(lia)) as R0. destruct (suffix v (at_ sa 0)) as [|y r] eqn:Ey.
    { apply (f_equal (@length Z)) in Ey. unfold suffix in Ey. rewrite skipn_length in Ey. cbn in Ey. unfold zlen in *. lia. }
    assert (In y v) as Iy. { assert (In y (suffix v (at_ sa 0))) as I by (rewrite Ey; left; auto). unfold suffix in I. rewrite <- (firstn_skipn (Z.to_nat (at_ sa 0)) v). apply in_or_app. auto. }
    assert (0 <= y) as Y0. { unfold v in Iy. apply in_app_or in Iy. destruct Iy as [Iy|[<-|[]]]; [|lia]. apply in_map_iff in Iy. destruct Iy as (x & <- & Ix). pose proof (proj1 (Co2' x (Co1 x Ix))). lia. }
    destruct r as [|z r]; cbn in So; [destruct So as [So|[_ []]]; lia|destruct So as [So|[_ []]]; lia].
  - intros i Hi. exists (at_ sa i). rewrite CV by lia. specialize (SR i ltac:(lia)). split; [auto|lia].
  - intros p Hp. destruct (SS p ltac:(lia)) as (i & Hi & Ei). exists i. rewrite CV, Ei by lia. split; [lia|auto].
  - intros i j p Hi Hj. rewrite !CV by lia. intros E1 E2. apply SI; [lia|lia|congruence].
  - intros key [K1 K2]. destruct key as [|k0 key0]; [left; split; auto|right]. set (key := k0 :: key0) in *. assert (key <> []) as NE by discriminate.

    assert (forall K, K = map enc key -> Forall (dom_of raw text) key -> fm_getRange x64 raw t16 m key = (let! (b, e) := search x64 m (rev K) 0 (wm_size (m_wm m)) in Ok (if b <? e then Some (b, e) else None)) ->
      (key <> [] /\ fm_getRange x64 raw t16 m key = Ok None /\ (forall p, ~ occurs key text p)) \/
      (key <> [] /\ exists b e, fm_getRange x64 raw t16 m key = Ok (Some (b, e)) /\ 0 <= b < e /\ e <= zlen text + 1 /\ forall i p, 0 <= i <= zlen text -> fm_convert x64 t16 f m i = Ok p -> (b <= i < e <-> occurs key text p))) as Main.
    { intros K -> D EG. destruct (range_ok x64 raw t16 m text sa enc (dec_of raw (m_fq m)) (dom_of raw text) skip charNum Co1 Co2' Sa L Hk Cf bl (conj B0 B1) Wm Sg Sr Co3' key D NE) as (b & e & S & C). rewrite EG, S. cbn [bind]. fold v in C. destruct C as [(X1 & X2 & X3 & X4)|[X1 X2]].
      - right. split; auto. exists b, e. destruct (Z.ltb_spec b e); [|lia]. split; auto. split; [lia|]. split; [lia|]. intros i p Hi. rewrite CV by lia. intros E. injection E as <-. apply X4. lia.
      - left. split; auto. destruct (Z.ltb_spec b e); [lia|]. split; auto. }
    destruct raw eqn:R.
    + assert (Forall (dom_of true text) key) as D. { apply Forall_forall. intros x Hx. unfold dom_of. rewrite Forall_forall in K1. specialize (K1 x Hx). rewrite (RT eq_refl) in K1. unfold symbol in K1. change (2 ^ tbits false) with 256 in K1. assert (x <> 0) by (intros ->; apply K2; auto). lia. }
      apply (Main key); [|auto|reflexivity]. rewrite (map_ext_in enc (fun x => x)); [symmetry; apply map_id|]. intros x Hx. rewrite Forall_forall in D. apply (He x (D x Hx)).
    + destruct (convert_key_ok t16 text (m_fq m) charNum (O eq_refl) Co key K1) as [[E N]|[E Y]].
      * left. split; auto. split; [unfold fm_getRange, key; fold key; rewrite E; auto|]. intros p (pre & post & Et & _). apply N. apply Forall_forall. intros x Hx. rewrite Et. apply in_or_app. right. apply in_or_app. auto.
      * apply (Main (map (enc_of false (m_fq m)) key)); [|auto|unfold fm_getRange, key; fold key; rewrite E; auto]. apply map_ext_in. intros x Hx. rewrite Forall_forall in Y. symmetry. apply He. apply Y. auto.
  - intros i p len Hi. rewrite CV by lia. intros E. injection E as <-. rewrite (prev_ok x64 raw t16 m text sa enc (dec_of raw (m_fq m)) (dom_of raw text) skip charNum) with (bl := bl); auto; try lia; [|fold v; lia]. rewrite app_nil_r. reflexivity.
Qed.
Lemma init_good text skip : text_ok raw t16 text -> 0 < skip < 2 ^ 31 -> exists m, init (fm_new t16) text skip = Ok m /\ good text skip m.
Proof.
  intros Ht Hk. destruct (init_ok x64 raw t16 sais sort8 sort16 place junk Hs8 Hs16 Hjunk text skip Hsais Ht Hk) as (m & sa & enc & bl & E & -> & Sa & Co & Cf & O & B0 & B1 & Wm & As & Sg & Sr & _).
  exists m. split; auto. split. { destruct Ht as (_ & _ & C). intros R. rewrite R in C. apply C. } exists sa, (enc_of raw (m_fq m)), bl, (m_charNum m). repeat (split; [auto|]). auto.
Qed.

(** * C31 *)
Theorem C31_index : forall text skip, text_ok raw t16 text -> 0 < skip < 2 ^ 31 ->
  exists m, init (fm_new t16) text skip = Ok m /\ index_of x64 raw t16 skip text m.
Proof. intros text skip Ht Hk. destruct (init_good text skip Ht Hk) as (m & E & G). exists m. split; auto. apply good_index; auto. apply Ht. Qed.


(** ** save and load *)
Lemma since_append : forall s acc : list Z, since_clear acc (map FAppend s) = acc ++ s.
Proof. induction s as [|x s IH]; intros acc; cbn [map since_clear]; [rewrite app_nil_r; auto|]. rewrite IH, <- app_assoc. auto. Qed.
Lemma run_append : forall s f, fold_left (run_op Z.eqb 32 sort16 place) (map FAppend s) f = fold_left (f_append Z.eqb 32 place) s f.
Proof. induction s as [|x s IH]; intros f; cbn [map fold_left run_op]; auto. Qed.
Lemma vrun_append : forall s v, v_run 32 sort8 junk v (map FAppend s ++ [FReady]) = v_init 32 sort8 v s junk.
Proof.
  unfold v_init. induction s as [|x s IH]; intros v; cbn [map app v_run v_op v_append_all].
  - cbn [bind]. destruct (v_ready sort8 v junk); auto.
  - destruct (v_append 32 v x) as [v'| | |]; cbn [bind]; auto.
Qed.
Definition same_table (q q' : fq) : Prop :=
  fq_size q' = fq_size q /\ (forall x, fq_freq q' x = fq_freq q x) /\ (forall x, fq_index q' x = fq_index q x) /\ (forall i, fq_elem q' i = fq_elem q i).
Lemma fq_rt text q sort16' place' : srt_ok Z.gtb sort16' -> Forall (symbol t16) text -> zlen text < 2 ^ 31 -> fq_init sort8 sort16 place junk (fq_new t16) text = Ok q ->
  exists enc, fq_save place q = Ok enc /\ forall rest sched, exists q' sched', fq_load sort16' place' (fq_new t16) (mk_is (enc ++ rest) sched) = Ok (q', mk_is rest sched') /\ same_table q q'.
Proof.
  intros Hs' F L E. unfold fq_new in *. destruct t16 eqn:T; cbn [fq_init] in E.
  - injection E as <-. set (ops := map (@FAppend Z) text). assert (f_init Z.eqb 32 sort16 place f_clear text = run Z.eqb 32 sort16 place (ops ++ [FReady])) as Er. { unfold run, f_init. rewrite fold_left_app. unfold ops. rewrite run_append. reflexivity. }
    destruct (C52_save_load Z.eqb Z.gtb 32 Z.eqb_eq Z_gtb_total ltac:(lia) true u64 (codec_pod true 2) (codec_int true u32) (fun x => 0 <= x < 2 ^ 16) sort16 sort16' place place' ops) as (enc & S & Ld); auto.
    + right. reflexivity.
    + apply (rt_pod true 2).
    + apply (rt_int true u32). left. reflexivity.
    + unfold ops. rewrite since_append. exact F.
    + unfold ops. rewrite since_append. cbn [app]. unfold fits, FrequencyProps.distinct. cbn [u64 c_size]. change (8 * 8) with 64.
      enough (Z.of_nat (length (nodup (E_dec Z.eqb Z.eqb_eq) text)) <= zlen text) by lia. unfold zlen. apply inj_le. apply NoDup_incl_length; [apply NoDup_nodup|]. intros x Hx. apply nodup_In in Hx. auto.
    + cbn [fq_save]. rewrite Er. exists enc. split; auto. intros rest sched. destruct (Ld rest sched) as (g & s' & Eg & (G1 & G2 & G3 & G4)). cbn [fq_load]. rewrite Eg. cbn [bind]. eexists _, s'. split; [reflexivity|]. repeat split; cbn [fq_size fq_freq fq_index fq_elem]; auto. intros x. rewrite G2. auto.
  - destruct (v_init 32 sort8 v_new text junk) as [v| | |] eqn:Ev; cbn [bind] in E; try discriminate. injection E as <-. set (ops := map (@FAppend Z) text). rewrite <- vrun_append in Ev.
    destruct (C52_bytes_save_load 32 false ltac:(lia) true u64 4 sort8 junk ops) as (v' & enc & E1 & E2 & Ld); auto; [|right; reflexivity|].
    + unfold ops. clear - F. induction F as [|x s Hx F IH]; cbn; constructor; auto.
    + assert (v' = v) as -> by (unfold ops in E1; congruence). exists enc. split; auto. intros rest sched. destruct (Ld rest sched) as (s' & El). cbn [fq_load]. rewrite El. cbn [bind]. eexists _, s'. split; [reflexivity|]. repeat split.
Qed.
Lemma of_to_le4 x : 0 <= x < 2 ^ 32 -> length (to_le 4 x) = 4%nat /\ of_le (to_le 4 x) = x.
Proof. intros H. split; [apply len_to_le|]. apply of_to_le. exact H. Qed.
Theorem C31_save_load : forall sort16' place' text skip m, srt_ok Z.gtb sort16' -> text_ok raw t16 text -> 0 < skip < 2 ^ 31 -> init (fm_new t16) text skip = Ok m ->
  exists enc, fm_save raw place m = Ok enc /\
    forall rest sched, exists m' sched', fm_load raw t16 sort16' place' (fm_new t16) (mk_is (enc ++ rest) sched) = Ok (m', mk_is rest sched') /\
      m_skip m' = skip /\ index_of x64 raw t16 skip text m'.
Proof.
  intros sort16' place' text skip m Hs' Ht Hk Ei. destruct (init_ok x64 raw t16 sais sort8 sort16 place junk Hs8 Hs16 Hjunk text skip Hsais Ht Hk) as (m0 & sa & enc & bl & E & -> & Sa & Co & Cf & O & B0 & B1 & Wm & As & Sg & Sr & Ew & Iw & Wf & Sk & Fq).
  assert (m0 = m) as -> by congruence. pose proof Ht as (L & Fs & Tr). set (v := map (enc_of raw (m_fq m)) text ++ [0]) in *. assert (zlen v = zlen text + 1) as Lv. { unfold v. rewrite zlen_app. unfold zlen at 1. rewrite map_length. reflexivity. }
  destruct (C09_variable_int true s32 skip) as (a & Sa1 & _ & La & _); [left; reflexivity|unfold in_range; cbn; lia|].
  destruct (podvec_rt 4 (to_le 4) of_le (m_cf m)) as (b & Sb & Lb).
  { apply Forall_forall. intros x Hx. apply of_to_le4. apply (In_nth _ _ 0) in Hx. destruct Hx as (i & Hi & <-). destruct Cf as [C1 C2]. specialize (C2 (Z.of_nat i)). unfold at_ in C2. rewrite Nat2Z.id in C2. unfold zlen in C1. rewrite C2 by lia. unfold occLt. pose proof (zlen_nonneg (filter (fun x => x <? Z.of_nat i) v)). pose proof (filter_zlen_le 0 (fun x => x <? Z.of_nat i) v). lia. }
  { destruct Cf as [C1 C2]. destruct Co as (_ & _ & _ & _ & C5). lia. }
  destruct (C61_save_load x64 false false false wm_empty wm_empty (bwt (map (enc_of raw (m_fq m)) text) sa) bl (m_wm m)) as (c & Sc & Lc); [split; constructor|split; constructor|auto|auto|].
  assert (Forall (fun p => 0 <= p < zlen v) sa) as Fsa. { apply Forall_forall. intros p Hp. apply (In_nth _ _ 0) in Hp. destruct Hp as (i & Hi & <-). pose proof (sa_range _ sa Sa (Z.of_nat i)) as R. pose proof (sa_len _ sa Sa) as Ls. fold v in R, Ls. unfold at_ in R. rewrite Nat2Z.id in R. apply R. rewrite <- Ls. unfold zlen. lia. }
  destruct (podvec_rt 4 (to_le 4) of_le (m_asa m)) as (d & Sd & Ld).
  { rewrite As. apply Forall_forall. intros x Hx. apply filter_In in Hx. destruct Hx as [Hx _]. apply of_to_le4. rewrite Forall_forall in Fsa. specialize (Fsa x Hx). lia. }
  { rewrite As. pose proof (filter_zlen_le 0 (fun p => p mod skip =? 0) sa). pose proof (sa_len _ sa Sa) as Ls. fold v in Ls. lia. }
  destruct (C29_load_save false (m_apos m) sv_empty Wf) as (e & Se & Le).
  assert (exists f, (if raw then Ok [] else fq_save place (m_fq m)) = Ok f /\ forall rest sched, exists q' sched', (raw = false -> fq_load sort16' place' (fq_new t16) (mk_is (f ++ rest) sched) = Ok (q', mk_is rest sched') /\ same_table (m_fq m) q') /\ (raw = true -> f = [] /\ q' = fq_new t16)) as (f & Sf & Lf).
  { destruct raw eqn:R; [exists []; split; auto; intros; exists (fq_new t16), sched; split; [discriminate|auto]|]. destruct (fq_rt text (m_fq m) sort16' place' Hs' Fs ltac:(lia) (Fq eq_refl)) as (f & Sf & Lf). exists f. split; auto. intros rest sched. destruct (Lf rest sched) as (q' & s' & X). exists q', s'. split; [auto|discriminate]. }
  unfold fm_save. rewrite Sk, Sa1, Sb, Sc, Sd, Se, Sf. cbn [bind]. eexists. split; [reflexivity|]. intros rest sched. rewrite <- !app_assoc. unfold fm_load.
  destruct (La (b ++ c ++ d ++ e ++ f ++ rest) sched) as (s1 & ->). cbn [bind]. destruct (Lb (c ++ d ++ e ++ f ++ rest) s1) as (s2 & ->). cbn [bind].
  destruct (Lc (d ++ e ++ f ++ rest) s2) as (w' & s3 & Ew' & Aw' & _). cbn [fm_new m_wm]. rewrite Ew'. cbn [bind]. destruct (Ld (e ++ f ++ rest) s3) as (s4 & ->). cbn [bind].
  destruct (Le (f ++ rest) s4) as (s5 & sv' & Esv & ->). cbn [fm_new m_apos]. rewrite Esv. cbn [bind]. destruct (Lf rest s5) as (q' & s6 & Q1 & Q2). cbn [m_fq].
  assert (forall cn, good text skip (mk_fm (m_cf m) w' (m_asa m) (mk_sv (sv_bitSize (m_apos m)) (sv_num0 (m_apos m)) (sv_num1 (m_apos m)) (sv_freezed sv_empty) (sv_blk (m_apos m)) (sv_sel0 sv_empty) (sv_sel1 sv_empty)) q' skip cn)) as G.
  { intros cn. split. { intros R. rewrite R in Tr. apply Tr. } exists sa, (enc_of raw (m_fq m)), bl, (m_charNum m). cbn [m_fq m_cf m_wm m_asa m_apos]. cbv zeta. fold v.
    assert (forall x, enc_of raw (m_fq m) x = enc_of raw q' x) as Eq. { intros x. unfold enc_of. destruct raw eqn:R; auto. destruct (Q1 eq_refl) as [_ (_ & _ & Q3 & _)]. rewrite Q3. auto. }
    split; [auto|]. split; [auto|]. split.
    { destruct Co as (K1 & K2 & K3 & K4). split; [auto|]. split; [|split; [|auto]].
      - intros x Hx. rewrite <- Eq. destruct (K2 x Hx) as [K5 K6]. split; auto. unfold dec_of in *. destruct raw eqn:R; auto. destruct (Q1 eq_refl) as [_ (_ & _ & _ & Q3)]. rewrite Q3. auto.
      - intros ch x Hx. rewrite <- Eq. intros Ec. specialize (K3 ch x Hx Ec). destruct raw eqn:R; auto. destruct (Q1 eq_refl) as [_ (_ & _ & _ & Q3)]. rewrite Q3. auto. }
    split; [auto|]. split. { intros R. destruct (Q1 R) as [_ (T1 & T2 & T3 & T4)]. destruct (O R) as (O1 & O2 & O3). split; [|split].
      - intros x Hx. rewrite T2. auto.
      - intros x Hx. destruct (O2 x Hx) as (i & Hi & X1 & X2). exists i. rewrite T1, T3, T4. auto.
      - intros i Hi. rewrite T1 in Hi. destruct (O3 i Hi) as (x & X1 & X2 & X3). exists x. rewrite T3, T4. auto. }
    split; [assumption|]. split; [assumption|]. split; [assumption|]. split; [assumption|]. split; [exact Sg|exact Sr]. }
  assert (forall cn, index_of x64 raw t16 skip text (mk_fm (m_cf m) w' (m_asa m) (mk_sv (sv_bitSize (m_apos m)) (sv_num0 (m_apos m)) (sv_num1 (m_apos m)) (sv_freezed sv_empty) (sv_blk (m_apos m)) (sv_sel0 sv_empty) (sv_sel1 sv_empty)) q' skip cn)) as GI by (intros cn; apply good_index; auto). clear G.
  destruct raw eqn:R.
  - destruct (Q2 eq_refl) as [-> ->]. eexists _, s5. split; [reflexivity|]. split; [reflexivity|]. apply GI.
  - destruct (Q1 eq_refl) as [Q3 _]. cbn [fm_new m_fq]. rewrite Q3. cbn [bind]. eexists _, s6. split; [reflexivity|]. split; [reflexivity|]. apply GI.
Qed.
End Fm.

(** ** texts and parameters that are refused *)
Lemma raw_count_total N : forall s tbl, zlen tbl = N -> Forall (fun c => 0 <= c < N) s -> raw_count s tbl = Exn \/ (exists tbl', raw_count s tbl = Ok tbl' /\ ~ In 0 s /\ zlen tbl' = N).
Proof.
  induction s as [|x s IH]; intros tbl L F; cbn [raw_count]; [right; exists tbl; cbn; auto|]. pose proof (Forall_inv F) as F1. destruct (Z.leb_spec x 0); [auto|]. cbn beta in F1. rewrite rd_at by lia. cbn [bind]. rewrite wr_ok by lia. cbn [bind].
  destruct (IH (upd tbl (Z.to_nat x) ((at_ tbl x + 1) mod 2 ^ 32))) as [E|(t' & E & N0 & L')]; [unfold zlen; rewrite upd_length; auto|apply (Forall_inv_tail F)|auto|]. right. exists t'. split; auto. split; auto. intros [X|X]; [lia|auto].
Qed.
Section Refused.
Variables (x64 raw t16 : bool) (sais : list Z -> Z -> Z * list Z) (sort8 : (Z -> Z -> bool) -> list Z -> list Z) (sort16 : list (Z * (Z * Z)) -> list (Z * (Z * Z))) (place : Z * (Z * Z) -> list (Z * (Z * Z)) -> nat) (junk : list Z).
Hypothesis Hs8 : vsrt_ok sort8.
Hypothesis Hs16 : srt_ok Z.gtb sort16.
Hypothesis Hjunk : zlen junk = 256.
Notation init := (fm_init x64 raw t16 sais sort8 sort16 place junk).
Theorem C31_refused : forall m text skip, Forall (symbol t16) text ->
  skip <= 0 \/ 2 ^ 32 - 1 <= zlen text \/ (raw = true /\ In 0 text) \/ (raw = false /\ m = fm_new t16 /\ zlen text < 2 ^ 32 /\ 2 ^ tbits t16 <= distinct text) ->
  init m text skip = Exn.
Proof.
  intros m text skip F H. unfold fm_init. destruct (Z.leb_spec skip 0); auto. destruct H as [H|H]; [lia|]. unfold initCf. destruct (Z.leb_spec (2 ^ 32 - 1) (zlen text)); auto. destruct H as [H|[(R & I)|(R & -> & L & D)]]; [lia| |]; rewrite R.
  - set (tbl := 1 :: repeat 0 (Z.to_nat (Z.shiftl 1 (tbits t16) - 1))). assert (zlen tbl = 2 ^ tbits t16) as Lt. { unfold tbl. rewrite zlen_cons. unfold zlen. rewrite repeat_length, Z.shiftl_1_l. pose proof (Z.pow_pos_nonneg 2 (tbits t16) ltac:(lia) ltac:(unfold tbits; destruct t16; lia)). lia. }
    destruct (raw_count_total _ text tbl Lt F) as [-> |(t' & _ & N & _)]; [auto|contradiction].
  - cbn [fm_new m_fq]. destruct (fq_init_ok t16 sais sort8 sort16 place junk Hs8 Hs16 Hjunk text F ltac:(lia)) as (q & E & _ & Sz). rewrite E. cbn [bind]. rewrite Z.shiftl_1_l. destruct (Z.ltb_spec (2 ^ tbits t16) (fq_size q + 1)); [auto|lia].
Qed.
End Refused.

(** * A suffix sorter that meets the contract of saisxx: insertion sort of the positions *)
Fixpoint lex_ltb (a b : list Z) : bool :=
  match a, b with
  | _, [] => false
  | [], _ :: _ => true
  | x :: a, y :: b => (x <? y) || ((x =? y) && lex_ltb a b)
  end.
Lemma lex_ltb_lt a : forall b, lex_ltb a b = true <-> lex_lt a b.
Proof.
  induction a as [|x a IH]; intros [|y b]; cbn; try (split; [discriminate|tauto]); [tauto|]. rewrite orb_true_iff, andb_true_iff, Z.ltb_lt, Z.eqb_eq, IH. tauto.
Qed.
Lemma lex_total a : forall b, lex_lt a b \/ a = b \/ lex_lt b a.
Proof.
  induction a as [|x a IH]; intros [|y b]; cbn; auto. destruct (Z.lt_trichotomy x y) as [H|[H|H]]; auto. subst y. destruct (IH b) as [G|[G|G]]; auto. subst. auto.
Qed.
Lemma lex_trans a : forall b c, lex_lt a b -> lex_lt b c -> lex_lt a c.
Proof.
  induction a as [|x a IH]; intros [|y b] [|z c]; cbn; try tauto. intros [H|[-> H]] [G|[-> G]]; try (left; lia). right. split; auto. eapply IH; eauto.
Qed.
Definition naive_sais (v : list Z) (k : Z) : Z * list Z := (0, isort (fun a b => lex_ltb (suffix v a) (suffix v b)) (map Z.of_nat (seq 0 (length v)))).
Lemma suffix_inj v p q : 0 <= p <= zlen v -> 0 <= q <= zlen v -> suffix v p = suffix v q -> p = q.
Proof. intros Hp Hq E. apply (f_equal (@length Z)) in E. unfold suffix in E. rewrite !skipn_length in E. unfold zlen in *. lia. Qed.
Lemma strongly_at R l : StronglySorted R l -> forall i j, 0 <= i < j -> j < zlen l -> R (at_ l i) (at_ l j).
Proof.
  induction 1 as [|x l S IH F]; intros i j Hi Hj; [unfold zlen in Hj; cbn in Hj; lia|]. rewrite zlen_cons in Hj. rewrite !at_cons. destruct (Z.leb_spec j 0); [lia|]. destruct (Z.leb_spec i 0).
  - rewrite Forall_forall in F. apply F. unfold at_. apply nth_In. unfold zlen in Hj. lia.
  - apply IH; lia.
Qed.
Lemma naive_ok : sais_ok naive_sais.
Proof.
  intros v k Hv _ _. eexists. split; [reflexivity|]. set (gt := fun a b => lex_ltb (suffix v a) (suffix v b)). set (l := map Z.of_nat (seq 0 (length v))).
  destruct (isort_sorts gt) with (l := l) as [P S].
  { intros a b. unfold gt. destruct (lex_ltb (suffix v b) (suffix v a)) eqn:E; auto. intros H. apply lex_ltb_lt in E, H. destruct (lex_asym _ _ E H). }
  { intros a b c. unfold gt. intros H1 H2. destruct (lex_ltb (suffix v c) (suffix v a)) eqn:E; auto. exfalso. apply lex_ltb_lt in E.
    destruct (lex_total (suffix v b) (suffix v a)) as [X|[X|X]]; [apply lex_ltb_lt in X; congruence|rewrite X in *|].
    - apply lex_ltb_lt in E. congruence.
    - pose proof (lex_trans _ _ _ E X) as Y. apply lex_ltb_lt in Y. congruence. }
  split; [exact P|]. intros i j Hij Hj. assert (zlen (isort gt l) = zlen v) as Ll. { unfold zlen. rewrite (Permutation_length P). unfold l. rewrite map_length, seq_length. auto. }
  pose proof (strongly_at _ _ S i j Hij ltac:(lia)) as R. cbn beta in R. unfold gt in R.
  assert (forall i, 0 <= i < zlen v -> 0 <= at_ (isort gt l) i < zlen v) as Rg. { intros i' Hi'. assert (In (at_ (isort gt l) i') l) as I. { eapply Permutation_in; [exact P|]. unfold at_. apply nth_In. unfold zlen in *. lia. } apply in_map_iff in I. destruct I as (y & Ey & I). rewrite <- Ey. apply in_seq in I. unfold zlen. lia. }
  destruct (lex_total (suffix v (at_ (isort gt l) i)) (suffix v (at_ (isort gt l) j))) as [X|[X|X]]; auto.
  - exfalso. apply suffix_inj in X; [|pose proof (Rg i ltac:(lia)); lia|pose proof (Rg j ltac:(lia)); lia]. assert (NoDup (isort gt l)) as N. { eapply Permutation_NoDup; [apply Permutation_sym; exact P|]. apply FinFun.Injective_map_NoDup; [|apply seq_NoDup]. intros a b. lia. }
    rewrite (NoDup_nth _ 0) in N. unfold at_ in X. apply N in X; unfold zlen in *; lia.
  - exfalso. apply lex_ltb_lt in X. fold gt in R. unfold at_ in *. rewrite X in R. discriminate.
Qed.

(** * The hypotheses can be met: "abracadabra" with a sample every 3 positions, 16-bit and 8-bit symbols *)
Definition ex_text : list Z := [97; 98; 114; 97; 99; 97; 100; 97; 98; 114; 97].
Definition s8 := fun gt : Z -> Z -> bool => isort gt.
Definition s16 := isort (greater Z.gtb).
Definition pl : Z * (Z * Z) -> list (Z * (Z * Z)) -> nat := fun _ _ => 0%nat.
Definition ex_init (raw t16 : bool) (m : fmi) (text : list Z) (skip : Z) := fm_init true raw t16 naive_sais s8 s16 pl (repeat 0 256) m text skip.
Example C31_nonvacuous : sais_ok naive_sais /\ vsrt_ok s8 /\ srt_ok Z.gtb s16 /\ text_ok false true ex_text /\ text_ok false false ex_text /\ text_ok true false ex_text /\ key_ok true false [97; 98].
Proof.
  split; [apply naive_ok|]. split; [apply isort_vsrt_ok|]. split; [apply (isort_srt_ok Z.gtb Z.eqb Z.eqb_eq Z_gtb_total)|].
  assert (forall t, Forall (symbol t) ex_text) as F by (intros t; repeat constructor; unfold symbol, tbits; destruct t; cbn; lia).
  split; [split; [reflexivity|]; split; [apply F|vm_compute; discriminate]|]. split; [split; [reflexivity|]; split; [apply F|vm_compute; discriminate]|].
  split; [split; [reflexivity|]; split; [apply F|split; [reflexivity|cbn; lia]]|]. split; [repeat constructor; unfold symbol; cbn; lia|cbn; lia].
Qed.
Example C31_demo : exists m, ex_init false true (fm_new true) ex_text 3 = Ok m /\
  fm_getRange true false true m [97; 98; 114; 97] = Ok (Some (2, 4)) /\ fm_convert true true 3 m 2 = Ok 7 /\ fm_convert true true 3 m 3 = Ok 0 /\
  fm_prev true false true m 2 4 [] = Ok [97; 99; 97; 100] /\ fm_prev true false true m 3 4 [] = Ok [] /\ fm_getRange true false true m [98; 97] = Ok None.
Proof. eexists. split; [vm_compute; reflexivity|]. repeat split; vm_compute; reflexivity. Qed.

(** * Findings *)
(** FMindexT<uint16_t, true> refuses every text: charNum is 65536, which getBitLen says takes 17 bits, more than WaveletMatrix accepts *)
Theorem C31_raw16_finding : forall x64 sais sort8 sort16 place junk m text skip, sais_ok sais -> zlen text < 2 ^ 31 - 1 -> Forall (symbol true) text ->
  fm_init x64 true true sais sort8 sort16 place junk m text skip = Exn.
Proof.
  intros x64 sais sort8 sort16 place junk m text skip Hs L F. unfold fm_init, initCf. destruct (skip <=? 0); auto. destruct (Z.leb_spec (2 ^ 32 - 1) (zlen text)); [auto|]. change (Z.shiftl 1 (tbits true)) with 65536.
  set (tbl := 1 :: repeat 0 (Z.to_nat (65536 - 1))). assert (zlen tbl = 65536) as Lt. { unfold tbl. rewrite zlen_cons. unfold zlen. rewrite repeat_length. lia. }
  destruct (raw_count_total 65536 text tbl Lt F) as [-> |(t' & -> & N & _)]; [auto|]. cbn [bind]. rewrite zlen_app. change (zlen [0]) with 1. pose proof (zlen_nonneg text).
  destruct (Hs (text ++ [0]) 65536) as (sa & -> & Sa); [rewrite zlen_app; change (zlen [0]) with 1; lia|lia|apply Forall_app; split; [eapply Forall_impl; [|exact F]; unfold symbol; cbn; auto|repeat constructor; lia]|].
  change (0 =? -1) with false. cbv iota. assert (Forall (fun p => 0 <= p < zlen (text ++ [0])) sa) as Fsa. { apply Forall_forall. intros p Hp. apply (In_nth _ _ 0) in Hp. destruct Hp as (i & Hi & <-). pose proof (sa_range text sa Sa (Z.of_nat i)) as R. pose proof (sa_len text sa Sa) as Ls. unfold at_ in R. rewrite Nat2Z.id in R. apply R. rewrite <- Ls. unfold zlen. lia. }
  rewrite (initBwt_ok sais text sa (sa_len text sa Sa) sa Fsa). cbn [bind]. unfold wm_init. destruct (2 ^ 32 <? zlen (map (prev_char text) sa)); auto.
Qed.
(** a negative result of saisxx other than -1 (-2: out of memory) is taken as success: with the array still zero, the text is not found in itself *)
Theorem C31_sais_error_finding : exists m, fm_init true false true (fun v _ => (-2, repeat 0 (length v))) s8 s16 pl (repeat 0 256) (fm_new true) [5; 6] 8 = Ok m /\
  occurs [5] [5; 6] 0 /\ fm_getRange true false true m [5] = Ok None.
Proof. eexists. split; [vm_compute; reflexivity|]. split; [exists [], [6]; auto|vm_compute; reflexivity]. Qed.
(** init on an object in use keeps the old samples and symbol counts: in the second text, of one symbol, that symbol is found at position 2 *)
Theorem C31_reinit_finding : exists m1 m2 b e p, ex_init false true (fm_new true) [6; 6; 6] 1 = Ok m1 /\ ex_init false true m1 [6] 1 = Ok m2 /\
  fm_getRange true false true m2 [6] = Ok (Some (b, e)) /\ fm_convert true true 1 m2 b = Ok p /\ ~ occurs [6] [6] p.
Proof.
  do 5 eexists. split; [vm_compute; reflexivity|]. split; [vm_compute; reflexivity|]. split; [vm_compute; reflexivity|]. split; [vm_compute; reflexivity|].
  intros (pre & post & E & L). destruct pre as [|x pre]; [vm_compute in L; discriminate|]. injection E as <- E. destruct pre; discriminate.
Qed.
(** raw mode: a key that ends in the terminator is "found" at the end of the text *)
Theorem C31_raw_zero_key_finding : exists m, ex_init true false (fm_new false) [97; 98] 1 = Ok m /\ fm_getRange true true false m [98; 0] = Ok (Some (2, 3)) /\ forall p, ~ occurs [98; 0] [97; 98] p.
Proof.
  eexists. split; [vm_compute; reflexivity|]. split; [vm_compute; reflexivity|]. intros p (pre & post & E & _). assert (In 0 [97; 98]) as I by (rewrite E; apply in_or_app; right; cbn; auto). cbn in I. lia.
Qed.

Print Assumptions C31_index.
Print Assumptions C31_save_load.
Print Assumptions C31_refused.
Print Assumptions C31_raw16_finding.
Print Assumptions C31_sais_error_finding.
Print Assumptions C31_reinit_finding.
Print Assumptions C31_raw_zero_key_finding.
