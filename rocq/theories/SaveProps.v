(** C122: a save that fails half way *)
Require Import Verif.Common Verif.StreamModel Verif.EndianModel Verif.SerializerModel Verif.SerializerProps Verif.StreamingProps Verif.ZlibProps Verif.ZlibFailModel Verif.ZlibFailProps Verif.SaveModel.
Require Verif.SucModel Verif.SucProps Verif.CSucModel Verif.CSucProps Verif.WaveletModel Verif.WaveletProps Verif.FrequencyModel Verif.FrequencyProps Verif.FmModel Verif.FmInit Verif.FmProps Verif.StrIoModel Verif.StrIoProps Verif.SparseModel Verif.SparseProps.
Ltac Zify.zify_post_hook ::= idtac.

(** ** Specification *)
(** whatever the output stream does, the save ends; the bytes e it left in the stream give a good object and no byte is left over, or make load throw,
    and they only make it throw when the save threw: in particular a save that returned can be loaded, and no load of what a failed save
    left gives a different object.  A stream that never fails makes no save throw. *)
Definition honest {O A} (put : O -> list Z -> bool * O) (log : O -> list Z) (save : O -> res (bool * O)) (load : istream -> res (A * istream)) (good : A -> Prop) : Prop :=
  forall o, exists b o' e, save o = Ok (b, o') /\ log o' = log o ++ e /\ (never_fails put -> b = true) /\
    forall sched, match load (mk_is e sched) with
                  | Ok (y, is) => good y /\ is_data is = []
                  | Exn => b = false
                  | _ => False
                  end.

Section Save.
Context {O : Type} (put : O -> list Z -> bool * O) (log : O -> list Z) (SO : stream_ok put log).
(** the writes of w make up enc *)
Definition emits (w : writer O) (enc : list Z) : Prop := forall o, exists b o' e, w o = Ok (b, o') /\ log o' = log o ++ e /\ (never_fails put -> b = true) /\
  if b then e = enc else prefix e enc.
Definition tracks (w : writer O) (r : res (list Z)) : Prop := forall enc, r = Ok enc -> emits w enc.
(** r gives pre and then what w writes *)
Definition follows (pre : list Z) (w : writer O) (r : res (list Z)) : Prop := forall enc, r = Ok enc -> exists e, enc = pre ++ e /\ emits w e.

Lemma emits_put : forall b, emits (w_put O put b) b.
Proof using SO.
  intros b o. unfold w_put. destruct (put o b) as [[] o'] eqn:P.
  - exists true, o', b. rewrite (so_all _ _ SO _ _ _ P). auto.
  - destruct (so_part _ _ SO _ _ _ P) as (p & Hp & E). exists false, o', p. split; [auto|]. split; [auto|]. split; [|auto]. intros N. exact (never_put put _ _ _ _ P N).
Qed.
Lemma emits_skip : emits (w_skip O) [].
Proof using. intros o. exists true, o, []. rewrite app_nil_r. auto. Qed.
Lemma emits_then : forall w1 w2 e1 e2, emits w1 e1 -> emits w2 e2 -> emits (w_then O w1 w2) (e1 ++ e2).
Proof using.
  intros w1 w2 e1 e2 H1 H2 o. unfold w_then. destruct (H1 o) as (b1 & o1 & p1 & -> & L1 & N1 & X1). cbn [bind]. destruct b1.
  - subst p1. destruct (H2 o1) as (b2 & o2 & p2 & -> & L2 & N2 & X2). exists b2, o2, (e1 ++ p2). split; [auto|]. rewrite L2, L1, app_assoc. split; [auto|]. split; [auto|].
    destruct b2; [subst; auto|]. destruct X2 as [r ->]. exists r. rewrite app_assoc. auto.
  - exists false, o1, p1. split; [auto|]. split; [auto|]. split; [auto|]. destruct X1 as [r ->]. exists (r ++ e2). rewrite app_assoc. auto.
Qed.
Lemma follows_start : forall w r, follows [] w r -> tracks w r.
Proof using. intros w r F enc E. destruct (F enc E) as (e & -> & H). exact H. Qed.
Lemma follows_bind : forall pre w1 w2 r (k : list Z -> res (list Z)), tracks w1 r -> (forall a, r = Ok a -> follows (pre ++ a) w2 (k a)) -> follows pre (w_then O w1 w2) (bind r k).
Proof using.
  intros pre w1 w2 r k H1 H2 enc E. destruct r as [a| | |]; try discriminate. cbn [bind] in E. destruct (H2 a eq_refl enc E) as (e & -> & He).
  exists (a ++ e). rewrite <- app_assoc. split; [auto|]. apply emits_then; [apply H1; reflexivity|exact He].
Qed.
Lemma follows_last : forall pre w r (k : list Z -> res (list Z)), tracks w r -> (forall a, k a = Ok (pre ++ a)) -> follows pre w (bind r k).
Proof using. intros pre w r k H1 H2 enc E. destruct r as [a| | |]; try discriminate. cbn [bind] in E. rewrite H2 in E. injection E as <-. exists a. split; [auto|]. apply H1. auto. Qed.
Lemma follows_skip : forall pre, follows pre (w_skip O) (Ok pre).
Proof using. intros pre enc E. injection E as <-. exists []. rewrite app_nil_r. split; [auto|]. apply emits_skip. Qed.
Lemma follows_put : forall pre b, follows pre (w_put O put b) (Ok (pre ++ b)).
Proof using SO. intros pre b enc E. injection E as <-. exists b. split; [auto|]. apply emits_put. Qed.
Lemma tracks_ok : forall w e, emits w e -> tracks w (Ok e).
Proof using. intros w e H enc E. injection E as <-. auto. Qed.

Lemma tracks_int : forall little t x, tracks (w_int O put little t x) (saveVariableInt little t x).
Proof using SO.
  intros little t x. unfold w_int, saveVariableInt, w_pod.
  destruct (isRecoverable t (to_s 8) x).
  - apply tracks_ok. apply emits_then; [|apply emits_put]. destruct (to_u 32 (to_u 8 x - 128) <=? 7); [apply emits_put|apply emits_skip].
  - repeat match goal with |- context [if ?c then _ else _] => destruct c end; try (intros enc E; discriminate); apply tracks_ok; apply emits_then; apply emits_put.
Qed.
Lemma tracks_all : forall {A} (f : A -> writer O) (g : A -> res (list Z)) l, (forall x, tracks (f x) (g x)) -> tracks (w_all O f l) (save_all g l).
Proof using.
  intros A f g l H. induction l as [|x l IH]; cbn [w_all save_all]; [apply tracks_ok, emits_skip|]. apply follows_start. apply follows_bind; [apply H|]. intros a _. apply follows_last; [exact IH|auto].
Qed.
Lemma tracks_seq : forall {A} little size_t (f : A -> writer O) (g : A -> res (list Z)) l, (forall x, tracks (f x) (g x)) ->
  tracks (w_seq O put little size_t f l) (let! h := saveVariableInt little size_t (zlen l) in let! b := save_all g l in Ok (h ++ b)).
Proof using SO. intros A little size_t f g l H. unfold w_seq. apply follows_start. apply follows_bind; [apply tracks_int|]. intros a _. apply follows_last; [apply tracks_all, H|auto]. Qed.
Lemma tracks_pair : forall {A B} (f : A -> writer O) (g : B -> writer O) (ca : codec A) (cb : codec B) p, (forall x, tracks (f x) (c_save ca x)) -> (forall x, tracks (g x) (c_save cb x)) ->
  tracks (w_pair O f g p) (c_save (codec_pair ca cb) p).
Proof using. intros A B f g ca cb p H1 H2. unfold w_pair. cbn [c_save codec_pair]. apply follows_start. apply follows_bind; [apply H1|]. intros a _. apply follows_last; [apply H2|auto]. Qed.
Lemma zlen_0_nil : forall {A} (l : list A), zlen l =? 0 = true -> l = [].
Proof using. intros A [|x l] E; [auto|]. apply Z.eqb_eq in E. rewrite zlen_cons in E. pose proof (zlen_nonneg l). lia. Qed.
Lemma tracks_obj : forall little size_t s x, tracks (w_obj O put little size_t s x) (c_save (codec_of little size_t s) x).
Proof using SO.
  intros little size_t s. induction s; intros x; cbn [w_obj codec_of].
  - apply tracks_int.
  - apply tracks_ok, emits_put.
  - cbn [c_save codec_string]. unfold w_string. apply follows_start. apply follows_bind; [apply tracks_int|]. intros a _. destruct (zlen x =? 0) eqn:Z0; [|apply follows_put].
    apply zlen_0_nil in Z0. subst x. rewrite app_nil_r. apply follows_skip.
  - cbn [c_save codec_seq]. apply tracks_seq. auto.
  - cbn [c_save codec_set codec_set_with]. apply tracks_seq. auto.
  - cbn [c_save codec_map codec_set codec_set_with]. apply tracks_seq. intros p. apply tracks_pair; auto.
Qed.
Lemma tracks_many : forall little size_t l, tracks (w_many O put little size_t l) (save_many little size_t l).
Proof using SO.
  intros little size_t l. induction l as [|[s x] l IH]; cbn [w_many save_many]; [apply tracks_ok, emits_skip|].
  apply follows_start. apply follows_bind; [apply tracks_obj|]. intros a _. apply follows_last; [exact IH|auto].
Qed.
Lemma tracks_podvec : forall {A} (tob : A -> list Z) v, tracks (w_podvec O put tob v) (SucModel.savePodVec tob v).
Proof using SO.
  intros A tob v. unfold w_podvec, SucModel.savePodVec. apply follows_start. apply follows_bind; [apply tracks_int|]. intros a _. destruct (zlen v =? 0) eqn:Z0; [|apply follows_put].
  apply zlen_0_nil in Z0. subst v. cbn [map concat]. rewrite app_nil_r. apply follows_skip.
Qed.
Ltac chain := first [apply follows_bind; [first [apply tracks_int|apply tracks_podvec]|intros ? _] | apply follows_last; [first [apply tracks_int|apply tracks_podvec]|intros; cbn [app]; rewrite <- ?app_assoc; reflexivity]].
Lemma tracks_suc : forall ws sv, tracks (w_suc O put ws sv) (SucModel.sv_save ws sv).
Proof using SO.
  intros ws sv. unfold w_suc, SucModel.sv_save. apply follows_start. do 4 chain. destruct ws; [do 2 chain|]. cbn [app]. rewrite <- ?app_assoc. apply follows_skip.
Qed.
Lemma tracks_csuc : forall c, tracks (w_csuc O put c) (CSucModel.c_save_vec c).
Proof using SO. intros c. unfold w_csuc, CSucModel.c_save_vec. apply follows_start. do 5 chain. Qed.
Lemma tracks_svv : forall ss n i svv, tracks (w_svv O put ss n i svv) (WaveletModel.save_svv ss n i svv).
Proof using SO.
  intros ss n. induction n as [|n IH]; intros i svv; cbn [w_svv WaveletModel.save_svv]; [apply tracks_ok, emits_skip|].
  destruct (rd svv i) as [sv| | |]; cbn [bind]; try (intros enc E; discriminate). apply follows_start. apply follows_bind; [apply tracks_suc|]. intros a _. apply follows_last; [apply IH|auto].
Qed.
Lemma tracks_sel : forall n i sel, tracks (w_sel O put n i sel) (WaveletModel.save_sel n i sel).
Proof using SO.
  intros n. induction n as [|n IH]; intros i sel; cbn [w_sel WaveletModel.save_sel]; [apply tracks_ok, emits_skip|].
  destruct (rd sel i) as [t| | |]; cbn [bind]; try (intros enc E; discriminate). apply follows_start. chain. apply follows_last; [apply IH|auto].
Qed.
Lemma tracks_wm : forall ss ws w, tracks (w_wm O put ss ws w) (WaveletModel.wm_save ss ws w).
Proof using SO.
  intros ss ws w. unfold w_wm, WaveletModel.wm_save. apply follows_start. do 3 chain. apply follows_bind; [apply tracks_svv|intros ? _]. do 3 chain.
  apply follows_last; [destruct ws; [apply tracks_sel|apply tracks_ok, emits_skip]|intros; cbn [app]; rewrite <- ?app_assoc; reflexivity].
Qed.
Lemma tracks_fvec : forall little size_t k v, tracks (w_fvec O put little size_t k v) (FrequencyModel.v_save little size_t k v).
Proof using SO.
  intros little size_t k v. unfold w_fvec, FrequencyModel.v_save. apply follows_start. apply follows_bind; [apply tracks_int|]. intros a _.
  destruct (FrequencyModel.v_idx v) as [[c2i i2c]|]; [|intros enc E; discriminate]. intros enc E. injection E as <-. cbn [app]. eexists. split; [reflexivity|]. repeat apply emits_then; apply emits_put.
Qed.
Lemma tracks_freq : forall {E} (eqb : E -> E -> bool) place little size_t (f : E -> writer O) (g : Z -> writer O) ce ci q, (forall x, tracks (f x) (c_save ce x)) -> (forall x, tracks (g x) (c_save ci x)) ->
  tracks (w_freq O put little size_t f g q) (FrequencyModel.f_save eqb place little size_t ce ci q).
Proof using SO.
  intros E eqb place little size_t f g ce ci q H1 H2. unfold w_freq, FrequencyModel.f_save, FrequencyModel.f_codec. cbn [codec_umap codec_set_with c_save].
  apply tracks_seq. intros p. apply tracks_pair; [auto|]. intros y. apply tracks_pair; auto.
Qed.
Lemma tracks_fm : forall raw place m, tracks (w_fm O put raw m) (FmModel.fm_save raw place m).
Proof using SO.
  intros raw place m. unfold w_fm, FmModel.fm_save. apply follows_start. do 2 chain. apply follows_bind; [apply tracks_wm|intros ? _]. chain. apply follows_bind; [apply tracks_suc|intros ? _].
  apply follows_last; [|intros; cbn [app]; rewrite <- ?app_assoc; reflexivity]. destruct raw; [apply tracks_ok, emits_skip|]. unfold FmModel.fq_save.
  destruct (FmModel.m_fq m); [apply tracks_fvec|]. apply tracks_freq; [intros y; apply tracks_ok, emits_put|intros y; apply tracks_int].
Qed.
Lemma tracks_str32 : forall little s, tracks (w_str32 O put little s) (StrIoModel.save little s).
Proof using SO.
  intros little s. unfold w_str32, StrIoModel.save. apply follows_start. apply follows_bind; [apply tracks_int|]. intros a _. cbn [app].
  destruct (0 <? zlen s); [apply follows_put|]. rewrite app_nil_r. apply follows_skip.
Qed.

(** ** from bytes to objects *)
Lemma honest_of : forall {A} (w : writer O) r (load : istream -> res (A * istream)) (good : A -> Prop), tracks w r -> parses load ->
  (exists enc, r = Ok enc /\ forall rest sched, exists y sched', load (mk_is (enc ++ rest) sched) = Ok (y, mk_is rest sched') /\ good y) ->
  honest put log w load good.
Proof using.
  intros A w r load good T P (enc & E & L) o. destruct (T enc E o) as (b & o' & e & W & Lg & N & X). exists b, o', e. split; [auto|]. split; [auto|]. split; [auto|].
  assert (Whole: forall sched, exists y s', load (mk_is enc sched) = Ok (y, mk_is [] s') /\ good y).
  { intros sched. destruct (L [] sched) as (y & s' & Ey & G). rewrite app_nil_r in Ey. eauto. }
  intros sched. destruct b.
  - subst e. destruct (Whole sched) as (y & s' & -> & G). auto.
  - destruct X as [q ->]. destruct q as [|z q].
    + rewrite app_nil_r in Whole. destruct (Whole sched) as (y & s' & -> & G). auto.
    + destruct (Whole []) as (y & s' & Ey & _). rewrite (C120_cut load P _ _ _ _ Ey eq_refl e (z :: q) sched eq_refl ltac:(discriminate)). auto.
Qed.
(** objects of any nesting *)
Theorem C122_objects : forall little size_t s x, cint_ok size_t -> c_signed size_t = false -> valid size_t s x ->
  honest put log (w_obj O put little size_t s x) (c_load (codec_of little size_t s) (c_default (codec_of little size_t s))) (fun y => y = x).
Proof using SO.
  intros little size_t s x H1 H2 H3. eapply honest_of; [apply tracks_obj|apply C120_objects|]. destruct (C10_round_trip little size_t s x H1 H2 H3) as (enc & E & L).
  exists enc. split; [auto|]. intros rest sched. destruct (L rest sched) as (s' & ->). eauto.
Qed.
(** structs of them: the members saved one after the other *)
Theorem C122_sequence : forall little size_t (l : list {s : sty & den s}), cint_ok size_t -> c_signed size_t = false -> Forall (fun q => valid size_t (projT1 q) (projT2 q)) l ->
  honest put log (w_many O put little size_t l) (load_many little size_t (map (@projT1 _ _) l)) (fun y => y = l).
Proof using SO.
  intros little size_t l H1 H2 H3. eapply honest_of; [apply tracks_many|apply C120_sequence|]. destruct (C10_sequence little size_t l H1 H2 H3) as (enc & E & L).
  exists enc. split; [auto|]. intros rest sched. destruct (L rest sched) as (s' & ->). eauto.
Qed.
Theorem C122_string : forall little s, StrIoProps.chars s -> zlen s <= StrIoModel.max_size -> honest put log (w_str32 O put little s) (StrIoModel.load little) (fun y => y = s).
Proof using SO.
  intros little s H1 H2. eapply honest_of; [apply tracks_str32|apply C120_string|]. destruct (StrIoProps.C102_save little s H1 H2) as (enc & E & L & _).
  exists enc. split; [auto|]. intros rest sched. destruct (L rest sched) as (s' & ->). eauto.
Qed.
Theorem C122_sucvector : forall withSelect sv old, SucProps.sv_wf sv ->
  honest put log (w_suc O put withSelect sv) (SucModel.sv_load withSelect old) (fun y =>
    SucModel.sv_size y = SucModel.sv_size sv /\ (forall b, SucModel.sv_sizeb y b = SucModel.sv_sizeb sv b) /\ (forall pos, SucModel.sv_get y pos = SucModel.sv_get sv pos) /\
    (forall x64 wide b pos, SucModel.sv_rank x64 wide y b pos = SucModel.sv_rank x64 wide sv b pos) /\
    (forall x64 wide b r, SucModel.sv_select x64 wide withSelect y b r = SucModel.sv_select x64 wide withSelect sv b r)).
Proof using SO.
  intros ws sv old W. eapply honest_of; [apply tracks_suc|apply C120_sucvector|]. destruct (SucProps.C29_load_save ws sv old W) as (enc & E & L).
  exists enc. split; [auto|]. intros rest sched. destruct (L rest sched) as (s' & y & Ey & _). exists y, s'. split; [auto|].
  pose proof (fun x64 wide => SucProps.C29_same_answers x64 wide ws sv old enc rest sched y (mk_is rest s') W E Ey) as A.
  destruct (A true true) as (_ & A1 & A2 & A3 & _). split; [auto|]. split; [auto|]. split; [auto|]. split; intros x64 wide; apply (A x64 wide).
Qed.
Theorem C122_csucvector : forall x64 f buf bitSize c, 17 <= Z.of_nat f -> 0 <= bitSize <= 2 ^ 32 - 2 ^ 14 - 2 ^ 10 + 1 -> Forall CSucProps.word_ok buf -> CSucModel.blockSize bitSize <= zlen buf ->
  CSucModel.c_init x64 f CSucModel.c_empty buf bitSize = Ok c -> honest put log (w_csuc O put c) CSucModel.c_load_vec (fun y => y = c).
Proof using SO.
  intros x64 f buf bitSize c H1 H2 H3 H4 H5. eapply honest_of; [apply tracks_csuc|apply C120_csucvector|]. destruct (CSucProps.C32_save_load x64 f buf bitSize c H1 H2 H3 H4 H5) as (enc & E & L).
  exists enc. split; [auto|]. intros rest sched. destruct (L rest sched) as (s' & ->). eauto.
Qed.
Theorem C122_wavelet : forall x64 wide svSelect withSelect old old2 vec valBitLen w, WaveletProps.reusable old -> WaveletProps.reusable old2 -> WaveletProps.input_ok vec valBitLen ->
  WaveletModel.wm_init x64 wide svSelect withSelect old vec valBitLen = Ok w ->
  honest put log (w_wm O put svSelect withSelect w) (WaveletModel.wm_load svSelect withSelect old2) (fun y => WaveletProps.answers_ok x64 wide withSelect vec valBitLen y).
Proof using SO.
  intros x64 wide ss ws old old2 vec len w H1 H2 H3 H4. eapply honest_of; [apply tracks_wm|apply C120_wavelet|]. destruct (WaveletProps.C61_save_load x64 wide ss ws old old2 vec len w H1 H2 H3 H4) as (enc & E & L).
  exists enc. split; [auto|]. intros rest sched. destruct (L rest sched) as (y & s' & Ey & G & _). eauto.
Qed.
Theorem C122_fmindex : forall x64 raw t16 sais sort8 sort16 place junk, FrequencyProps.vsrt_ok sort8 -> FrequencyProps.srt_ok Z.gtb sort16 -> zlen junk = 256 -> FmInit.sais_ok sais ->
  forall sort16' place' text skip m, FrequencyProps.srt_ok Z.gtb sort16' -> FmInit.text_ok raw t16 text -> 0 < skip < 2 ^ 31 ->
  FmModel.fm_init x64 raw t16 sais sort8 sort16 place junk (FmModel.fm_new t16) text skip = Ok m ->
  honest put log (w_fm O put raw m) (FmModel.fm_load raw t16 sort16' place' (FmModel.fm_new t16)) (fun y => FmProps.index_of x64 raw t16 skip text y).
Proof using SO.
  intros x64 raw t16 sais sort8 sort16 place junk H1 H2 H3 H4 sort16' place' text skip m H5 H6 H7 H8. eapply honest_of; [apply (tracks_fm raw place)|apply C120_fmindex|].
  destruct (FmProps.C31_save_load x64 raw t16 sais sort8 sort16 place junk H1 H2 H3 H4 sort16' place' text skip m H5 H6 H7 H8) as (enc & E & L).
  exists enc. split; [auto|]. intros rest sched. destruct (L rest sched) as (y & s' & Ey & _ & G). eauto.
Qed.
(** Frequency of elements of any type whose save and load agree and whose load parses *)
Theorem C122_frequency : forall (E : Type) (eqb gtb : E -> E -> bool) (w : Z) (He : FrequencyProps.eq_test eqb), FrequencyProps.strict_total gtb -> 1 <= w ->
  forall little size_t (ce : codec E) (ci : codec Z) ok sort sort' place place' ops (f : E -> writer O) (g : Z -> writer O), FrequencyProps.srt_ok gtb sort -> FrequencyProps.srt_ok gtb sort' ->
  cint_ok size_t -> c_signed size_t = false -> round_trip ce ok -> round_trip ci (fun x => 0 <= x < 2 ^ w) ->
  Forall ok (FrequencyProps.since_clear [] ops) -> fits size_t (FrequencyProps.distinct eqb He (FrequencyProps.since_clear [] ops)) ->
  (forall x, tracks (f x) (c_save ce x)) -> (forall x, tracks (g x) (c_save ci x)) -> (forall e, parses (c_load ce e)) -> (forall e, parses (c_load ci e)) ->
  let q := FrequencyProps.run eqb w sort place (ops ++ [FrequencyProps.FReady]) in
  honest put log (w_freq O put little size_t f g q) (FrequencyModel.f_load eqb sort' place' little size_t ce ci FrequencyModel.f_clear) (fun y => FrequencyProps.same_answers eqb q y).
Proof using SO.
  intros E eqb gtb w He H1 H2 little size_t ce ci ok sort sort' place place' ops f g H3 H4 H5 H6 H7 H8 H9 H10 T1 T2 P1 P2 q.
  eapply honest_of; [apply (tracks_freq eqb place little size_t f g ce ci q T1 T2)|apply C120_frequency; auto|].
  destruct (@FrequencyProps.C52_save_load E eqb gtb w He H1 H2 little size_t ce ci ok sort sort' place place' ops H3 H4 H5 H6 H7 H8 H9 H10) as (enc & Ee & L).
  exists enc. split; [exact Ee|]. intros rest sched. destruct (L rest sched) as (y & s' & Ey & G). eauto.
Qed.
(** SparseVector, packed or not, of values of any type whose save and load agree and whose load parses *)
Lemma tracks_sparse : forall {A} little (f : A -> writer O) (ct : codec A) v, (forall x, tracks (f x) (c_save ct x)) ->
  tracks (w_sparse O put little f v) (let! (e, _) := SparseModel.sv_save little ct v in Ok e).
Proof using SO.
  intros A little f ct v T enc E. unfold SparseModel.sv_save in E. unfold w_sparse.
  destruct (saveVariableInt little (mk_cint 8 false) (SparseModel.sv_size v)) as [h| | |] eqn:Eh; try discriminate. cbn [bind] in E.
  destruct (SparseModel.iterate v) as [[l v']| | |] eqn:Ei; try discriminate. cbn [bind] in E.
  match type of E with context [save_all ?g l] => set (g0 := g) in E end.
  destruct (save_all g0 l) as [b| | |] eqn:Eb; try discriminate. cbn [bind] in E. injection E as <-.
  apply emits_then; [apply (tracks_int little (mk_cint 8 false) (SparseModel.sv_size v)); exact Eh|].
  assert (TA: tracks (w_all O (fun q => w_then O (w_int O put little (mk_cint 8 false) (fst q)) (f (snd q))) l) (save_all g0 l)).
  { apply tracks_all. intros q. unfold g0. apply follows_start. apply follows_bind; [apply tracks_int|]. intros a _. apply follows_last; [apply T|auto]. }
  exact (TA b Eb).
Qed.
Theorem C122_sparse : forall {A} little (ct : codec A) (valid_val : A -> Prop) packed packed' (v w : SparseModel.sv A) l old (f : A -> writer O), round_trip ct valid_val ->
  SparseProps.reach packed v l -> SparseProps.room l -> Forall (fun e => valid_val (snd e)) l -> SparseProps.reach packed' w old -> SparseProps.valid packed' l ->
  (forall x, tracks (f x) (c_save ct x)) -> (forall e, parses (c_load ct e)) ->
  honest put log (w_sparse O put little f v) (SparseModel.sv_load little ct w) (fun y => exists y', SparseModel.iterate y = Ok (l, y')).
Proof using SO.
  intros A little ct vv packed packed' v w l old f RT R1 RM F R2 V T P. eapply honest_of; [apply (tracks_sparse little f ct v T)|apply C120_sparse; auto|].
  destruct (SparseProps.C49_save_load little ct vv packed packed' v w l old RT R1 RM F R2 V) as (enc & v' & E & _ & L).
  exists enc. rewrite E. split; [reflexivity|]. intros rest sched. destruct (L rest sched) as (y & s' & Ey & G). eauto.
Qed.
End Save.

(** ** Concrete cases: a map saved to a device with room for 5 bytes, and what is left of it *)
Example C122_full_device : w_obj dev (dev_put 5) true (mk_cint 8 false) (SMap SStr (SInt (mk_cint 4 true))) [([97], 1000); ([98], 7)] (mk_dev [] false) =
  Ok (false, mk_dev [2; 1; 97; 129; 232] true).
Proof. vm_compute. reflexivity. Qed.
Example C122_left : c_load (codec_of true (mk_cint 8 false) (SMap SStr (SInt (mk_cint 4 true)))) [] (mk_is [2; 1; 97; 129; 232] []) = Exn.
Proof. vm_compute. reflexivity. Qed.
Example C122_case : honest (dev_put 5) dv_data (w_obj dev (dev_put 5) true (mk_cint 8 false) (SMap SStr (SInt (mk_cint 4 true))) [([97], 1000); ([98], 7)])
  (c_load (codec_of true (mk_cint 8 false) (SMap SStr (SInt (mk_cint 4 true)))) []) (fun y => y = [([97], 1000); ([98], 7)]).
Proof.
  apply (C122_objects (dev_put 5) dv_data (proj1 (proj2 (C121_streams 5))) true (mk_cint 8 false) (SMap SStr (SInt (mk_cint 4 true))) [([97], 1000); ([98], 7)]).
  - right. reflexivity.
  - reflexivity.
  - cbn. unfold fits, in_range, cint_ok. cbn. repeat (split || constructor); cbn; try lia; auto.
Qed.
(** a packed sparse vector saved with its ints to a device with room for 4 bytes *)
Example C122_sparse_case : let v := fst (SparseModel.push_back (fst (SparseModel.push_back (SparseModel.sv_new true) 3 1000)) 200 7) in
  SparseProps.reach true v [(3, 1000); (200, 7)] /\
  w_sparse dev (dev_put 4) true (w_int dev (dev_put 4) true (mk_cint 4 true)) v (mk_dev [] false) = Ok (false, mk_dev [2; 3; 129; 232] true) /\
  SparseModel.sv_load true (codec_int true (mk_cint 4 true)) (SparseModel.sv_new true) (mk_is [2; 3; 129; 232] []) = Exn.
Proof.
  intros v. split; [|split; vm_compute; reflexivity].
  pose proof (SparseProps.reach_push true _ _ 3 1000 _ _ (SparseProps.reach_new true) ltac:(lia) (surjective_pairing _)) as R1.
  exact (SparseProps.reach_push true _ _ 200 7 _ _ R1 ltac:(lia) (surjective_pairing _)).
Qed.
Print Assumptions C122_objects. Print Assumptions C122_sequence. Print Assumptions C122_string. Print Assumptions C122_sucvector.
Print Assumptions C122_csucvector. Print Assumptions C122_wavelet. Print Assumptions C122_fmindex. Print Assumptions C122_frequency. Print Assumptions C122_sparse.
