(** C120: every load function of the library reads its stream as a deterministic parser, for any bytes *)
Require Import Verif.Common Verif.StreamModel Verif.StreamProps Verif.EndianModel Verif.SerializerModel Verif.SerializerProps Verif.SerTruncProps.
Require Verif.SucModel Verif.CSucModel Verif.WaveletModel Verif.FmModel Verif.FrequencyModel Verif.SparseModel Verif.StrIoModel.
Ltac Zify.zify_post_hook ::= idtac.
Local Open Scope Z_scope.

(** ** Specification *)
(** two runs end in the same way: with the same object and the same bytes left, or both throw *)
Definition same_end {A} (a b : res (A * istream)) : Prop :=
  match a, b with
  | Ok (x, i), Ok (y, j) => x = y /\ is_data i = is_data j
  | Exn, Exn | UB, UB | Fuel, Fuel => True
  | _, _ => False
  end.
(** the bytes decide, not how the stream hands them over; when the load succeeds it has used some bytes, and it would have used the same ones
    and given the same object whatever came behind them, and would have thrown if the stream had ended before the last of them *)
Record parses {A} (P : istream -> res (A * istream)) : Prop := {
  parses_same : forall data s1 s2, same_end (P (mk_is data s1)) (P (mk_is data s2));
  parses_used : forall data s x is', P (mk_is data s) = Ok (x, is') -> exists used, data = used ++ is_data is' /\
    (forall rest s2, exists s3, P (mk_is (used ++ rest) s2) = Ok (x, mk_is rest s3)) /\
    (forall p q s2, used = p ++ q -> q <> [] -> P (mk_is p s2) = Exn)
}.

(** ** the building blocks *)
Lemma parses_ext {A} (P Q : istream -> res (A * istream)) : (forall is, P is = Q is) -> parses P -> parses Q.
Proof.
  intros E H. split.
  - intros data s1 s2. rewrite <- !E. apply H.
  - intros data s x is' HQ. rewrite <- E in HQ. destruct (parses_used _ H _ _ _ _ HQ) as (used & A1 & A2 & A3). exists used. split; [exact A1|]. split.
    + intros rest s2. destruct (A2 rest s2) as (s3 & A4). exists s3. now rewrite <- E.
    + intros p q s2 Hp Hq. rewrite <- E. eauto.
Qed.
Lemma parses_ret {A} (x : A) : parses (fun is => Ok (x, is)).
Proof.
  split; [intros; cbn; auto|]. intros data s y is' E. injection E as <- <-. exists []. split; [reflexivity|]. split; [intros rest s2; exists s2; reflexivity|].
  intros p q s2 E N. destruct p; [cbn in E; congruence|discriminate].
Qed.
Lemma parses_fail {A} (r : res (A * istream)) : (forall v, r <> Ok v) -> parses (fun _ => r).
Proof. intros N. split; [intros; destruct r as [v| | |]; cbn; auto; exfalso; now apply (N v)|]. intros data s x is' E. exfalso. now apply (N _ E). Qed.
Lemma parses_bind {A B} (P : istream -> res (A * istream)) (Q : A -> istream -> res (B * istream)) :
  parses P -> (forall a, parses (Q a)) -> parses (fun is => bind (P is) (fun p => let (a, is) := p in Q a is)).
Proof.
  intros HP HQ. split.
  - intros data s1 s2. pose proof (parses_same _ HP data s1 s2) as S. destruct (P (mk_is data s1)) as [(x & [d1 c1])| | |], (P (mk_is data s2)) as [(y & [d2 c2])| | |]; cbn in S |- *; try tauto. destruct S as (-> & ->). apply (parses_same _ (HQ y)).
  - intros data s y is' E. destruct (P (mk_is data s)) as [(x & [d1 c1])| | |] eqn:E1; cbn [bind] in E; try discriminate.
    destruct (parses_used _ HP _ _ _ _ E1) as (u1 & A1 & A2 & A3). cbn [is_data] in A1. destruct (parses_used _ (HQ x) _ _ _ _ E) as (u2 & B1 & B2 & B3).
    exists (u1 ++ u2). split; [rewrite A1, B1; apply app_assoc|]. split.
    + intros rest s2. destruct (A2 (u2 ++ rest) s2) as (s3 & A4). rewrite <- app_assoc, A4. cbn [bind]. apply B2.
    + intros p q s2 Hp Hq. destruct (cut_app u1 u2 p q Hp Hq) as [(q' & Hu & N')|(p' & -> & Hu)].
      * rewrite (A3 p q' s2 Hu N'). reflexivity.
      * destruct (A2 p' s2) as (s3 & A4). rewrite A4. cbn [bind]. eapply B3; eauto.
Qed.
Lemma parses_lift {A B} (r : res B) (Q : B -> istream -> res (A * istream)) : (forall b, parses (Q b)) -> parses (fun is => bind r (fun b => Q b is)).
Proof. intros H. destruct r as [b| | |]; cbn [bind]; [apply H| | |]; apply parses_fail; congruence. Qed.
Lemma parses_read n : parses (read n).
Proof.
  destruct (Z_le_gt_dec n 0) as [Hn|Hn].
  { apply (parses_ext (fun is => Ok ([], is))); [|apply parses_ret]. intros is. unfold read, read_b. replace (Z.to_nat n) with O by lia. cbn [read_loop]. destruct (n <=? 0) eqn:E; [reflexivity|lia]. }
  assert (F : forall data s, (zlen data < n /\ read n (mk_is data s) = Exn) \/ exists a b s', data = a ++ b /\ zlen a = n /\ read n (mk_is data s) = Ok (a, mk_is b s')).
  { intros data s. destruct (C11_read_exact n data s ltac:(lia)) as (R1 & R2). destruct (Z_lt_ge_dec (zlen data) n) as [L|L]; [left; auto|right].
    pose proof (firstn_skipn (Z.to_nat n) data) as FS. destruct (R1 (firstn (Z.to_nat n) data) (skipn (Z.to_nat n) data)) as (s' & E); [auto|unfold zlen in *; rewrite firstn_length; lia|].
    exists (firstn (Z.to_nat n) data), (skipn (Z.to_nat n) data), s'. split; [auto|]. split; [unfold zlen in *; rewrite firstn_length; lia|exact E]. }
  split.
  - intros data s1 s2. destruct (F data s1) as [(L1 & ->)|(a & b & s' & E1 & L1 & ->)], (F data s2) as [(L2 & ->)|(a2 & b2 & s2' & E2 & L2 & ->)]; cbn; auto.
    + subst data. rewrite zlen_app in L1. pose proof (zlen_nonneg b2). lia.
    + subst data. rewrite zlen_app in L2. pose proof (zlen_nonneg b). lia.
    + subst data. assert (length a = length a2) as LL by (unfold zlen in *; lia). clear - E2 LL. revert a2 E2 LL. induction a as [|x a IH]; intros [|y a2] E2 LL; cbn in LL; try discriminate; cbn in E2.
      * auto.
      * injection E2 as -> E2. destruct (IH a2 E2 ltac:(lia)) as (-> & ->). auto.
  - intros data s x is' E. destruct (F data s) as [(L & E')|(a & b & s' & Ed & La & E')]; rewrite E in E'; [discriminate|]. injection E' as -> ->. exists a. cbn [is_data]. split; [exact Ed|]. split.
    + intros rest s2. destruct (C11_read_exact n (a ++ rest) s2 ltac:(lia)) as (R1 & _). apply R1; auto.
    + intros p q s2 Hp Hq. destruct (C11_read_exact n p s2 ltac:(lia)) as (_ & R2). apply R2. rewrite <- La, Hp. now apply zlen_cut.
Qed.
Ltac parses_step :=
  match goal with
  | |- parses (fun is => Ok (_, is)) => apply parses_ret
  | |- parses (fun _ => Exn) => apply parses_fail; congruence
  | |- parses (fun _ => UB) => apply parses_fail; congruence
  | |- parses (fun is => if ?b then _ else _) => destruct b
  | |- parses (fun is => bind (_ is) (fun p => let (a, is') := p in _)) => apply parses_bind; [|intros ?]
  | |- parses (fun is => bind _ (fun b => _)) => apply parses_lift; intros ?
  end.
Lemma parses_eta {A} (P : istream -> res (A * istream)) : parses P -> parses (fun is => P is). Proof. auto. Qed.
Lemma parses_pod little n : parses (loadPod little n).
Proof. unfold loadPod. parses_step; [apply parses_read|parses_step]. Qed.
Lemma parses_int little t : parses (loadVariableInt little t).
Proof. unfold loadVariableInt. parses_step; [apply parses_pod|]. repeat first [parses_step | apply parses_pod]. Qed.
Lemma parses_seq {A} (c : codec A) n : (forall old, parses (c_load c old)) -> forall acc, parses (load_seq c n acc).
Proof. intros H. induction n as [|n IH]; intros acc; cbn [load_seq]; [apply parses_ret|]. parses_step; [apply H|apply IH]. Qed.
Lemma parses_set {A} (c : codec A) ins n : (forall old, parses (c_load c old)) -> forall acc, parses (load_set c ins n acc).
Proof. intros H. induction n as [|n IH]; intros acc; cbn [load_set]; [apply parses_ret|]. parses_step; [apply H|apply IH]. Qed.
Lemma parses_set_with {A} little size_t (c : codec A) ins : (forall old, parses (c_load c old)) -> forall old, parses (c_load (codec_set_with little size_t c ins) old).
Proof. intros H old. cbn [c_load codec_set_with]. parses_step; [apply parses_int|now apply parses_set]. Qed.
Lemma parses_pair {A B} (ca : codec A) (cb : codec B) : (forall old, parses (c_load ca old)) -> (forall old, parses (c_load cb old)) -> forall old, parses (c_load (codec_pair ca cb) old).
Proof. intros H1 H2 old. cbn [c_load codec_pair]. parses_step; [apply H1|]. parses_step; [apply H2|]. parses_step. Qed.

(** ** C120 *)
(** objects of any nesting of scalars, strings, vectors, lists, sets and maps, loaded into any object *)
Theorem C120_objects : forall little size_t s old, parses (c_load (codec_of little size_t s) old).
Proof.
  intros little size_t. induction s; intros old; cbn [codec_of].
  - apply parses_int.
  - apply parses_pod.
  - cbn [c_load codec_string]. parses_step; [apply parses_int|]. parses_step; [apply parses_read|parses_step].
  - cbn [c_load codec_seq]. parses_step; [apply parses_int|now apply parses_seq].
  - now apply parses_set_with.
  - apply parses_set_with. now apply parses_pair.
Qed.
(** structs whose load handles the members one after the other *)
Theorem C120_sequence : forall little size_t ts, parses (load_many little size_t ts).
Proof. intros little size_t. induction ts as [|s ts IH]; cbn [load_many]; [apply parses_ret|]. parses_step; [apply C120_objects|]. parses_step; [exact IH|parses_step]. Qed.
Lemma parses_podvec {A} sz (ofb : list Z -> A) : parses (SucModel.loadPodVec sz ofb).
Proof. unfold SucModel.loadPodVec. parses_step; [apply parses_int|]. parses_step; [|parses_step]. parses_step; [apply parses_read|parses_step]. Qed.
Ltac parses_all := repeat first [apply parses_int | apply parses_podvec | apply parses_read | parses_step].
(** SucVector *)
Theorem C120_sucvector : forall withSelect old, parses (SucModel.sv_load withSelect old).
Proof. intros ws old. unfold SucModel.sv_load. parses_all. Qed.
(** CSucVector *)
Theorem C120_csucvector : parses CSucModel.c_load_vec.
Proof. unfold CSucModel.c_load_vec. parses_all. Qed.
(** WaveletMatrix *)
Theorem C120_wavelet : forall svSelect withSelect old, parses (WaveletModel.wm_load svSelect withSelect old).
Proof.
  intros ss ws old. unfold WaveletModel.wm_load. do 3 (parses_step; [apply parses_int|]). parses_step.
  - generalize (WaveletModel.resize_l SucModel.sv_empty (WaveletModel.w_svv old) a0) as svv. generalize 0 as i. induction (Z.to_nat a0) as [|n IH]; intros i svv; cbn [WaveletModel.load_svv]; [apply parses_ret|].
    parses_step. parses_step; [apply C120_sucvector|]. parses_step. apply IH.
  - do 3 (parses_step; [apply parses_podvec|]). parses_step; [|parses_step]. parses_step; [|parses_step].
    generalize (WaveletModel.resize_l [] (WaveletModel.w_sel old) a) as sel. generalize 0 as i. induction (Z.to_nat a) as [|n IH]; intros i sel; cbn [WaveletModel.load_sel]; [apply parses_ret|].
    parses_step; [apply parses_podvec|]. parses_step. apply IH.
Qed.
(** Frequency, with elements and counters of any types whose load is like that, and the Frequency of bytes *)
Theorem C120_frequency : forall {E} (eqb : E -> E -> bool) sort place little size_t ce ci old, (forall e, parses (c_load ce e)) -> (forall e, parses (c_load ci e)) ->
  parses (FrequencyModel.f_load eqb sort place little size_t ce ci old).
Proof.
  intros E eqb sort place little size_t ce ci old H1 H2. unfold FrequencyModel.f_load, FrequencyModel.f_codec, codec_umap. parses_step; [|parses_step]. apply parses_set_with. apply parses_pair; auto. now apply parses_pair.
Qed.
Lemma parses_range little k n : parses (FrequencyModel.loadRange little k n).
Proof. unfold FrequencyModel.loadRange. parses_step; [apply parses_read|parses_step]. Qed.
Theorem C120_frequency_bytes : forall little size_t k, parses (FrequencyModel.v_load little size_t k).
Proof. intros. unfold FrequencyModel.v_load. repeat first [apply parses_int | apply parses_range | parses_step]. Qed.
(** FMIndex *)
Theorem C120_fmindex : forall raw t16 sort16 place old, parses (FmModel.fm_load raw t16 sort16 place old).
Proof.
  intros. unfold FmModel.fm_load. repeat first [apply parses_int | apply parses_podvec | apply C120_wavelet | apply C120_sucvector | parses_step].
  unfold FmModel.fq_load. destruct (FmModel.m_fq old).
  - parses_step; [apply C120_frequency_bytes|parses_step].
  - parses_step; [|parses_step]. apply C120_frequency; [intros e; apply parses_pod|intros e; apply parses_int].
Qed.
(** SparseVector, with values of any type whose load is like that *)
Theorem C120_sparse : forall {A} little (ct : codec A) old, (forall e, parses (c_load ct e)) -> parses (SparseModel.sv_load little ct old).
Proof.
  intros A little ct old H. unfold SparseModel.sv_load. parses_step; [apply parses_int|]. generalize (SparseModel.sv_clear old) as v. induction (Z.to_nat a) as [|n IH]; intros v; cbn [SparseModel.sv_load_loop]; [apply parses_ret|].
  parses_step; [apply parses_int|]. parses_step; [apply H|]. destruct (SparseModel.push_back v a0 a1) as (v' & thrown). parses_step; [parses_step|apply IH].
Qed.
(** cybozu::String *)
Theorem C120_string : forall little, parses (StrIoModel.load little).
Proof. intros. unfold StrIoModel.load. repeat first [apply parses_int | apply parses_read | parses_step]. Qed.

(** ** what it means for files: if the whole file gives an object, every cut of it throws *)
Theorem C120_cut : forall {A} (load : istream -> res (A * istream)), parses load -> forall file s x is', load (mk_is file s) = Ok (x, is') -> is_data is' = [] ->
  forall p q s2, file = p ++ q -> q <> [] -> load (mk_is p s2) = Exn.
Proof.
  intros A load H file s x is' E R p q s2 Ef N. destruct (parses_used _ H _ _ _ _ E) as (used & E1 & _ & T). rewrite R, app_nil_r in E1. apply (T p q); congruence.
Qed.
(** no object is a strict prefix of another: an archive of objects has one reading *)
Theorem C120_one_reading : forall {A} (load : istream -> res (A * istream)), parses load -> forall file s1 s2 x y i j, load (mk_is file s1) = Ok (x, i) -> load (mk_is file s2) = Ok (y, j) -> x = y /\ is_data i = is_data j.
Proof. intros A load H file s1 s2 x y i j E1 E2. pose proof (parses_same _ H file s1 s2) as S. rewrite E1, E2 in S. exact S. Qed.
(** a saved CSucVector that loses its last byte *)
Example cut_demo : exists enc, CSucModel.c_save_vec CSucModel.c_empty = Ok enc /\ enc = [0; 0; 0; 0; 0] /\
  CSucModel.c_load_vec (mk_is enc [1; 2]) = Ok (CSucModel.c_empty, mk_is [] []) /\ CSucModel.c_load_vec (mk_is [0; 0; 0; 0] []) = Exn.
Proof. exists [0; 0; 0; 0; 0]. vm_compute. repeat split. Qed.
(** bytes nobody saved: the outcome is still decided by the bytes *)
Example junk_demo : StrIoModel.load true (mk_is [2; 65; 0; 0; 0; 66; 0; 0; 0; 9; 9] [3; 1; 1]) = Ok ([65; 66], mk_is [9; 9] []) /\ StrIoModel.load true (mk_is [2; 65; 0; 0; 0; 66; 0; 0] [5]) = Exn.
Proof. vm_compute. repeat split. Qed.
Print Assumptions C120_objects.
Print Assumptions C120_sequence.
Print Assumptions C120_sucvector.
Print Assumptions C120_csucvector.
Print Assumptions C120_wavelet.
Print Assumptions C120_frequency.
Print Assumptions C120_frequency_bytes.
Print Assumptions C120_fmindex.
Print Assumptions C120_sparse.
Print Assumptions C120_string.
Print Assumptions C120_cut.
Print Assumptions C120_one_reading.
