(** C128: load from any user-made input stream *)
Require Import Verif.Common Verif.StreamModel Verif.StreamProps Verif.EndianModel Verif.SerializerModel Verif.SerializerProps Verif.StreamingProps Verif.ZlibProps Verif.ZlibFailModel Verif.ZlibFailProps Verif.SaveModel Verif.SaveProps Verif.LoadModel.
Require Verif.StrIoModel Verif.StrIoProps.
Ltac Zify.zify_post_hook ::= idtac.

(** ** Specification *)
(** what an input stream has to do: [left s] are the bytes still to come.  While there are some, readSome(n) with n > 0 gives at least one of them
    and at most n.  At the end it either gives nothing ([at_end] true) or is not defined ([at_end] false). *)
Record input {I} (readSome : I -> Z -> res (list Z * I)) (left : I -> list Z) (inv : I -> Prop) (at_end : bool) : Prop := {
  in_some : forall s n, inv s -> 0 < n -> left s <> [] -> exists got s', readSome s n = Ok (got, s') /\ got <> [] /\ zlen got <= n /\ left s = got ++ left s' /\ inv s';
  in_end : forall s n, inv s -> 0 < n -> left s = [] -> if at_end then exists s', readSome s n = Ok ([], s') else readSome s n = UB }.

Section Sim.
Context {I : Type} (rs : I -> Z -> res (list Z * I)) (left : I -> list Z) (inv : I -> Prop) (at_end : bool) (IN : input rs left inv at_end).
(** the two loaders agree; where the one over istream throws the other throws or reads past the end *)
Definition sim {A} (P : reader I A) (L : istream -> res (A * istream)) : Prop := forall s is, inv s -> left s = is_data is ->
  match L is with
  | Ok (x, is') => exists s', P s = Ok (x, s') /\ inv s' /\ left s' = is_data is'
  | Exn => P s = Exn \/ at_end = false /\ P s = UB
  | _ => True
  end.
Lemma sim_ret {A} (x : A) : sim (fun s => Ok (x, s)) (fun is => Ok (x, is)).
Proof using. intros s is H E. eauto. Qed.
Lemma sim_exn {A} : @sim A (fun _ => Exn) (fun _ => Exn).
Proof using. intros s is H E. auto. Qed.
Lemma sim_bind {A B} (P : reader I A) L (Q : A -> reader I B) M : sim P L -> (forall a, sim (Q a) (M a)) ->
  sim (fun s => bind (P s) (fun p => let (a, s) := p in Q a s)) (fun is => bind (L is) (fun p => let (a, is) := p in M a is)).
Proof using.
  intros H1 H2 s is H E. specialize (H1 s is H E). destruct (L is) as [[a is']| | |]; cbn [bind]; auto.
  - destruct H1 as (s' & -> & H' & E'). cbn [bind]. apply H2; auto.
  - destruct H1 as [->|[Y ->]]; cbn [bind]; auto.
Qed.
Lemma sim_if {A} (b : bool) (P Q : reader I A) L M : sim P L -> sim Q M -> sim (fun s => if b then P s else Q s) (fun is => if b then L is else M is).
Proof using. intros. destruct b; auto. Qed.
Lemma loop_ok : forall f n s, inv s -> n <= Z.of_nat f ->
  (forall a b, left s = a ++ b -> zlen a = n -> exists s', r_loop I rs f n s = Ok (true, a, s') /\ inv s' /\ left s' = b) /\
  (zlen (left s) < n -> (exists g s', r_loop I rs f n s = Ok (false, g, s')) \/ at_end = false /\ r_loop I rs f n s = UB).
Proof using IN.
  induction f as [|f IH]; intros n s H F; cbn [r_loop].
  { destruct (Z.leb_spec n 0); [|exfalso; lia]. split.
    - intros a b E La. assert (a = []) by (destruct a; [auto|rewrite zlen_cons in La; pose proof (zlen_nonneg a); exfalso; lia]). subst a. eauto.
    - intros X. pose proof (zlen_nonneg (left s)). exfalso; lia. }
  destruct (Z.leb_spec n 0) as [N|N].
  { split.
    - intros a b E La. assert (a = []) by (destruct a; [auto|rewrite zlen_cons in La; pose proof (zlen_nonneg a); exfalso; lia]). subst a. eauto.
    - intros X. pose proof (zlen_nonneg (left s)). exfalso; lia. }
  destruct (left s) as [|c l] eqn:D.
  - pose proof (in_end _ _ _ _ IN s n H N D) as E. split.
    + intros a b E1 La. destruct a; [cbn in La; exfalso; lia|discriminate].
    + intros _. destruct at_end.
      * destruct E as (s' & ->). cbn [bind]. left. cbn. eauto.
      * rewrite E. right. auto.
  - destruct (in_some _ _ _ _ IN s n H N ltac:(congruence)) as (got & s' & -> & G1 & G2 & G3 & H'). rewrite D in G3. cbn [bind].
    assert (G4 : 0 < zlen got) by (destruct got; [congruence|rewrite zlen_cons; pose proof (zlen_nonneg got); lia]).
    destruct (Z.eqb_spec (zlen got) 0); [exfalso; lia|]. destruct (IH (n - zlen got) s' H' ltac:(lia)) as [I1 I2]. split.
    + intros a b E La. assert (K : exists a', a = got ++ a' /\ left s' = a' ++ b).
      { exists (skipn (length got) a). assert (X : firstn (length got) a = got /\ skipn (length got) a ++ b = left s').
        { assert (LL : (length got <= length a)%nat) by (unfold zlen in *; lia). rewrite E in G3. pose proof (f_equal (firstn (length got)) G3) as U. pose proof (f_equal (skipn (length got)) G3) as V.
          rewrite !firstn_app, !skipn_app, !Nat.sub_diag in *. replace (length got - length a)%nat with 0%nat in * by lia. rewrite firstn_all in U. rewrite skipn_all in V. cbn [firstn skipn app] in *. rewrite !app_nil_r in U. auto. }
        destruct X as [X1 X2]. split; [|auto]. rewrite <- X1 at 1. symmetry. apply firstn_skipn. }
      destruct K as (a' & -> & K). rewrite zlen_app in La. destruct (I1 a' b K ltac:(lia)) as (s2 & -> & H2 & E2). cbn [bind]. eauto.
    + intros X. rewrite G3, zlen_app in X. destruct (I2 ltac:(lia)) as [(g & s2 & ->)|[? ->]]; cbn [bind]; [left; eauto|right; auto].
Qed.
Lemma sim_read n : sim (r_read I rs n) (read n).
Proof using IN.
  intros s [d sch] H E. cbn [is_data] in E. unfold r_read. destruct (loop_ok (Z.to_nat n) n s H ltac:(lia)) as [L1 L2].
  destruct (Z.ltb_spec n 0) as [N|N].
  { assert (F : Z.to_nat n = 0%nat) by lia. unfold read, read_b. rewrite F. cbn [r_loop read_loop]. destruct (Z.leb_spec n 0); [|exfalso; lia]. cbn [bind]. eauto. }
  destruct (C11_read_exact n d sch N) as [R1 R2]. destruct (Z.ltb_spec (zlen d) n) as [X|X].
  - rewrite R2 by auto. rewrite E in L2. destruct (L2 X) as [(g & s' & ->)|[Y ->]]; cbn [bind]; auto.
  - assert (LF : zlen (firstn (Z.to_nat n) d) = n) by (unfold zlen in *; rewrite firstn_length; lia).
    destruct (R1 (firstn (Z.to_nat n) d) (skipn (Z.to_nat n) d) (eq_sym (firstn_skipn _ _)) LF) as (sch' & ->).
    destruct (L1 (firstn (Z.to_nat n) d) (skipn (Z.to_nat n) d)) as (s' & -> & H' & E'); [rewrite E; symmetry; apply firstn_skipn|exact LF|]. cbn [bind]. eauto.
Qed.
Ltac sim_step := first [apply sim_read | apply sim_ret | apply sim_exn | apply sim_if | apply sim_bind; [|intros ?]].
Variable little : bool.
Lemma sim_pod n : sim (r_pod I rs little n) (loadPod little n).
Proof using IN. unfold r_pod, loadPod. repeat sim_step. Qed.
Lemma sim_int t : sim (r_int I rs little t) (loadVariableInt little t).
Proof using IN. unfold r_int, loadVariableInt. repeat first [apply sim_pod | sim_step]. Qed.
Lemma sim_str32 : sim (r_str32 I rs little) (StrIoModel.load little).
Proof using IN. unfold r_str32, StrIoModel.load. repeat first [apply sim_int | sim_step]. Qed.
Variable size_t : cint.
Lemma sim_times {A} (ld : reader I A) (c : codec A) ins : sim ld (c_load c (c_default c)) -> forall n acc, sim (r_times I ld ins n acc) (load_set c ins n acc).
Proof using. intros H. induction n as [|n IH]; intros acc; cbn [r_times load_set]; [apply sim_ret|]. sim_step; [exact H|apply IH]. Qed.
Lemma seq_set {A} (c : codec A) n : forall acc is, load_seq c n acc is = load_set c back n acc is.
Proof using. induction n as [|n IH]; intros acc is; cbn [load_seq load_set]; [reflexivity|]. destruct (c_load c (c_default c) is) as [[x is']| | |]; cbn [bind]; auto. Qed.
Lemma sim_seq {A} (ld : reader I A) (c : codec A) : sim ld (c_load c (c_default c)) -> forall old, sim (r_into I rs little size_t ld back []) (c_load (codec_seq little size_t c) old).
Proof using IN.
  intros H old. cbn [codec_seq c_load]. unfold r_into. sim_step; [apply sim_int|]. intros s is Hi E. rewrite seq_set. now apply (sim_times ld c back H).
Qed.
Lemma sim_set {A} (ld : reader I A) (c : codec A) ins : sim ld (c_load c (c_default c)) -> sim (r_into I rs little size_t ld ins []) (c_load (codec_set_with little size_t c ins) []).
Proof using IN. intros H. cbn [codec_set_with c_load]. unfold r_into. sim_step; [apply sim_int|]. now apply (sim_times ld c ins H). Qed.
Lemma sim_pair {A B} (la : reader I A) (lb : reader I B) (ca : codec A) (cb : codec B) : sim la (c_load ca (c_default ca)) -> sim lb (c_load cb (c_default cb)) ->
  sim (r_pair I la lb) (c_load (codec_pair ca cb) (c_default (codec_pair ca cb))).
Proof using. intros Ha Hb. cbn [codec_pair c_load c_default fst snd]. unfold r_pair. sim_step; [exact Ha|]. sim_step; [exact Hb|]. sim_step. Qed.
Lemma sim_obj s : sim (r_obj I rs little size_t s) (c_load (codec_of little size_t s) (c_default (codec_of little size_t s))).
Proof using IN.
  induction s; cbn [r_obj codec_of].
  - apply sim_int.
  - apply sim_pod.
  - cbn [codec_string c_load]. unfold r_string. repeat first [apply sim_int | sim_step].
  - now apply sim_seq.
  - unfold codec_set. now apply sim_set.
  - unfold codec_map, codec_set. apply sim_set. now apply sim_pair.
Qed.
Lemma sim_data2 : sim (r_data2 I rs little size_t) (c_load (data2 little size_t) (c_default (data2 little size_t))).
Proof using IN.
  exact (sim_pair _ _ _ _ (sim_pair _ _ _ _ (sim_pair _ _ _ _ (sim_pair _ _ _ _ (sim_obj (SMap SStr (SPod 8))) (sim_obj (SSet int_))) (sim_obj (SSeq (SPod 4))))
    (sim_seq _ (codec_str32 little) sim_str32 [])) (sim_obj int_)).
Qed.
(** from the round trip over istream to the round trip over this stream *)
Lemma through {A} (P : reader I A) (c : codec A) x enc : sim P (c_load c (c_default c)) -> parses (c_load c (c_default c)) ->
  (forall rest sched, exists sched', c_load c (c_default c) (mk_is (enc ++ rest) sched) = Ok (x, mk_is rest sched')) -> forall s, inv s ->
  (forall rest, left s = enc ++ rest -> exists s', P s = Ok (x, s') /\ inv s' /\ left s' = rest) /\
  (forall t, enc = left s ++ t -> t <> [] -> P s = Exn \/ at_end = false /\ P s = UB).
Proof using.
  intros S Pa L s H. split.
  - intros rest E. destruct (L rest []) as (sch & R). specialize (S s (mk_is (enc ++ rest) []) H E). rewrite R in S. exact S.
  - intros t E N. specialize (S s (mk_is (left s) []) H eq_refl). destruct (L [] []) as (sch & R). rewrite app_nil_r in R.
    rewrite (C120_cut _ Pa _ _ _ _ R eq_refl (left s) t [] E N) in S. exact S.
Qed.
End Sim.

(** C128: what save wrote is loaded from any such stream: exactly the bytes of the object are taken.  If bytes of it are missing, load throws
    when the stream gives nothing at its end *)
Theorem C128_objects : forall little size_t ty x, cint_ok size_t -> c_signed size_t = false -> valid size_t ty x ->
  exists enc, c_save (codec_of little size_t ty) x = Ok enc /\
  forall (I : Type) (readSome : I -> Z -> res (list Z * I)) left inv at_end, input readSome left inv at_end -> forall s, inv s ->
    (forall rest, left s = enc ++ rest -> exists s', r_obj I readSome little size_t ty s = Ok (x, s') /\ inv s' /\ left s' = rest) /\
    (at_end = true -> forall t, enc = left s ++ t -> t <> [] -> r_obj I readSome little size_t ty s = Exn).
Proof.
  intros little size_t ty x H1 H2 V. destruct (C10_round_trip little size_t ty x H1 H2 V) as (enc & S & L). exists enc. split; [auto|].
  intros I readSome left inv at_end IN s Hs. destruct (through left inv at_end _ _ x enc (sim_obj readSome left inv at_end IN little size_t ty) (C120_objects little size_t ty _) L s Hs) as [T1 T2].
  split; [exact T1|]. intros -> t E N. destruct (T2 t E N) as [T|[T _]]; [exact T|discriminate].
Qed.

(** the structs of sample/serializer_smpl.cpp *)
Definition data2_ok (size_t : cint) (x : list (list Z * Z) * list Z * list Z * list (list Z) * Z) : Prop :=
  let '(sd, is_, fv, sv, a) := x in
  valid size_t (SMap SStr (SPod 8)) sd /\ valid size_t (SSet int_) is_ /\ valid size_t (SSeq (SPod 4)) fv /\
  (Forall (fun s => StrIoProps.chars s /\ zlen s <= StrIoModel.max_size) sv /\ fits size_t (zlen sv)) /\ valid size_t int_ a.
Lemma data2_rt : forall little size_t x, cint_ok size_t -> c_signed size_t = false -> data2_ok size_t x ->
  exists enc, c_save (data2 little size_t) x = Ok enc /\ forall rest sched, exists sched', c_load (data2 little size_t) (c_default (data2 little size_t)) (mk_is (enc ++ rest) sched) = Ok (x, mk_is rest sched').
Proof.
  intros little size_t x H1 H2 V.
  assert (R : forall s, round_trip (codec_of little size_t s) (valid size_t s)) by (intros s; apply round_trip_all; auto).
  assert (RS : round_trip (codec_str32 little) (fun s => StrIoProps.chars s /\ zlen s <= StrIoModel.max_size)).
  { intros s [C M]. destruct (StrIoProps.C102_save little s C M) as (enc & E & L & _). exists enc. split; [exact E|]. exact L. }
  destruct x as [[[[sd is_] fv] sv] a]. destruct V as (V1 & V2 & V3 & V4 & V5).
  assert (RV : round_trip (codec_seq little size_t (codec_str32 little)) (all_valid size_t (fun s => StrIoProps.chars s /\ zlen s <= StrIoModel.max_size))).
  { intros l Hl. destruct (rt_seq_into little size_t (conj H1 H2) (codec_str32 little) _ RS l Hl) as (enc & E & L). exists enc. split; [exact E|]. intros rest sch. apply L. }
  pose proof (rt_pair _ _ _ _ (rt_pair _ _ _ _ (rt_pair _ _ _ _ (rt_pair _ _ _ _ (R (SMap SStr (SPod 8))) (R (SSet int_))) (R (SSeq (SPod 4)))) RV) (R int_)) as RT.
  apply RT. cbn [fst snd]. auto 10.
Qed.

Lemma parses_data2 : forall little size_t, parses (c_load (data2 little size_t) (c_default (data2 little size_t))).
Proof.
  intros little size_t.
  assert (PP : forall A B (ca : codec A) (cb : codec B), parses (c_load ca (c_default ca)) -> parses (c_load cb (c_default cb)) -> parses (c_load (codec_pair ca cb) (c_default (codec_pair ca cb)))).
  { intros A B ca cb Ha Hb. cbn [codec_pair c_load c_default fst snd]. apply parses_bind; [exact Ha|]. intros a. apply parses_bind; [exact Hb|]. intros b. apply parses_ret. }
  assert (PS : parses (c_load (codec_seq little size_t (codec_str32 little)) [])).
  { cbn [c_load codec_seq]. apply parses_bind; [apply parses_int|]. intros n. apply parses_seq. intros old. apply C120_string. }
  exact (PP _ _ _ _ (PP _ _ _ _ (PP _ _ _ _ (PP _ _ _ _ (C120_objects little size_t (SMap SStr (SPod 8)) _) (C120_objects little size_t (SSet int_) _)) (C120_objects little size_t (SSeq (SPod 4)) _)) PS) (C120_objects little size_t int_ _)).
Qed.
Theorem C128_sample : forall little size_t x, cint_ok size_t -> c_signed size_t = false -> data2_ok size_t x ->
  exists enc, c_save (data2 little size_t) x = Ok enc /\
  forall (I : Type) (readSome : I -> Z -> res (list Z * I)) left inv at_end, input readSome left inv at_end -> forall s, inv s ->
    (forall rest, left s = enc ++ rest -> exists s', r_data2 I readSome little size_t s = Ok (x, s') /\ inv s' /\ left s' = rest) /\
    (at_end = true -> forall t, enc = left s ++ t -> t <> [] -> r_data2 I readSome little size_t s = Exn).
Proof.
  intros little size_t x H1 H2 V. destruct (data2_rt little size_t x H1 H2 V) as (enc & S & L). exists enc. split; [auto|].
  intros I readSome left inv at_end IN s Hs. destruct (through left inv at_end _ _ x enc (sim_data2 readSome left inv at_end IN little size_t) (parses_data2 little size_t) L s Hs) as [T1 T2].
  split; [exact T1|]. intros -> t E N. destruct (T2 t E N) as [T|[T _]]; [exact T|discriminate].
Qed.

(** the streams of the library and of the sample are such streams.  A std::istream that failed gives nothing more, so its bytes left count only while it is good *)
Lemma cut_at {A} (l : list A) p k : skipn p l = firstn k (skipn p l) ++ skipn (p + k) l.
Proof. rewrite Nat.add_comm, <- skipn_skipn. symmetry. apply firstn_skipn. Qed.
Lemma zlen_firstn_skipn {A} (l : list A) p k : 0 <= p -> 0 <= k -> p + k <= zlen l -> zlen (firstn (Z.to_nat k) (skipn (Z.to_nat p) l)) = k.
Proof. intros. unfold zlen in *. rewrite firstn_length, skipn_length. lia. Qed.
Lemma skipn_some {A} (l : list A) p : 0 <= p -> skipn (Z.to_nat p) l <> [] -> p < zlen l.
Proof. intros P N. destruct (Z.ltb_spec p (zlen l)); auto. exfalso. apply N, skipn_all2. unfold zlen in *. lia. Qed.
Lemma skipn_none {A} (l : list A) p : 0 <= p <= zlen l -> skipn (Z.to_nat p) l = [] -> p = zlen l.
Proof. intros P N. pose proof (f_equal (@length A) N) as X. rewrite skipn_length in X. cbn [length] in X. unfold zlen in *. lia. Qed.
Lemma piece {A} (l : list A) p n : 0 <= p -> p < zlen l -> 0 < n -> let k := Z.min n (zlen l - p) in
  firstn (Z.to_nat k) (skipn (Z.to_nat p) l) <> [] /\ zlen (firstn (Z.to_nat k) (skipn (Z.to_nat p) l)) <= n /\
  skipn (Z.to_nat p) l = firstn (Z.to_nat k) (skipn (Z.to_nat p) l) ++ skipn (Z.to_nat (p + k)) l.
Proof.
  intros P L N k. assert (Lk : zlen (firstn (Z.to_nat k) (skipn (Z.to_nat p) l)) = k) by (apply zlen_firstn_skipn; lia). split; [|split].
  - intros E. rewrite E in Lk. cbn in Lk. lia.
  - lia.
  - rewrite Z2Nat.inj_add by lia. apply cut_at.
Qed.
Theorem C128_memory : input mi_readSome (fun s => skipn (Z.to_nat (mi_pos s)) (mi_p s)) (fun s => mi_size s = zlen (mi_p s) /\ 0 <= mi_pos s <= mi_size s /\ mi_size s < 2 ^ 64) true.
Proof.
  split; intros [p z pos] n (E & B & M) N; cbn [mi_p mi_size mi_pos] in *; subst z; unfold mi_readSome; cbn [mi_p mi_size mi_pos]; unfold sub64; rewrite Z.mod_small by lia.
  - intros D. apply skipn_some in D; [|lia]. destruct (piece p pos n ltac:(lia) D N) as (P1 & P2 & P3).
    replace (if zlen p - pos <? n then zlen p - pos else n) with (Z.min n (zlen p - pos)) by (destruct (Z.ltb_spec (zlen p - pos) n); lia).
    destruct (Z.ltb_spec (zlen p) (pos + Z.min n (zlen p - pos))); [exfalso; lia|]. do 2 eexists. split; [reflexivity|]. cbn [mi_p mi_size mi_pos]. split; [exact P1|]. split; [exact P2|]. split; [exact P3|lia].
  - intros D. apply skipn_none in D; [|lia]. subst pos. rewrite Z.sub_diag. destruct (Z.ltb_spec 0 n); [|exfalso; lia]. rewrite Z.add_0_r, Z.ltb_irrefl. cbn [Z.to_nat firstn]. eauto.
Qed.
Theorem C128_string : input si_readSome (fun s => skipn (Z.to_nat (si_pos s)) (si_str s)) (fun s => 0 <= si_pos s <= zlen (si_str s) /\ zlen (si_str s) < 2 ^ 64) true.
Proof.
  split; intros [p pos] n (B & M) N; cbn [si_str si_pos] in *; unfold si_readSome; cbn [si_str si_pos]; unfold sub64; rewrite Z.mod_small by lia.
  - intros D. apply skipn_some in D; [|lia]. destruct (piece p pos n ltac:(lia) D N) as (P1 & P2 & P3).
    replace (if zlen p - pos <? n then zlen p - pos else n) with (Z.min n (zlen p - pos)) by (destruct (Z.ltb_spec (zlen p - pos) n); lia).
    destruct (Z.ltb_spec (zlen p) (pos + Z.min n (zlen p - pos))); [exfalso; lia|]. do 2 eexists. split; [reflexivity|]. cbn [si_str si_pos]. split; [exact P1|]. split; [exact P2|]. split; [exact P3|lia].
  - intros D. apply skipn_none in D; [|lia]. subst pos. rewrite Z.sub_diag. destruct (Z.ltb_spec 0 n); [|exfalso; lia]. rewrite Z.add_0_r, Z.ltb_irrefl. cbn [Z.to_nat firstn]. eauto.
Qed.
Theorem C128_vector : forall data, input vi_readSome (fun s => skipn (Z.to_nat (vi_pos s)) (vi_data s)) (fun s => vi_data s = data /\ 0 <= vi_pos s <= zlen (vi_data s) /\ zlen (vi_data s) < 2 ^ 64) false.
Proof.
  intros data. split; intros [p pos] n (DD & B & M) N; cbn [vi_data vi_pos] in *; unfold vi_readSome; cbn [vi_data vi_pos]; unfold sub64; rewrite Z.mod_small by lia.
  - intros D. apply skipn_some in D; [|lia]. destruct (piece p pos n ltac:(lia) D N) as (P1 & P2 & P3). destruct (Z.leb_spec (zlen p) pos); [exfalso; lia|].
    destruct (Z.ltb_spec (zlen p) (pos + Z.min n (zlen p - pos))); [exfalso; lia|]. do 2 eexists. split; [reflexivity|]. cbn [vi_data vi_pos]. split; [exact P1|]. split; [exact P2|]. split; [exact P3|split; [exact DD|lia]].
  - intros D. apply skipn_none in D; [|lia]. subst pos. now rewrite Z.leb_refl.
Qed.
Theorem C128_istream : input st_readSome st_left (fun s => st_bad s = true -> st_left s = []) true.
Proof.
  split; intros [l bad] n B N; cbn [st_left st_bad] in *; unfold st_readSome; cbn [st_left st_bad].
  - intros D. destruct bad; [exfalso; auto|]. set (z := if 0x7fffffff <? n then 0x7fffffff else n). assert (Z1 : 0 < z <= n) by (unfold z; destruct (Z.ltb_spec 0x7fffffff n); lia).
    assert (L0 : 0 < zlen l) by (destruct l; [congruence|rewrite zlen_cons; pose proof (zlen_nonneg l); lia]). do 2 eexists. split; [reflexivity|]. cbn [st_left st_bad orb].
    assert (Lk : zlen (firstn (Z.to_nat (Z.min z (zlen l))) l) = Z.min z (zlen l)) by (unfold zlen in *; rewrite firstn_length; lia). split; [|split; [|split]].
    + intros E. rewrite E in Lk. cbn in Lk. lia.
    + lia.
    + symmetry. apply firstn_skipn.
    + destruct (Z.eqb_spec (Z.min z (zlen l)) 0); [exfalso; lia|]. rewrite andb_false_r. intros X. apply skipn_all2. unfold zlen in *. lia.
  - intros ->. rewrite firstn_nil. eauto.
Qed.
(** from a VecOutputStream, whatever it holds, to a VecInputStream that is where the object begins: the object comes back and the stream is at its end *)
Theorem C128_vector_to_vector : forall little size_t ty x before, cint_ok size_t -> c_signed size_t = false -> valid size_t ty x ->
  exists enc, w_obj (list Z) (fun o b => (true, vo_write o b)) little size_t ty x before = Ok (true, before ++ enc) /\
  (zlen (before ++ enc) < 2 ^ 64 -> r_obj vec_in vi_readSome little size_t ty (mk_vi (before ++ enc) (zlen before)) = Ok (x, mk_vi (before ++ enc) (zlen (before ++ enc)))).
Proof.
  intros little size_t ty x before H1 H2 V. destruct (C128_objects little size_t ty x H1 H2 V) as (enc & S & L). exists enc. split.
  - assert (SO : stream_ok (fun o b => (true, vo_write o b)) (fun o : list Z => o)) by (split; intros o b o' E; [now injection E as <-|discriminate]).
    destruct (tracks_obj _ _ SO little size_t ty x enc S before) as (b & o' & e & W & G & N & X). rewrite (N (fun _ _ => eq_refl)) in *. subst e. rewrite W. cbv beta in G. now rewrite G.
  - intros B. pose proof (zlen_nonneg before). pose proof (zlen_nonneg enc). rewrite zlen_app in B. destruct (L vec_in vi_readSome _ _ _ (C128_vector (before ++ enc)) (mk_vi (before ++ enc) (zlen before))) as [L1 _]; [cbn [vi_data vi_pos]; rewrite zlen_app; split; [reflexivity|lia]|].
    destruct (L1 []) as (s' & E & I & F); [cbn [vi_data vi_pos]; rewrite app_nil_r; unfold zlen; rewrite Nat2Z.id, skipn_app, skipn_all, Nat.sub_diag; reflexivity|]. rewrite E.
    destruct I as (D & I & _). destruct s' as [d p]. cbn [vi_data vi_pos] in *. subst d. do 3 f_equal. now apply skipn_none in F.
Qed.
(** ** Finding: VecInputStream of sample/serializer_smpl.cpp, shown as the way to make an input stream, is undefined at its end: data[pos] is evaluated
    with pos == data.size() even if nothing is to be read.  A load from a vector whose last bytes are missing is undefined, where MemoryInputStream
    makes it throw. *)
Theorem C128_vector_finding : forall little size_t t data, zlen data < 2 ^ 64 ->
  r_obj vec_in vi_readSome little size_t (SInt t) (mk_vi data (zlen data)) = UB /\ r_obj mem_in mi_readSome little size_t (SInt t) (mk_mi data (zlen data) (zlen data)) = Exn.
Proof.
  intros little size_t t data B. pose proof (zlen_nonneg data). split.
  - cbn [r_obj]. unfold r_int, r_pod, r_read. change (Z.to_nat (Z.of_nat 1)) with 1%nat. change (Z.of_nat 1) with 1. cbn [r_loop Z.leb Z.compare].
    unfold vi_readSome at 1. cbn [vi_data vi_pos]. now rewrite Z.leb_refl.
  - cbn [r_obj]. unfold r_int, r_pod, r_read. change (Z.to_nat (Z.of_nat 1)) with 1%nat. change (Z.of_nat 1) with 1. cbn [r_loop Z.leb Z.compare].
    unfold mi_readSome at 1. cbn [mi_p mi_size mi_pos]. unfold sub64. rewrite Z.sub_diag, Z.mod_0_l by lia. cbn [Z.ltb Z.compare]. rewrite Z.add_0_r, Z.ltb_irrefl. cbn [Z.to_nat firstn bind]. reflexivity.
Qed.
Definition case2 : list (list Z * Z) * list Z * list Z * list (list Z) * Z := ([([97; 98], 7); ([99], 2 ^ 62)], [-5; 55; 5555], [0x41133333], [[0x3042; 0x3044]; []], 98765432).
Example C128_case : data2_ok ulong case2 /\ exists enc, c_save (data2 true ulong) case2 = Ok enc /\ zlen enc = 49 /\
  r_data2 vec_in vi_readSome true ulong (mk_vi enc 0) = Ok (case2, mk_vi enc (zlen enc)) /\ r_data2 vec_in vi_readSome true ulong (mk_vi (firstn 48 enc) 0) = UB /\
  r_data2 mem_in mi_readSome true ulong (mk_mi (firstn 48 enc) 48 0) = Exn /\ r_data2 std_in st_readSome true ulong (mk_sti enc false) = Ok (case2, mk_sti [] false).
Proof.
  split.
  - unfold data2_ok, case2. cbn [valid]. repeat split; repeat constructor; cbn; unfold fits, cint_ok; cbn; auto; try (vm_compute; congruence); try lia.
  - eexists. split; [vm_compute; reflexivity|]. repeat split; vm_compute; reflexivity.
Qed.
Print Assumptions C128_objects.
Print Assumptions C128_sample.
Print Assumptions C128_memory.
Print Assumptions C128_string.
Print Assumptions C128_vector.
Print Assumptions C128_istream.
Print Assumptions C128_vector_to_vector.
Print Assumptions C128_vector_finding.
