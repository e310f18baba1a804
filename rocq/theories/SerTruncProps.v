(** C10, continued: a stream that ends inside a saved object makes load throw *)
Require Import Verif.Common Verif.StreamModel Verif.StreamProps Verif.SerializerModel Verif.SerializerProps.
Ltac Zify.zify_post_hook ::= idtac.
Local Open Scope Z_scope.

(** every strict prefix of an encoding makes load throw, however the stream hands over its bytes *)
Definition cut_throws {A} (c : codec A) (valid : A -> Prop) : Prop :=
  forall x enc p q sched, valid x -> c_save c x = Ok enc -> enc = p ++ q -> q <> [] -> c_load c (c_default c) (mk_is p sched) = Exn.

(** a cut of a ++ b is inside a, or a is whole and the cut is inside b *)
Lemma cut_app {A} (a b p q : list A) : a ++ b = p ++ q -> q <> [] -> (exists q', a = p ++ q' /\ q' <> []) \/ (exists p', p = a ++ p' /\ b = p' ++ q).
Proof.
  revert p. induction a as [|x a IH]; intros p E N; [right; exists p; auto|].
  destruct p as [|y p]; [left; exists (x :: a); split; [reflexivity|discriminate]|]. cbn in E. injection E as <- E.
  destruct (IH p E N) as [(q' & -> & N')|(p' & -> & ->)]; [left; exists q'; auto|right; exists p'; auto].
Qed.
Lemma loadPod_cut little n p sched : zlen p < Z.of_nat n -> loadPod little n (mk_is p sched) = Exn.
Proof. intros L. unfold loadPod. destruct (C11_read_exact (Z.of_nat n) p sched) as [_ R]; [lia|]. rewrite R by lia. reflexivity. Qed.
Lemma zlen_cut {A} (p q : list A) : q <> [] -> zlen p < zlen (p ++ q).
Proof. intros N. rewrite zlen_app. destruct q; [congruence|]. rewrite zlen_cons. pose proof (zlen_nonneg q). lia. Qed.

Section Cut.
Variable little : bool.
Variable size_t : cint.
Hypothesis size_ok : cint_ok size_t /\ c_signed size_t = false.
Lemma size_cut n h p q sched : 0 <= n -> fits size_t n -> saveVariableInt little size_t n = Ok h -> h = p ++ q -> q <> [] -> loadVariableInt little size_t (mk_is p sched) = Exn.
Proof.
  intros H0 Hn S E N. destruct (C09_variable_int little size_t n) as (enc & S' & _ & _ & T); [apply size_ok| |].
  - unfold in_range. destruct size_ok as [_ ->]. unfold fits in Hn. lia.
  - rewrite S in S'. injection S' as <-. eapply T; eauto.
Qed.
Lemma cut_int t : cint_ok t -> cut_throws (codec_int little t) (in_range t).
Proof.
  intros Ho x enc p q sched Hx S E N. destruct (C09_variable_int little t x Ho Hx) as (enc' & S' & _ & _ & T). cbn [c_save codec_int] in S. rewrite S in S'. injection S' as <-.
  cbn [c_load codec_int]. eapply T; eauto.
Qed.
Lemma cut_pod n : cut_throws (codec_pod little n) (fun x => 0 <= x < 256 ^ Z.of_nat n).
Proof.
  intros x enc p q sched Hx S E N. cbn [c_save codec_pod] in S. injection S as <-. cbn [c_load codec_pod]. apply loadPod_cut. rewrite <- (savePod_len little n x), E. now apply zlen_cut.
Qed.
Lemma cut_string : cut_throws (codec_string little size_t) (fun s => fits size_t (zlen s)).
Proof using size_ok.
  intros s enc p q sched Hs S E N. destruct (size_rt little size_t size_ok (zlen s) (zlen_nonneg s) Hs) as (h & S' & L). cbn [c_save codec_string] in S. rewrite S' in S. cbn [bind] in S. injection S as <-.
  cbn [c_load codec_string c_default]. destruct (cut_app h s p q E N) as [(q' & -> & N')|(p' & -> & Es)].
  - rewrite (size_cut (zlen s) (p ++ q') p q' sched); auto. apply zlen_nonneg.
  - destruct (L p' sched) as (s1 & ->). cbn [bind]. pose proof (zlen_cut p' q N) as LC. rewrite <- Es in LC. pose proof (zlen_nonneg p').
    destruct (0 <? zlen s) eqn:Q; [|lia]. destruct (C11_read_exact (zlen s) p' s1 (zlen_nonneg s)) as [_ R]. apply R. lia.
Qed.
Lemma cut_pair {A B} (ca : codec A) (cb : codec B) va vb : round_trip ca va -> cut_throws ca va -> cut_throws cb vb -> cut_throws (codec_pair ca cb) (fun p => va (fst p) /\ vb (snd p)).
Proof using.
  intros Ra Ca Cb (a & b) enc p q sched (Ha & Hb) S E N. cbn [fst snd] in *. destruct (Ra a Ha) as (ea & Sa & La). cbn [c_save codec_pair fst snd] in S. rewrite Sa in S. cbn [bind] in S.
  destruct (c_save cb b) as [eb| | |] eqn:Sb; cbn [bind] in S; try discriminate. injection S as <-. cbn [c_load codec_pair c_default fst snd].
  destruct (cut_app ea eb p q E N) as [(q' & -> & N')|(p' & -> & Es)].
  - rewrite (Ca a (p ++ q') p q' sched); auto.
  - destruct (La p' sched) as (s1 & ->). cbn [bind]. rewrite (Cb b eb p' q s1); auto.
Qed.
Lemma cut_all {A} (c : codec A) valid (ins : A -> list A -> list A) l : round_trip c valid -> cut_throws c valid -> Forall valid l -> forall body p q sched, save_all (c_save c) l = Ok body -> body = p ++ q -> q <> [] ->
  (forall acc, load_seq c (length l) acc (mk_is p sched) = Exn) /\ (forall acc, load_set c ins (length l) acc (mk_is p sched) = Exn).
Proof using.
  intros R C FV. induction FV as [|x l Hx FV IH]; intros body p q sched S E N.
  - injection S as <-. destruct p; [cbn in E; congruence|discriminate].
  - cbn [save_all] in S. destruct (R x Hx) as (e & Se & L). rewrite Se in S. cbn [bind] in S. destruct (save_all (c_save c) l) as [b| | |] eqn:Sb; cbn [bind] in S; try discriminate. injection S as <-.
    cbn [length load_seq load_set]. destruct (cut_app e b p q E N) as [(q' & -> & N')|(p' & -> & Es)].
    + rewrite (C x (p ++ q') p q' sched); auto.
    + destruct (L p' sched) as (s1 & ->). cbn [bind]. destruct (IH b p' q s1 eq_refl Es N) as (I1 & I2). split; intros; auto.
Qed.
Lemma cut_seq {A} (c : codec A) valid : round_trip c valid -> cut_throws c valid -> cut_throws (codec_seq little size_t c) (all_valid size_t valid).
Proof using size_ok.
  intros R C l enc p q sched (FV & Hf) S E N. destruct (size_rt little size_t size_ok (zlen l) (zlen_nonneg l) Hf) as (h & S' & L). cbn [c_save codec_seq] in S. rewrite S' in S. cbn [bind] in S.
  destruct (save_all (c_save c) l) as [b| | |] eqn:Sb; cbn [bind] in S; try discriminate. injection S as <-. cbn [c_load codec_seq c_default].
  destruct (cut_app h b p q E N) as [(q' & -> & N')|(p' & -> & Es)].
  - rewrite (size_cut (zlen l) (p ++ q') p q' sched); auto. apply zlen_nonneg.
  - destruct (L p' sched) as (s1 & ->). cbn [bind]. rewrite to_nat_zlen. apply (cut_all c valid (fun _ a => a) l R C FV b p' q s1 Sb Es N).
Qed.
Lemma cut_set {A} (c : codec A) valid ins : round_trip c valid -> cut_throws c valid -> cut_throws (codec_set_with little size_t c ins) (all_valid size_t valid).
Proof using size_ok.
  intros R C l enc p q sched (FV & Hf) S E N. destruct (size_rt little size_t size_ok (zlen l) (zlen_nonneg l) Hf) as (h & S' & L). cbn [c_save codec_set_with] in S. rewrite S' in S. cbn [bind] in S.
  destruct (save_all (c_save c) l) as [b| | |] eqn:Sb; cbn [bind] in S; try discriminate. injection S as <-. cbn [c_load codec_set_with c_default].
  destruct (cut_app h b p q E N) as [(q' & -> & N')|(p' & -> & Es)].
  - rewrite (size_cut (zlen l) (p ++ q') p q' sched); auto. apply zlen_nonneg.
  - destruct (L p' sched) as (s1 & ->). cbn [bind]. rewrite to_nat_zlen. apply (cut_all c valid ins l R C FV b p' q s1 Sb Es N).
Qed.
End Cut.

Lemma cut_any little size_t (Hs : cint_ok size_t /\ c_signed size_t = false) s : cut_throws (codec_of little size_t s) (valid size_t s).
Proof.
  induction s; cbn [codec_of valid].
  - intros x enc p q sched [Ho Hx]. now apply cut_int.
  - apply cut_pod.
  - now apply cut_string.
  - intros l enc p q sched Hl. eapply (cut_seq little size_t Hs); [apply (round_trip_all little size_t Hs s)|exact IHs|exact Hl].
  - intros l enc p q sched (Hv & Hf & _). eapply (cut_set little size_t Hs); [apply (round_trip_all little size_t Hs s)|exact IHs|split; auto].
  - intros l enc p q sched (Hv & Hf & _). eapply (cut_set little size_t Hs); [|eapply cut_pair; [|exact IHs1|exact IHs2]|split; [exact Hv|exact Hf]].
    + apply rt_pair; apply round_trip_all; auto.
    + apply round_trip_all; auto.
Qed.
(** C10: an object of any nesting of scalars, strings, vectors, sets and maps, saved; if the stream ends anywhere before its last byte, load
    throws: no truncated file is read as some other object *)
Theorem C10_truncated : forall little size_t s x enc p q sched, cint_ok size_t -> c_signed size_t = false -> valid size_t s x ->
  c_save (codec_of little size_t s) x = Ok enc -> enc = p ++ q -> q <> [] -> c_load (codec_of little size_t s) (c_default (codec_of little size_t s)) (mk_is p sched) = Exn.
Proof. intros little size_t s x enc p q sched Ho Hu Hv S E N. eapply (cut_any little size_t (conj Ho Hu) s); eauto. Qed.
(** a user struct whose load and save handle its members one after the other *)
Theorem C10_sequence_truncated : forall little size_t (l : list {s : sty & den s}) enc p q sched, cint_ok size_t -> c_signed size_t = false -> Forall (fun o => valid size_t (projT1 o) (projT2 o)) l ->
  save_many little size_t l = Ok enc -> enc = p ++ q -> q <> [] -> load_many little size_t (map (@projT1 _ _) l) (mk_is p sched) = Exn.
Proof.
  intros little size_t l enc p q sched Ho Hu FV. revert enc p q sched. induction FV as [|[s x] l Hx FV IH]; intros enc p q sched S E N.
  - injection S as <-. destruct p; [cbn in E; congruence|discriminate].
  - cbn [save_many] in S. destruct (C10_round_trip little size_t s x Ho Hu Hx) as (e1 & S1 & L1). rewrite S1 in S. cbn [bind] in S.
    destruct (save_many little size_t l) as [e2| | |] eqn:S2; cbn [bind] in S; try discriminate. injection S as <-. cbn [map projT1 load_many].
    destruct (cut_app e1 e2 p q E N) as [(q' & -> & N')|(p' & -> & Es)].
    + rewrite (C10_truncated little size_t s x (p ++ q') p q' sched); auto.
    + destruct (L1 p' sched) as (s1 & ->). cbn [bind]. rewrite (IH e2 p' q s1); auto.
Qed.
(** so no saved object begins with another saved object of the same type *)
Theorem C10_prefix_free : forall little size_t s x y ex ey rest, cint_ok size_t -> c_signed size_t = false -> valid size_t s x -> valid size_t s y ->
  c_save (codec_of little size_t s) x = Ok ex -> c_save (codec_of little size_t s) y = Ok ey -> ey = ex ++ rest -> x = y /\ rest = [].
Proof.
  intros little size_t s x y ex ey rest Ho Hu Vx Vy Sx Sy E.
  destruct (C10_round_trip little size_t s x Ho Hu Vx) as (ex' & Sx' & Lx). rewrite Sx in Sx'. injection Sx' as <-.
  destruct (C10_round_trip little size_t s y Ho Hu Vy) as (ey' & Sy' & Ly). rewrite Sy in Sy'. injection Sy' as <-.
  destruct (Lx rest []) as (s1 & E1). destruct (Ly [] []) as (s2 & E2). rewrite app_nil_r, E, E1 in E2. injection E2 as E2 E3 _. auto.
Qed.
Example truncated_demo : let c := codec_of true (mk_cint 8 false) (SMap SStr (SSeq (SInt (mk_cint 4 true)))) in
  c_save c [([97; 98], [5; -200])] = Ok [1; 2; 97; 98; 2; 5; 133; 56; 255] /\ c_load c [] (mk_is [1; 2; 97; 98; 2; 5; 133; 56] []) = Exn /\ c_load c [] (mk_is [1; 2; 97; 98; 2; 5] [1; 1]) = Exn /\
  c_load c [] (mk_is [1; 2; 97; 98; 2; 5; 133; 56; 255] []) = Ok ([([97; 98], [5; -200])], mk_is [] []).
Proof. vm_compute. repeat split. Qed.
Print Assumptions C10_truncated.
Print Assumptions C10_sequence_truncated.
Print Assumptions C10_prefix_free.
