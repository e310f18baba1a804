(** C113: threads that iterate over one sparse vector at the same time. *)
Require Import Verif.Common Verif.SparseModel Verif.SparseProps Verif.SparseThreadModel.

(** * Proofs *)
Section Threads.
Context {A : Type}.
Variables (v : sv A) (l : list (Z * A)).
Hypothesis Hroom : room l.
Hypothesis Hrepr : repr v l.
Hypothesis Hready : match tab v with Plain _ => True | Packed _ _ d => d = true end.

Definition sound (s : tstate A) : Prop :=
  match s with
  | TStart => True
  | TSetup => is_packed (tab v) = true
  | TTest c acc => exists r, rev acc ++ r = l /\ cur_at v (rev acc) r c
  | TVal c p acc => exists x r, rev acc ++ (p, x) :: r = l /\ cur_at v (rev acc) ((p, x) :: r) c
  | TNext c acc => exists p x acc' r, acc = (p, x) :: acc' /\ rev acc' ++ (p, x) :: r = l /\ cur_at v (rev acc') ((p, x) :: r) c
  | TDone l' => l' = l
  | _ => False
  end.
(** an upper bound on the steps left *)
Definition left (s : tstate A) : Z :=
  match s with
  | TStart => 3 * zlen l + 3
  | TSetup => 3 * zlen l + 2
  | TTest _ acc => 3 * (zlen l - zlen acc) + 1
  | TVal _ _ acc => 3 * (zlen l - zlen acc)
  | TNext _ acc => 3 * (zlen l - zlen acc) + 2
  | _ => 0
  end.
Lemma rev_zlen (a : list (Z * A)) : zlen (rev a) = zlen a.
Proof. unfold zlen. rewrite rev_length. auto. Qed.
Lemma begin_same : exists c, cur_at v [] l c /\ match tab v with Plain _ => c = mk_curr 0 0 0 | Packed b _ _ => setup b (mk_curr 0 0 0) = Ok c end.
Proof.
  destruct (begin_ok v l Hrepr Hroom) as (c & v' & E & C & _). unfold it_begin, tbl_begin in E. destruct v as [[t|t lp d] u]; cbn [tab vec] in *.
  - cbn [bind] in E. injection E as <- <-. eauto.
  - subst d. destruct (setup t (mk_curr 0 0 0)) as [c'| | |] eqn:Es; cbn [bind] in E; try discriminate. injection E as <- <-. exists c'. auto.
Qed.
Lemma tstep_ok s : sound s -> fst (tstep v s) = v /\ sound (snd (tstep v s)) /\ (0 <= left s) /\ left (snd (tstep v s)) <= Z.max 0 (left s - 1) /\ (left s <= 0 -> s = TDone l).
Proof.
  Ltac fin := repeat split; auto; try lia; intros; exfalso; lia.
  intros H. pose proof (zlen_nonneg l) as Ln. destruct s as [| | | |c acc|c p acc|c acc|l'|]; cbn [sound] in H; try contradiction; cbn [tstep left].
  - destruct begin_same as (c & C & E). destruct (tab v) as [t|t lp d] eqn:Et.
    + cbn [fst snd sound left]. subst c. split; auto. split; [exists l; auto|]. change (zlen (@nil (Z * A))) with 0. fin.
    + subst d. cbn [fst snd sound left]. rewrite Et. split; auto. split; [reflexivity|]. fin.
  - destruct begin_same as (c & C & E). destruct (tab v) as [t|t lp d] eqn:Et; [cbn in H; discriminate|]. rewrite E. cbn [fst snd sound left]. split; auto. split; [exists l; auto|]. change (zlen (@nil (Z * A))) with 0. fin.
  - destruct H as (r & El & C). rewrite (end_ok _ _ _ _ C). assert (zlen acc + zlen r = zlen l) as L by (rewrite <- El, zlen_app, rev_zlen; auto). destruct r as [|[p x] r].
    + cbn [fst snd sound left]. rewrite app_nil_r in El. change (zlen (@nil (Z * A))) with 0 in L. split; auto. split; auto. fin.
    + rewrite (pos_ok _ _ _ _ _ _ C). cbn [fst snd sound left]. rewrite zlen_cons in L. pose proof (zlen_nonneg r). split; auto. split; [exists x, r; auto|]. fin.
  - destruct H as (x & r & El & C). assert (zlen acc + zlen r + 1 = zlen l) as L by (rewrite <- El, zlen_app, rev_zlen, zlen_cons; lia). pose proof (zlen_nonneg r). rewrite (val_ok _ _ _ _ _ _ C). cbn [fst snd sound left]. rewrite zlen_cons. split; auto. split; [exists p, x, acc, r; auto|]. fin.
  - destruct H as (p & x & acc' & r & -> & El & C). assert (zlen acc' + zlen r + 1 = zlen l) as L by (rewrite <- El, zlen_app, rev_zlen, zlen_cons; lia). pose proof (zlen_nonneg r). destruct (next_ok _ _ _ _ _ _ C) as (c' & -> & C'); [rewrite El; auto|]. cbn [fst snd sound left]. rewrite !zlen_cons. split; auto. split; [exists r; cbn [rev]; rewrite <- app_assoc; auto|]. fin.
  - subst l'. cbn. repeat split; auto; lia.
Qed.
Lemma nth_upd {B} (b : B) : forall (ts : list B) i j, (i < length ts)%nat -> nth_error (upd ts i b) j = if Nat.eqb i j then Some b else nth_error ts j.
Proof. induction ts as [|t ts IH]; intros [|i] [|j] H; cbn in *; try lia; auto. apply IH. lia. Qed.
Lemma trun_ok : forall sched ts, Forall sound ts -> exists ts', trun v ts sched = (v, ts') /\ length ts' = length ts /\ Forall sound ts' /\
  forall i s, nth_error ts i = Some s -> exists s', nth_error ts' i = Some s' /\ 0 <= left s' /\ left s' <= Z.max 0 (left s - Z.of_nat (count_occ Nat.eq_dec sched i)).
Proof.
  assert (forall s, sound s -> 0 <= left s) as P0 by (intros s H; apply (tstep_ok s H)).
  induction sched as [|k sched IH]; intros ts F; cbn [trun].
  - exists ts. repeat split; auto. intros i s E. exists s. split; auto. cbn. rewrite Forall_forall in F. pose proof (P0 s (F s (nth_error_In _ _ E))). lia.
  - destruct (nth_error ts k) as [s0|] eqn:Ek.
    + assert (sound s0) as S0. { rewrite Forall_forall in F. apply F. eapply nth_error_In; eauto. } destruct (tstep_ok s0 S0) as (E1 & E2 & E3 & E4 & E5). destruct (tstep v s0) as [v' s1]. cbn [fst snd] in *. subst v'.
      assert (k < length ts)%nat as Hk by (apply nth_error_Some; congruence).
      destruct (IH (upd ts k s1)) as (ts' & E & L & F' & P).
      { apply Forall_forall. intros x Hx. apply In_nth_error in Hx. destruct Hx as (j & Hj). rewrite nth_upd in Hj by auto. destruct (Nat.eqb_spec k j); [congruence|]. rewrite Forall_forall in F. apply F. eapply nth_error_In; eauto. }
      exists ts'. split; auto. split; [rewrite L; apply upd_length|]. split; auto. intros i s Ei. specialize (P i). rewrite nth_upd in P by auto. cbn [count_occ]. destruct (Nat.eqb_spec k i) as [-> |N].
      * assert (s0 = s) as -> by congruence. destruct (P s1 eq_refl) as (s' & X1 & X2 & X3). exists s'. split; auto. split; auto. destruct (Nat.eq_dec i i); [|congruence]. lia.
      * destruct (P s Ei) as (s' & X1 & X2 & X3). exists s'. destruct (Nat.eq_dec k i); [congruence|]. auto.
    + destruct (IH ts F) as (ts' & E & L & F' & P). exists ts'. repeat split; auto. intros i s Ei. destruct (P i s Ei) as (s' & X). exists s'. cbn [count_occ]. destruct (Nat.eq_dec k i); [congruence|]. auto.
Qed.
End Threads.

(** * C113 *)
(** A vector with PositionTbl, or one with CompressedPositionTbl of which begin() was called after the last change, can be read by any
    number of threads in any order of their steps: nothing is written, every thread that comes to the end has seen exactly the pairs, and
    a thread with n pairs to read is there after 3n+3 steps of its own *)
Theorem C113_shared {A} packed (w v : sv A) l : reach packed w l -> room l -> (packed = false /\ v = w) \/ (exists c, it_begin w = Ok (c, v)) ->
  forall threads sched, exists ts, trun v (repeat TStart threads) sched = (v, ts) /\ length ts = threads /\
    forall i s, nth_error ts i = Some s -> s <> TBad /\ (forall l', s = TDone l' -> l' = l) /\ (3 * zlen l + 3 <= Z.of_nat (count_occ Nat.eq_dec sched i) -> s = TDone l).
Proof.
  intros Rw Hr Hv threads sched.
  assert (repr v l /\ match tab v with Plain _ => True | Packed _ _ d => d = true end) as [Rv Rd].
  { destruct Hv as [[-> ->]|(c & E)].
    - destruct (reach_repr _ _ _ Rw) as [R K]. split; auto. destruct (tab w); auto. discriminate.
    - destruct (reach_repr _ _ _ (reach_begin packed w l c v Rw E)) as [R K]. split; auto. unfold it_begin, tbl_begin in E. destruct (tab w) as [t|t lp d].
      + cbn [bind] in E. injection E as _ <-. exact I.
      + destruct (setup _ _) as [c'| | |]; cbn [bind] in E; try discriminate. injection E as _ <-. reflexivity. }
  destruct (trun_ok v l Hr Rv Rd sched (repeat TStart threads)) as (ts & E & L & F & P). { apply Forall_forall. intros s Hs. apply repeat_spec in Hs. subst s. exact I. }
  rewrite repeat_length in L. exists ts. split; auto. split; auto. intros i s Hs. assert (sound v l s) as S. { rewrite Forall_forall in F. apply F. eapply nth_error_In; eauto. }
  split; [intros ->; exact S|]. split; [intros l' ->; exact S|]. intros Hc. destruct (tstep_ok v l Hr Rv Rd s S) as (_ & _ & _ & _ & D). apply D.
  assert (i < threads)%nat as Hi by (rewrite <- L; apply nth_error_Some; congruence). destruct (P i TStart) as (s' & E' & Q1 & Q2). { rewrite nth_error_repeat by auto. reflexivity. }
  assert (s' = s) as -> by congruence. cbn [left] in Q2. lia.
Qed.
(** it is enough that one thread comes through its begin() (at most four steps) before the others start *)
Theorem C113_first {A} packed (w : sv A) l : reach packed w l -> room l ->
  forall threads first sched, (first < threads)%nat -> exists c v ts, it_begin w = Ok (c, v) /\ trun w (repeat TStart threads) (repeat first 4 ++ sched) = (v, ts) /\
    forall i s, nth_error ts i = Some s -> s <> TBad /\ (forall l', s = TDone l' -> l' = l) /\ (3 * zlen l + 3 <= Z.of_nat (count_occ Nat.eq_dec sched i) -> s = TDone l).
Proof.
  intros Rw Hr threads first sched Hf. destruct (reach_repr _ _ _ Rw) as [R K]. destruct (begin_ok w l R Hr) as (c & v & E & C & Kv).
  assert (forall z, count_occ Nat.eq_dec (repeat first 4 ++ sched) z = (count_occ Nat.eq_dec (repeat first 4) z + count_occ Nat.eq_dec sched z)%nat) as Cn by (intros z; apply count_occ_app).
  assert (v = w -> exists c v ts, it_begin w = Ok (c, v) /\ trun w (repeat TStart threads) (repeat first 4 ++ sched) = (v, ts) /\
    forall i s, nth_error ts i = Some s -> s <> TBad /\ (forall l', s = TDone l' -> l' = l) /\ (3 * zlen l + 3 <= Z.of_nat (count_occ Nat.eq_dec sched i) -> s = TDone l)) as Same.
  { intros ->. destruct (C113_shared packed w w l Rw Hr (or_intror (ex_intro _ c E)) threads (repeat first 4 ++ sched)) as (ts & T & _ & P). exists c, w, ts. split; auto. split; auto. intros i s Hs. destruct (P i s Hs) as (P1 & P2 & P3). split; auto. split; auto. intros H. apply P3. rewrite Cn. lia. }
  destruct w as [[t|t lp d] u] eqn:Ew.
  - apply Same. unfold it_begin, tbl_begin in E. cbn [tab bind] in E. injection E as _ <-. reflexivity.
  - destruct d.
    + apply Same. unfold it_begin, tbl_begin in E. cbn [tab] in E. destruct (setup _ _) as [c'| | |]; cbn [bind vec] in E; try discriminate. injection E as _ <-. reflexivity.
    + pose proof E as E0. unfold it_begin, tbl_begin in E. cbn [tab] in E. destruct (setup _ _) as [c'| | |] eqn:Es; cbn [bind vec] in E; try discriminate. injection E as -> Ev.
      assert (repr v l) as Rv. { destruct C as (C & _). exact C. }
      set (ts0 := repeat (@TStart A) threads). assert (length ts0 = threads) as L0 by (unfold ts0; apply repeat_length).
      assert (forall (ts : list (tstate A)) s, length ts = threads -> nth_error (upd ts first s) first = Some s) as Nu by (intros ts s L; rewrite nth_upd by lia; rewrite Nat.eqb_refl; auto).
      assert (nth_error ts0 first = Some TStart) as N0 by (unfold ts0; rewrite nth_error_repeat by auto; auto).
      assert (trun w ts0 (repeat first 4 ++ sched) = trun v (upd (upd (upd (upd ts0 first TPush) first TFlag) first TSetup) first (TTest c [])) sched) as T.
      { rewrite Ew. cbn [repeat app trun]. rewrite N0. cbn [tstep tab]. rewrite Nu by auto. cbn [tstep tab vec]. rewrite Nu by (rewrite upd_length; auto). cbn [tstep tab vec]. rewrite Nu by (rewrite !upd_length; auto). cbn [tstep tab vec]. rewrite Es. rewrite <- Ev. reflexivity. }
      assert (match tab v with Plain _ => True | Packed _ _ d => d = true end) as Rd by (rewrite <- Ev; reflexivity).
      set (ts1 := upd _ first (TTest c [])) in T. assert (Forall (sound v l) ts1) as F1.
      { apply Forall_forall. intros s Hs. apply In_nth_error in Hs. destruct Hs as (j & Hj). unfold ts1 in Hj. rewrite !nth_upd in Hj by (rewrite ?upd_length; lia). destruct (Nat.eqb_spec first j).
        - injection Hj as <-. exists l. split; auto.
        - apply nth_error_In, repeat_spec in Hj. subst s. exact I. }
      destruct (trun_ok v l Hr Rv Rd sched ts1 F1) as (ts & Et & L & F & P). exists c, v, ts. split; [exact E0|]. rewrite <- Ew. split; [congruence|]. intros i s Hs. assert (sound v l s) as S. { rewrite Forall_forall in F. apply F. eapply nth_error_In; eauto. }
      split; [intros ->; exact S|]. split; [intros l' ->; exact S|]. intros Hc. destruct (tstep_ok v l Hr Rv Rd s S) as (_ & _ & _ & _ & D). apply D.
      assert (i < length ts1)%nat as Hi by (rewrite <- L; apply nth_error_Some; congruence). destruct (nth_error ts1 i) as [s1|] eqn:E1; [|apply nth_error_None in E1; lia]. destruct (P i s1 E1) as (s' & E' & Q1 & Q2). assert (s' = s) as -> by congruence.
      assert (left l s1 <= 3 * zlen l + 3) as B. { pose proof (zlen_nonneg l). unfold ts1 in E1. rewrite !nth_upd in E1 by (rewrite ?upd_length; lia). destruct (Nat.eqb_spec first i); [injection E1 as <-; cbn [left]; change (zlen (@nil (Z * A))) with 0; lia|]. apply nth_error_In, repeat_spec in E1. subst s1. cbn [left]. lia. }
      lia.
Qed.
Example C113_nonvacuous : exists c v, reach true (fst (push_back (fst (push_back (sv_new true) 5 7)) 300 8)) [(5, 7); (300, 8)] /\ it_begin (fst (push_back (fst (push_back (sv_new true) 5 7)) 300 8)) = Ok (c, v) /\ room [(5, 7); (300, 8)] /\
  snd (trun v (repeat TStart 2) [0; 1; 1; 0; 1; 0; 0; 1; 1; 1; 1; 1; 0]%nat) = [TTest (mk_curr 1 300 3) [(5, 7)]; TTest (mk_curr 2 300 4) [(300, 8); (5, 7)]].
Proof.
  do 2 eexists. split; [|split; [reflexivity|split; [reflexivity|vm_compute; reflexivity]]].
  pose proof (reach_push true _ _ 5 7 _ _ (reach_new true) ltac:(lia) eq_refl) as R1. pose proof (reach_push true _ _ 300 8 _ _ R1 ltac:(lia) eq_refl) as R2. exact R2.
Qed.

(** ** Finding: a const SparseVector with CompressedPositionTbl cannot be shared between threads that only read it *)
(** begin() of a const vector with CompressedPositionTbl appends a byte and sets a flag (sparse.hpp:89-92).  If two threads take their
    first begin() at the same time, both see the flag unset and the byte is appended twice.  Even if these are single steps (they are
    not: it is a data race on a std::vector), a position pushed later is then stored wrongly: 9 is read back as 5. *)
Theorem C113_race_finding : forall (A : Type) (x y : A), exists sched v,
  trun (fst (push_back (sv_new true) 5 x)) [TStart; TStart] sched = (v, [TDone [(5, x)]; TDone [(5, x)]]) /\
  exists v' v'', push_back v 9 y = (v', false) /\ iterate v' = Ok ([(5, x); (5, y)], v'').
Proof.
  intros A x y. exists ([0; 1; 0; 1; 0; 1] ++ repeat 0 6 ++ repeat 1 6)%nat. eexists. split; [cbn; reflexivity|]. do 2 eexists. split; [cbn; reflexivity|]. vm_compute. reflexivity.
Qed.
(** the same with the two threads one after the other is harmless *)
Example C113_sequential : forall (A : Type) (x y : A), exists v v' v'',
  trun (fst (push_back (sv_new true) 5 x)) [TStart; TStart] (repeat 0 9 ++ repeat 1 9)%nat = (v, [TDone [(5, x)]; TDone [(5, x)]]) /\
  push_back v 9 y = (v', false) /\ iterate v' = Ok ([(5, x); (9, y)], v'').
Proof. intros A x y. do 3 eexists. split; [cbn; reflexivity|]. split; [cbn; reflexivity|]. vm_compute. reflexivity. Qed.

Print Assumptions C113_shared.
Print Assumptions C113_first.
Print Assumptions C113_race_finding.
