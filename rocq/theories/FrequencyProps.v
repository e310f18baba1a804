(** C52: the frequency table, include/cybozu/frequency.hpp *)
Require Import Verif.Common Verif.StreamModel Verif.StreamProps Verif.SerializerModel Verif.SerializerProps Verif.FrequencyModel.
From Coq Require Import Sorting.Sorted Sorting.Permutation.

(** ** Specification *)
(** what std::sort promises: a permutation in which no element is preceded by a smaller one (in the order [gt]) *)
Definition sorts {A} (gt : A -> A -> bool) (l r : list A) : Prop := Permutation r l /\ StronglySorted (fun a b => gt b a = false) r.
Definition eq_test {E} (eqb : E -> E -> bool) := forall a b, eqb a b = true <-> a = b.
Definition strict_total {E} (gt : E -> E -> bool) :=
  (forall a, gt a a = false) /\ (forall a b c, gt a b = true -> gt b c = true -> gt a c = true) /\
  (forall a b, a <> b -> gt a b = true \/ gt b a = true).
(** number of occurrences *)
Fixpoint occ {E} (eqb : E -> E -> bool) (e : E) (s : list E) : Z :=
  match s with [] => 0 | x :: r => (if eqb e x then 1 else 0) + occ eqb e r end.
(** the calls a user makes *)
Inductive fop (E : Type) := FClear | FAppend (e : E) | FReady.
Arguments FClear {E}. Arguments FAppend {E}. Arguments FReady {E}.
Definition is_append {E} (o : fop E) := match o with FAppend e => [e] | _ => [] end.
(** what was appended since the last clear() *)
Fixpoint since_clear {E} (acc : list E) (ops : list (fop E)) : list E :=
  match ops with
  | [] => acc
  | FClear :: r => since_clear [] r
  | FAppend e :: r => since_clear (acc ++ [e]) r
  | FReady :: r => since_clear acc r
  end.

Section General.
Context {E : Type}.
Variables (eqb gtb : E -> E -> bool) (w : Z).
Hypothesis He : eq_test eqb.
Hypothesis Hg : strict_total gtb.
Hypothesis Hw : 1 <= w.

Definition srt_ok (sort : list (E * (Z * Z)) -> list (E * (Z * Z))) := forall l, sorts (greater gtb) l (sort l).
Definition run_op sort place (f : freq) (o : fop E) : freq :=
  match o with FClear => f_clear | FAppend e => f_append eqb w place f e | FReady => f_ready eqb w sort f end.
Definition run sort place (ops : list (fop E)) : freq := fold_left (run_op sort place) ops f_clear.

Lemma eqb_refl : forall a, eqb a a = true. Proof. intros. apply He. auto. Qed.
Lemma eqb_ne : forall a b, a <> b -> eqb a b = false.
Proof. intros a b H. destruct (eqb a b) eqn:X; auto. apply He in X. congruence. Qed.
Lemma E_dec : forall a b : E, {a = b} + {a <> b}.
Proof. intros a b. destruct (eqb a b) eqn:X; [left; apply He; auto|right; intros ->; rewrite eqb_refl in X; congruence]. Qed.

Notation find_e := (find_e eqb). Notation update := (update eqb).

Lemma find_cons : forall e k v m, find_e e ((k, v) :: m) = if eqb e k then Some v else find_e e m.
Proof. intros. unfold FrequencyModel.find_e. cbn. destruct (eqb e k); auto. Qed.
Lemma find_app : forall e a b, find_e e (a ++ b) = match find_e e a with Some v => Some v | None => find_e e b end.
Proof. intros e a b. induction a as [|[k v] a IH]; [auto|]. cbn [app]. rewrite !find_cons. destruct (eqb e k); auto. Qed.
Lemma find_update : forall e g m a, find_e a (update e g m) = if eqb a e then option_map g (find_e e m) else find_e a m.
Proof.
  intros e g m a. induction m as [|[k v] m IH]; cbn [FrequencyModel.update].
  - cbn. destruct (eqb a e); auto.
  - cbn [fst snd]. destruct (eqb e k) eqn:X.
    + apply He in X. subst k. rewrite !find_cons, eqb_refl. destruct (eqb a e); auto.
    + rewrite !find_cons, X, IH. destruct (eqb a e) eqn:Y; auto. apply He in Y. subst. rewrite X. auto.
Qed.
Lemma keys_update : forall e g m, map fst (update e g m) = map fst m.
Proof. intros e g m. induction m as [|[k v] m IH]; auto. cbn [FrequencyModel.update fst]. destruct (eqb e k); cbn; congruence. Qed.
Lemma find_None : forall e m, find_e e m = None <-> ~ In e (map fst m).
Proof.
  intros e m. induction m as [|[k v] m IH]; cbn [map fst In].
  - cbn. tauto.
  - rewrite find_cons. destruct (eqb e k) eqn:X.
    + apply He in X. subst. split; [congruence|tauto].
    + rewrite IH. split; [|tauto]. intros H [->|H2]; [rewrite eqb_refl in X; congruence|tauto].
Qed.
Lemma find_In : forall e v m, NoDup (map fst m) -> (In (e, v) m <-> find_e e m = Some v).
Proof.
  intros e v m. induction m as [|[k u] m IH]; cbn [map fst In]; intros N.
  - cbn. split; [tauto|congruence].
  - inversion N as [|? ? N1 N2]; subst. rewrite find_cons. destruct (eqb e k) eqn:X.
    + apply He in X. subst. split; [|left; congruence]. intros [H|H]; [congruence|]. apply (in_map fst) in H. tauto.
    + rewrite <- IH by auto. split; [|tauto]. intros [H|H]; auto. assert (e = k) by congruence. subst. rewrite eqb_refl in X. congruence.
Qed.
Lemma find_insert : forall n e v m a, find_e e m = None -> find_e a (insert_at n (e, v) m) = if eqb a e then Some v else find_e a m.
Proof.
  intros n e v m a N. unfold insert_at. rewrite find_app, find_cons.
  assert (find_e e (firstn n m) = None).
  { apply find_None. apply find_None in N. intros H. apply N. rewrite <- (firstn_skipn n m), map_app, in_app_iff. auto. }
  replace (find_e a m) with (find_e a (firstn n m ++ skipn n m)) by (rewrite firstn_skipn; auto). rewrite find_app.
  destruct (eqb a e) eqn:X; [apply He in X; subst a; rewrite H; auto|auto].
Qed.
Lemma keys_insert : forall n e v (m : list (E * (Z * Z))), Permutation (map fst (insert_at n (e, v) m)) (e :: map fst m).
Proof.
  intros. unfold insert_at. rewrite map_app. cbn [map fst].
  replace (map fst m) with (map fst (firstn n m ++ skipn n m)) by (rewrite firstn_skipn; auto). rewrite map_app.
  symmetry. apply Permutation_middle.
Qed.
Lemma keys_set_idx : forall l i m, map fst (set_idx eqb w l i m) = map fst m.
Proof. intros l. induction l as [|e l IH]; intros i m; cbn [set_idx]; auto. rewrite IH. apply keys_update. Qed.
Lemma set_idx_other : forall l i m a, ~ In a l -> find_e a (set_idx eqb w l i m) = find_e a m.
Proof.
  intros l. induction l as [|e l IH]; intros i m a H; cbn [set_idx]; auto. cbn [In] in H.
  rewrite IH by tauto. rewrite find_update, eqb_ne by (intros ->; tauto). auto.
Qed.
Lemma set_idx_at : forall l i m p a, NoDup l -> nth_error l p = Some a ->
  find_e a (set_idx eqb w l i m) = option_map (fun v => (fst v, (i + Z.of_nat p) mod 2 ^ w)) (find_e a m).
Proof.
  intros l. induction l as [|e l IH]; intros i m p a N Hp; [destruct p; discriminate|].
  inversion N as [|? ? N1 N2]; subst. cbn [set_idx]. destruct p as [|p]; cbn [nth_error] in Hp.
  - assert (e = a) by congruence. subst. rewrite set_idx_other by auto. rewrite find_update, eqb_refl.
    replace (i + Z.of_nat 0) with i by lia. auto.
  - rewrite IH with (p := p) by auto. rewrite find_update, eqb_ne.
    + replace (i + 1 + Z.of_nat p) with (i + Z.of_nat (S p)) by lia. auto.
    + intros ->. apply N1. eapply nth_error_In; eauto.
Qed.
Lemma freq_set_idx : forall l i m a, option_map fst (find_e a (set_idx eqb w l i m)) = option_map fst (find_e a m).
Proof.
  intros l. induction l as [|e l IH]; intros i m a; cbn [set_idx]; auto.
  rewrite IH, find_update. destruct (eqb a e) eqn:X; auto. apply He in X. subst. destruct (find_e e m); auto.
Qed.

Lemma occ_app : forall e a b, occ eqb e (a ++ b) = occ eqb e a + occ eqb e b.
Proof. intros e a b. induction a as [|x a IH]; cbn [app occ]; lia. Qed.
Lemma occ_nonneg : forall e s, 0 <= occ eqb e s.
Proof. intros e s. induction s as [|x s IH]; cbn [occ]; [lia|]. destruct (eqb e x); lia. Qed.
Lemma occ_In : forall e s, 0 < occ eqb e s <-> In e s.
Proof.
  intros e s. induction s as [|x s IH]; cbn [occ In]; [split; [lia|tauto]|]. pose proof (occ_nonneg e s).
  destruct (eqb e x) eqn:X.
  - apply He in X. subst. split; [auto|lia].
  - rewrite Z.add_0_l, IH. split; [auto|]. intros [->|]; auto. rewrite eqb_refl in X. congruence.
Qed.

(** ** Invariant *)
Definition inv (s : list E) (m : list (E * (Z * Z))) : Prop :=
  NoDup (map fst m) /\ (forall e, In e (map fst m) <-> In e s) /\
  forall e, match find_e e m with Some v => fst v = occ eqb e s mod 2 ^ w | None => occ eqb e s = 0 end.

Lemma inv_append : forall place s f e, inv s (fm f) -> inv (s ++ [e]) (fm (f_append eqb w place f e)).
Proof.
  intros place s f e (N & K & C). assert (P: 0 < 2 ^ w) by (apply Z.pow_pos_nonneg; lia).
  unfold f_append. destruct (find_e e (fm f)) eqn:F; cbn [fm].
  - split; [rewrite keys_update; auto|]. split.
    + intros a. rewrite keys_update, K, in_app_iff. cbn. split; [auto|]. intros [H|[<-|[]]]; auto.
      apply K. destruct (in_dec E_dec e (map fst (fm f))) as [|H]; auto. apply find_None in H. congruence.
    + intros a. rewrite find_update, occ_app. cbn [occ]. destruct (eqb a e) eqn:X.
      * apply He in X. subst a. rewrite F. cbn. specialize (C e). rewrite F in C. rewrite C.
        rewrite Zplus_mod_idemp_l. reflexivity.
      * replace (occ eqb a s + (0 + 0)) with (occ eqb a s) by lia. apply C.
  - split; [rewrite keys_insert; constructor; [apply find_None; auto|auto]|]. split.
    + intros a. rewrite keys_insert. cbn [In]. rewrite K, in_app_iff. cbn. tauto.
    + intros a. rewrite find_insert, occ_app by auto. cbn [occ]. destruct (eqb a e) eqn:X.
      * apply He in X. subst a. specialize (C e). rewrite F in C. rewrite C. auto.
      * replace (occ eqb a s + (0 + 0)) with (occ eqb a s) by lia. apply C.
Qed.
Lemma inv_set_idx : forall s l m, inv s m -> inv s (set_idx eqb w l 0 m).
Proof.
  intros s l m (N & K & C). split; [rewrite keys_set_idx; auto|]. split; [intros; rewrite keys_set_idx; auto|].
  intros e. specialize (C e). pose proof (freq_set_idx l 0 m e) as Q.
  destruct (find_e e m), (find_e e (set_idx eqb w l 0 m)); cbn in Q; try congruence; auto.
Qed.
Lemma inv_run_gen : forall sort place ops s f, inv s (fm f) -> inv (since_clear s ops) (fm (fold_left (run_op sort place) ops f)).
Proof.
  intros sort place ops. induction ops as [|o ops IH]; intros s f I; cbn [fold_left since_clear]; auto.
  destruct o as [|e|]; cbn [run_op]; apply IH.
  - split; [constructor|]. split; cbn; [tauto|auto].
  - apply inv_append; auto.
  - unfold f_ready. cbn [fm]. apply inv_set_idx. auto.
Qed.
Lemma inv_run : forall sort place ops, inv (since_clear [] ops) (fm (run sort place ops)).
Proof. intros. apply inv_run_gen. split; [constructor|]. split; cbn; [tauto|auto]. Qed.

(** ** Order *)
Lemma gt_asym : forall a b, gtb a b = true -> gtb b a = true -> False.
Proof. intros a b H1 H2. destruct Hg as (I & T & _). specialize (T _ _ _ H1 H2). rewrite I in T. congruence. Qed.
Lemma greater_false : forall a b : E * (Z * Z), fst a <> fst b -> greater gtb b a = false ->
  fst (snd b) < fst (snd a) \/ (fst (snd a) = fst (snd b) /\ gtb (fst a) (fst b) = true).
Proof.
  intros a b D H. unfold greater in H. destruct (Z.gtb_spec (fst (snd b)) (fst (snd a))); [discriminate|].
  destruct (Z.ltb_spec (fst (snd b)) (fst (snd a))); [auto|]. right. split; [lia|].
  destruct Hg as (_ & _ & T). destruct (T (fst a) (fst b) D); auto. congruence.
Qed.
Lemma sorted_unique : forall a b : list (E * (Z * Z)), NoDup (map fst a) -> Permutation a b ->
  StronglySorted (fun x y => greater gtb y x = false) a -> StronglySorted (fun x y => greater gtb y x = false) b -> a = b.
Proof.
  intros a. induction a as [|x a IH]; intros b N P Sa Sb.
  - apply Permutation_nil in P. auto.
  - destruct b as [|y b]; [apply Permutation_sym, Permutation_nil in P; discriminate|].
    inversion Sa as [|? ? Sa1 Sa2]; subst. inversion Sb as [|? ? Sb1 Sb2]; subst.
    assert (x = y).
    { assert (Hx: In x (y :: b)) by (rewrite <- P; left; auto). assert (Hy: In y (x :: a)) by (rewrite P; left; auto).
      destruct Hx as [Hx|Hx]; auto. destruct Hy as [Hy|Hy]; auto.
      rewrite Forall_forall in Sa2, Sb2. specialize (Sa2 _ Hy). specialize (Sb2 _ Hx).
      cbn in N. inversion N as [|? ? N1 N2]; subst.
      assert (D: fst x <> fst y). { intros Q. apply N1. rewrite Q. apply in_map. auto. }
      apply greater_false in Sa2; [|auto]. apply greater_false in Sb2; [|auto].
      destruct Sa2 as [|[]], Sb2 as [|[]]; try lia. exfalso. eapply gt_asym; eauto. }
    subst y. f_equal. apply IH; auto.
    + cbn in N. inversion N; auto.
    + eapply Permutation_cons_inv; eauto.
Qed.

(** ** C52 *)
Lemma sort_keys : forall sort m, srt_ok sort -> Permutation (map fst (sort m)) (map fst m).
Proof. intros sort m H. apply Permutation_map. apply (H m). Qed.

Lemma sorted_nth : forall {A} (R : A -> A -> Prop) l i j x y, StronglySorted R l -> (i < j)%nat ->
  nth_error l i = Some x -> nth_error l j = Some y -> R x y.
Proof.
  intros A R l. induction l as [|a l IH]; intros i j x y S L Hi Hj; [destruct i; discriminate|].
  inversion S as [|? ? S1 S2]; subst. destruct j; [lia|]. cbn in Hj. destruct i; cbn in Hi.
  - replace x with a by congruence. rewrite Forall_forall in S2. apply S2. eapply nth_error_In; eauto.
  - apply (IH i j); auto. lia.
Qed.
Lemma rd_some : forall {A} (l : list A) i x, rd l i = Ok x <-> 0 <= i /\ nth_error l (Z.to_nat i) = Some x.
Proof.
  intros A l i x. unfold rd. destruct (Z.ltb_spec i 0); [split; [congruence|lia]|].
  destruct (nth_error l (Z.to_nat i)); split; intros; try split; try lia; try congruence; destruct H0; congruence.
Qed.

Definition distinct (s : list E) := Z.of_nat (length (nodup E_dec s)).

(** the queries of a table that is ready for s *)
Definition answers (s : list E) (f : freq) : Prop :=
  f_size f = distinct s /\
  (forall e, getFrequency eqb f e = occ eqb e s mod 2 ^ w) /\
  (forall e, In e s -> exists i, 0 <= i < f_size f /\ getElement f i = Ok e) /\
  (forall e, ~ In e s -> getIndex eqb f e = Exn) /\
  (forall i, 0 <= i < f_size f -> exists e, In e s /\ getElement f i = Ok e /\ getIndex eqb f e = Ok (i mod 2 ^ w)) /\
  (forall i, f_size f <= i -> getElement f i = Exn) /\
  (forall i j a b, 0 <= i -> i < j -> getElement f i = Ok a -> getElement f j = Ok b ->
     getFrequency eqb f b < getFrequency eqb f a \/ (getFrequency eqb f a = getFrequency eqb f b /\ gtb a b = true)).

Lemma answers_ready : forall sort s f, srt_ok sort -> inv s (fm f) -> answers s (f_ready eqb w sort f).
Proof.
  intros sort s f Hs I. pose proof (inv_set_idx s (map fst (sort (fm f))) _ I) as I'.
  destruct I as (N & K & C). destruct I' as (N' & K' & C').
  pose proof (sort_keys sort (fm f) Hs) as P. destruct (Hs (fm f)) as [P0 S0].
  set (m' := set_idx eqb w (map fst (sort (fm f))) 0 (fm f)) in *.
  assert (Nr: NoDup (map fst (sort (fm f)))) by (rewrite P; auto).
  assert (Sz: zlen (map fst (sort (fm f))) = distinct s).
  { unfold zlen, distinct. f_equal. apply Permutation_length. apply NoDup_Permutation; auto; [apply NoDup_nodup|].
    intros a. rewrite P, K. symmetry. apply nodup_In. }
  unfold answers, f_ready, initIdx2Ref, f_size, getElement, getIndex, getFrequency. cbn [fm refs stale].
  fold m'. set (r := map fst (sort (fm f))) in *.
  assert (G: forall i e, 0 <= i -> nth_error r (Z.to_nat i) = Some e -> i < zlen r).
  { intros i e H1 H2. unfold zlen. assert (Z.to_nat i < length r)%nat by (apply nth_error_Some; congruence). lia. }
  assert (F: forall e, match find_e e m' with Some v => fst v | None => 0 end = occ eqb e s mod 2 ^ w).
  { intros e. specialize (C' e). destruct (find_e e m'); auto. rewrite C', Z.mod_0_l; auto. apply Z.pow_nonzero; lia. }
  split; [exact Sz|]. split; [exact F|]. split; [|split; [|split; [|split]]].
  - intros e H. assert (In e r) by (rewrite P; apply K; auto). apply In_nth_error in H0 as [p Hp].
    exists (Z.of_nat p). pose proof (G (Z.of_nat p) e ltac:(lia)) as G1. rewrite Nat2Z.id in G1. specialize (G1 Hp).
    split; [lia|]. destruct (Z.leb_spec (zlen r) (Z.of_nat p)); [lia|]. apply rd_some. rewrite Nat2Z.id. split; [lia|auto].
  - intros e H. specialize (C' e). destruct (find_e e m') eqn:Q; auto. exfalso. apply H. apply K'.
    destruct (in_dec E_dec e (map fst m')) as [|H1]; auto. apply find_None in H1. congruence.
  - intros i Hi. destruct (nth_error r (Z.to_nat i)) as [e|] eqn:Q; [|apply nth_error_None in Q; unfold zlen in Hi; lia].
    exists e. assert (He1: In e s). { apply K. rewrite <- P. eapply nth_error_In; eauto. }
    split; auto. split.
    + destruct (Z.leb_spec (zlen r) i); [lia|]. apply rd_some. split; [lia|auto].
    + unfold m'. rewrite (set_idx_at _ _ _ _ _ Nr Q). specialize (C e). destruct (find_e e (fm f)) as [v|] eqn:Q2.
      * cbn. replace (Z.of_nat (Z.to_nat i)) with i by lia. auto.
      * apply find_None in Q2. exfalso. apply Q2, K. auto.
  - intros i Hi. destruct (Z.leb_spec (zlen r) i); [auto|lia].
  - intros i j a b Hi L Ha Hb. rewrite !F.
    destruct (Z.leb_spec (zlen r) i); [discriminate|]. destruct (Z.leb_spec (zlen r) j); [discriminate|].
    apply rd_some in Ha as [_ Ha]. apply rd_some in Hb as [_ Hb].
    assert (Dab: a <> b). { intros ->. assert (Q: Z.to_nat i = Z.to_nat j); [|lia].
      eapply (proj1 (NoDup_nth_error r) Nr); [|congruence]. apply nth_error_Some. congruence. }
    unfold r in Ha, Hb. rewrite nth_error_map in Ha, Hb.
    destruct (nth_error (sort (fm f)) (Z.to_nat i)) as [[a' va]|] eqn:Qa; [|discriminate].
    destruct (nth_error (sort (fm f)) (Z.to_nat j)) as [[b' vb]|] eqn:Qb; [|discriminate].
    cbn in Ha, Hb. assert (a' = a) by congruence. assert (b' = b) by congruence. subst a' b'.
    pose proof (sorted_nth _ _ (Z.to_nat i) (Z.to_nat j) _ _ S0 ltac:(lia) Qa Qb) as R.
    apply greater_false in R; [|auto]. cbn [fst snd] in R.
    apply nth_error_In in Qa, Qb. rewrite P0 in Qa, Qb. apply find_In in Qa, Qb; auto.
    pose proof (C a) as Ca. pose proof (C b) as Cb. rewrite Qa in Ca. rewrite Qb in Cb. rewrite Ca, Cb in R. lia || tauto.
Qed.

(** every count is exact at any time, modulo the width of the counter *)
Theorem C52_count : forall sort place ops e,
  getFrequency eqb (run sort place ops) e = occ eqb e (since_clear [] ops) mod 2 ^ w.
Proof.
  intros. destruct (inv_run sort place ops) as (_ & _ & C). specialize (C e). unfold getFrequency.
  destruct (find_e e _); auto. rewrite C, Z.mod_0_l; auto. apply Z.pow_nonzero; lia.
Qed.

(** after ready() every query is answered *)
Theorem C52_ready : forall sort place ops, srt_ok sort -> answers (since_clear [] ops) (run sort place (ops ++ [FReady])).
Proof.
  intros sort place ops Hs. unfold run. rewrite fold_left_app. cbn [fold_left run_op].
  apply answers_ready; auto. apply inv_run.
Qed.

(** getIndex and getElement are inverse bijections between the distinct elements and 0..size-1 when the indices fit in Int *)
Theorem C52_bijection : forall sort place ops, srt_ok sort ->
  let s := since_clear [] ops in let f := run sort place (ops ++ [FReady]) in
  distinct s <= 2 ^ w ->
  f_size f = distinct s /\
  (forall e i, In e s -> (getIndex eqb f e = Ok i <-> 0 <= i /\ getElement f i = Ok e)) /\
  (forall e, In e s -> exists i, 0 <= i < f_size f /\ getIndex eqb f e = Ok i) /\
  (forall i, 0 <= i < f_size f -> exists e, In e s /\ getElement f i = Ok e).
Proof.
  intros sort place ops Hs s f Hd. destruct (C52_ready sort place ops Hs) as (A1 & A2 & A3 & A4 & A5 & A6 & A7). fold s f in A1, A2, A3, A4, A5, A6, A7.
  assert (M: forall i, 0 <= i < f_size f -> i mod 2 ^ w = i) by (intros; apply Z.mod_small; lia).
  split; [auto|]. split; [|split].
  - intros e i H. destruct (A3 _ H) as (j & Hj & Gj). destruct (A5 j Hj) as (e' & _ & Gj' & Ij).
    assert (e' = e) by congruence. subst e'. rewrite (M j Hj) in Ij. split.
    + intros Hi. assert (i = j) by congruence. subst. split; [lia|auto].
    + intros [Hi Gi]. assert (i < f_size f). { destruct (Z.lt_ge_cases i (f_size f)); auto. rewrite A6 in Gi by auto. discriminate. }
      destruct (A5 i ltac:(lia)) as (e' & _ & G' & I'). assert (e' = e) by congruence. subst e'. rewrite I', M; auto.
  - intros e H. destruct (A3 _ H) as (j & Hj & Gj). destruct (A5 j Hj) as (e' & _ & Gj' & Ij).
    assert (e' = e) by congruence. subst e'. rewrite (M j Hj) in Ij. eauto.
  - intros i Hi. destruct (A5 i Hi) as (e & H & G & _). eauto.
Qed.

(** ** save and load *)
Lemma find_perm : forall m m' e, NoDup (map fst m) -> Permutation m' m -> find_e e m' = find_e e m.
Proof.
  intros m m' e N P. assert (N': NoDup (map fst m')) by (rewrite P; auto).
  destruct (find_e e m) as [v|] eqn:F.
  - apply find_In in F; auto. apply find_In; auto. rewrite P. auto.
  - apply find_None in F. apply find_None. rewrite P. auto.
Qed.
Lemma fold_unordered : forall place (m acc : list (E * (Z * Z))), NoDup (map fst m) -> (forall x, In x (map fst m) -> In x (map fst acc) -> False) ->
     Permutation (fold_left (fun a x => insert_unordered eqb place x a) m acc) (acc ++ m).
Proof.
  intros place m. induction m as [|[x y] m IH]; intros acc Hn Hd; cbn [fold_left].
  - rewrite app_nil_r. auto.
  - assert (Ei: insert_unordered eqb place (x, y) acc = insert_at (place (x, y) acc) (x, y) acc).
    { unfold insert_unordered. destruct (existsb _ acc) eqn:Ex; auto. exfalso.
      apply existsb_exists in Ex as ([x' y'] & Hin & Heq). simpl in Heq. apply He in Heq. subst x'.
      apply (Hd x); [left; auto|]. apply (in_map fst) in Hin. auto. }
    assert (P: Permutation (insert_at (place (x, y) acc) (x, y) acc) ((x, y) :: acc)).
    { generalize (place (x, y) acc). intros n. unfold insert_at. rewrite <- (firstn_skipn n acc) at 3. symmetry. apply Permutation_middle. }
    rewrite Ei. inversion Hn as [|? ? Hx Hn']; subst.
    rewrite IH; auto.
    + rewrite P. simpl. apply Permutation_middle.
    + intros z Hz Hz2. apply (Permutation_in z (Permutation_map fst P)) in Hz2. simpl in Hz2. destruct Hz2 as [<-|Hz2].
      * apply Hx; auto.
      * apply (Hd z); [right; auto|auto].
Qed.

Definition same_answers (f g : freq) : Prop :=
  f_size g = f_size f /\ (forall e, getFrequency eqb g e = getFrequency eqb f e) /\
  (forall e, getIndex eqb g e = getIndex eqb f e) /\ (forall i, getElement g i = getElement f i).

(** the loading program may order equal hashes and unsorted ranges differently (sort', place') *)
Theorem C52_save_load : forall little size_t ce ci ok sort sort' place place' ops,
  srt_ok sort -> srt_ok sort' ->
  cint_ok size_t -> c_signed size_t = false ->
  round_trip ce ok -> round_trip ci (fun x => 0 <= x < 2 ^ w) ->
  Forall ok (since_clear [] ops) -> fits size_t (distinct (since_clear [] ops)) ->
  let f := run sort place (ops ++ [FReady]) in
  exists enc, f_save eqb place little size_t ce ci f = Ok enc /\
    forall rest sched, exists g sched',
      f_load eqb sort' place' little size_t ce ci f_clear (mk_is (enc ++ rest) sched) = Ok (g, mk_is rest sched') /\
      same_answers f g.
Proof.
  intros little size_t ce ci ok sort sort' place place' ops Hs Hs' Ho Hu Hce Hci Hok Hfit f.
  assert (P2: 0 < 2 ^ w) by (apply Z.pow_pos_nonneg; lia).
  set (f0 := run sort place ops). pose proof (inv_run sort place ops) as I. fold f0 in I.
  assert (Ef: f = f_ready eqb w sort f0). { unfold f, run. rewrite fold_left_app. auto. }
  pose proof (inv_set_idx _ (map fst (sort (fm f0))) _ I) as (N & K & C).
  pose proof (proj1 (C52_ready sort place ops Hs)) as Sz. fold f in Sz.
  destruct (Hs (fm f0)) as [P0 S0].
  assert (Nr: NoDup (map fst (sort (fm f0)))). { rewrite P0. apply I. }
  assert (Fm: fm f = set_idx eqb w (map fst (sort (fm f0))) 0 (fm f0)) by (rewrite Ef; auto).
  rewrite <- Fm in N, K, C.
  assert (Hval: Forall (fun p => ok (fst p) /\ ((0 <= fst (snd p) < 2 ^ w) /\ (0 <= snd (snd p) < 2 ^ w))) (fm f)).
  { rewrite Forall_forall. intros [e v] H. cbn [fst snd]. assert (Hk: In e (map fst (fm f))) by (apply (in_map fst) in H; auto).
    apply find_In in H; auto. pose proof (C e) as Ce. rewrite H in Ce.
    split; [rewrite Forall_forall in Hok; apply Hok, K, Hk|]. split; [rewrite Ce; apply Z.mod_pos_bound; lia|].
    assert (Hr: In e (map fst (sort (fm f0)))). { rewrite P0. rewrite Fm, keys_set_idx in Hk. auto. }
    apply In_nth_error in Hr as [p Hp]. rewrite Fm, (set_idx_at _ _ _ _ _ Nr Hp) in H.
    destruct (find_e e (fm f0)); [|discriminate]. cbn in H. injection H as <-. cbn [snd]. apply Z.mod_pos_bound. lia. }
  assert (Lf: zlen (fm f) = distinct (since_clear [] ops)).
  { rewrite <- Sz, Ef. unfold f_size, f_ready, initIdx2Ref, zlen. cbn [fm refs]. f_equal.
    rewrite <- (map_length fst (set_idx _ _ _ _ _)), keys_set_idx. symmetry. apply Permutation_length, sort_keys. auto. }
  destruct (set_into little size_t (conj Ho Hu) _ (insert_unordered eqb place') _
      (rt_pair _ _ _ _ Hce (rt_pair _ _ _ _ Hci Hci)) (fm f)) as (enc & S & L).
  { split; [exact Hval|rewrite Lf; auto]. }
  exists enc. split; [exact S|]. intros rest sched. destruct (L [] rest sched) as (s' & Eq).
  eexists. exists s'. split.
  - unfold f_load. cbn [fm f_clear]. unfold f_codec. unfold codec_umap. rewrite Eq. cbn [bind]. reflexivity.
  - pose proof (fold_unordered place' (fm f) [] N ltac:(cbn; tauto)) as P. cbn [app] in P.
    set (m' := fold_left _ (fm f) []) in *.
    assert (R: map fst (sort' m') = refs f).
    { assert (Rf: refs f = map fst (sort (fm f0))) by (rewrite Ef; auto). rewrite Rf.
      set (z := sort' m'). destruct (Hs' m') as [Pz Sz']. fold z in Pz, Sz'.
      (* drop the indices, which the order ignores *)
      assert (U: map (fun p => (fst p, (fst (snd p), 0))) z = map (fun p => (fst p, (fst (snd p), 0))) (sort (fm f0))).
      { assert (SS: forall l, StronglySorted (fun a b => greater gtb b a = false) l ->
           StronglySorted (fun a b => greater gtb b a = false) (map (fun p : E * (Z * Z) => (fst p, (fst (snd p), 0))) l)).
        { intros l Sl. induction Sl as [|a l Sl IH Fa]; cbn [map]; constructor; auto.
          rewrite Forall_map. eapply Forall_impl; [|exact Fa]. intros b Hb. unfold greater in *. cbn [fst snd]. auto. }
        apply sorted_unique; auto.
        - rewrite map_map. cbn [fst]. change (map (fun x => fst x) z) with (map fst z). rewrite Pz, P. auto.
        - rewrite Pz, P, P0. rewrite Fm.
          apply NoDup_Permutation.
          + apply NoDup_map_inv with (f := fst). rewrite map_map. cbn [fst]. rewrite Fm in N. exact N.
          + apply NoDup_map_inv with (f := fst). rewrite map_map. cbn [fst]. apply I.
          + intros [e [x y]]. rewrite !in_map_iff. split; intros ([e' v] & Q & H); cbn [fst snd] in Q.
            * assert (e' = e) by congruence. subst e'. apply find_In in H; [|rewrite <- Fm; auto].
              pose proof (freq_set_idx (map fst (sort (fm f0))) 0 (fm f0) e) as Y. rewrite H in Y.
              destruct (find_e e (fm f0)) as [v'|] eqn:Y2; [|discriminate]. cbn in Y.
              exists (e, v'). apply find_In in Y2; [|apply I]. split; auto. cbn [fst snd]. congruence.
            * assert (e' = e) by congruence. subst e'. apply find_In in H; [|apply I].
              pose proof (freq_set_idx (map fst (sort (fm f0))) 0 (fm f0) e) as Y. rewrite H in Y.
              destruct (find_e e (set_idx _ _ _ _ _)) as [v'|] eqn:Y2; [|discriminate]. cbn in Y.
              exists (e, v'). apply find_In in Y2; [|rewrite <- Fm; auto]. split; auto. cbn [fst snd]. congruence. }
      apply (f_equal (map fst)) in U. rewrite !map_map in U. cbn [fst] in U. exact U. }
    unfold same_answers, f_size, getFrequency, getIndex, getElement, initIdx2Ref. cbn [fm refs stale]. rewrite R.
    assert (Q: forall e, find_e e m' = find_e e (fm f)) by (intros; apply find_perm; auto).
    split; auto. split; [intros; rewrite Q; auto|]. split; [intros; rewrite Q; auto|].
    intros i. rewrite Ef. auto.
Qed.
End General.

(** ** FrequencyVec: elements of one byte *)
Section Bytes.
Variables (w : Z) (schar : bool).
Hypothesis Hw : 1 <= w.
Definition elem (e : Z) : Prop := if schar then -128 <= e < 128 else 0 <= e < 256.
Definition vsrt_ok (sort : (Z -> Z -> bool) -> list Z -> list Z) := forall t l, sorts (v_greater t) l (sort (v_greater t) l).
Definition v_op sort junk (v : fvec) (o : fop Z) : res fvec :=
  match o with FClear => Ok (v_clear v) | FAppend e => v_append w v e | FReady => v_ready sort v junk end.
Fixpoint v_run sort junk (v : fvec) (ops : list (fop Z)) : res fvec :=
  match ops with [] => Ok v | o :: r => let! v := v_op sort junk v o in v_run sort junk v r end.

Lemma u8_range : forall e, 0 <= to_u 8 e < 256.
Proof. intros. unfold to_u. apply Z.mod_pos_bound. reflexivity. Qed.
Lemma toE_u8 : forall e, elem e -> toE schar (to_u 8 e) = e.
Proof. intros e. unfold elem, toE, to_s, to_u. destruct schar; intros H; change (2 ^ 8) with 256; change (2 ^ (8 - 1)) with 128; lia. Qed.
Lemma u8_toE : forall c, 0 <= c < 256 -> to_u 8 (toE schar c) = c /\ elem (toE schar c).
Proof. intros c. unfold elem, toE, to_s, to_u. destruct schar; intros H; change (2 ^ 8) with 256; change (2 ^ (8 - 1)) with 128; lia. Qed.
Lemma u8_inj : forall a b, elem a -> elem b -> to_u 8 a = to_u 8 b -> a = b.
Proof. intros a b Ha Hb H. rewrite <- (toE_u8 a), <- (toE_u8 b) by auto. congruence. Qed.

Lemma rd_upd' : forall (l : list Z) i j x, 0 <= i < zlen l -> 0 <= j -> rd (upd l (Z.to_nat i) x) j = if j =? i then Ok x else rd l j.
Proof.
  intros l i j x Hi Hj. unfold rd. destruct (j <? 0) eqn:E1; [lia|]. destruct (Z.eqb_spec j i).
  - subst. rewrite nth_error_upd_eq; auto. unfold zlen in *. lia.
  - rewrite nth_error_upd_ne; auto. lia.
Qed.
Lemma zlen_upd : forall (l : list Z) n x, zlen (upd l n x) = zlen l.
Proof. intros. unfold zlen. rewrite upd_length. auto. Qed.

Definition vinv (s : list Z) (v : fvec) : Prop :=
  zlen (freqTbl v) = 256 /\ forall e, elem e -> rd (freqTbl v) (to_u 8 e) = Ok (occ Z.eqb e s mod 2 ^ w).

Lemma vinv_append : forall s v e, vinv s v -> elem e ->
  exists v', v_append w v e = Ok v' /\ vinv (s ++ [e]) v' /\ v_idx v' = v_idx v /\ v_size v' = v_size v.
Proof.
  intros s v e [L C] H. unfold v_append. rewrite (C e H). cbn [bind]. pose proof (u8_range e).
  rewrite wr_ok by lia. cbn [bind]. eexists. split; [reflexivity|]. cbn [v_idx v_size]. split; [|auto].
  split; cbn [freqTbl]; [rewrite zlen_upd; auto|]. intros a Ha. pose proof (u8_range a). rewrite rd_upd' by lia.
  assert (O: occ Z.eqb a (s ++ [e]) = occ Z.eqb a s + (if a =? e then 1 else 0)).
  { clear. induction s as [|x s IH]; cbn [app occ]; lia. }
  rewrite O. destruct (Z.eqb_spec (to_u 8 a) (to_u 8 e)) as [Q|Q].
  - apply u8_inj in Q; auto. subst. rewrite Z.eqb_refl. rewrite Zplus_mod_idemp_l. auto.
  - destruct (Z.eqb_spec a e); [subst; congruence|]. rewrite Z.add_0_r. auto.
Qed.

(** the tables after ready() *)
Definition vready (v : fvec) : Prop := exists c2i i2c, v_idx v = Some (c2i, i2c) /\ zlen c2i = 256 /\ zlen i2c = 256 /\
  (forall i, 0 <= i < 256 -> exists c, rd i2c i = Ok c /\ 0 <= c < 256 /\ rd c2i c = Ok i) /\
  (forall c, 0 <= c < 256 -> exists i, 0 <= i < 256 /\ rd i2c i = Ok c).
Lemma fill_spec : forall l i t c2i n, NoDup l -> (forall c, In c l -> 0 <= c < 256) -> zlen c2i = 256 -> zlen t = 256 -> 0 <= i -> i + zlen l <= 256 ->
  exists c2i', v_fill l i t c2i n = Ok (c2i', n + zlen (filter (fun c => negb (nth (Z.to_nat c) t 0 =? 0)) l)) /\ zlen c2i' = 256 /\
    (forall c, ~ In c l -> 0 <= c -> rd c2i' c = rd c2i c) /\
    (forall p c, nth_error l p = Some c -> rd c2i' c = Ok (i + Z.of_nat p)).
Proof.
  intros l. induction l as [|c l IH]; intros i t c2i n N B L Lt Hi Hl.
  - exists c2i. cbn. rewrite Z.add_0_r. split; auto. split; auto. split; auto. intros [|p]; discriminate.
  - inversion N as [|? ? N1 N2]; subst. cbn [v_fill]. pose proof (B c ltac:(left; auto)) as Bc. rewrite zlen_cons in Hl. pose proof (zlen_nonneg l).
    assert (U: to_u 8 i = i) by (unfold to_u; apply Z.mod_small; change (2 ^ 8) with 256; lia).
    rewrite wr_ok by lia. cbn [bind]. rewrite (rd_nth t c 0) by lia. cbn [bind]. rewrite U.
    destruct (IH (i + 1) t (upd c2i (Z.to_nat c) i) (if nth (Z.to_nat c) t 0 =? 0 then n else n + 1) N2) as (c' & F & Lc & O & A); auto.
    + intros; apply B; right; auto.
    + rewrite zlen_upd; auto.
    + lia.
    + lia.
    + exists c'. split.
      * rewrite F. do 2 f_equal. cbn [filter]. destruct (nth (Z.to_nat c) t 0 =? 0); cbn [negb]; [auto|rewrite zlen_cons; lia].
      * split; auto. split.
        -- intros a Ha Ha0. cbn [In] in Ha. rewrite O by tauto. rewrite rd_upd' by lia. destruct (Z.eqb_spec a c); [subst; tauto|auto].
        -- intros p a Hp. destruct p; cbn [nth_error] in Hp.
           ++ assert (a = c) by congruence. subst. rewrite O by (auto; lia). rewrite rd_upd' by lia. rewrite Z.eqb_refl. f_equal. lia.
           ++ rewrite (A p a Hp). f_equal. lia.
Qed.

Definition bytes256 := map Z.of_nat (seq 0 256).
Lemma in_bytes256 : forall c, In c bytes256 <-> 0 <= c < 256.
Proof.
  intros c. unfold bytes256. rewrite in_map_iff. split.
  - intros (n & <- & H). apply in_seq in H. lia.
  - intros H. exists (Z.to_nat c). split; [lia|]. apply in_seq. lia.
Qed.
Lemma nodup_bytes256 : NoDup bytes256.
Proof. apply FinFun.Injective_map_NoDup; [intros a b H; lia|apply seq_NoDup]. Qed.
Lemma zlen_bytes256 : zlen bytes256 = 256.
Proof. unfold bytes256, zlen. rewrite map_length, seq_length. reflexivity. Qed.

(** ascending prefix: with nonincreasing keys the nonzero ones come first *)
Lemma nonzero_prefix : forall (key : Z -> Z) l i, (forall c, In c l -> 0 <= key c) -> StronglySorted (fun a b => key b <= key a) l -> 0 <= i < zlen l ->
  (i < zlen (filter (fun c => negb (key c =? 0)) l) <-> key (nth (Z.to_nat i) l 0) <> 0).
Proof.
  intros key l. induction l as [|c l IH]; intros i P S Hi; [rewrite zlen_nil in Hi; lia|].
  inversion S as [|? ? S1 S2]; subst. rewrite zlen_cons in Hi. cbn [filter].
  assert (A: key c = 0 -> filter (fun c => negb (key c =? 0)) l = []).
  { intros Z0. clear - Z0 S2 P. induction l as [|x l IH]; auto. inversion S2; subst. cbn [filter].
    pose proof (P x ltac:(right; left; auto)). destruct (Z.eqb_spec (key x) 0); [|lia]. cbn. apply IH; auto. intros; apply P. destruct H0; [left; auto|right; right; auto]. }
  destruct (Z.eqb_spec (key c) 0) as [Z0|Z0]; cbn [negb].
  - rewrite (A Z0), zlen_nil. split; [lia|]. intros H. exfalso. apply H.
    destruct (Z.eq_dec i 0) as [->|]; [auto|].
    assert (In (nth (Z.to_nat i) (c :: l) 0) l).
    { replace (Z.to_nat i) with (Datatypes.S (Z.to_nat (i - 1))) by lia. cbn [nth]. apply nth_In. unfold zlen in Hi. lia. }
    rewrite Forall_forall in S2. specialize (S2 _ H0). pose proof (P _ (or_intror H0)). lia.
  - rewrite zlen_cons. destruct (Z.eq_dec i 0) as [->|].
    + cbn [nth Z.to_nat]. pose proof (zlen_nonneg (filter (fun c => negb (key c =? 0)) l)). tauto || (split; [auto|lia]).
    + replace (Z.to_nat i) with (Datatypes.S (Z.to_nat (i - 1))) by lia. cbn [nth]. rewrite <- IH; [lia| |auto|lia]. intros; apply P; right; auto.
Qed.

Definition vanswers (s : list Z) (v : fvec) : Prop :=
  (forall e, elem e -> v_getFrequency v e = Ok (occ Z.eqb e s mod 2 ^ w)) /\
  (forall e, elem e -> exists i, 0 <= i < 256 /\ v_getIndex v e = Ok i /\ v_getElement schar v i = Ok e) /\
  (forall i, 0 <= i < 256 -> exists e, elem e /\ v_getElement schar v i = Ok e /\ v_getIndex v e = Ok i) /\
  (forall i j a b, 0 <= i -> i <= j -> v_getElement schar v i = Ok a -> v_getElement schar v j = Ok b ->
     occ Z.eqb b s mod 2 ^ w <= occ Z.eqb a s mod 2 ^ w) /\
  (forall i a, 0 <= i < 256 -> v_getElement schar v i = Ok a -> (i < v_size v <-> occ Z.eqb a s mod 2 ^ w <> 0)) /\
  0 <= v_size v <= 256.

Lemma filter_zlen_le : forall (f : Z -> bool) l, zlen (filter f l) <= zlen l.
Proof. intros f l. induction l as [|x l IH]; cbn [filter]; [lia|]. destruct (f x); rewrite ?zlen_cons; lia. Qed.

Lemma ready_spec : forall sort junk s v, vsrt_ok sort -> zlen junk = 256 -> vinv s v ->
  exists v', v_ready sort v junk = Ok v' /\ freqTbl v' = freqTbl v /\ vready v' /\ vanswers s v'.
Proof.
  intros sort junk s v Hs Hj [L C]. unfold v_ready. fold bytes256. set (l := sort (v_greater (freqTbl v)) bytes256).
  destruct (Hs (freqTbl v) bytes256) as [P S]. fold l in P, S.
  assert (N: NoDup l) by (rewrite P; apply nodup_bytes256).
  assert (B: forall c, In c l <-> 0 <= c < 256) by (intros; rewrite P; apply in_bytes256).
  assert (Ll: zlen l = 256) by (rewrite <- zlen_bytes256; unfold zlen; rewrite P; auto).
  destruct (fill_spec l 0 (freqTbl v) junk 0 N ltac:(intros; apply B; auto) Hj L ltac:(lia) ltac:(lia)) as (c2i & F & Lc & _ & A).
  rewrite F. cbn [bind]. rewrite Z.add_0_l. eexists. split; [reflexivity|]. cbn [freqTbl]. split; [auto|].
  assert (R: forall i, 0 <= i < 256 -> exists c, rd l i = Ok c /\ 0 <= c < 256 /\ rd c2i c = Ok i).
  { intros i Hi. exists (nth (Z.to_nat i) l 0). rewrite (rd_nth l i 0) by lia. split; auto. unfold zlen in Ll.
    assert (nth_error l (Z.to_nat i) = Some (nth (Z.to_nat i) l 0)) by (apply nth_error_nth'; lia).
    split; [apply B; eapply nth_error_In; eauto|]. rewrite (A _ _ H). f_equal. lia. }
  assert (R2: forall c, 0 <= c < 256 -> exists i, 0 <= i < 256 /\ rd l i = Ok c).
  { intros c Hc. apply B in Hc. apply In_nth_error in Hc as [p Hp]. exists (Z.of_nat p).
    assert (p < length l)%nat by (apply nth_error_Some; congruence). unfold zlen in Ll. split; [lia|].
    apply rd_some. rewrite Nat2Z.id. split; [lia|auto]. }
  split; [exists c2i, l; cbn [v_idx]; auto|].
  set (key := fun c => nth (Z.to_nat c) (freqTbl v) 0).
  assert (Kc: forall c, 0 <= c < 256 -> key c = occ Z.eqb (toE schar c) s mod 2 ^ w).
  { intros c Hc. destruct (u8_toE c Hc) as [U1 U2]. specialize (C _ U2). rewrite U1, (rd_nth _ c 0) in C by lia. unfold key. congruence. }
  assert (P2: 0 < 2 ^ w) by (apply Z.pow_pos_nonneg; lia).
  assert (Sk: StronglySorted (fun a b => key b <= key a) l).
  { clear - S. induction S as [|a r S IH Fa]; constructor; auto. eapply Forall_impl; [|exact Fa]. intros b Hb.
    unfold v_greater in Hb. fold (key a) (key b) in Hb. destruct (Z.gtb_spec (key b) (key a)); [discriminate|lia]. }
  unfold vanswers, v_getFrequency, v_getIndex, v_getElement. cbn [freqTbl v_idx v_size].
  assert (GE: forall i a, (let! c := rd l i in Ok (toE schar c)) = Ok a -> exists c, rd l i = Ok c /\ 0 <= c < 256 /\ a = toE schar c).
  { intros i a H. destruct (rd l i) as [c| | |] eqn:Q; try discriminate. cbn [bind] in H. exists c. split; auto. split; [|congruence].
    apply rd_some in Q as [_ Q]. apply B. eapply nth_error_In; eauto. }
  split; [exact C|]. split; [|split; [|split; [|split]]].
  - intros e He. pose proof (u8_range e) as Ue. destruct (R2 _ Ue) as (i & Hi & Ri). destruct (R i Hi) as (c & Rc & Hc & Rb).
    assert (c = to_u 8 e) by congruence. subst c. exists i. split; auto. split; auto. rewrite Rc. cbn [bind]. rewrite toE_u8; auto.
  - intros i Hi. destruct (R i Hi) as (c & Rc & Hc & Rb). destruct (u8_toE c Hc) as [U1 U2]. exists (toE schar c).
    split; auto. rewrite Rc, U1. auto.
  - intros i j a b Hi Hij Ha Hb. apply GE in Ha as (ca & Qa & Ba & ->). apply GE in Hb as (cb & Qb & Bb & ->).
    rewrite <- !Kc by auto. destruct (Z.eq_dec i j) as [->|]; [assert (ca = cb) by congruence; subst; lia|].
    apply rd_some in Qa as [_ Qa]. apply rd_some in Qb as [_ Qb].
    apply (sorted_nth _ _ (Z.to_nat i) (Z.to_nat j) _ _ Sk ltac:(lia) Qa Qb).
  - intros i a Hi Ha. apply GE in Ha as (ca & Qa & Ba & ->). rewrite <- Kc by auto.
    rewrite (rd_nth l i 0) in Qa by lia. replace ca with (nth (Z.to_nat i) l 0) by congruence.
    apply (nonzero_prefix key l i); auto; [|lia].
    intros c Hc. apply B in Hc. rewrite Kc by auto. apply Z.mod_pos_bound. auto.
  - pose proof (zlen_nonneg (filter (fun c => negb (nth (Z.to_nat c) (freqTbl v) 0 =? 0)) l)).
    pose proof (filter_zlen_le (fun c => negb (nth (Z.to_nat c) (freqTbl v) 0 =? 0)) l). lia.
Qed.

Lemma v_run_inv : forall sort junk ops s v, vsrt_ok sort -> zlen junk = 256 -> vinv s v ->
  Forall elem (flat_map is_append ops) -> exists v', v_run sort junk v ops = Ok v' /\ vinv (since_clear s ops) v'.
Proof.
  intros sort junk ops. induction ops as [|o ops IH]; intros s v Hs Hj I F; cbn [v_run since_clear]; [eauto|].
  cbn [flat_map] in F. apply Forall_app in F as [F1 F2]. destruct o as [|e|]; cbn [v_op].
  - cbn [bind]. apply IH; auto. split; [unfold v_clear, zlen; cbn [freqTbl]; rewrite repeat_length; auto|].
    intros e He. unfold v_clear. cbn [freqTbl occ]. pose proof (u8_range e). rewrite Z.mod_0_l by (apply Z.pow_nonzero; lia).
    rewrite (rd_nth _ _ 0) by (unfold zlen; rewrite repeat_length; lia). f_equal. apply nth_repeat.
  - cbn in F1. inversion F1; subst. destruct (vinv_append s v e I H1) as (v' & E & I' & _). rewrite E. cbn [bind]. apply IH; auto.
  - destruct (ready_spec sort junk s v Hs Hj I) as (v' & E & Ft & _). rewrite E. cbn [bind]. apply IH; auto.
    unfold vinv. rewrite Ft. auto.
Qed.
Lemma vinv_new : vinv [] v_new.
Proof.
  split; [unfold v_new, zlen; cbn [freqTbl]; rewrite repeat_length; auto|].
  intros e He. unfold v_new. cbn [freqTbl occ]. pose proof (u8_range e). rewrite Z.mod_0_l by (apply Z.pow_nonzero; lia).
  rewrite (rd_nth _ _ 0) by (unfold zlen; rewrite repeat_length; lia). f_equal. apply nth_repeat.
Qed.

Lemma v_run_app : forall sort junk a b v, v_run sort junk v (a ++ b) = let! v := v_run sort junk v a in v_run sort junk v b.
Proof. intros sort junk a. induction a as [|o a IH]; intros b v; cbn [app v_run bind]; auto. destruct (v_op sort junk v o); cbn [bind]; auto. Qed.

Theorem C52_bytes : forall sort junk ops, vsrt_ok sort -> zlen junk = 256 -> Forall elem (flat_map is_append ops) ->
  exists v, v_run sort junk v_new (ops ++ [FReady]) = Ok v /\ vanswers (since_clear [] ops) v.
Proof.
  intros sort junk ops Hs Hj F. destruct (v_run_inv sort junk ops [] v_new Hs Hj vinv_new F) as (v & E & I).
  rewrite v_run_app, E. cbn [bind v_run v_op]. destruct (ready_spec sort junk _ v Hs Hj I) as (v' & E' & _ & _ & A).
  rewrite E'. cbn [bind]. eauto.
Qed.

(** ** save and load of the byte tables *)
Lemma chunks_save : forall little k l, (forall x, In x l -> 0 <= x < 256 ^ Z.of_nat k) ->
  chunks little k (length l) (saveRange little k l) = l /\ zlen (saveRange little k l) = zlen l * Z.of_nat k.
Proof.
  intros little k l. induction l as [|x l IH]; intros B; [split; reflexivity|].
  destruct IH as [I1 I2]; [intros; apply B; right; auto|].
  cbn [length chunks]. unfold saveRange in *. cbn [map concat].
  assert (Lk: length (savePod little k x) = k). { unfold savePod. destruct little; rewrite ?rev_length; apply EndianProps.to_le_length. }
  replace (firstn k (savePod little k x ++ concat (map (savePod little k) l))) with (savePod little k x)
    by (rewrite firstn_app, Lk, Nat.sub_diag; cbn [firstn]; rewrite app_nil_r, firstn_all2 by lia; auto).
  replace (skipn k (savePod little k x ++ concat (map (savePod little k) l))) with (concat (map (savePod little k) l))
    by (rewrite skipn_app, Lk, Nat.sub_diag, skipn_all2 by lia; auto).
  split.
  - rewrite I1. f_equal. pose proof (loadPod_savePod little k x [] [] (B x ltac:(left; auto))) as (s & Q).
    unfold loadPod in Q. destruct (C11_read_exact (Z.of_nat k) (savePod little k x ++ []) [] ltac:(lia)) as [R _].
    destruct (R (savePod little k x) []) as (s' & R'); auto; [unfold zlen; lia|]. rewrite R' in Q. cbn [bind] in Q. congruence.
  - rewrite zlen_app, zlen_cons, I2. unfold zlen at 1. rewrite Lk. lia.
Qed.
Lemma loadRange_ok : forall little k l rest sched, (forall x, In x l -> 0 <= x < 256 ^ Z.of_nat k) ->
  exists s', loadRange little k (length l) (mk_is (saveRange little k l ++ rest) sched) = Ok (l, mk_is rest s').
Proof.
  intros little k l rest sched B. destruct (chunks_save little k l B) as [C1 C2]. unfold loadRange.
  destruct (C11_read_exact (Z.of_nat (length l) * Z.of_nat k) (saveRange little k l ++ rest) sched ltac:(lia)) as [R _].
  destruct (R _ _ eq_refl C2) as (s' & E). rewrite E. cbn [bind]. rewrite C1. eauto.
Qed.

Theorem C52_bytes_save_load : forall little size_t k sort junk ops,
  vsrt_ok sort -> zlen junk = 256 -> Forall elem (flat_map is_append ops) ->
  cint_ok size_t -> c_signed size_t = false -> w = 8 * Z.of_nat k ->
  exists v enc, v_run sort junk v_new (ops ++ [FReady]) = Ok v /\ v_save little size_t k v = Ok enc /\
    forall rest sched, exists sched', v_load little size_t k (mk_is (enc ++ rest) sched) = Ok (v, mk_is rest sched').
Proof.
  intros little size_t k sort junk ops Hs Hj F Ho Hu Hk.
  destruct (v_run_inv sort junk ops [] v_new Hs Hj vinv_new F) as (v0 & E & I).
  destruct (ready_spec sort junk _ v0 Hs Hj I) as (v & E' & Ft & (c2i & i2c & Ei & L1 & L2 & R1 & R2) & (_ & _ & _ & _ & _ & Hsz)).
  exists v. unfold v_save. rewrite Ei.
  assert (Hp: 2 ^ w = 256 ^ Z.of_nat k). { rewrite Hk, Z.pow_mul_r by lia. reflexivity. }
  assert (B0: forall x, In x (freqTbl v) -> 0 <= x < 256 ^ Z.of_nat k).
  { intros x Hx. apply In_nth_error in Hx as [p Hp']. assert (p < length (freqTbl v))%nat by (apply nth_error_Some; congruence).
    rewrite <- Hp. destruct I as [L C]. rewrite Ft in *. unfold zlen in L.
    destruct (u8_toE (Z.of_nat p) ltac:(lia)) as [U1 U2]. specialize (C _ U2). rewrite U1 in C. apply rd_some in C as [_ C].
    rewrite Nat2Z.id in C. assert (X: x = occ Z.eqb (toE schar (Z.of_nat p)) (since_clear [] ops) mod 2 ^ w) by congruence.
    rewrite X. apply Z.mod_pos_bound. rewrite Hp. apply Z.pow_pos_nonneg; lia. }
  assert (B1: forall x, In x i2c -> 0 <= x < 256 ^ Z.of_nat 1).
  { intros x Hx. apply In_nth_error in Hx as [p Hp']. assert (p < length i2c)%nat by (apply nth_error_Some; congruence).
    unfold zlen in L2. destruct (R1 (Z.of_nat p) ltac:(lia)) as (c & Q & B & _). apply rd_some in Q as [_ Q]. rewrite Nat2Z.id in Q.
    replace x with c by congruence. auto. }
  assert (B2: forall x, In x c2i -> 0 <= x < 256 ^ Z.of_nat 1).
  { intros x Hx. apply In_nth_error in Hx as [p Hp']. assert (p < length c2i)%nat by (apply nth_error_Some; congruence).
    unfold zlen in L1. destruct (R2 (Z.of_nat p) ltac:(lia)) as (i & Hi & Q). destruct (R1 i Hi) as (c & Q' & _ & Q2).
    replace c with (Z.of_nat p) in Q2 by congruence. apply rd_some in Q2 as [_ Q2]. rewrite Nat2Z.id in Q2.
    replace x with i by congruence. auto. }
  assert (Fit: fits size_t (v_size v)).
  { unfold fits. destruct Ho as [->| ->]; change (2 ^ (8 * 4)) with 4294967296; change (2 ^ (8 * 8)) with 18446744073709551616; lia. }
  assert (LF: length (freqTbl v) = 256%nat). { rewrite Ft. destruct I as [L _]. unfold zlen in L. lia. }
  destruct (size_rt little size_t (conj Ho Hu) (v_size v) (proj1 Hsz) Fit) as (h & S & Lh).
  eexists. split; [rewrite v_run_app, E; cbn [bind v_run v_op]; rewrite E'; reflexivity|].
  rewrite S. cbn [bind]. split; [reflexivity|]. intros rest sched. unfold v_load.
  destruct (Lh (saveRange little k (freqTbl v) ++ saveRange little 1 c2i ++ saveRange little 1 i2c ++ rest) sched) as (s1 & Q1).
  rewrite <- !app_assoc. rewrite Q1. cbn [bind].
  destruct (loadRange_ok little k (freqTbl v) (saveRange little 1 c2i ++ saveRange little 1 i2c ++ rest) s1 B0) as (s2 & Q2).
  rewrite LF in Q2. rewrite Q2. cbn [bind].
  assert (LA: length c2i = 256%nat) by (unfold zlen in L1; lia). assert (LB: length i2c = 256%nat) by (unfold zlen in L2; lia).
  destruct (loadRange_ok little 1 c2i (saveRange little 1 i2c ++ rest) s2 B2) as (s3 & Q3). rewrite LA in Q3. rewrite Q3. cbn [bind].
  destruct (loadRange_ok little 1 i2c rest s3 B1) as (s4 & Q4). rewrite LB in Q4. rewrite Q4. cbn [bind].
  exists s4. do 2 f_equal. clear - Ei. destruct v as [a b c]. cbn in Ei |- *. congruence.
Qed.
End Bytes.

(** ** The hypotheses are met: insertion sort is a std::sort *)
Section Isort.
Context {A : Type} (gt : A -> A -> bool).
Fixpoint ins (x : A) (l : list A) : list A := match l with [] => [x] | y :: r => if gt y x then y :: ins x r else x :: y :: r end.
Definition isort (l : list A) : list A := fold_right ins [] l.
Hypothesis asym : forall a b, gt a b = true -> gt b a = false.
Hypothesis ntrans : forall a b c, gt b a = false -> gt c b = false -> gt c a = false.
Lemma ins_perm : forall x l, Permutation (ins x l) (x :: l).
Proof.
  intros x l. induction l as [|y l IH]; cbn [ins]; auto. destruct (gt y x); auto.
  rewrite IH. apply perm_swap.
Qed.
Lemma ins_sorted : forall x l, StronglySorted (fun a b => gt b a = false) l -> StronglySorted (fun a b => gt b a = false) (ins x l).
Proof.
  intros x l Sl. induction Sl as [|y l Sl IH F]; cbn [ins]; [repeat constructor|]. destruct (gt y x) eqn:G.
  - constructor; auto. rewrite ins_perm. constructor; auto.
  - constructor; [constructor; auto|]. constructor; auto. eapply Forall_impl; [|exact F]. intros z Hz. eapply ntrans; eauto.
Qed.
Lemma isort_sorts : forall l, sorts gt l (isort l).
Proof.
  intros l. induction l as [|x l [P I]]; [split; [auto|constructor]|]. cbn [isort fold_right]. split.
  - rewrite ins_perm. constructor. auto.
  - apply ins_sorted. auto.
Qed.
End Isort.

Lemma isort_srt_ok : forall {E} (gtb eqb : E -> E -> bool), eq_test eqb -> strict_total gtb -> srt_ok gtb (isort (greater gtb)).
Proof.
  intros E gtb eqb He (I & T & L) l.
  assert (As: forall a b, gtb a b = true -> gtb b a = false).
  { intros a b H. destruct (gtb b a) eqn:X; auto. specialize (T _ _ _ H X). rewrite I in T. congruence. }
  assert (Nt: forall a b c, gtb b a = false -> gtb c b = false -> gtb c a = false).
  { intros a b c H1 H2. destruct (gtb c a) eqn:X; auto.
    destruct (E_dec eqb He b c) as [->|D]; [congruence|]. destruct (L _ _ D) as [H|H]; [|congruence].
    specialize (T _ _ _ H X). congruence. }
  apply isort_sorts; unfold greater; intros [a [fa ia]] [b [fb ib]]; cbn [fst snd].
  - destruct (Z.gtb_spec fa fb), (Z.gtb_spec fb fa), (Z.ltb_spec fa fb), (Z.ltb_spec fb fa); try lia; intros; auto; congruence.
  - intros [c [fc ic]]. cbn [fst snd].
    destruct (Z.gtb_spec fb fa), (Z.ltb_spec fb fa), (Z.gtb_spec fc fb), (Z.ltb_spec fc fb), (Z.gtb_spec fc fa), (Z.ltb_spec fc fa); try lia; intros; try congruence; eauto.
Qed.
Lemma isort_vsrt_ok : vsrt_ok (fun gt => isort gt).
Proof.
  intros t l. apply isort_sorts; unfold v_greater.
  - intros a b. destruct (Z.gtb_spec (nth (Z.to_nat a) t 0) (nth (Z.to_nat b) t 0)), (Z.ltb_spec (nth (Z.to_nat a) t 0) (nth (Z.to_nat b) t 0)),
      (Z.gtb_spec (nth (Z.to_nat b) t 0) (nth (Z.to_nat a) t 0)), (Z.ltb_spec (nth (Z.to_nat b) t 0) (nth (Z.to_nat a) t 0)); try lia; auto; congruence.
  - intros a b c. set (x := nth (Z.to_nat a) t 0). set (y := nth (Z.to_nat b) t 0). set (z := nth (Z.to_nat c) t 0).
    destruct (Z.gtb_spec y x), (Z.ltb_spec y x), (Z.gtb_spec z y), (Z.ltb_spec z y), (Z.gtb_spec z x), (Z.ltb_spec z x); try lia; auto; congruence.
Qed.
Lemma Z_gtb_total : strict_total Z.gtb.
Proof. split; [|split]; intros; rewrite ?Z.gtb_lt in *; try lia. Qed.

Definition ex_ops : list (fop Z) := [FAppend 7; FReady; FClear; FAppend 3; FAppend 9; FReady; FAppend 3; FAppend 4].
Definition ex_f := run Z.eqb 16 (isort (greater Z.gtb)) (fun _ _ => 1%nat) (ex_ops ++ [FReady]).
Example C52_nonvacuous :
  srt_ok Z.gtb (isort (greater Z.gtb)) /\ since_clear [] ex_ops = [3; 9; 3; 4] /\
  f_size ex_f = 3 /\ map (getElement ex_f) [0; 1; 2; 3] = [Ok 3; Ok 9; Ok 4; Exn] /\ map (getIndex Z.eqb ex_f) [3; 4; 7] = [Ok 0; Ok 2; Exn].
Proof. split; [apply (isort_srt_ok Z.gtb Z.eqb Z.eqb_eq Z_gtb_total)|]. repeat split. Qed.
Example C52_bytes_nonvacuous : exists v, v_run 8 (fun gt => isort gt) (repeat 0 256) v_new ([FAppend (-1); FAppend 65; FAppend (-1)] ++ [FReady]) = Ok v /\
  v_size v = 2 /\ v_getElement true v 0 = Ok (-1) /\ v_getElement true v 1 = Ok 65 /\ v_getIndex v (-1) = Ok 0.
Proof.
  destruct (C52_bytes 8 true ltac:(lia) (fun gt => isort gt) (repeat 0 256) [FAppend (-1); FAppend 65; FAppend (-1)] isort_vsrt_ok eq_refl
    ltac:(cbn; repeat constructor; lia)) as (v & E & A1 & A2 & A3 & A4 & A5 & A6).
  exists v. split; [exact E|]. cbn [since_clear app] in *.
  vm_compute in E. injection E as <-. vm_compute. auto.
Qed.

(** findings: the counter and the index are only Int wide, and queries between append() and ready() use dead iterators *)
Theorem C52_wrap_finding : forall sort place (e : Z) w, 1 <= w ->
  getFrequency Z.eqb (run Z.eqb w sort place (repeat (FAppend e) (Z.to_nat (2 ^ w)))) e = 0.
Proof.
  intros sort place e w Hw. rewrite (C52_count Z.eqb w Z.eqb_eq Hw). assert (P: 0 < 2 ^ w) by (apply Z.pow_pos_nonneg; lia).
  assert (G: forall n acc, occ Z.eqb e (since_clear acc (repeat (FAppend e) n)) = occ Z.eqb e acc + Z.of_nat n).
  { intros n. induction n as [|n IH]; intros acc; cbn [repeat since_clear]; [lia|]. rewrite IH.
    rewrite (occ_app Z.eqb e). cbn [occ]. rewrite Z.eqb_refl. lia. }
  rewrite G. cbn [occ]. rewrite Z2Nat.id, Z.add_0_l by lia. apply Z.mod_same. lia.
Qed.
Theorem C52_stale_finding : forall sort place, srt_ok Z.gtb sort ->
  let f := run Z.eqb 64 sort place [FAppend 1; FReady; FAppend 2] in getElement f 0 = UB /\ f_size f = 1.
Proof.
  intros sort place Hs. assert (S1: sort [(1, (1, 0))] = [(1, (1, 0))]). { apply Permutation_length_1_inv. symmetry. apply (Hs [(1, (1, 0))]). }
  assert (I1: forall n, insert_at n (1, (1, 0)) [] = [(1, (1, 0))]) by (intros [|n]; reflexivity).
  unfold run. cbn [fold_left run_op].
  assert (A1: f_append Z.eqb 64 place f_clear 1 = mk_freq [(1, (1, 0))] [] true).
  { unfold f_append. cbn [f_clear fm find_e find option_map refs]. change (1 mod 2 ^ 64) with 1. rewrite I1. reflexivity. }
  rewrite A1. unfold f_ready, initIdx2Ref. cbn [fm refs stale]. rewrite S1. split; reflexivity.
Qed.

Print Assumptions C52_count.
Print Assumptions C52_ready.
Print Assumptions C52_bijection.
Print Assumptions C52_save_load.
Print Assumptions C52_bytes.
Print Assumptions C52_bytes_save_load.
Print Assumptions C52_wrap_finding.
Print Assumptions C52_stale_finding.
