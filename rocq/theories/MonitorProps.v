(** C82: scopes of AutoLock are atomic; waiting for a condition neither misses nor anticipates it *)
Require Import Verif.Common Verif.MonitorModel.

Section Spec.
Context {L S : Type}.
Notation act := (act L S). Notation scope := (scope L S). Notation thread := (thread L S). Notation mon := (mon L S).
(** ** Specification: scopes executed one after the other *)
(** a body on its own: stops at the first exception *)
Fixpoint exec (k : list act) (l : L) (s : S) : L * S :=
  match k with
  | [] => (l, s)
  | Read f :: k => exec k (f l s) s
  | Write f :: k => exec k l (f l s)
  | MayThrow c :: k => if c l s then (l, s) else exec k l s
  | NotifyAll :: k => exec k l s
  | NotifyOne :: k => exec k l s
  end.
(** scopes one after the other, each when its guard holds: the data of each thread and the shared data before and after *)
Inductive serial (ls0 : list L) (s0 : S) : list (nat * scope) -> list L -> S -> Prop :=
| ser_nil : serial ls0 s0 [] ls0 s0
| ser_next o ls s t c l : serial ls0 s0 o ls s -> nth_error ls t = Some l -> guard c l s = true ->
    serial ls0 s0 (o ++ [(t, c)]) (upd ls t (fst (exec (body c) l s))) (snd (exec (body c) l s)).
(** the scopes of thread t in an order *)
Definition of_thread (t : nat) (o : list (nat * scope)) : list scope := map snd (filter (fun p => Nat.eqb (fst p) t) o).
(** threads with their data and programs, before they start *)
Definition start (s : S) (ps : list (L * list scope)) : mon := mk_m None s (map (fun p => mk_t (fst p) Out (snd p)) ps).
(** the scopes that thread x has not completed (and has not begun, if nobody holds the mutex) *)
Definition left_ (x : thread) : list scope := match at_ x with Test c | Asleep c | Woken c => c :: todo x | _ => todo x end.
(** a thread between lock and unlock *)
Definition inside (x : thread) : bool := match at_ x with Test _ | In _ | Leave => true | _ => false end.
(** after the last change of the shared data, also before an exception, there is a notifyAll *)
Fixpoint loud (dirty : bool) (k : list act) : bool :=
  match k with
  | [] => negb dirty
  | Read _ :: k => loud dirty k
  | Write _ :: k => loud true k
  | MayThrow _ :: k => negb dirty && loud dirty k
  | NotifyAll :: k => loud false k
  | NotifyOne :: k => loud dirty k
  end.

(** ** Proofs *)
Lemma list_ext {X} : forall a b : list X, (forall i, nth_error a i = nth_error b i) -> a = b.
Proof.
  induction a as [|x a IH]; intros [|y b] E; auto; [specialize (E 0%nat); discriminate|specialize (E 0%nat); discriminate|].
  f_equal; [specialize (E 0%nat); cbn in E; congruence|apply IH; intros i; apply (E (1 + i)%nat)].
Qed.
Lemma of_thread_app t o o' : of_thread t (o ++ o') = of_thread t o ++ of_thread t o'.
Proof. unfold of_thread. rewrite filter_app, map_app. auto. Qed.
Definition rel (o : list (nat * scope)) (ls : list L) (s sh : S) (t : nat) (prog : list scope) (x : thread) : Prop :=
  exists l, nth_error ls t = Some l /\
  match at_ x with
  | Out => loc x = l /\ prog = of_thread t o ++ todo x
  | Test c => loc x = l /\ sh = s /\ prog = of_thread t o ++ c :: todo x
  | Asleep c | Woken c => loc x = l /\ prog = of_thread t o ++ c :: todo x
  | In k => exists c, guard c l s = true /\ exec (body c) l s = exec k (loc x) sh /\ prog = of_thread t o ++ c :: todo x
  | Leave => exists c, guard c l s = true /\ exec (body c) l s = (loc x, sh) /\ prog = of_thread t o ++ c :: todo x
  end.
Definition inv (ls0 : list L) (s0 : S) (ps : list (list scope)) (m : mon) : Prop :=
  (forall t x, nth_error (thr m) t = Some x -> (inside x = true <-> owner m = Some t)) /\
  (forall t, owner m = Some t -> (t < length (thr m))%nat) /\ length ps = length (thr m) /\
  exists o ls s, serial ls0 s0 o ls s /\ (owner m = None -> shared m = s) /\
    forall t x prog, nth_error (thr m) t = Some x -> nth_error ps t = Some prog -> rel o ls s (shared m) t prog x.
Lemma rel_frame o ls s sh o' ls' s' sh' t prog x : inside x = false -> rel o ls s sh t prog x ->
  nth_error ls' t = nth_error ls t -> of_thread t o' = of_thread t o -> rel o' ls' s' sh' t prog x.
Proof. intros I (l & E & R) E1 E2. exists l. split; [congruence|]. unfold inside in I. rewrite E2. destruct (at_ x); auto; discriminate. Qed.
Lemma rel_wake o ls s sh t prog x : rel o ls s sh t prog x -> rel o ls s sh t prog (wake x).
Proof. unfold rel, wake. destruct (at_ x) eqn:A; cbn [at_ loc todo]; rewrite ?A; auto. Qed.
Lemma inside_wake (x : thread) : inside (wake x) = inside x.
Proof. unfold inside, wake. destruct (at_ x) eqn:A; cbn [at_]; rewrite ?A; auto. Qed.
(** the new threads: t has become x', the others at most woken up *)
Definition others (ts ts' : list thread) (t : nat) (x' : thread) : Prop :=
  length ts' = length ts /\ forall u y', nth_error ts' u = Some y' -> (u = t /\ y' = x') \/ (u <> t /\ exists y, nth_error ts u = Some y /\ (y' = y \/ y' = wake y)).
Lemma others_upd ts t x' : others ts (upd ts t x') t x'.
Proof.
  split; [apply upd_length|]. intros u y' E. destruct (Nat.eq_dec u t) as [->|N].
  - left. split; auto. assert (Lt: (t < length ts)%nat) by (rewrite <- (upd_length ts t x'); apply nth_error_Some; congruence). rewrite nth_error_upd_eq in E by auto. congruence.
  - right. split; auto. rewrite nth_error_upd_ne in E by auto. eauto.
Qed.
Lemma others_map ts t x' : wake x' = x' -> others ts (map wake (upd ts t x')) t x'.
Proof.
  intros W. destruct (others_upd ts t x') as [A B]. split; [rewrite map_length; auto|]. intros u y' E. rewrite nth_error_map in E.
  destruct (nth_error (upd ts t x') u) as [y|] eqn:E1; [|discriminate]. injection E as <-. destruct (B u y E1) as [[-> ->]|(N & z & Z & [->| ->])]; [auto| |].
  - right. eauto.
  - right. split; auto. exists z. split; auto. right. unfold wake at 1. destruct (at_ (wake z)) eqn:X; auto. exfalso. unfold wake in X. destruct (at_ z) eqn:Y; cbn in X; congruence.
Qed.
Lemma others_one ts t x' w y : wake x' = x' -> nth_error (upd ts t x') w = Some y -> others ts (upd (upd ts t x') w (wake y)) t x'.
Proof.
  intros W E. destruct (others_upd ts t x') as [A B]. split; [rewrite upd_length; auto|]. intros u y' E'. destruct (Nat.eq_dec u w) as [->|N].
  - rewrite nth_error_upd_eq in E' by (apply nth_error_Some; congruence). injection E' as <-. destruct (B w y E) as [[-> ->]|(N & z & Z & [->| ->])]; [auto| |].
    + right. eauto.
    + right. split; auto. exists z. split; auto. right. unfold wake at 1. destruct (at_ (wake z)) eqn:X; auto. exfalso. unfold wake in X. destruct (at_ z) eqn:Y; cbn in X; congruence.
  - rewrite nth_error_upd_ne in E' by auto. auto.
Qed.
(** steps that complete no scope *)
Lemma inv_quiet ls0 s0 ps m t x x' ow sh ts' : inv ls0 s0 ps m -> nth_error (thr m) t = Some x -> others (thr m) ts' t x' ->
  (inside x' = true -> ow = Some t) -> (inside x' = false -> ow = None \/ (ow = owner m /\ inside x = false)) ->
  (inside x = true \/ owner m = None \/ (ow = owner m /\ sh = shared m)) ->
  (inside x' = false -> inside x = true -> sh = shared m /\ forall o ls s prog, rel o ls s (shared m) t prog x -> sh = s) ->
  (inside x = false -> sh = shared m) ->
  (forall o ls s prog, (owner m = None -> shared m = s) -> rel o ls s (shared m) t prog x -> rel o ls s sh t prog x') ->
  inv ls0 s0 ps (mk_m ow sh ts').
Proof.
  intros (I1 & I2 & I3 & o & ls & s & SE & SH & R) E [OL O] A B C D D2 RR.
  assert (Lt: (t < length (thr m))%nat) by (apply nth_error_Some; congruence).
  assert (OTH: forall u y, u <> t -> nth_error (thr m) u = Some y -> ow = Some u <-> owner m = Some u).
  { intros u y N Y. pose proof (I1 t x E) as I. destruct (inside x') eqn:X'.
    - rewrite (A eq_refl). destruct C as [C|[C|[C _]]]; [apply I in C; rewrite C; tauto|rewrite C; split; congruence|rewrite <- C, (A eq_refl); tauto].
    - destruct (B eq_refl) as [->|[-> _]]; [|tauto]. destruct C as [C|[C|[C _]]]; [apply I in C; rewrite C; split; congruence|rewrite C; tauto|rewrite <- C; tauto]. }
  split; [|split; [|split]].
  - cbn [thr owner]. intros u y' Y'. destruct (O u y' Y') as [[-> ->]|(N & y & Y & W)].
    + destruct (inside x') eqn:X'; [rewrite (A eq_refl); tauto|]. split; [discriminate|]. intros EO. destruct (B eq_refl) as [->|[-> X]]; [discriminate|]. apply (I1 t x E) in EO. congruence.
    + rewrite (OTH u y N Y). assert (IW: inside y' = inside y) by (destruct W as [->| ->]; [auto|apply inside_wake]). rewrite IW. apply (I1 u y Y).
  - cbn [thr owner]. intros u U. rewrite OL. destruct (Nat.eq_dec u t) as [->|N]; [auto|]. destruct (inside x') eqn:X'; [rewrite (A eq_refl) in U; congruence|].
    destruct (B eq_refl) as [->|[-> _]]; [discriminate|auto].
  - cbn [thr]. lia.
  - exists o, ls, s. split; [auto|]. cbn [thr owner shared]. split.
    + intros ->. destruct (inside x') eqn:X'; [specialize (A eq_refl); discriminate|]. destruct (inside x) eqn:X.
      * destruct (D eq_refl eq_refl) as [-> D1]. destruct (nth_error ps t) as [prog|] eqn:P; [|apply nth_error_None in P; lia]. exact (D1 o ls s prog (R t x prog E P)).
      * destruct (B eq_refl) as [_|[Q _]]; [|rewrite (D2 eq_refl); auto]. rewrite (D2 eq_refl). destruct C as [C|[C|[C _]]]; [discriminate|auto|auto].
    + intros u y' prog Y' P. destruct (O u y' Y') as [[-> ->]|(N & y & Y & W)]; [eauto|].
      assert (R1: rel o ls s (shared m) u prog y') by (destruct W as [->| ->]; [eauto|apply rel_wake; eauto]).
      destruct (inside y') eqn:IY; [|apply (rel_frame _ _ _ _ _ _ _ _ _ _ _ IY R1); auto].
      assert (IY2: inside y = true) by (destruct W as [->| ->]; [auto|rewrite inside_wake in IY; auto]). apply (I1 u y Y) in IY2.
      assert (SHE: sh = shared m) by (destruct (inside x) eqn:X; [|auto]; apply (I1 t x E) in X; congruence). rewrite SHE. auto.
Qed.
Lemma inv_step ls0 s0 ps m t w : inv ls0 s0 ps m -> step m t w <> Bad /\ forall m', step m t w = Next m' -> inv ls0 s0 ps m'.
Proof.
  intros I. unfold step. destruct (nth_error (thr m) t) as [x|] eqn:E; [|split; discriminate].
  assert (Lt: (t < length (thr m))%nat) by (apply nth_error_Some; congruence).
  pose proof I as (I1 & I2 & I3 & o & ls & s & SE & SH & R). pose proof (I1 t x E) as IO.
  assert (OW: inside x = true -> owns m t = true /\ owner m = Some t) by (intros X; apply IO in X; unfold owns; rewrite X, Nat.eqb_refl; auto).
  assert (LK: m_lock (owner m) t = Self -> owner m = Some t) by (unfold m_lock; destruct (owner m) as [u|]; [|discriminate]; destruct (Nat.eqb_spec u t); [congruence|discriminate]).
  assert (LG: forall q, m_lock (owner m) t = Got q -> q = Some t /\ owner m = None) by (unfold m_lock; intros q; destruct (owner m) as [u|]; [destruct (Nat.eqb u t); discriminate|intros Q; injection Q as <-; auto]).
  assert (UL: inside x = true -> m_unlock (owner m) t = Some None) by (intros X; apply OW in X; destruct X as [_ X]; unfold m_unlock; rewrite X, Nat.eqb_refl; auto).
  unfold inside in OW, UL, IO. destruct x as [lx ax tx]. cbn [at_ loc todo] in *. destruct ax as [|c|c|c|k|].
  - destruct tx as [|c rest]; [split; discriminate|]. destruct (m_lock (owner m) t) as [q| |] eqn:LE; [|split; discriminate|exfalso; specialize (LK eq_refl); apply IO in LK; discriminate].
    split; [discriminate|]. intros m' Q. injection Q as <-. destruct (LG q eq_refl) as [-> ON].
    apply (inv_quiet ls0 s0 ps m t _ _ _ _ _ I E (others_upd _ _ _)); cbn; auto; try discriminate.
    intros o' ls' s' prog SHM (l & EL & R1 & R2). exists l. cbn in *. repeat split; auto.
  - destruct (OW eq_refl) as [-> OWN]. cbn [negb]. destruct (guard c lx (shared m)) eqn:G.
    + split; [discriminate|]. intros m' Q. injection Q as <-. apply (inv_quiet ls0 s0 ps m t _ _ _ _ _ I E (others_upd _ _ _)); cbn; auto; try discriminate.
      intros o' ls' s' prog SHM (l & EL & R1 & R2 & R3). exists l. cbn in *. subst. split; auto. exists c. auto.
    + rewrite (UL eq_refl). split; [discriminate|]. intros m' Q. injection Q as <-. apply (inv_quiet ls0 s0 ps m t _ _ _ _ _ I E (others_upd _ _ _)); cbn; auto; try discriminate.
      * intros _ _. split; auto. intros o' ls' s' prog (l & EL & R1 & R2 & R3). auto.
      * intros o' ls' s' prog SHM (l & EL & R1 & R2 & R3). exists l. cbn in *. auto.
  - split; [discriminate|]. intros m' Q. injection Q as <-. apply (inv_quiet ls0 s0 ps m t _ _ _ _ _ I E (others_upd _ _ _)); cbn; auto; try discriminate.
  - destruct (m_lock (owner m) t) as [q| |] eqn:LE; [|split; discriminate|exfalso; specialize (LK eq_refl); apply IO in LK; discriminate].
    split; [discriminate|]. intros m' Q. injection Q as <-. destruct (LG q eq_refl) as [-> ON].
    apply (inv_quiet ls0 s0 ps m t _ _ _ _ _ I E (others_upd _ _ _)); cbn; auto; try discriminate.
    intros o' ls' s' prog SHM (l & EL & R1 & R2). exists l. cbn in *. repeat split; auto.
  - destruct (OW eq_refl) as [OW1 OWN]. rewrite ?OW1. destruct k as [|[f|f|f| |] k].
    + split; [discriminate|]. intros m' Q. injection Q as <-. apply (inv_quiet ls0 s0 ps m t _ _ _ _ _ I E (others_upd _ _ _)); cbn; auto; try discriminate.
    + split; [discriminate|]. intros m' Q. injection Q as <-. apply (inv_quiet ls0 s0 ps m t _ _ _ _ _ I E (others_upd _ _ _)); cbn; auto; try discriminate.
    + split; [discriminate|]. intros m' Q. injection Q as <-. apply (inv_quiet ls0 s0 ps m t _ _ _ _ _ I E (others_upd _ _ _)); cbn; auto; try discriminate.
    + split; [discriminate|]. intros m' Q. injection Q as <-. apply (inv_quiet ls0 s0 ps m t _ _ _ _ _ I E (others_upd _ _ _)); cbn; auto; try discriminate.
      * destruct (f lx (shared m)); cbn; auto; discriminate.
      * destruct (f lx (shared m)); cbn; auto; discriminate.
      * intros o' ls' s' prog SHM (l & EL & R1). exists l. cbn in *. split; auto. destruct (f lx (shared m)); auto.
    + split; [discriminate|]. intros m' Q. injection Q as <-. apply (inv_quiet ls0 s0 ps m t _ (mk_t lx (In k) tx) _ _ _ I E); cbn; auto; try discriminate. apply others_map. auto.
    + destruct (existsb asleep (upd (thr m) t (mk_t lx (In k) tx))).
      * destruct (nth_error (upd (thr m) t (mk_t lx (In k) tx)) w) as [y|] eqn:EY; [|split; discriminate]. destruct (asleep y); [|split; discriminate].
        split; [discriminate|]. intros m' Q. injection Q as <-. apply (inv_quiet ls0 s0 ps m t _ (mk_t lx (In k) tx) _ _ _ I E); cbn; auto; try discriminate. apply others_one; auto.
      * split; [discriminate|]. intros m' Q. injection Q as <-. apply (inv_quiet ls0 s0 ps m t _ (mk_t lx (In k) tx) _ _ _ I E); cbn; auto; try discriminate. apply others_upd.
  - rewrite (UL eq_refl). split; [discriminate|]. intros m' Q. injection Q as <-. destruct (OW eq_refl) as [_ OWN].
    destruct (nth_error ps t) as [prog|] eqn:P; [|apply nth_error_None in P; lia].
    destruct (R t _ prog E P) as (l & EL & c & G & EX & PR). cbn [at_ loc todo] in *.
    split; [|split; [|split]].
    + cbn [set_t thr owner]. intros u y' Y'. destruct (others_upd (thr m) t (mk_t lx Out tx)) as [_ O]. destruct (O u y' Y') as [[-> ->]|(N & y & Y & W)]; [cbn; split; discriminate|].
      split; [|discriminate]. intros X. assert (X2: inside y = true) by (destruct W as [->| ->]; [auto|rewrite inside_wake in X; auto]). apply (I1 u y Y) in X2. congruence.
    + cbn. discriminate.
    + cbn [set_t thr]. rewrite upd_length. auto.
    + exists (o ++ [(t, c)]), (upd ls t lx), (shared m). split; [|split; [auto|]].
      * pose proof (ser_next ls0 s0 o ls s t c l SE EL G) as N. rewrite EX in N. exact N.
      * cbn [set_t thr shared]. intros u y' prog' Y' P'. destruct (Nat.eq_dec u t) as [->|N].
        -- rewrite nth_error_upd_eq in Y' by auto. injection Y' as <-. exists lx. split; [apply nth_error_upd_eq, nth_error_Some; congruence|]. cbn. split; auto.
           assert (prog' = prog) by congruence. subst prog'. rewrite PR, of_thread_app. unfold of_thread at 3. cbn. rewrite Nat.eqb_refl. cbn. rewrite <- app_assoc. auto.
        -- rewrite nth_error_upd_ne in Y' by auto. assert (IN: inside y' = false) by (destruct (inside y') eqn:X; auto; apply (I1 u y' Y') in X; congruence).
           apply (rel_frame _ _ _ _ _ _ _ _ _ _ _ IN (R u y' prog' Y' P')); [apply nth_error_upd_ne; auto|].
           rewrite of_thread_app. unfold of_thread at 2. cbn. destruct (Nat.eqb_spec t u); [congruence|]. cbn. apply app_nil_r.
Qed.
Lemma inv_run ls0 s0 ps : forall sched m, inv ls0 s0 ps m -> exists m', run m sched = Next m' /\ inv ls0 s0 ps m'.
Proof.
  induction sched as [|[t w] r IH]; intros m I; cbn [run]; [eauto|]. destruct (inv_step ls0 s0 ps m t w I) as [NB NX].
  destruct (step m t w) as [| |m'] eqn:E; [auto|congruence|auto].
Qed.
Lemma inv_start s (ps : list (L * list scope)) : inv (map fst ps) s (map snd ps) (start s ps).
Proof.
  unfold start. split; [|split; [|split]]; cbn [thr owner shared].
  - intros t x E. rewrite nth_error_map in E. destruct (nth_error ps t); [|discriminate]. injection E as <-. cbn. split; discriminate.
  - discriminate.
  - rewrite !map_length. auto.
  - exists [], (map fst ps), s. split; [constructor|]. split; auto. intros t x prog E P. rewrite nth_error_map in *. destruct (nth_error ps t) as [[l pr]|] eqn:EP; [|discriminate].
    injection E as <-. injection P as <-. exists l. rewrite nth_error_map, EP. cbn. auto.
Qed.
(** ** Every interleaving of the steps of any number of threads: no data race, no misuse of the mutex, and whenever
    nobody holds the mutex the state is that of some sequential execution of the scopes: each of them whole, with its
    guard true when it ran, in the order of each thread's program, and none lost. *)
Theorem C82_atomic s ps sched : exists m, run (start s ps) sched = Next m /\
  (owner m = None -> exists order, serial (map fst ps) s order (map loc (thr m)) (shared m) /\
    forall t x, nth_error (thr m) t = Some x -> nth_error (map snd ps) t = Some (of_thread t order ++ left_ x)).
Proof.
  destruct (inv_run _ _ _ sched _ (inv_start s ps)) as (m & E & I1 & I2 & I3 & o & ls & sf & SE & SH & R). exists m. split; auto. intros ON. exists o.
  assert (RI: forall t x, nth_error (thr m) t = Some x -> inside x = false) by (intros t x X; destruct (inside x) eqn:Y; auto; apply (I1 t x X) in Y; congruence).
  assert (LL: forall t x prog, nth_error (thr m) t = Some x -> nth_error (map snd ps) t = Some prog -> nth_error ls t = Some (loc x) /\ prog = of_thread t o ++ left_ x).
  { intros t x prog X P. destruct (R t x prog X P) as (l & EL & RR). specialize (RI t x X). unfold inside in RI. unfold left_. destruct (at_ x); try discriminate; destruct RR as [<- RR]; auto. }
  assert (SL: forall o ls sf, serial (map fst ps) s o ls sf -> length ls = length ps) by (clear; induction 1; [apply map_length|rewrite upd_length; auto]).
  split.
  - rewrite (SH ON). replace (map loc (thr m)) with ls; auto. apply list_ext. intros t. rewrite nth_error_map. destruct (nth_error (thr m) t) as [x|] eqn:X; cbn [option_map].
    + destruct (nth_error (map snd ps) t) as [prog|] eqn:P; [|apply nth_error_None in P; assert (t < length (thr m))%nat by (apply nth_error_Some; congruence); lia]. apply (LL t x prog X P).
    + apply nth_error_None in X. apply nth_error_None. rewrite (SL _ _ _ SE). rewrite <- I3, map_length in X. auto.
  - intros t x X. destruct (nth_error (map snd ps) t) as [prog|] eqn:P; [|apply nth_error_None in P; assert (t < length (thr m))%nat by (apply nth_error_Some; congruence); lia].
    f_equal. apply (LL t x prog X P).
Qed.
(** mutual exclusion: at most one thread is between lock and unlock *)
Theorem C82_exclusive s ps sched m t u x y : run (start s ps) sched = Next m ->
  nth_error (thr m) t = Some x -> nth_error (thr m) u = Some y -> inside x = true -> inside y = true -> t = u.
Proof.
  intros E X Y IX IY. destruct (inv_run _ _ _ sched _ (inv_start s ps)) as (m' & E' & I1 & _). rewrite E in E'. injection E' as <-.
  apply (I1 _ _ X) in IX. apply (I1 _ _ Y) in IY. congruence.
Qed.

(** ** Waiting *)
Definition quiet (m : mon) : Prop := forall t x c, nth_error (thr m) t = Some x -> at_ x = Asleep c -> guard c (loc x) (shared m) = false.
Definition loud_s (c : scope) : bool := loud false (body c).
Definition winv (m : mon) : Prop :=
  (forall t x, nth_error (thr m) t = Some x -> forallb loud_s (left_ x) = true) /\
  (owner m = None -> quiet m) /\
  (forall t x, nth_error (thr m) t = Some x -> match at_ x with Test _ | Leave => quiet m | In k => exists d, loud d k = true /\ (d = false -> quiet m) | _ => True end).
Lemma quiet_others m ts' t x' ow : quiet m -> others (thr m) ts' t x' -> (forall c, at_ x' = Asleep c -> guard c (loc x') (shared m) = false) -> quiet (mk_m ow (shared m) ts').
Proof.
  intros Q [_ O] A u y' c Y AY. cbn [thr shared] in *. destruct (O u y' Y) as [[-> ->]|(N & y & Z & [->| ->])]; [auto|eauto|].
  unfold wake in AY. destruct (at_ y) eqn:B; cbn in AY; try congruence.
Qed.
Lemma left_wake (x : thread) : left_ (wake x) = left_ x.
Proof. unfold left_, wake. destruct (at_ x) eqn:A; cbn [at_ todo]; rewrite ?A; auto. Qed.
(** what becomes of the invariant: t has become x', the others are not inside *)
Lemma winv_gen ls0 s0 ps m t x x' ow sh ts' : inv ls0 s0 ps m -> winv m -> nth_error (thr m) t = Some x -> others (thr m) ts' t x' ->
  forallb loud_s (left_ x') = true -> (inside x = true \/ owner m = None \/ (ow = owner m /\ sh = shared m /\ inside x' = false)) ->
  let m' := mk_m ow sh ts' in
  (ow = None -> quiet m') ->
  (inside x' = true -> match at_ x' with In k => exists d, loud d k = true /\ (d = false -> quiet m') | _ => quiet m' end) ->
  (sh = shared m /\ inside x' = false -> quiet m -> quiet m') ->
  winv m'.
Proof.
  intros (I1 & _) (W1 & W2 & W3) E OT LX C m' Q1 Q2 Q3. pose proof OT as [OL O]. split; [|split; [auto|]].
  - intros u y' Y. cbn [m' thr] in Y. destruct (O u y' Y) as [[-> ->]|(N & y & Z & W)]; [auto|]. destruct W as [->| ->]; rewrite ?left_wake; eauto.
  - intros u y' Y. cbn [m' thr] in Y. destruct (O u y' Y) as [[-> ->]|(N & y & Z & W)].
    + unfold inside in Q2. destruct (at_ x'); auto.
    + assert (IW: inside y' = inside y) by (destruct W as [->| ->]; [auto|apply inside_wake]).
      destruct (inside y) eqn:IY; [|unfold inside in IW; destruct (at_ y'); auto; discriminate].
      apply (I1 u y Z) in IY. destruct C as [C|[C|(C1 & C2 & C3)]]; [apply (I1 t x E) in C; congruence|congruence|].
      assert (Y2: y' = y) by (destruct W as [->| ->]; auto; apply (I1 u y Z) in IY; unfold inside in IY; unfold wake; destruct (at_ y); auto; discriminate). subst y'.
      specialize (W3 u y Z). destruct (at_ y); auto. destruct W3 as (d & D1 & D2). exists d. split; auto.
Qed.
Lemma winv_step ls0 s0 ps m t w m' : inv ls0 s0 ps m -> winv m -> step m t w = Next m' -> winv m'.
Proof.
  intros I W. unfold step. destruct (nth_error (thr m) t) as [x|] eqn:E; [|discriminate].
  assert (Lt: (t < length (thr m))%nat) by (apply nth_error_Some; congruence).
  pose proof I as (I1 & _). pose proof (I1 t x E) as IO. pose proof W as (W1 & W2 & W3). pose proof (W1 t x E) as WL. pose proof (W3 t x E) as WX.
  assert (LG: forall q, m_lock (owner m) t = Got q -> q = Some t /\ owner m = None) by (unfold m_lock; intros q; destruct (owner m) as [u|]; [destruct (Nat.eqb u t); discriminate|intros Q; injection Q as <-; auto]).
  assert (OW: inside x = true -> owns m t = true /\ owner m = Some t) by (intros X; apply IO in X; unfold owns; rewrite X, Nat.eqb_refl; auto).
  assert (UL: inside x = true -> m_unlock (owner m) t = Some None) by (intros X; apply OW in X; destruct X as [_ X]; unfold m_unlock; rewrite X, Nat.eqb_refl; auto).
  unfold inside in OW, UL, IO. unfold left_ in WL. destruct x as [lx ax tx]. cbn [at_ loc todo] in *. destruct ax as [|c|c|c|k|].
  - destruct tx as [|c rest]; [discriminate|]. destruct (m_lock (owner m) t) as [q| |] eqn:LE; try discriminate. intros Q. injection Q as <-. destruct (LG q eq_refl) as [-> ON].
    assert (QM: quiet (set_t m (Some t) (shared m) t (mk_t lx (Test c) rest))) by (apply (quiet_others m _ t _ _ (W2 ON) (others_upd _ _ _)); cbn; discriminate).
    apply (winv_gen ls0 s0 ps m t _ _ _ _ _ I W E (others_upd _ _ _)); cbn; auto; try (intros [_ X]; discriminate).
  - destruct (OW eq_refl) as [-> OWN]. cbn [negb]. destruct (guard c lx (shared m)) eqn:G.
    + intros Q. injection Q as <-. assert (QM: quiet (set_t m (owner m) (shared m) t (mk_t lx (In (body c)) tx))) by (apply (quiet_others m _ t _ _ WX (others_upd _ _ _)); cbn; discriminate).
      cbn in WL. apply andb_true_iff in WL. destruct WL as [WL1 WL2].
      apply (winv_gen ls0 s0 ps m t _ _ _ _ _ I W E (others_upd _ _ _)); cbn; auto. intros _. exists false. auto.
    + rewrite (UL eq_refl). intros Q. injection Q as <-.
      assert (QM: quiet (set_t m None (shared m) t (mk_t lx (Asleep c) tx))) by (apply (quiet_others m _ t _ _ WX (others_upd _ _ _)); cbn; intros c' X; injection X as <-; auto).
      apply (winv_gen ls0 s0 ps m t _ _ _ _ _ I W E (others_upd _ _ _)); cbn; auto; try discriminate.
  - intros Q. injection Q as <-.
    assert (QM: quiet m -> quiet (set_t m (owner m) (shared m) t (mk_t lx (Woken c) tx))) by (intros QQ; apply (quiet_others m _ t _ _ QQ (others_upd _ _ _)); cbn; discriminate).
    apply (winv_gen ls0 s0 ps m t _ _ _ _ _ I W E (others_upd _ _ _)); cbn; auto; try discriminate.
  - destruct (m_lock (owner m) t) as [q| |] eqn:LE; try discriminate. intros Q. injection Q as <-. destruct (LG q eq_refl) as [-> ON].
    assert (QM: quiet (set_t m (Some t) (shared m) t (mk_t lx (Test c) tx))) by (apply (quiet_others m _ t _ _ (W2 ON) (others_upd _ _ _)); cbn; discriminate).
    apply (winv_gen ls0 s0 ps m t _ _ _ _ _ I W E (others_upd _ _ _)); cbn; auto; try (intros [_ X]; discriminate).
  - destruct (OW eq_refl) as [OW1 OWN]. rewrite ?OW1. destruct WX as (d & D1 & D2).
    assert (ONE: owner m = None -> False) by congruence.
    destruct k as [|[f|f|f| |] k]; cbn [loud] in D1.
    + assert (d = false) by (destruct d; auto; discriminate). intros Q. injection Q as <-.
      assert (QM: quiet (set_t m (owner m) (shared m) t (mk_t lx Leave tx))) by (apply (quiet_others m _ t _ _ (D2 H) (others_upd _ _ _)); cbn; discriminate).
      apply (winv_gen ls0 s0 ps m t _ _ _ _ _ I W E (others_upd _ _ _)); cbn; auto.
    + intros Q. injection Q as <-.
      assert (QM: d = false -> quiet (set_t m (owner m) (shared m) t (mk_t (f lx (shared m)) (In k) tx))) by (intros X; apply (quiet_others m _ t _ _ (D2 X) (others_upd _ _ _)); cbn; discriminate).
      apply (winv_gen ls0 s0 ps m t _ _ _ _ _ I W E (others_upd _ _ _)); cbn; auto; [tauto|intros _; exists d; auto|intros [_ X]; discriminate].
    + intros Q. injection Q as <-. apply (winv_gen ls0 s0 ps m t _ _ _ _ _ I W E (others_upd _ _ _)); cbn; auto; [tauto|intros _; exists true; split; auto; discriminate|intros [_ X]; discriminate].
    + apply andb_true_iff in D1. destruct D1 as [D0 D1]. assert (d = false) by (destruct d; auto; discriminate). subst d. intros Q. injection Q as <-.
      assert (QM: quiet (set_t m (owner m) (shared m) t (mk_t lx (if f lx (shared m) then Leave else In k) tx))) by (apply (quiet_others m _ t _ _ (D2 eq_refl) (others_upd _ _ _)); cbn; destruct (f lx (shared m)); discriminate).
      apply (winv_gen ls0 s0 ps m t _ _ _ _ _ I W E (others_upd _ _ _)); cbn; auto; [destruct (f lx (shared m)); auto|]. intros _. destruct (f lx (shared m)); auto. exists false. auto.
    + intros Q. injection Q as <-.
      assert (QM: quiet (mk_m (owner m) (shared m) (map wake (upd (thr m) t (mk_t lx (In k) tx))))).
      { intros u y c Y AY. cbn [thr] in Y. rewrite nth_error_map in Y. destruct (nth_error (upd (thr m) t (mk_t lx (In k) tx)) u) as [z|]; [|discriminate]. injection Y as <-. unfold wake in AY. destruct (at_ z) eqn:B; cbn in AY; congruence. }
      apply (winv_gen ls0 s0 ps m t _ (mk_t lx (In k) tx) _ _ _ I W E); cbn; auto; [apply others_map; auto|]. intros _. exists false. auto.
    + destruct (existsb asleep (upd (thr m) t (mk_t lx (In k) tx))).
      * destruct (nth_error (upd (thr m) t (mk_t lx (In k) tx)) w) as [y|] eqn:EY; [|discriminate]. destruct (asleep y); [|discriminate]. intros Q. injection Q as <-.
        pose proof (others_one (thr m) t (mk_t lx (In k) tx) w y eq_refl EY) as OT.
        assert (QM: d = false -> quiet (mk_m (owner m) (shared m) (upd (upd (thr m) t (mk_t lx (In k) tx)) w (wake y)))) by (intros X; apply (quiet_others m _ t _ _ (D2 X) OT); cbn; discriminate).
        apply (winv_gen ls0 s0 ps m t _ (mk_t lx (In k) tx) _ _ _ I W E OT); cbn; auto; [tauto|intros _; exists d; auto|intros [_ X]; discriminate].
      * intros Q. injection Q as <-.
        assert (QM: d = false -> quiet (mk_m (owner m) (shared m) (upd (thr m) t (mk_t lx (In k) tx)))) by (intros X; apply (quiet_others m _ t _ _ (D2 X) (others_upd _ _ _)); cbn; discriminate).
        apply (winv_gen ls0 s0 ps m t _ (mk_t lx (In k) tx) _ _ _ I W E (others_upd _ _ _)); cbn; auto; [tauto|intros _; exists d; auto|intros [_ X]; discriminate].
  - rewrite (UL eq_refl). intros Q. injection Q as <-.
    assert (QM: quiet (set_t m None (shared m) t (mk_t lx Out tx))) by (apply (quiet_others m _ t _ _ WX (others_upd _ _ _)); cbn; discriminate).
    apply (winv_gen ls0 s0 ps m t _ _ _ _ _ I W E (others_upd _ _ _)); cbn; auto.
Qed.
(** No notification is lost: if every scope calls notifyAll after its last change, then whenever the mutex is free a
    thread sleeps only while its condition is false *)
Theorem C82_no_lost_wakeup s ps sched m : forallb (fun p => forallb (fun c => loud false (body c)) (snd p)) ps = true ->
  run (start s ps) sched = Next m -> owner m = None ->
  forall t x c, nth_error (thr m) t = Some x -> at_ x = Asleep c -> guard c (loc x) (shared m) = false.
Proof.
  intros LD E ON. assert (G: forall sched m0, inv (map fst ps) s (map snd ps) m0 -> winv m0 -> run m0 sched = Next m -> winv m).
  { clear E sched. induction sched as [|[t w] r IH]; intros m0 I W R; cbn [run] in R; [injection R as <-; auto|].
    destruct (step m0 t w) as [| |m1] eqn:S1; [eauto|discriminate|]. apply (IH m1); auto; [eapply inv_step; eauto|eapply winv_step; eauto]. }
  assert (W0: winv (start s ps)).
  { assert (F: forall t x, nth_error (thr (start s ps)) t = Some x -> at_ x = Out /\ forallb loud_s (todo x) = true).
    { intros t x X. cbn in X. rewrite nth_error_map in X. destruct (nth_error ps t) as [p|] eqn:P; [|discriminate]. injection X as <-. split; auto. cbn. eapply forallb_forall in LD; [exact LD|]. eapply nth_error_In; eauto. }
    split; [|split].
    - intros t x X. destruct (F t x X) as [A B]. unfold left_. rewrite A. auto.
    - intros _ t x c X A. destruct (F t x X) as [A' _]. congruence.
    - intros t x X. destruct (F t x X) as [A' _]. rewrite A'. auto. }
  destruct (G sched _ (inv_start s ps) W0 E) as (_ & Q & _). exact (Q ON).
Qed.
Definition can_lock (x : thread) : bool := match at_ x, todo x with Out, _ :: _ => true | Woken _, _ => true | _, _ => false end.
(** No deadlock: as long as a thread is neither finished nor asleep, some such thread can make a step *)
Theorem C82_progress s ps sched m : run (start s ps) sched = Next m ->
  (exists t x w m', nth_error (thr m) t = Some x /\ asleep x = false /\ step m t w = Next m') \/
  (owner m = None /\ forall t x, nth_error (thr m) t = Some x -> asleep x = true \/ (at_ x = Out /\ todo x = [])).
Proof.
  intros E. destruct (inv_run _ _ _ sched _ (inv_start s ps)) as (m' & E' & I). rewrite E in E'. injection E' as <-. pose proof I as (I1 & I2 & _).
  destruct (owner m) as [t|] eqn:ON.
  - left. specialize (I2 t eq_refl). destruct (nth_error (thr m) t) as [x|] eqn:X; [|apply nth_error_None in X; lia].
    assert (IX: inside x = true) by (apply (I1 t x X); auto).
    assert (NA: asleep x = false) by (unfold inside, asleep in *; destruct (at_ x); auto; discriminate).
    assert (EW: exists w, step m t w <> Blocked).
    { unfold step. rewrite X. unfold inside in IX. unfold owns. rewrite ON, Nat.eqb_refl. destruct (at_ x) as [|c|c|c|k|]; try discriminate.
      - exists 0%nat. cbn [negb]. destruct (guard c (loc x) (shared m)); [discriminate|]. destruct (m_unlock (Some t) t); discriminate.
      - destruct k as [|[f|f|f| |] k]; try (exists 0%nat; discriminate). destruct (existsb asleep (upd (thr m) t (mk_t (loc x) (In k) (todo x)))) eqn:EX; [|exists 0%nat; discriminate].
        apply existsb_exists in EX. destruct EX as (y & IY & AY). apply In_nth_error in IY. destruct IY as (w & W). exists w. rewrite W, AY. discriminate.
      - exists 0%nat. destruct (m_unlock (Some t) t); discriminate. }
    destruct EW as (w & NW). destruct (inv_step _ _ _ m t w I) as [NB _]. destruct (step m t w) as [| |m'] eqn:ST; try congruence. exists t, x, w, m'. auto.
  - assert (D: (exists t x w m', nth_error (thr m) t = Some x /\ asleep x = false /\ step m t w = Next m') \/ forall t x, nth_error (thr m) t = Some x -> asleep x = true \/ (at_ x = Out /\ todo x = [])).
    { destruct (existsb can_lock (thr m)) eqn:EX.
      - left. apply existsb_exists in EX. destruct EX as (x & IX & AX). apply In_nth_error in IX. destruct IX as (t & X). exists t, x, 0%nat. unfold can_lock in AX.
        unfold step. rewrite X, ON. unfold asleep, m_lock. destruct (at_ x); try discriminate; [destruct (todo x); [discriminate|]|]; eexists; repeat split; reflexivity.
      - right. intros t x X. assert (F: can_lock x = false).
        { destruct (can_lock x) eqn:FX; auto. exfalso. assert (existsb can_lock (thr m) = true) by (apply existsb_exists; exists x; split; auto; eapply nth_error_In; eauto). congruence. }
        assert (IX: inside x = false) by (destruct (inside x) eqn:Y; auto; apply (I1 t x X) in Y; congruence).
        unfold can_lock in F. unfold inside, asleep in *. destruct (at_ x); auto; try discriminate. destruct (todo x); auto; discriminate. }
    destruct D as [D|D]; auto.
Qed.
End Spec.

(** ** A case: two producers and a consumer of a counter; the consumer waits until it is 2 *)
Definition produce : scope Z Z := mk_scope (fun _ _ => true) [Read (fun _ s => s); Write (fun l _ => l + 1); NotifyAll].
Definition consume : scope Z Z := mk_scope (fun _ s => 2 <=? s) [Read (fun _ s => s); MayThrow (fun l _ => 5 <? l); Write (fun _ s => s - 2); NotifyAll].
Definition progs : list (Z * list (scope Z Z)) := [(0, [produce]); (0, [consume]); (0, [produce])].
Definition round_robin : list (nat * nat) := concat (repeat [(1, 0); (0, 0); (2, 0)]%nat 30).
Example C82_loud : forallb (fun p => forallb (fun c => loud false (body c)) (snd p)) progs = true.
Proof. reflexivity. Qed.
Example C82_case : exists m, run (start 0 progs) round_robin = Next m /\ owner m = None /\ shared m = 0 /\ map loc (thr m) = [0; 2; 1] /\ map todo (thr m) = [[]; []; []].
Proof. eexists. split; [vm_compute; reflexivity|]. repeat split. Qed.
(** in the middle the consumer sleeps *)
Example C82_case_asleep : exists m x, run (start 0 progs) [(1, 0); (1, 0)]%nat = Next m /\ owner m = None /\ nth_error (thr m) 1%nat = Some x /\ at_ x = Asleep consume.
Proof. eexists _, _. split; [reflexivity|]. repeat split. Qed.
(** ** Finding: an AutoLock can be copied; the second destructor unlocks a mutex the thread does not hold
    mutex.hpp:92-107 declares a private operator= but no copy constructor *)
Theorem C82_copy_finding : (exists s, lrun (mk_l [false] []) [LNew 0; LDel 0] = Ok s) /\ (exists s, lrun (mk_l [false] []) [LNew 0; LCopy 0; LDel 1] = Ok s) /\
  lrun (mk_l [false] []) [LNew 0; LCopy 0; LDel 1; LDel 0] = UB.
Proof. repeat split; try (eexists; reflexivity). Qed.
(** ** Finding: a second AutoLock on the same mutex in a nested scope does not return on POSIX
    (on Windows both kinds of mutex can be locked again by their owner) *)
Theorem C82_nested_finding : (exists s, lrun (mk_l [false; false] []) [LNew 0; LNew 1; LDel 1; LDel 0] = Ok s) /\
  lrun (mk_l [false] []) [LNew 0; LNew 0; LDel 1; LDel 0] = UB.
Proof. split; [eexists; reflexivity|reflexivity]. Qed.

Print Assumptions C82_atomic.
Print Assumptions C82_exclusive.
Print Assumptions C82_no_lost_wakeup.
Print Assumptions C82_progress.
