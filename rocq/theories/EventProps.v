(** C54: Event, include/cybozu/event.hpp *)
Require Import Verif.Common Verif.EventModel.

(** ** Specification, on what the user observes *)
Fixpoint n_callWake (tr : list eev) : Z := match tr with [] => 0 | CallWake _ :: r => 1 + n_callWake r | _ :: r => n_callWake r end.
Fixpoint n_retWake (tr : list eev) : Z := match tr with [] => 0 | RetWake _ :: r => 1 + n_retWake r | _ :: r => n_retWake r end.
Fixpoint n_retWait (tr : list eev) : Z := match tr with [] => 0 | RetWait _ :: r => 1 + n_retWait r | _ :: r => n_retWait r end.
(** every finished wakeup() was followed by the return of a wait() *)
Definition all_delivered (tr : list eev) : Prop := forall a k b, tr = a ++ RetWake k :: b -> exists j, In (RetWait j) b.

Lemma n_callWake_app : forall a b, n_callWake (a ++ b) = n_callWake a + n_callWake b.
Proof. intros a b. induction a as [|[]]; cbn [app n_callWake]; lia. Qed.
Lemma n_retWake_app : forall a b, n_retWake (a ++ b) = n_retWake a + n_retWake b.
Proof. intros a b. induction a as [|[]]; cbn [app n_retWake]; lia. Qed.
Lemma n_retWait_app : forall a b, n_retWait (a ++ b) = n_retWait a + n_retWait b.
Proof. intros a b. induction a as [|[]]; cbn [app n_retWait]; lia. Qed.

(** a wakeup() has returned since the last return of wait() *)
Definition pending (tr : list eev) : bool := fold_left (fun p e => match e with RetWake _ => true | RetWait _ => false | _ => p end) tr false.
Lemma pending_app : forall tr e, pending (tr ++ [e]) = match e with RetWake _ => true | RetWait _ => false | _ => pending tr end.
Proof. intros. unfold pending. rewrite fold_left_app. reflexivity. Qed.
Lemma pending_from : forall b p, (forall j, ~ In (RetWait j) b) -> p = true ->
  fold_left (fun p e => match e with RetWake _ => true | RetWait _ => false | _ => p end) b p = true.
Proof.
  intros b. induction b as [|e b IH]; intros p H E; cbn [fold_left]; auto. apply IH.
  - intros j Q. apply (H j). right. auto.
  - destruct e; auto. exfalso. apply (H k). left. auto.
Qed.
Lemma delivered : forall tr, pending tr = false -> all_delivered tr.
Proof.
  intros tr H a k b E.
  assert (D: (exists j, In (RetWait j) b) \/ forall j, ~ In (RetWait j) b).
  { clear. induction b as [|e b [[j IH]|IH]]; [right; intros j []|left; exists j; right; auto|].
    destruct e as [x|x|x|x]; [right|right|right|left; exists x; left; auto]; intros j [Q|Q]; try discriminate; apply (IH j Q). }
  destruct D as [|D]; auto. exfalso. subst tr. unfold pending in H. rewrite fold_left_app in H. cbn [fold_left] in H.
  rewrite pending_from in H; auto. discriminate.
Qed.

(** ** C++11 build *)
Definition holds (p : epc) : bool := match p with WkSet | WkNotify | WkUnlock | WtCheck | WtUnlock => true | _ => false end.
Definition active (p : epc) : Prop := match p with Awake | WtLock | WtCheck => True | _ => False end.
(** wakeup() calls that have not yet set the flag *)
Fixpoint cnt_pc (f : epc -> bool) (l : list epc) : Z := match l with [] => 0 | p :: r => (if f p then 1 else 0) + cnt_pc f r end.
Definition before_set (p : epc) : bool := match p with WkLock | WkSet => true | _ => false end.
Definition taken (p : epc) : bool := match p with WtUnlock => true | _ => false end.
Definition b2z (b : bool) := if b then 1 else 0.

Lemma cnt_pc_upd : forall f l k p x, nth_error l k = Some p -> cnt_pc f (upd l k x) = cnt_pc f l - b2z (f p) + b2z (f x).
Proof.
  intros f l. induction l as [|y l IH]; intros k p x H; [destruct k; discriminate|]. destruct k; cbn [upd cnt_pc nth_error] in *.
  - injection H as ->. unfold b2z. destruct (f p), (f x); lia.
  - rewrite (IH k p x H). lia.
Qed.
Lemma cnt_pc_nonneg : forall f l, 0 <= cnt_pc f l.
Proof. intros f l. induction l; cbn [cnt_pc]; [lia|]. destruct (f a); lia. Qed.
Lemma cnt_pc_repeat : forall f n p, f p = false -> cnt_pc f (repeat p n) = 0.
Proof. intros f n p H. induction n; cbn [repeat cnt_pc]; auto. rewrite H. lia. Qed.

Definition flag_ok (s : cv) : Prop :=
  match c_own s with
  | None => c_sig s = pending (c_tr s)
  | Some k => match nth_error (c_pc s) k with
              | Some WkNotify | Some WkUnlock => c_sig s = true
              | Some WtUnlock => c_sig s = false
              | _ => c_sig s = pending (c_tr s)
              end
  end.
Definition inv (s : cv) : Prop :=
  (forall k p, nth_error (c_pc s) k = Some p -> (holds p = true <-> c_own s = Some k)) /\
  (forall k, c_own s = Some k -> exists p, nth_error (c_pc s) k = Some p) /\
  flag_ok s /\
  (c_sig s = true -> (exists k, nth_error (c_pc s) k = Some Asleep) ->
     exists k p, nth_error (c_pc s) k = Some p /\ (active p \/ p = WkNotify)) /\
  n_retWait (c_tr s) + cnt_pc taken (c_pc s) + b2z (c_sig s) + cnt_pc before_set (c_pc s) <= n_callWake (c_tr s).

Lemma nth_upd_cases : forall {A} (l : list A) k x j y, nth_error (upd l k x) j = Some y ->
  (j = k /\ y = x) \/ (j <> k /\ nth_error l j = Some y).
Proof.
  intros A l k x j y H. destruct (Nat.eq_dec j k) as [->|D].
  - left. split; auto. assert (k < length (upd l k x))%nat by (apply nth_error_Some; congruence). rewrite upd_length in H0.
    rewrite nth_error_upd_eq in H by auto. congruence.
  - right. split; auto. rewrite nth_error_upd_ne in H; auto.
Qed.
Lemma nth_upd_same : forall {A} (l : list A) k x p, nth_error l k = Some p -> nth_error (upd l k x) k = Some x.
Proof. intros A l k x p H. apply nth_error_upd_eq. apply nth_error_Some. congruence. Qed.
Lemma nth_upd_other : forall {A} (l : list A) k x j, j <> k -> nth_error (upd l k x) j = nth_error l j.
Proof. intros. apply nth_error_upd_ne. auto. Qed.

(** only the holder of the mutex is inside *)
Lemma own_pc : forall s k p, inv s -> nth_error (c_pc s) k = Some p -> holds p = true -> c_own s = Some k.
Proof. intros s k p (A & _) H Hp. apply (A k p H). auto. Qed.

Lemma flag_other : forall s k p x tr', inv s -> nth_error (c_pc s) k = Some p -> holds p = false ->
  pending tr' = pending (c_tr s) -> flag_ok (mk_cv (c_sig s) (c_own s) (go s k x) tr').
Proof.
  intros s k p x tr' (A & B & F & _) H Hp Ht. unfold flag_ok in *. cbn [c_own c_pc c_sig c_tr]. rewrite Ht.
  destruct (c_own s) as [o|] eqn:Eo; auto. assert (o <> k). { intros ->. assert (X: Some k = Some k) by auto. apply (A k p H) in X. congruence. }
  unfold go. rewrite nth_upd_other by auto. auto.
Qed.

Lemma inv_step : forall s s', inv s -> cv_step s s' -> inv s'.
Proof.
  intros s s' I St. pose proof I as (A & B & F & N & C). destruct St as [St|St].
  - (* calls and spurious wakeups *)
    assert (G: forall k p x tr' , nth_error (c_pc s) k = Some p -> holds p = false -> holds x = false -> pending tr' = pending (c_tr s) ->
       (p <> WkNotify /\ ~ active p) -> x <> Asleep -> (p = Asleep -> x = Awake) ->
       n_retWait tr' + cnt_pc taken (go s k x) + b2z (c_sig s) + cnt_pc before_set (go s k x) <= n_callWake tr' ->
       inv (mk_cv (c_sig s) (c_own s) (go s k x) tr')).
    { intros k p x tr' H Hp Hx Ht Hna Has Haw Hc. split; [|split; [|split; [|split]]]; cbn [c_own c_pc c_sig c_tr]; auto.
      - intros j y Q. unfold go in Q. apply nth_upd_cases in Q as [[-> ->]|[D Q]]; [|auto]. rewrite Hx. split; [discriminate|].
        intros X. apply (A k p H) in X. congruence.
      - intros j X. destruct (B j X) as [y Q]. unfold go. destruct (Nat.eq_dec j k) as [->|D]; [exists x; eapply nth_upd_same; eauto|].
        exists y. rewrite nth_upd_other by auto. auto.
      - eapply flag_other; eauto.
      - intros Sg (j & Q). unfold go in Q. apply nth_upd_cases in Q as [[-> Y]|[D Q]]; [congruence|].
        destruct (N Sg ltac:(eauto)) as (l & y & Ql & Hy). exists l, y. split; auto. unfold go. rewrite nth_upd_other; auto.
        intros ->. assert (y = p) by congruence. subst y. tauto. }
    destruct St as [s k H|s k H|s k H].
    + apply (G k Idle); auto; try discriminate; cbn; try tauto.
      * rewrite pending_app. auto.
      * split; [discriminate|tauto].
      * unfold go. rewrite !(cnt_pc_upd _ _ _ _ _ H), n_retWait_app, n_callWake_app. cbn. lia.
    + apply (G k Idle); auto; try discriminate; cbn; try tauto.
      * rewrite pending_app. auto.
      * split; [discriminate|tauto].
      * unfold go. rewrite !(cnt_pc_upd _ _ _ _ _ H), n_retWait_app, n_callWake_app. cbn. lia.
    + apply (G k Asleep); auto; try discriminate; cbn; try tauto.
      * split; [discriminate|tauto].
      * unfold go. rewrite !(cnt_pc_upd _ _ _ _ _ H). cbn. lia.
  - destruct St as [s k p p' H O Hp|s k H|s k j H Hj|s k H Hno|s k H|s k H Sg|s k H Sg|s k H].
    + (* lock *)
      assert (P1: holds p = false /\ holds p' = true /\ p' <> Asleep /\ (active p -> active p') /\ p <> WkNotify /\ taken p = taken p' /\ before_set p = before_set p').
      { destruct Hp as [[-> ->]|[[-> ->]|[-> ->]]]; cbn; repeat split; auto; discriminate. }
      destruct P1 as (P1 & P2 & P3 & P4 & P5 & P6 & P7).
      split; [|split; [|split; [|split]]]; cbn [c_own c_pc c_sig c_tr].
      * intros j y Q. unfold go in Q. apply nth_upd_cases in Q as [[-> ->]|[D Q]]; [tauto|]. rewrite (A j y Q), O. split; [discriminate|congruence].
      * intros j X. assert (j = k) by congruence. subst. unfold go. exists p'. eapply nth_upd_same; eauto.
      * unfold flag_ok in *. cbn [c_own c_pc c_sig c_tr]. unfold go. rewrite (nth_upd_same _ _ _ _ H). rewrite O in F.
        destruct Hp as [[-> ->]|[[-> ->]|[-> ->]]]; auto.
      * intros Sg (j & Q). unfold go in Q. apply nth_upd_cases in Q as [[-> Y]|[D Q]]; [congruence|].
        destruct (N Sg ltac:(eauto)) as (l & y & Ql & Hy). destruct (Nat.eq_dec l k) as [->|Dl].
        -- exists k, p'. split; [unfold go; eapply nth_upd_same; eauto|]. assert (y = p) by congruence. subst y. left. tauto.
        -- exists l, y. split; auto. unfold go. rewrite nth_upd_other; auto.
      * unfold go. rewrite !(cnt_pc_upd _ _ _ _ _ H), P6, P7. lia.
    + (* set *)
      pose proof (own_pc s k _ I H eq_refl) as O.
      split; [|split; [|split; [|split]]]; cbn [c_own c_pc c_sig c_tr].
      * intros j y Q. unfold go in Q. apply nth_upd_cases in Q as [[-> ->]|[D Q]]; [tauto|auto].
      * intros j X. destruct (B j X) as [y Q]. unfold go. destruct (Nat.eq_dec j k) as [->|D]; [exists WkNotify; eapply nth_upd_same; eauto|].
        exists y. rewrite nth_upd_other by auto. auto.
      * unfold flag_ok. cbn [c_own c_pc c_sig c_tr]. rewrite O. unfold go. rewrite (nth_upd_same _ _ _ _ H). auto.
      * intros _ _. exists k, WkNotify. split; auto. unfold go. eapply nth_upd_same; eauto.
      * unfold go. rewrite !(cnt_pc_upd _ _ _ _ _ H). cbn [taken before_set b2z]. unfold b2z in C. destruct (c_sig s); lia.
    + (* notify *)
      pose proof (own_pc s k _ I H eq_refl) as O. assert (Djk: j <> k) by congruence.
      assert (H2: nth_error (go s k WkUnlock) j = Some Asleep) by (unfold go; rewrite nth_upd_other; auto).
      split; [|split; [|split; [|split]]]; cbn [c_own c_pc c_sig c_tr].
      * intros i y Q. apply nth_upd_cases in Q as [[-> ->]|[D Q]].
        -- rewrite O. cbn. split; [discriminate|congruence].
        -- unfold go in Q. apply nth_upd_cases in Q as [[-> ->]|[D2 Q]]; [tauto|auto].
      * intros i X. assert (i = k) by congruence. subst. exists WkUnlock. rewrite nth_upd_other by auto. unfold go. eapply nth_upd_same; eauto.
      * unfold flag_ok in *. cbn [c_own c_pc c_sig c_tr]. rewrite O in *. rewrite nth_upd_other by auto. unfold go. rewrite (nth_upd_same _ _ _ _ H). rewrite H in F. auto.
      * intros _ _. exists j, Awake. split; [eapply nth_upd_same; eauto|]. left. exact Logic.I.
      * rewrite !(cnt_pc_upd _ _ _ _ _ H2). unfold go. rewrite !(cnt_pc_upd _ _ _ _ _ H). cbn [taken before_set b2z]. lia.
    + (* notify, nobody sleeps *)
      pose proof (own_pc s k _ I H eq_refl) as O.
      split; [|split; [|split; [|split]]]; cbn [c_own c_pc c_sig c_tr].
      * intros j y Q. unfold go in Q. apply nth_upd_cases in Q as [[-> ->]|[D Q]]; [tauto|auto].
      * intros j X. assert (j = k) by congruence. subst. exists WkUnlock. unfold go. eapply nth_upd_same; eauto.
      * unfold flag_ok in *. cbn [c_own c_pc c_sig c_tr]. rewrite O in *. unfold go. rewrite (nth_upd_same _ _ _ _ H). rewrite H in F. auto.
      * intros _ (j & Q). unfold go in Q. apply nth_upd_cases in Q as [[-> Y]|[D Q]]; [discriminate|]. elim (Hno j Q).
      * unfold go. rewrite !(cnt_pc_upd _ _ _ _ _ H). cbn [taken before_set b2z]. lia.
    + (* wakeup returns *)
      pose proof (own_pc s k _ I H eq_refl) as O.
      split; [|split; [|split; [|split]]]; cbn [c_own c_pc c_sig c_tr].
      * intros j y Q. unfold go in Q. apply nth_upd_cases in Q as [[-> ->]|[D Q]]; [cbn; split; discriminate|].
        rewrite (A j y Q), O. split; [congruence|discriminate].
      * discriminate.
      * unfold flag_ok in *. cbn [c_own c_pc c_sig c_tr]. rewrite pending_app. rewrite O, H in F. auto.
      * intros Sg (j & Q). unfold go in Q. apply nth_upd_cases in Q as [[-> Y]|[D Q]]; [discriminate|].
        destruct (N Sg ltac:(eauto)) as (l & y & Ql & Hy). exists l, y. split; auto. unfold go. rewrite nth_upd_other; auto.
        intros ->. assert (y = WkUnlock) by congruence. subst y. destruct Hy as [[]|]; discriminate.
      * unfold go. rewrite !(cnt_pc_upd _ _ _ _ _ H), n_retWait_app, n_callWake_app. cbn [taken before_set b2z n_retWait n_callWake]. lia.
    + (* sleep *)
      pose proof (own_pc s k _ I H eq_refl) as O.
      split; [|split; [|split; [|split]]]; cbn [c_own c_pc c_sig c_tr].
      * intros j y Q. unfold go in Q. apply nth_upd_cases in Q as [[-> ->]|[D Q]]; [cbn; split; discriminate|].
        rewrite (A j y Q), O. split; [congruence|discriminate].
      * discriminate.
      * unfold flag_ok in *. cbn [c_own c_pc c_sig c_tr]. rewrite O, H in F. congruence.
      * discriminate.
      * unfold go. rewrite !(cnt_pc_upd _ _ _ _ _ H). cbn [taken before_set b2z]. rewrite Sg in C. cbn [b2z] in C. lia.
    + (* take *)
      pose proof (own_pc s k _ I H eq_refl) as O.
      split; [|split; [|split; [|split]]]; cbn [c_own c_pc c_sig c_tr].
      * intros j y Q. unfold go in Q. apply nth_upd_cases in Q as [[-> ->]|[D Q]]; [tauto|auto].
      * intros j X. assert (j = k) by congruence. subst. exists WtUnlock. unfold go. eapply nth_upd_same; eauto.
      * unfold flag_ok. cbn [c_own c_pc c_sig c_tr]. rewrite O. unfold go. rewrite (nth_upd_same _ _ _ _ H). auto.
      * discriminate.
      * unfold go. rewrite !(cnt_pc_upd _ _ _ _ _ H). cbn [taken before_set b2z]. rewrite Sg in C. cbn [b2z] in C. lia.
    + (* wait returns *)
      pose proof (own_pc s k _ I H eq_refl) as O.
      split; [|split; [|split; [|split]]]; cbn [c_own c_pc c_sig c_tr].
      * intros j y Q. unfold go in Q. apply nth_upd_cases in Q as [[-> ->]|[D Q]]; [cbn; split; discriminate|].
        rewrite (A j y Q), O. split; [congruence|discriminate].
      * discriminate.
      * unfold flag_ok in *. cbn [c_own c_pc c_sig c_tr]. rewrite pending_app. rewrite O, H in F. auto.
      * intros Sg (j & Q). unfold go in Q. apply nth_upd_cases in Q as [[-> Y]|[D Q]]; [discriminate|].
        destruct (N Sg ltac:(eauto)) as (l & y & Ql & Hy). exists l, y. split; auto. unfold go. rewrite nth_upd_other; auto.
        intros ->. assert (y = WtUnlock) by congruence. subst y. destruct Hy as [[]|]; discriminate.
      * unfold go. rewrite !(cnt_pc_upd _ _ _ _ _ H), n_retWait_app, n_callWake_app. cbn [taken before_set b2z n_retWait n_callWake]. lia.
Qed.
Lemma inv_reach : forall n s, cv_reach n s -> inv s.
Proof.
  intros n s R. induction R as [|s s' R IH St]; [|eapply inv_step; eauto].
  assert (G: forall k p, nth_error (repeat Idle n) k = Some p -> p = Idle) by (intros k p H; apply nth_error_In, repeat_spec in H; auto).
  split; [|split; [|split; [|split]]]; cbn [cv_new c_own c_pc c_sig c_tr].
  - intros k p H. apply G in H. subst. split; discriminate.
  - discriminate.
  - reflexivity.
  - discriminate.
  - rewrite !cnt_pc_repeat by auto. cbn. lia.
Qed.

(** ** C54 for the C++11 build *)
(** no thread can take an internal step: everybody is outside or asleep *)
Definition quiet (s : cv) : Prop := forall s', ~ int_step s s'.
Definition waiting (p : epc) : Prop := match p with WtLock | WtCheck | Asleep | Awake | WtUnlock => True | _ => False end.

(** never more returns of wait() than calls of wakeup() *)
Theorem C54_no_extra : forall n s, cv_reach n s -> n_retWait (c_tr s) <= n_callWake (c_tr s).
Proof.
  intros n s R. destruct (inv_reach n s R) as (_ & _ & _ & _ & C).
  pose proof (cnt_pc_nonneg taken (c_pc s)). pose proof (cnt_pc_nonneg before_set (c_pc s)). unfold b2z in C. destruct (c_sig s); lia.
Qed.

(** the flag is never set while all waiting threads sleep un-notified and no wakeup() is at work *)
Theorem C54_no_lost_signal : forall n s, cv_reach n s -> c_sig s = true -> (exists k, nth_error (c_pc s) k = Some Asleep) ->
  exists k p, nth_error (c_pc s) k = Some p /\ (active p \/ p = WkNotify).
Proof. intros n s R. apply (inv_reach n s R). Qed.

(** when nothing more can happen by itself: all wakeup() calls have returned, and if some thread still waits then every
    wakeup() that returned was followed by the return of a wait() *)
Theorem C54_delivered : forall n s, cv_reach n s -> quiet s ->
  (forall k p, nth_error (c_pc s) k = Some p -> p = Idle \/ p = Asleep) /\
  ((exists k p, nth_error (c_pc s) k = Some p /\ waiting p) -> all_delivered (c_tr s)).
Proof.
  intros n s R Q. pose proof (inv_reach n s R) as I. pose proof I as (A & B & F & N & C).
  assert (O: c_own s = None).
  { destruct (c_own s) as [k|] eqn:O; auto. exfalso. destruct (B k eq_refl) as [p H]. assert (Hh: holds p = true) by (apply (A k p H); auto).
    destruct p; try discriminate.
    - eapply Q, i_set; eauto.
    - assert (D: (exists j, nth_error (c_pc s) j = Some Asleep) \/ forall j, nth_error (c_pc s) j <> Some Asleep).
      { clear. induction (c_pc s) as [|x l [[j IH]|IH]].
        - right. intros [|j]; discriminate.
        - left. exists (S j). auto.
        - destruct x; try (right; intros [|j]; cbn; [discriminate|apply IH]). left. exists 0%nat. auto. }
      destruct D as [[j Hj]|D]; [eapply Q, i_notify; eauto|eapply Q, i_notify_none; eauto].
    - eapply Q, i_wake_ret; eauto.
    - destruct (c_sig s) eqn:Sg; [eapply Q, i_take; eauto|eapply Q, i_sleep; eauto].
    - eapply Q, i_wait_ret; eauto. }
  assert (P: forall k p, nth_error (c_pc s) k = Some p -> p = Idle \/ p = Asleep).
  { intros k p H. destruct (holds p) eqn:Hh; [apply (A k p H) in Hh; congruence|].
    destruct p; try discriminate; auto; exfalso; eapply Q, i_lock; eauto. }
  split; auto. intros (k & p & H & W). destruct (P k p H); subst; [destruct W|].
  apply delivered. unfold flag_ok in F. rewrite O in F. rewrite <- F. destruct (c_sig s) eqn:Sg; auto. exfalso.
  destruct (N eq_refl ltac:(eauto)) as (j & y & Hj & Hy). destruct (P j y Hj); subst; destruct Hy as [[]|]; discriminate.
Qed.

(** internal steps terminate: a measure decreases, so a quiet state is reached after finitely many of them *)
Definition wt (p : epc) : Z :=
  match p with Idle | Asleep => 0 | WkUnlock | WtUnlock => 1 | WtCheck => 2 | WtLock | Awake => 3 | WkNotify => 5 | WkSet => 6 | WkLock => 7 end.
Definition measure (s : cv) : Z := fold_right (fun p a => wt p + a) 0 (c_pc s).
Lemma wt_nonneg : forall p, 0 <= wt p. Proof. intros []; cbn; lia. Qed.
Lemma sum_upd : forall l k p x, nth_error l k = Some p ->
  fold_right (fun p a => wt p + a) 0 (upd l k x) = fold_right (fun p a => wt p + a) 0 l - wt p + wt x.
Proof.
  intros l. induction l as [|y l IH]; intros k p x H; [destruct k; discriminate|]. destruct k as [|k]; cbn [upd fold_right nth_error] in *.
  - injection H as ->. lia.
  - rewrite (IH k p x H). lia.
Qed.
Theorem C54_settles : forall s, 0 <= measure s /\ forall s', int_step s s' -> measure s' < measure s.
Proof.
  intros s. unfold measure. split.
  - induction (c_pc s) as [|p l IH]; cbn [fold_right]; [lia|]. pose proof (wt_nonneg p). lia.
  - intros s' St. destruct St as [s k p p' H O Hp|s k H|s k j H Hj|s k H Hno|s k H|s k H Sg|s k H Sg|s k H]; cbn [c_pc]; unfold go.
    + rewrite (sum_upd _ _ _ _ H). destruct Hp as [[-> ->]|[[-> ->]|[-> ->]]]; cbn [wt]; lia.
    + rewrite (sum_upd _ _ _ _ H). cbn [wt]. lia.
    + assert (Djk: j <> k) by congruence. rewrite (sum_upd _ j Asleep) by (rewrite nth_upd_other; auto). rewrite (sum_upd _ _ _ _ H). cbn [wt]. lia.
    + rewrite (sum_upd _ _ _ _ H). cbn [wt]. lia.
    + rewrite (sum_upd _ _ _ _ H). cbn [wt]. lia.
    + rewrite (sum_upd _ _ _ _ H). cbn [wt]. lia.
    + rewrite (sum_upd _ _ _ _ H). cbn [wt]. lia.
    + rewrite (sum_upd _ _ _ _ H). cbn [wt]. lia.
Qed.

(** two wakeups before anybody waits count as one: the second wait sleeps *)
Tactic Notation "nxt" hyp(R) tactic3(t) := let R' := fresh in eassert (R' : cv_reach 3 _) by (eapply cvr_step; [exact R|t]); cbn in R'; clear R; rename R' into R.
Theorem C54_coalesce : exists s, cv_reach 3 s /\ quiet s /\ nth_error (c_pc s) 2 = Some Asleep /\
  c_tr s = [CallWake 0; RetWake 0; CallWake 0; RetWake 0; CallWait 1; RetWait 1; CallWait 2].
Proof.
  pose proof (cvr_new 3) as R. cbn in R.
  assert (NS: forall a j, nth_error [a; Idle; Idle] j = Some Asleep -> a = Asleep).
  { intros a [|[|[|j]]]; cbn; try congruence. destruct j; discriminate. }
  do 2 (nxt R (left; apply (x_wake _ 0); reflexivity);
    nxt R (right; apply (i_lock _ 0 WkLock WkSet); [reflexivity|reflexivity|auto]);
    nxt R (right; apply (i_set _ 0); reflexivity);
    nxt R (right; apply (i_notify_none _ 0); [reflexivity|intros j Q; apply NS in Q; discriminate]);
    nxt R (right; apply (i_wake_ret _ 0); reflexivity)).
  nxt R (left; apply (x_wait _ 1); reflexivity).
  nxt R (right; apply (i_lock _ 1 WtLock WtCheck); [reflexivity|reflexivity|auto]).
  nxt R (right; apply (i_take _ 1); reflexivity).
  nxt R (right; apply (i_wait_ret _ 1); reflexivity).
  nxt R (left; apply (x_wait _ 2); reflexivity).
  nxt R (right; apply (i_lock _ 2 WtLock WtCheck); [reflexivity|reflexivity|auto]).
  nxt R (right; apply (i_sleep _ 2); reflexivity).
  eexists. split; [exact R|]. split; [|split; reflexivity].
  intros s' St. inversion St as [s k p p' H O Hp|s k H|s k j H Hj|s k H Hno|s k H|s k H Sg|s k H Sg|s k H]; subst; cbn in H;
    destruct k as [|[|[|k]]]; cbn in H; try discriminate; try (destruct k; discriminate);
    injection H as <-; destruct Hp as [[Hp _]|[[Hp _]|[Hp _]]]; discriminate.
Qed.

(** ** C54 for the pipe build *)
Lemma pipe_inv : forall cap n s, pipe_reach cap false n s -> 0 <= p_bytes s /\ n_retWait (p_tr s) + p_bytes s = n_retWake (p_tr s).
Proof.
  intros cap n s R. induction R as [|s s' R [IH1 IH2] St]; [cbn; lia|].
  destruct St; cbn [p_bytes p_tr]; rewrite ?n_retWait_app, ?n_retWake_app; cbn [n_retWait n_retWake]; try lia; discriminate.
Qed.
(** without interruptions every wakeup counts: a wait() blocks only when all finished wakeups have been used up, and
    wakeup() blocks only when the pipe is full *)
Theorem C54_pipe : forall cap n s, 0 < cap -> pipe_reach cap false n s ->
  n_retWait (p_tr s) <= n_retWake (p_tr s) /\
  forall k, (nth_error (p_pc s) k = Some PReading -> n_retWait (p_tr s) < n_retWake (p_tr s) ->
               exists s', pipe_step cap false s s' /\ p_tr s' = p_tr s ++ [RetWait k]) /\
            (nth_error (p_pc s) k = Some PWriting -> n_retWake (p_tr s) - n_retWait (p_tr s) < cap ->
               exists s', pipe_step cap false s s' /\ p_tr s' = p_tr s ++ [RetWake k]).
Proof.
  intros cap n s Hc R. destruct (pipe_inv cap n s R) as [B E]. split; [lia|]. intros k. split.
  - intros H L. eexists. split; [eapply p_read; [eauto|lia]|reflexivity].
  - intros H L. eexists. split; [eapply p_write; [eauto|lia]|reflexivity].
Qed.
(** finding: a signal handler that interrupts read() makes wait() return without any wakeup, and one that interrupts a blocked
    write() loses the wakeup *)
Theorem C54_pipe_interrupt_finding : exists s, pipe_reach 65536 true 1 s /\ p_tr s = [CallWait 0; RetWait 0].
Proof.
  eexists. split.
  - eapply pr_step; [eapply pr_step; [apply pr_new|]|].
    + apply (p_wait _ _ _ 0). reflexivity.
    + apply (p_read_intr _ _ _ 0); reflexivity.
  - reflexivity.
Qed.
Example C54_pipe_counts : exists s, pipe_reach 65536 false 2 s /\
  p_tr s = [CallWake 0; RetWake 0; CallWake 0; RetWake 0; CallWait 1; RetWait 1; CallWait 1; RetWait 1].
Proof.
  eexists. split.
  - eapply pr_step; [eapply pr_step; [eapply pr_step; [eapply pr_step; [eapply pr_step; [eapply pr_step; [eapply pr_step; [eapply pr_step; [apply pr_new|]|]|]|]|]|]|]|].
    + apply (p_wake _ _ _ 0). reflexivity.
    + apply (p_write _ _ _ 0); reflexivity.
    + apply (p_wake _ _ _ 0). reflexivity.
    + apply (p_write _ _ _ 0); reflexivity.
    + apply (p_wait _ _ _ 1). reflexivity.
    + apply (p_read _ _ _ 1); reflexivity.
    + apply (p_wait _ _ _ 1). reflexivity.
    + apply (p_read _ _ _ 1); reflexivity.
  - reflexivity.
Qed.

(** ** C54 for the Windows build *)
Lemma win_inv : forall n s, win_reach n s -> n_sig s = pending (n_tr s) /\ n_retWait (n_tr s) + b2z (n_sig s) <= n_retWake (n_tr s).
Proof.
  intros n s R. induction R as [|s s' R [IH1 IH2] St]; [cbn; split; [auto|lia]|].
  destruct St as [s k H|s k H|s k H|s k H Sg]; cbn [n_sig n_tr]; rewrite pending_app, n_retWait_app, n_retWake_app; cbn [n_retWait n_retWake b2z]; unfold b2z in *; split; auto; destruct (n_sig s); try lia; discriminate.
Qed.
Theorem C54_windows : forall n s, win_reach n s ->
  n_retWait (n_tr s) <= n_retWake (n_tr s) /\
  forall k, nth_error (n_pc s) k = Some PReading ->
    all_delivered (n_tr s) \/ exists s', win_step s s' /\ n_tr s' = n_tr s ++ [RetWait k].
Proof.
  intros n s R. destruct (win_inv n s R) as [F C]. split; [unfold b2z in C; destruct (n_sig s); lia|].
  intros k H. destruct (n_sig s) eqn:Sg; [right|left; apply delivered; auto].
  eexists. split; [eapply n_take; eauto|reflexivity].
Qed.

Print Assumptions C54_no_extra.
Print Assumptions C54_no_lost_signal.
Print Assumptions C54_delivered.
Print Assumptions C54_settles.
Print Assumptions C54_coalesce.
Print Assumptions C54_pipe.
Print Assumptions C54_pipe_interrupt_finding.
Print Assumptions C54_windows.
