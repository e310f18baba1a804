(** Property C87: quit signals reach the application, whenever they arrive. *)
Require Import Verif.Common Verif.QuitModel.

Definition no_destroy (l : list event) : Prop := forall a, ~ In (EDestroy a) l.
Definition no_construct (l : list event) : Prop := forall a, ~ In (EConstruct a) l.
Definition running (p : proc) : Prop := p_status p = Running.
(** the main program is not in a constructor and no handler is active *)
Definition idle (p : proc) : Prop := running p /\ p_todo p = [] /\ p_depth p = O.

(** ** Invariants *)
Record Inv (p : proc) : Prop := mk_Inv {
  i_app : p_installed p <> [] -> p_app p <> None;
  i_todo : p_todo p = [] \/ (exists a, p_todo p = ctor a) \/ p_app p <> None;
  i_dead : p_dead p = [];
  i_depth : (p_depth p <= 1)%nat
}.
Lemma init_inv : Inv init.
Proof. constructor; cbn; auto. Qed.

Lemma installed_ne s p : existsb (signal_beq s) (p_installed p) = true -> p_installed p <> [].
Proof. intros E H. rewrite H in E. discriminate. Qed.

Lemma deliver_inv s p : Inv p -> exists p', deliver s p = Ok p' /\ Inv p'.
Proof.
  intros [A T D L]. unfold deliver, mask_all. cbn [andb]. destruct (0 <? p_depth p)%nat eqn:E.
  - eexists. split; [reflexivity|]. constructor; cbn; auto.
  - apply Nat.ltb_ge in E. destruct (existsb _ _) eqn:X.
    + apply installed_ne in X. unfold call_handler. destruct (p_app p) as [a|] eqn:Ea; [|exfalso; apply (A X); auto].
      rewrite D. cbn [existsb]. eexists. split; [reflexivity|]. constructor; cbn; auto; try lia; congruence.
    + eexists. split; [reflexivity|]. constructor; cbn; auto.
Qed.

Lemma step_inv e p : Inv p -> (forall a, e <> EDestroy a) -> exists p', step e p = Ok p' /\ Inv p'.
Proof.
  intros I Nd. pose proof I as [A T D L]. unfold step. destruct (p_status p); [|eauto|eauto]. destruct e as [a|ok|s| |a].
  - destruct (p_todo p) eqn:Et; [|eauto]. destruct (p_depth p); [|eauto]. eexists. split; [reflexivity|]. constructor; cbn; auto. right. left. eauto.
  - destruct (p_todo p) as [|[a|s] r] eqn:Et; [eauto| |].
    + destruct (p_depth p); [|eauto]. eexists. split; [reflexivity|]. constructor; cbn; auto; try congruence. right. right. congruence.
    + destruct (p_depth p); [|eauto]. destruct ok.
      * assert (p_app p <> None) by (destruct T as [T|[[a T]|T]]; auto; discriminate).
        eexists. split; [reflexivity|]. constructor; cbn; auto.
      * eexists. split; [reflexivity|]. constructor; cbn; auto.
  - apply deliver_inv; auto.
  - destruct (p_depth p) as [|d] eqn:Ed; [eauto|]. cbn [p_pending p_app p_installed p_todo p_quits p_dead]. destruct d; [|lia].
    destruct (p_pending p).
    + eexists. split; [reflexivity|]. constructor; cbn; auto.
    + apply deliver_inv. constructor; cbn; auto.
  - exfalso. eapply Nd; eauto.
Qed.
Lemma run_inv l : forall p, Inv p -> no_destroy l -> exists p', run l p = Ok p' /\ Inv p'.
Proof.
  induction l as [|e l IH]; intros p I Nd; cbn [run]; [eauto|].
  destruct (step_inv e p I) as (p1 & E & I1); [intros a ->; apply (Nd a); now left|]. rewrite E. cbn [bind]. apply IH; auto. intros a Hin. apply (Nd a). now right.
Qed.

(** ** C87: whenever signals arrive, also before, during and between constructions, the handler never touches a null pointer, and quit is
    never called while an earlier call of quit is still active *)
Theorem C87_safe : forall l, no_destroy l -> exists p, run l init = Ok p /\ (p_depth p <= 1)%nat.
Proof. intros l Nd. destruct (run_inv l init init_inv Nd) as (p & E & I). exists p. split; auto. apply I. Qed.

(** the constructor of a has been started and is at some point *)
Definition Under (a : app) (p : proc) : Prop :=
  p_todo p = ctor a \/ (p_app p = Some a /\ exists d, ctor a = d ++ p_todo p /\ forall s, In (ISigaction s) d -> In s (p_installed p)).

Lemma deliver_under a s p p' : deliver s p = Ok p' -> running p' -> Under a p -> Under a p'.
Proof.
  unfold deliver, mask_all. cbn [andb]. destruct (0 <? p_depth p)%nat.
  - intros E _ U. injection E as <-. exact U.
  - destruct (existsb _ _).
    + unfold call_handler. destruct (p_app p) as [b|] eqn:Ea; [|discriminate]. destruct (existsb _ _); [discriminate|]. intros E _ U. injection E as <-.
      destruct U as [U|[U1 U2]]; [left; exact U|right]. split; [cbn; congruence|exact U2].
    + intros E R _. injection E as <-. discriminate.
Qed.
Lemma dead_status e p p' : step e p = Ok p' -> running p' -> running p.
Proof. unfold step, running. destruct (p_status p) eqn:X; auto; intros E; injection E as <-; congruence. Qed.
Lemma step_under a e p p' : step e p = Ok p' -> running p' -> (forall b, e <> EConstruct b) -> (forall b, e <> EDestroy b) -> Under a p -> Under a p'.
Proof.
  intros E R Nc Nd U. pose proof (dead_status _ _ _ E R) as R0. unfold step in E. rewrite R0 in E. destruct e as [b|ok|s| |b].
  - exfalso. eapply Nc; eauto.
  - destruct (p_todo p) as [|[b|s] r] eqn:Et; [injection E as <-; auto| |].
    + destruct (p_depth p); [|injection E as <-; auto]. injection E as <-. right. destruct U as [U|[U1 (d & U2 & U3)]].
      * rewrite Et in U. injection U as -> ->. split; [reflexivity|]. exists [ISetApp a]. split; [reflexivity|]. intros s [X|[]]. discriminate.
      * rewrite Et in U2. unfold ctor in U2. destruct d as [|x d].
        -- injection U2 as -> <-. split; [reflexivity|]. exists [ISetApp b]. split; [reflexivity|]. intros s [X|[]]. discriminate.
        -- exfalso. injection U2 as _ U2. assert (X: In (ISetApp b) [ISigaction SIGINT; ISigaction SIGQUIT; ISigaction SIGABRT; ISigaction SIGTERM]) by (rewrite U2; apply in_or_app; right; now left).
           cbn in X. repeat (destruct X as [X|X]; [discriminate|]). exact X.
    + destruct (p_depth p); [|injection E as <-; auto]. destruct ok; injection E as <-; [|discriminate]. right. destruct U as [U|[U1 (d & U2 & U3)]].
      * rewrite Et in U. discriminate.
      * split; [exact U1|]. exists (d ++ [ISigaction s]). rewrite Et in U2. split; [rewrite <- app_assoc; exact U2|].
        intros s' Hin. cbn [p_installed]. apply in_app_or in Hin as [Hin|[Hin|[]]]; [right; auto|]. injection Hin as ->. now left.
  - eapply deliver_under; eauto.
  - destruct (p_depth p) as [|d]; [injection E as <-; auto|]. cbn [p_pending p_app p_installed p_todo p_quits p_dead] in E.
    destruct d; [destruct (p_pending p)|].
    + injection E as <-. exact U.
    + eapply deliver_under; eauto.
    + destruct (p_pending p); injection E as <-; exact U.
  - exfalso. eapply Nd; eauto.
Qed.
Lemma run_running l : forall p p', run l p = Ok p' -> running p' -> running p.
Proof.
  induction l as [|e l IH]; intros p p' E R; cbn [run] in E; [injection E as <-; auto|].
  destruct (step e p) as [p1| | |] eqn:Es; try discriminate. cbn [bind] in E. eapply dead_status; eauto.
Qed.
Lemma run_under a l : forall p p', run l p = Ok p' -> running p' -> no_construct l -> no_destroy l -> Under a p -> Under a p'.
Proof.
  induction l as [|e l IH]; intros p p' E R Nc Nd U; cbn [run] in E; [injection E as <-; auto|].
  destruct (step e p) as [p1| | |] eqn:Es; try discriminate. cbn [bind] in E.
  assert (R1: running p1) by (eapply run_running; eauto).
  eapply IH; eauto; [intros b Hin; apply (Nc b); now right|intros b Hin; apply (Nd b); now right|].
  eapply step_under; eauto; intros b ->; [apply (Nc b)|apply (Nd b)]; now left.
Qed.

(** ** C87: once the constructor for application a is done, each of the four signals calls quit of a exactly once and the process goes on,
    whatever signals arrived before and during the construction; a signal that arrives while the handler runs is not lost *)
Theorem C87_delivered : forall l1 a l2 p1 p,
  no_destroy l1 -> no_destroy l2 -> no_construct l2 ->
  run l1 init = Ok p1 -> idle p1 -> run (EConstruct a :: l2) p1 = Ok p -> idle p ->
  forall s, exists p2, step (ESignal s) p = Ok p2 /\ p_quits p2 = a :: p_quits p /\ running p2 /\
    forall s', exists p3 p4, step (ESignal s') p2 = Ok p3 /\ p_quits p3 = p_quits p2 /\ step EReturn p3 = Ok p4 /\ running p4 /\
      p_quits p4 = a :: p_quits p2.
Proof.
  intros l1 a l2 p1 p Nd1 Nd2 Nc2 E1 (R1 & T1 & D1) E2 (R & T & D).
  destruct (run_inv l1 init init_inv Nd1) as (q & Eq & I1). rewrite E1 in Eq. injection Eq as <-.
  cbn [run] in E2. unfold step in E2 at 1. unfold running in R1. rewrite R1, T1, D1 in E2. cbn [bind] in E2.
  set (p0 := mk_proc _ _ (ctor a) _ _ _ _ _) in E2.
  assert (I0: Inv p0) by (destruct I1; constructor; cbn; auto; right; left; eauto).
  destruct (run_inv l2 p0 I0 Nd2) as (q & Eq & I). rewrite E2 in Eq. injection Eq as <-.
  assert (U: Under a p) by (eapply run_under; eauto; left; reflexivity).
  destruct U as [U|[U1 (d & U2 & U3)]]; [rewrite T in U; discriminate|]. rewrite T, app_nil_r in U2. subst d.
  assert (Hin: forall s, existsb (signal_beq s) (p_installed p) = true).
  { intros s. apply existsb_exists. exists s. split; [apply U3; destruct s; cbn; tauto|destruct s; reflexivity]. }
  pose proof (i_dead _ I) as Dd. intros s. unfold running in R.
  eexists. split.
  { unfold step. rewrite R. unfold deliver. rewrite D. change (0 <? 0)%nat with false. rewrite andb_false_r, Hin. unfold call_handler. rewrite U1, Dd. reflexivity. }
  cbn [p_quits]. split; [reflexivity|]. split; [exact R|]. intros s'.
  set (pend := if existsb (signal_beq s') (p_pending p) then p_pending p else p_pending p ++ [s']).
  assert (Dl: forall x r, deliver x (mk_proc (Some a) (p_installed p) (p_todo p) 0 r (a :: p_quits p) [] Running) =
     Ok (mk_proc (Some a) (p_installed p) (p_todo p) 1 r (a :: a :: p_quits p) [] Running)).
  { intros x r. unfold deliver. cbn [p_depth p_installed]. change (mask_all && (0 <? 0)%nat) with false. cbn iota. rewrite Hin. reflexivity. }
  assert (Pe: exists x r, pend = x :: r).
  { unfold pend. destruct (existsb (signal_beq s') (p_pending p)) eqn:X; [destruct (p_pending p); [discriminate|eauto]|destruct (p_pending p); cbn; eauto]. }
  destruct Pe as (x & r & Pe).
  exists (mk_proc (Some a) (p_installed p) (p_todo p) 1 pend (a :: p_quits p) [] Running).
  exists (mk_proc (Some a) (p_installed p) (p_todo p) 1 r (a :: a :: p_quits p) [] Running).
  split; [|split; [|split; [|split]]].
  - unfold step. cbn [p_status]. rewrite ?R. unfold deliver. cbn [p_depth]. change (mask_all && (0 <? S (p_depth p))%nat) with true. cbn iota. unfold pend. rewrite ?U1, ?Dd, ?D, ?R. reflexivity.
  - reflexivity.
  - unfold step. cbn [p_status p_depth p_pending p_app p_installed p_todo p_quits p_dead]. rewrite Pe. apply Dl.
  - reflexivity.
  - reflexivity.
Qed.
Example C87_nonvacuous :
  run ([EConstruct 1%nat; EStep true; EStep true; ESignal SIGINT; EReturn; EStep true; EStep true; EStep true; ESignal SIGTERM; ESignal SIGINT; EReturn; EReturn; EConstruct 2%nat; ESignal SIGQUIT; EReturn;
        EStep true; EStep true; EStep true; EStep true; EStep true; ESignal SIGABRT]) init =
  Ok (mk_proc (Some 2%nat) [SIGTERM; SIGABRT; SIGQUIT; SIGINT; SIGTERM; SIGABRT; SIGQUIT; SIGINT] [] 1 [] [2; 1; 1; 1; 1]%nat [] Running) /\
  run [ESignal SIGINT] init = Ok (mk_proc None [] [] 0 [] [] [] (Killed SIGINT)).
Proof. split; reflexivity. Qed.

(** if the handler cannot be installed the process ends with exit status 1: it never goes on without the handler *)
Theorem C87_setup_failure : forall l p p', run l init = Ok p -> running p -> no_destroy l ->
  (exists s r, p_todo p = ISigaction s :: r) -> p_depth p = O -> step (EStep false) p = Ok p' -> p_status p' = Exited 1.
Proof. intros l p p' _ R _ (s & r & T) D. unfold step. unfold running in R. rewrite R, T, D. intros E. injection E as <-. reflexivity. Qed.

(** ** Finding: the handler is never uninstalled (there is no destructor, and on POSIX ctrlHandler does not check app_): a signal after
    the App object is gone calls quit on a dead object (quit_signal_handler.hpp:36). *)
Theorem C87_destroyed_finding :
  run [EConstruct 1%nat; EStep true; EStep true; EStep true; EStep true; EStep true; EDestroy 1%nat; ESignal SIGTERM] init = UB.
Proof. reflexivity. Qed.
(** ** Finding: app_ is one static member per App type: a second handler silently takes the signals away from the first application. *)
Theorem C87_second_finding : exists p,
  run [EConstruct 1%nat; EStep true; EStep true; EStep true; EStep true; EStep true; EConstruct 2%nat; EStep true; ESignal SIGTERM] init = Ok p /\ p_quits p = [2%nat].
Proof. eexists. split; reflexivity. Qed.

Print Assumptions C87_safe.
Print Assumptions C87_delivered.
Print Assumptions C87_setup_failure.
