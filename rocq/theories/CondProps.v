(** C71: the condition variable of the Windows branch loses no notification. *)
Require Import Verif.Common Verif.CondModel.

(** ** specification *)
(** t has called wait and has not been woken yet *)
Definition waits (tr : list cev) (t : nat) : Prop := exists a b, tr = a ++ EWait t :: b /\ ~ In (EWoke t) b.
Definition ones (tr : list cev) : Z := zlen (filter (fun e => match e with EOne _ => true | _ => false end) tr).
Definition alls (tr : list cev) : Z := zlen (filter (fun e => match e with EAll _ _ => true | _ => false end) tr).
Definition wokes (tr : list cev) : Z := zlen (filter (fun e => match e with EWoke _ => true | _ => false end) tr).
(** notifyAll is called only with the mutex held, and the semaphore never overflows (2^31 - 1 notifications that nobody took) *)
Definition fair_use (tr : list cev) : Prop := (forall n h, In (EAll n h) tr -> h = true) /\ ~ In EFull tr.
(** the thread has the mutex *)
Definition has_mutex (p : cpc) : bool := match p with Held | W1 | N2 true | A2 true | A3 true => true | _ => false end.

(** ** counting threads *)
Definition b2z (b : bool) : Z := if b then 1 else 0.
Fixpoint cnt (f : cpc -> bool) (l : list cpc) : Z := match l with [] => 0 | p :: r => b2z (f p) + cnt f r end.
Lemma cnt_pos f l : 0 <= cnt f l.
Proof. induction l as [|p l IH]; cbn [cnt]; [lia|]. destruct (f p); cbn [b2z]; lia. Qed.
Lemma cnt_upd f l t p q : nth_error l t = Some p -> cnt f (upd l t q) = cnt f l - b2z (f p) + b2z (f q).
Proof.
  revert t; induction l as [|x l IH]; intros [|t] H; cbn [nth_error] in H; try discriminate.
  - injection H as ->. cbn [upd cnt]. lia.
  - cbn [upd cnt]. rewrite (IH _ H). lia.
Qed.
Lemma cnt_in f l t p : nth_error l t = Some p -> f p = true -> 1 <= cnt f l.
Proof.
  revert t; induction l as [|x l IH]; intros [|t] H Hf; cbn [nth_error] in H; try discriminate; cbn [cnt].
  - injection H as ->. rewrite Hf. pose proof (cnt_pos f l). cbn [b2z]. lia.
  - specialize (IH _ H Hf). destruct (f x); cbn [b2z]; lia.
Qed.
Lemma cnt_two f l t u p q : nth_error l t = Some p -> nth_error l u = Some q -> f p = true -> f q = true -> t <> u -> 2 <= cnt f l.
Proof.
  revert t u; induction l as [|x l IH]; intros [|t] [|u] H1 H2 F1 F2 Hn; cbn [nth_error] in *; try discriminate; try congruence; cbn [cnt].
  - injection H1 as ->. rewrite F1. pose proof (cnt_in _ _ _ _ H2 F2). cbn [b2z]. lia.
  - injection H2 as ->. rewrite F2. pose proof (cnt_in _ _ _ _ H1 F1). cbn [b2z]. lia.
  - assert (t <> u) by congruence. specialize (IH _ _ H1 H2 F1 F2 H). destruct (f x); cbn [b2z]; lia.
Qed.
Lemma cnt_zero f n : f Idle = false -> cnt f (repeat Idle n) = 0.
Proof. intros H. induction n; cbn [repeat cnt]; [reflexivity|]. rewrite H, IHn. reflexivity. Qed.
Lemma cnt_none f l : (forall t p, nth_error l t = Some p -> f p = false) -> cnt f l = 0.
Proof.
  induction l as [|x l IH]; intros H; cbn [cnt]; [reflexivity|]. rewrite (H 0%nat x eq_refl). rewrite IH; [reflexivity|].
  intros t p Hp. apply (H (S t) p Hp).
Qed.

Definition isHeld p := match p with Held => true | _ => false end.
Definition isW1 p := match p with W1 => true | _ => false end.
Definition isW2 p := match p with W2 => true | _ => false end.
Definition isW3 p := match p with W3 => true | _ => false end.
Definition isW4 p := match p with W4 => true | _ => false end.
Definition isN2 p := match p with N2 _ => true | _ => false end.
Definition isA2 p := match p with A2 _ => true | _ => false end.
Definition isA3 p := match p with A3 _ => true | _ => false end.
Definition rogue p := match p with A2 false | A3 false => true | _ => false end.
Definition waiting p := match p with W1 | W2 => true | _ => false end.

Record inv (s : cond) : Prop := {
  v_wn : c_wn s = cnt isW1 (c_th s) + cnt isW2 (c_th s) + cnt isW3 (c_th s);
  v_sema : 0 <= c_sema s;
  v_hold : cnt has_mutex (c_th s) = match c_owner s with Some _ => 1 | None => 0 end;
  v_sub : cnt isHeld (c_th s) + cnt isW1 (c_th s) + cnt isA2 (c_th s) + cnt isA3 (c_th s) <= cnt has_mutex (c_th s) + cnt rogue (c_th s);
  v_rogue : cnt rogue (c_th s) = 0;
  v_bc : b2z (c_bc s) = cnt isA2 (c_th s) + cnt isA3 (c_th s);
  v_a2 : cnt isA2 (c_th s) = 1 -> cnt isW2 (c_th s) <= c_sema s /\ b2z (0 <? c_wn s) + b2z (c_done s) + cnt isW4 (c_th s) = 1;
  v_a3 : cnt isA3 (c_th s) = 1 -> c_wn s = 0 /\ c_done s = false /\ cnt isW4 (c_th s) = 0;
  v_no : c_bc s = false -> c_done s = false /\ cnt isW4 (c_th s) = 0
}.
Lemma inv0 n : inv (cond0 n).
Proof. constructor; cbn [cond0 c_th c_owner c_wn c_sema c_done c_bc b2z]; rewrite ?cnt_zero by reflexivity; auto; lia. Qed.
(** the classes of threads behave as needed pointwise; v_sub holds for any list *)
Lemma sub_ok l : cnt isHeld l + cnt isW1 l + cnt isA2 l + cnt isA3 l <= cnt has_mutex l + cnt rogue l.
Proof. induction l as [|p l IH]; cbn [cnt]; [lia|]. destruct p as [| | | | | | |[]|[]|[]]; cbn [isHeld isW1 isA2 isA3 has_mutex rogue b2z]; lia. Qed.

Ltac counts th t H :=
  pose proof (cnt_pos isHeld th); pose proof (cnt_in isHeld th t _ H); pose proof (cnt_pos isW1 th); pose proof (cnt_pos isW2 th); pose proof (cnt_pos isW3 th); pose proof (cnt_pos isW4 th);
  pose proof (cnt_pos isA2 th); pose proof (cnt_pos isA3 th); pose proof (cnt_pos has_mutex th); pose proof (cnt_pos rogue th);
  pose proof (cnt_in isW1 th t _ H); pose proof (cnt_in isW2 th t _ H); pose proof (cnt_in isW3 th t _ H); pose proof (cnt_in isW4 th t _ H);
  pose proof (cnt_in isA2 th t _ H); pose proof (cnt_in isA3 th t _ H); pose proof (cnt_in has_mutex th t _ H); pose proof (cnt_in rogue th t _ H).
Lemma step_inv s t a s' l : inv s -> cstep s t a = Some (s', l) -> fair_use l -> inv s'.
Proof.
  intros I E [F1 F2]. destruct s as [th ow wn sema done bc]. destruct I as [I1 I2 I3 I4 I5 I6 I7 I8 I9].
  cbn [c_th c_owner c_wn c_sema c_done c_bc] in *. cbn [cstep] in E. destruct (nth_error th t) as [p|] eqn:Ep; [|discriminate].
  counts th t Ep.
  destruct p as [| | | | | | |h|h|h]; [destruct a| destruct a | | | | | | | |];
    try (destruct h); destruct ow as [o|], done, bc; cbn [back andb] in E;
    repeat match type of E with context [if ?c then _ else _] => destruct c eqn:? end;
    try discriminate; injection E as <- <-;
    try (exfalso; apply F2; cbn [In]; tauto); try (assert (false = true) by (apply (F1 t); left; reflexivity); discriminate);
    constructor; cbn [c_th c_owner c_wn c_sema c_done c_bc]; try apply sub_ok;
    repeat rewrite (cnt_upd _ _ _ _ _ Ep);
    cbn [isHeld isW1 isW2 isW3 isW4 isN2 isA2 isA3 has_mutex rogue b2z] in *; try discriminate;
    try lia; try (intros; repeat match goal with |- context [0 <? ?x] => destruct (Z.ltb_spec 0 x) | H : context [0 <? ?x] |- _ => destruct (Z.ltb_spec 0 x) end; cbn [b2z] in *; lia).
Qed.

(** ** histories *)
Lemma crun_app s a b : crun s (a ++ b) = let (s1, t1) := crun s a in let (s2, t2) := crun s1 b in (s2, t1 ++ t2).
Proof.
  revert s; induction a as [|[t x] a IH]; intros s; cbn [app crun].
  - destruct (crun s b). reflexivity.
  - destruct (cstep s t x) as [[s1 l]|].
    + rewrite IH. destruct (crun s1 a) as [s2 t2]. destruct (crun s2 b). rewrite app_assoc. reflexivity.
    + apply IH.
Qed.
Lemma fair_app a b : fair_use (a ++ b) <-> fair_use a /\ fair_use b.
Proof.
  unfold fair_use. split.
  - intros [H1 H2]. split; (split; [intros n h H; apply (H1 n h); apply in_or_app; auto|intros H; apply H2; apply in_or_app; auto]).
  - intros [[H1 H2] [H3 H4]]. split; [intros n h H; apply in_app_or in H; destruct H; eauto|intros H; apply in_app_or in H; tauto].
Qed.
Lemma snoc_split {A} (tr a b : list A) e x : tr ++ [e] = a ++ x :: b -> (b = [] /\ e = x /\ tr = a) \/ (exists b0, b = b0 ++ [e] /\ tr = a ++ x :: b0).
Proof.
  intros H. destruct b as [|y b].
  - left. apply app_inj_tail in H. destruct H as [-> ->]. auto.
  - right. destruct (@exists_last _ (y :: b)) as (b0 & z & E); [discriminate|]. rewrite E in *. exists b0.
    change (a ++ x :: b0 ++ [z]) with (a ++ (x :: b0) ++ [z]) in H. rewrite app_assoc in H.
    apply app_inj_tail in H. destruct H as [-> ->]. auto.
Qed.
Lemma waits_snoc tr e u : waits (tr ++ [e]) u <-> e = EWait u \/ (waits tr u /\ e <> EWoke u).
Proof.
  split.
  - intros (a & b & E & Hn). apply snoc_split in E. destruct E as [(_ & -> & _)|(b0 & -> & ->)]; auto.
    right. split; [exists a, b0; split; auto; intros H; apply Hn; apply in_or_app; auto|].
    intros ->. apply Hn. apply in_or_app. right. left. reflexivity.
  - intros [->|[(a & b & -> & Hn) He]].
    + exists tr, []. auto.
    + exists a, (b ++ [e]). rewrite <- app_assoc. split; auto. intros H. apply in_app_or in H. destruct H as [H|[H|[]]]; auto.
Qed.
Lemma ones_app a b : ones (a ++ b) = ones a + ones b. Proof. unfold ones. rewrite filter_app, zlen_app. reflexivity. Qed.
Lemma alls_app a b : alls (a ++ b) = alls a + alls b. Proof. unfold alls. rewrite filter_app, zlen_app. reflexivity. Qed.
Lemma wokes_app a b : wokes (a ++ b) = wokes a + wokes b. Proof. unfold wokes. rewrite filter_app, zlen_app. reflexivity. Qed.

(** what the history says about the state: w u: u is counted and has no unit yet; q: units in the semaphore or about to be released *)
Record told (w : nat -> bool) (q n : Z) (tr : list cev) : Prop := {
  j_wait : forall u, waits tr u <-> w u = true;
  j_credit : forall u a b, tr = a ++ EWait u :: b -> ~ In (EWoke u) b -> ones b - wokes b <= q;
  j_all : forall k h a b u, tr = a ++ EAll k h :: b -> waits a u ->
          (exists b1 b2, b = b1 ++ EWoke u :: b2 /\ ~ In (EAllRet k) b1) \/ (~ In (EAllRet k) b /\ ~ In (EWoke u) b);
  j_sum : wokes tr + q <= ones tr + n * alls tr;
  j_pos : 0 <= q
}.
Definition silent (e : cev) : Prop := match e with EReturn _ => True | _ => False end.
Lemma told_snoc w q n tr e w' q' : told w q n tr ->
  (forall u, w' u = true <-> e = EWait u \/ (w u = true /\ e <> EWoke u)) -> 0 <= q' ->
  (forall u, w u = true -> e <> EWoke u -> q + ones [e] - wokes [e] <= q') ->
  wokes [e] + q' <= q + ones [e] + n * alls [e] ->
  (forall k, e = EAllRet k -> forall u, w u = false) -> told w' q' n (tr ++ [e]).
Proof.
  intros [J1 J2 J3 J4 J5] Hw Hq Hc Hs Hr. constructor; auto.
  - intros u. rewrite waits_snoc, Hw, J1. reflexivity.
  - intros u a b E Hn. apply snoc_split in E. destruct E as [(-> & -> & ->)|(b0 & -> & ->)]; [cbn; lia|].
    rewrite ones_app, wokes_app. assert (Hn0 : ~ In (EWoke u) b0) by (intros H; apply Hn, in_or_app; auto).
    pose proof (J2 u a b0 eq_refl Hn0). assert (w u = true) by (apply J1; exists a, b0; auto).
    assert (e <> EWoke u) by (intros ->; apply Hn, in_or_app; right; left; reflexivity). specialize (Hc u). intuition lia.
  - intros k h a b u E Hu. apply snoc_split in E. destruct E as [(-> & -> & ->)|(b0 & -> & ->)]; [right; auto|].
    destruct (J3 k h a b0 u eq_refl Hu) as [(b1 & b2 & -> & Hb)|[Hb1 Hb2]].
    + left. exists b1, (b2 ++ [e]). rewrite <- app_assoc. auto.
    + destruct Hu as (a1 & a2 & -> & Ha).
      assert (Hwu : w u = true).
      { apply J1. exists a1, (a2 ++ EAll k h :: b0). rewrite <- app_assoc. split; auto. intros H. apply in_app_or in H.
        destruct H as [H|[H|H]]; auto. discriminate. }
      destruct e as [i|i|i|i|i hh|i|]; try (right; split; intros H; apply in_app_or in H; destruct H as [H|[H|[]]]; auto; discriminate).
      * destruct (Nat.eq_dec i u) as [->|Hne]; [left; exists b0, []; auto|].
        right. split; intros H; apply in_app_or in H; destruct H as [H|[H|[]]]; auto; congruence.
      * rewrite (Hr i eq_refl u) in Hwu. discriminate.
  - rewrite wokes_app, ones_app, alls_app. lia.
Qed.

Definition wt (s : cond) (u : nat) : bool := match nth_error (c_th s) u with Some p => waiting p | None => false end.
Definition units (s : cond) : Z := c_sema s + cnt isN2 (c_th s).
Lemma wt_upd th t p q u ow wn sm d bc : nth_error th t = Some p ->
  wt (mk_cond (upd th t q) ow wn sm d bc) u = if (u =? t)%nat then waiting q else wt (mk_cond th ow wn sm d bc) u.
Proof.
  intros H. unfold wt. cbn [c_th]. destruct (Nat.eqb_spec u t) as [->|Hn].
  - rewrite nth_error_upd_eq; auto. apply nth_error_Some. congruence.
  - rewrite nth_error_upd_ne; auto.
Qed.
Lemma wt_wn s u : inv s -> c_wn s = 0 -> wt s u = false.
Proof.
  intros [I1 _ _ _ _ _ _ _ _] H. unfold wt. destruct (nth_error (c_th s) u) as [p|] eqn:E; auto.
  pose proof (cnt_pos isW1 (c_th s)); pose proof (cnt_pos isW2 (c_th s)); pose proof (cnt_pos isW3 (c_th s)).
  pose proof (cnt_in isW1 _ _ _ E); pose proof (cnt_in isW2 _ _ _ E). destruct p; auto; cbn [isW1 isW2] in *; lia.
Qed.
Lemma cnt3_le l : cnt isW1 l + cnt isW2 l + cnt isW3 l <= zlen l.
Proof. induction l as [|p l IH]; cbn [cnt]; rewrite ?zlen_cons; [cbn; lia|]. destruct p; cbn [isW1 isW2 isW3 b2z]; lia. Qed.

(** the steps, as seen from outside *)
Lemma step_kind s t a s' l : inv s -> cstep s t a = Some (s', l) -> fair_use l ->
  let same := forall u, wt s' u = wt s u in
  let now b := forall u, wt s' u = if (u =? t)%nat then b else wt s u in
  length (c_th s') = length (c_th s) /\
  ( (l = [] \/ l = [EReturn t]) /\ same /\ units s' = units s
  \/ l = [EWait t] /\ now true /\ units s' = units s
  \/ l = [EWoke t] /\ now false /\ units s' = units s - 1
  \/ l = [EOne t] /\ same /\ (units s' = units s + 1 \/ c_wn s = 0 /\ units s' = units s)
  \/ l = [EAll t true] /\ same /\ units s' = units s + c_wn s
  \/ l = [EAll t true; EAllRet t] /\ same /\ units s' = units s /\ c_wn s = 0
  \/ l = [EAllRet t] /\ same /\ units s' = units s /\ c_wn s = 0).
Proof.
  intros I E [F1 F2] same now.
  assert (H0 : 0 <= c_wn s) by (rewrite (v_wn _ I); pose proof (cnt_pos isW1 (c_th s)); pose proof (cnt_pos isW2 (c_th s)); pose proof (cnt_pos isW3 (c_th s)); lia).
  destruct I as [I1 I2 I3 I4 I5 I6 I7 I8 I9]. destruct s as [th ow wn sema done bc]. subst same now.
  cbn [c_th c_owner c_wn c_sema c_done c_bc] in *. cbn [cstep] in E. destruct (nth_error th t) as [p|] eqn:Ep; [|discriminate].
  pose proof (cnt_in isA3 th t _ Ep) as HA3. pose proof (cnt_pos isA2 th) as HA2. pose proof (cnt_pos isA3 th) as HA3'.
  assert (Hwt : wt (mk_cond th ow wn sema done bc) t = waiting p) by (unfold wt; cbn [c_th]; rewrite Ep; reflexivity).
  unfold units. cbn [c_th c_sema].
  assert (Hsame : forall q ow' wn' sm' d' b', waiting q = waiting p ->
            forall u, wt (mk_cond (upd th t q) ow' wn' sm' d' b') u = wt (mk_cond th ow wn sema done bc) u).
  { intros q ow' wn' sm' d' b' Hq u. rewrite (wt_upd th t p) by exact Ep. destruct (Nat.eqb_spec u t) as [->|]; [|reflexivity].
    rewrite Hwt. exact Hq. }
  assert (Hnow : forall q ow' wn' sm' d' b' u, wt (mk_cond (upd th t q) ow' wn' sm' d' b') u
                 = if (u =? t)%nat then waiting q else wt (mk_cond th ow wn sema done bc) u).
  { intros. rewrite (wt_upd th t p) by exact Ep. reflexivity. }
  assert (Hcnt : forall q, cnt isN2 (upd th t q) = cnt isN2 th - b2z (isN2 p) + b2z (isN2 q)) by (intros; apply cnt_upd; exact Ep).
  destruct p as [| | | | | | |h|h|h]; [destruct a| destruct a | | | | | | | |]; cbn [isN2 b2z waiting] in *;
    repeat match type of E with context [if ?c then _ else _] => destruct c eqn:? | context [match ow with Some _ => _ | None => _ end] => destruct ow end;
    try discriminate; injection E as <- <-;
    try (exfalso; apply F2; cbn [In]; tauto); try (assert (false = true) by (apply (F1 t); left; reflexivity); discriminate);
    cbn [c_th c_sema]; rewrite ?upd_length, ?Hcnt; cbn [isN2 b2z]; (split; [reflexivity|]).
  - left. split; auto. split; [apply Hsame; reflexivity|lia].
  - right; right; right; left. split; auto. split; [apply Hsame; reflexivity|lia].
  - right; right; right; left. split; auto. split; [reflexivity|lia].
  - left. split; auto. split; [apply Hsame; reflexivity|lia].
  - right; left. split; auto. split; [apply Hnow|lia].
  - right; right; right; left. split; auto. split; [apply Hsame; reflexivity|lia].
  - right; right; right; left. split; auto. split; [reflexivity|lia].
  - right; right; right; right; left. split; auto. split; [apply Hsame; reflexivity|lia].
  - right; right; right; right; right; left. split; auto. split; [reflexivity|lia].
  - left. split; auto. split; [apply Hsame; reflexivity|lia].
  - right; right; left. split; auto. split; [apply Hnow|lia].
  - left. split; auto. split; [apply Hsame; reflexivity|lia].
  - left. split; auto. split; [apply Hsame; reflexivity|lia].
  - left. split; auto. split; [apply Hsame; reflexivity|lia].
  - left. split; auto. split; [apply Hsame; reflexivity|lia].
  - left. split; auto. split; [apply Hsame; destruct h; reflexivity|]. destruct h; cbn; lia.
  - left. split; auto. split; [apply Hsame; reflexivity|lia].
  - right; right; right; right; right; right. split; auto. split; [apply Hsame; destruct h; reflexivity|].
    cbn [isA3] in HA3. destruct bc; cbn [b2z] in I6; [|lia]. assert (cnt isA3 th = 1) by lia. split; [destruct h; cbn; lia|apply I8; auto].
Qed.
Ltac one_event := unfold ones, wokes, alls; cbn [filter]; rewrite ?zlen_cons, ?zlen_nil; lia.
Lemma step_told s t a s' l n tr : inv s -> zlen (c_th s) = n -> told (wt s) (units s) n tr -> cstep s t a = Some (s', l) -> fair_use l ->
  told (wt s') (units s') n (tr ++ l) /\ zlen (c_th s') = n.
Proof.
  intros I Hlen J E F. pose proof (step_inv _ _ _ _ _ I E F) as I'.
  assert (Hq' : 0 <= units s') by (unfold units; pose proof (cnt_pos isN2 (c_th s')); pose proof (v_sema _ I'); lia).
  assert (Hq : 0 <= units s) by (apply (j_pos _ _ _ _ J)).
  assert (Hwn0 : c_wn s = 0 -> forall u, wt s u = false) by (intros; apply wt_wn; auto).
  assert (Hwn1 : 0 <= c_wn s <= n) by (rewrite (v_wn _ I), <- Hlen; pose proof (cnt3_le (c_th s)); pose proof (cnt_pos isW1 (c_th s)); pose proof (cnt_pos isW2 (c_th s)); pose proof (cnt_pos isW3 (c_th s)); lia).
  destruct (step_kind _ _ _ _ _ I E F) as [Hl K]. split; [|unfold zlen in *; congruence].
  destruct K as [([->| ->] & K1 & K2)|[(-> & K1 & K2)|[(-> & K1 & K2)|[(-> & K1 & K2)|[(-> & K1 & K2)|[(-> & K1 & K2 & K3)|(-> & K1 & K2 & K3)]]]]]].
  - rewrite app_nil_r, K2. destruct J as [J1 J2 J3 J4 J5]. constructor; auto. intros u. rewrite K1. apply J1.
  - eapply told_snoc; [exact J|..]; auto; try discriminate; try (intros; one_event).
    intros u. rewrite K1. intuition congruence.
  - eapply told_snoc; [exact J|..]; auto; try discriminate; try (intros; one_event).
    intros u. rewrite K1. destruct (Nat.eqb_spec u t) as [->|]; intuition congruence.
  - eapply told_snoc; [exact J|..]; auto; try discriminate.
    + intros u. rewrite K1. destruct (Nat.eqb_spec u t) as [->|]; intuition congruence.
    + intros. one_event.
    + one_event.
  - eapply told_snoc; [exact J|..]; auto; try discriminate.
    + intros u. rewrite K1. intuition congruence.
    + intros u Hu _. destruct K2 as [K2|[K2 _]]; [one_event|]. rewrite (Hwn0 K2 u) in Hu. discriminate.
    + one_event.
  - eapply told_snoc; [exact J|..]; auto; try discriminate.
    + intros u. rewrite K1. intuition congruence.
    + intros. one_event.
    + one_event.
  - change [EAll t true; EAllRet t] with ([EAll t true] ++ [EAllRet t]). rewrite app_assoc. apply told_snoc with (w := wt s) (q := units s).
    + eapply told_snoc; [exact J|..]; auto; try discriminate; try (intros; one_event). intros u. intuition congruence.
    + intros u. rewrite K1. intuition congruence.
    + auto.
    + intros. one_event.
    + one_event.
    + intros. auto.
  - eapply told_snoc; [exact J|..]; auto; try discriminate.
    + intros u. rewrite K1. intuition congruence.
    + intros. one_event.
    + one_event.
Qed.
Lemma told0 n : told (wt (cond0 n)) (units (cond0 n)) (Z.of_nat n) [].
Proof.
  constructor; try (intros; destruct a; discriminate).
  - intros u. split; [intros ([|] & ? & H & _); discriminate|]. unfold wt. cbn [cond0 c_th].
    destruct (nth_error (repeat Idle n) u) as [p|] eqn:E; [|discriminate]. apply nth_error_In, repeat_spec in E. subst p. discriminate.
  - unfold units. cbn [cond0 c_sema c_th]. rewrite cnt_zero by reflexivity. cbn. lia.
  - unfold units. cbn [cond0 c_sema c_th]. rewrite cnt_zero by reflexivity. lia.
Qed.
Lemma run_told sch : forall s n tr s' l, inv s -> zlen (c_th s) = n -> told (wt s) (units s) n tr -> crun s sch = (s', l) -> fair_use l ->
  inv s' /\ told (wt s') (units s') n (tr ++ l) /\ zlen (c_th s') = n.
Proof.
  induction sch as [|[t a] sch IH]; intros s n tr s' l I Hn J E F; cbn [crun] in E.
  - injection E as <- <-. rewrite app_nil_r. auto.
  - destruct (cstep s t a) as [[s1 l1]|] eqn:Es; [|eapply IH; eauto].
    destruct (crun s1 sch) as [s2 l2] eqn:Er. injection E as <- <-. apply fair_app in F. destruct F as [F1 F2].
    destruct (step_told _ _ _ _ _ _ _ I Hn J Es F1) as [J1 Hn1]. pose proof (step_inv _ _ _ _ _ I Es F1) as I1.
    rewrite app_assoc. eapply IH; eauto.
Qed.
Lemma program_told n sch s tr : crun (cond0 n) sch = (s, tr) -> fair_use tr -> inv s /\ told (wt s) (units s) (Z.of_nat n) tr /\ zlen (c_th s) = Z.of_nat n.
Proof.
  intros E F. eapply (run_told sch _ _ [] _ _ (inv0 n)); eauto.
  - cbn. unfold zlen. rewrite repeat_length. reflexivity.
  - apply told0.
Qed.

(** ** C71 *)
(** C71: when notifyAll returns, every thread that was waiting when it was called has been woken *)
Theorem C71_notify_all : forall n sch s tr k h a b c t, crun (cond0 n) sch = (s, tr) -> fair_use tr ->
  tr = a ++ EAll k h :: b ++ EAllRet k :: c -> ~ In (EAllRet k) b -> waits a t -> In (EWoke t) b.
Proof.
  intros n sch s tr k h a b c t E F Et Hb Hw. destruct (program_told _ _ _ _ E F) as (_ & J & _).
  destruct (j_all _ _ _ _ J k h a _ t Et Hw) as [(b1 & b2 & Eb & Hn)|[H _]].
  - clear - Eb Hn. revert b Eb. induction b1 as [|x b1 IH]; intros [|y b] Eb; cbn [app] in Eb; injection Eb as ? Eb; subst.
    + discriminate.
    + left. reflexivity.
    + contradiction Hn. left. reflexivity.
    + right. apply IH; auto. intros H. apply Hn. right. exact H.
  - contradiction H. apply in_or_app. right. left. reflexivity.
Qed.
(** C71: a thread that waits and cannot go on while no notifyOne is under way: every notifyOne called since has woken some thread *)
Theorem C71_notify_one : forall n sch s tr a b t x, crun (cond0 n) sch = (s, tr) -> fair_use tr ->
  tr = a ++ EWait t :: b -> ~ In (EWoke t) b ->
  nth_error (c_th s) t = Some W2 -> cstep s t x = None -> (forall u h, nth_error (c_th s) u <> Some (N2 h)) ->
  ones b <= wokes b.
Proof.
  intros n sch s tr a b t x E F Et Hb Hp Hs Hq. destruct (program_told _ _ _ _ E F) as (I & J & _).
  pose proof (j_credit _ _ _ _ J t a b Et Hb) as Hc. unfold units in Hc.
  rewrite (cnt_none isN2) in Hc.
  - destruct s as [th ow wn sema done bc]. cbn [c_th c_sema] in *. cbn [cstep] in Hs. rewrite Hp in Hs.
    destruct (Z.ltb_spec 0 sema); [discriminate|]. lia.
  - intros u p Hu. destruct p; auto. contradiction (Hq u h Hu).
Qed.
(** C71: no thread is woken without a notification *)
Theorem C71_no_more : forall n sch s tr, crun (cond0 n) sch = (s, tr) -> fair_use tr ->
  wokes tr <= ones tr + Z.of_nat n * alls tr.
Proof. intros n sch s tr E F. destruct (program_told _ _ _ _ E F) as (_ & J & _). pose proof (j_sum _ _ _ _ J). pose proof (j_pos _ _ _ _ J). lia. Qed.
(** C71: at most one thread has the mutex; a thread that returns from wait has it *)
Theorem C71_mutex : forall n sch s tr i j p q, crun (cond0 n) sch = (s, tr) -> fair_use tr ->
  nth_error (c_th s) i = Some p -> nth_error (c_th s) j = Some q -> has_mutex p = true -> has_mutex q = true -> i = j.
Proof.
  intros n sch s tr i j p q E F Hi Hj Hp Hq. destruct (program_told _ _ _ _ E F) as (I & _).
  destruct (Nat.eq_dec i j) as [|Hne]; auto. pose proof (cnt_two _ _ _ _ _ _ Hi Hj Hp Hq Hne). pose proof (v_hold _ I). destruct (c_owner s); lia.
Qed.
Theorem C71_return : forall s t a s' l, cstep s t a = Some (s', l) -> In (EReturn t) l -> exists p, nth_error (c_th s') t = Some p /\ has_mutex p = true.
Proof.
  intros [th ow wn sema done bc] t a s' l E H. cbn [cstep] in E. destruct (nth_error th t) as [p|] eqn:Ep; [|discriminate].
  assert (Hlt : (t < length th)%nat) by (apply nth_error_Some; congruence).
  destruct p as [| | | | | | |h|h|h]; [destruct a| destruct a | | | | | | | |];
    repeat match type of E with context [if ?c then _ else _] => destruct c | context [match ow with Some _ => _ | None => _ end] => destruct ow end;
    try discriminate; injection E as <- <-; cbn [In] in H; try (intuition discriminate).
  exists Held. cbn [c_th]. split; [apply nth_error_upd_eq; exact Hlt|reflexivity].
Qed.

(** ** progress *)
(** how many steps a waiting thread needs until it is done with its part of a broadcast *)
Definition left_to_do (p : cpc) : nat := match p with W1 => 4 | W2 => 3 | W3 => 2 | W4 => 1 | _ => 0 end%nat.
Definition todo (s : cond) (u : nat) : nat := match nth_error (c_th s) u with Some p => left_to_do p | None => 0%nat end.
Definition turns (u : nat) (sch : list (nat * act)) : nat := count_occ Nat.eq_dec (map fst sch) u.
Lemma todo_upd th t p q u ow wn sm d bc : nth_error th t = Some p ->
  todo (mk_cond (upd th t q) ow wn sm d bc) u = if (u =? t)%nat then left_to_do q else todo (mk_cond th ow wn sm d bc) u.
Proof.
  intros H. unfold todo. cbn [c_th]. destruct (Nat.eqb_spec u t) as [->|Hn].
  - rewrite nth_error_upd_eq; auto. apply nth_error_Some. congruence.
  - rewrite nth_error_upd_ne; auto.
Qed.
(** a turn of thread t while k waits inside notifyAll *)
Lemma turn_ok s k t a : inv s -> nth_error (c_th s) k = Some (A2 true) ->
  match cstep s t a with
  | None => (todo s t = 0)%nat
  | Some (s', l) => fair_use l ->
      (nth_error (c_th s') k = Some (A2 true) /\ (forall u, u <> t -> todo s' u = todo s u) /\ (todo s' t <= todo s t - 1)%nat)
      \/ nth_error (c_th s') k = Some (A3 true)
  end.
Proof.
  intros I Hk. destruct (cstep s t a) as [[s' l]|] eqn:E.
  - intros [F1 F2]. destruct I as [I1 I2 I3 I4 I5 I6 I7 I8 I9]. destruct s as [th ow wn sema done bc].
    cbn [c_th c_owner c_wn c_sema c_done c_bc] in *. cbn [cstep] in E. destruct (nth_error th t) as [p|] eqn:Ep; [|discriminate].
    assert (Hlt : (t < length th)%nat) by (apply nth_error_Some; congruence).
    assert (Hone : forall q, nth_error th t = Some q -> has_mutex q = true -> t = k).
    { intros q Hq Hm. destruct (Nat.eq_dec t k) as [|Hne]; auto. pose proof (cnt_two _ _ _ _ _ _ Hq Hk Hm eq_refl Hne). destruct ow; lia. }
    destruct (Nat.eq_dec t k) as [->|Htk].
    + rewrite Hk in Ep. injection Ep as <-. destruct done; [|discriminate]. injection E as <- <-. right. cbn [c_th]. apply nth_error_upd_eq. exact Hlt.
    + assert (Hhas : has_mutex p = false) by (destruct (has_mutex p) eqn:Eh; auto; contradiction Htk; apply (Hone p); auto).
      assert (Hrog : rogue p = false) by (destruct (rogue p) eqn:Er; auto; pose proof (cnt_in _ _ _ _ Ep Er); lia).
      assert (Hbc : bc = true).
      { pose proof (cnt_in isA2 _ _ _ Hk eq_refl). pose proof (cnt_pos isA3 th). destruct bc; auto. cbn [b2z] in I6. lia. }
      left.
      assert (Hgo : forall q ow' wn' sm' d' b', (left_to_do q <= left_to_do p - 1)%nat ->
         nth_error (c_th (mk_cond (upd th t q) ow' wn' sm' d' b')) k = Some (A2 true) /\
         (forall u, u <> t -> todo (mk_cond (upd th t q) ow' wn' sm' d' b') u = todo (mk_cond th ow wn sema done bc) u) /\
         (todo (mk_cond (upd th t q) ow' wn' sm' d' b') t <= todo (mk_cond th ow wn sema done bc) t - 1)%nat).
      { intros q ow' wn' sm' d' b' Hq. split; [cbn [c_th]; rewrite nth_error_upd_ne; auto|]. split.
        - intros u Hu. rewrite (todo_upd th t p) by exact Ep. destruct (Nat.eqb_spec u t); [contradiction|reflexivity].
        - rewrite (todo_upd th t p) by exact Ep. rewrite Nat.eqb_refl. unfold todo. cbn [c_th]. rewrite Ep. exact Hq. }
      assert (Hself : left_to_do p = 0%nat ->
         nth_error (c_th (mk_cond th ow wn sema done bc)) k = Some (A2 true) /\
         (forall u, u <> t -> todo (mk_cond th ow wn sema done bc) u = todo (mk_cond th ow wn sema done bc) u) /\
         (todo (mk_cond th ow wn sema done bc) t <= todo (mk_cond th ow wn sema done bc) t - 1)%nat).
      { intros Hq. split; [exact Hk|]. split; [reflexivity|]. unfold todo. cbn [c_th]. rewrite Ep, Hq. lia. }
      destruct p as [| | | | | | |h|h|h]; [destruct a| destruct a | | | | | | | |]; try (destruct h); try discriminate; cbn [back] in E;
        repeat match type of E with context [if ?c then _ else _] => destruct c | context [match ow with Some _ => _ | None => _ end] => destruct ow end;
        try discriminate; injection E as <- <-;
        try (exfalso; apply F2; cbn [In]; tauto); try (assert (false = true) by (apply (F1 t); left; reflexivity); discriminate);
        try (apply Hgo; cbn; lia); apply Hself; reflexivity.
  - pose proof (v_a2 _ I) as I7. pose proof (v_bc _ I) as I6. destruct s as [th ow wn sema done bc]. unfold todo. cbn [c_th c_sema c_bc c_wn c_done] in *. cbn [cstep] in E.
    destruct (nth_error th t) as [p|] eqn:Ep; auto. pose proof (cnt_in isW2 _ _ _ Ep) as HW2.
    pose proof (cnt_in isA2 _ _ _ Hk eq_refl). pose proof (cnt_pos isA3 th).
    assert (cnt isA2 th = 1) by (destruct bc; cbn [b2z] in I6; lia). destruct (I7 H1) as [Hs _].
    destruct p as [| | | | | | |h|h|h]; try reflexivity; try discriminate.
    cbn [isW2] in HW2. specialize (HW2 eq_refl). destruct (Z.ltb_spec 0 sema); [discriminate|lia].
Qed.
(** notifyAll by k is under way, or done *)
Lemma a3_stays s k t a s' l : nth_error (c_th s) k = Some (A3 true) -> cstep s t a = Some (s', l) ->
  nth_error (c_th s') k = Some (A3 true) \/ In (EAllRet k) l.
Proof.
  intros Hk E. destruct (Nat.eq_dec t k) as [->|Hne].
  - destruct s as [th ow wn sema done bc]. cbn [c_th] in Hk. cbn [cstep] in E. rewrite Hk in E. injection E as <- <-. right. left. reflexivity.
  - left. destruct s as [th ow wn sema done bc]. cbn [c_th] in *. cbn [cstep] in E. destruct (nth_error th t) as [p|] eqn:Ep; [|discriminate].
    destruct p as [| | | | | | |h|h|h]; [destruct a| destruct a | | | | | | | |];
      repeat match type of E with context [if ?c then _ else _] => destruct c | context [match ow with Some _ => _ | None => _ end] => destruct ow end;
      try discriminate; injection E as <- <-; cbn [c_th]; rewrite ?nth_error_upd_ne by auto; exact Hk.
Qed.
Lemma a3_run sch : forall s k s' l, nth_error (c_th s) k = Some (A3 true) -> crun s sch = (s', l) ->
  nth_error (c_th s') k = Some (A3 true) \/ In (EAllRet k) l.
Proof.
  induction sch as [|[t a] sch IH]; intros s k s' l Hk E; cbn [crun] in E; [injection E as <- <-; auto|].
  destruct (cstep s t a) as [[s1 l1]|] eqn:Es; [|eapply IH; eauto]. destruct (crun s1 sch) as [s2 l2] eqn:Er. injection E as <- <-.
  destruct (a3_stays _ _ _ _ _ _ Hk Es) as [H|H]; [|right; apply in_or_app; auto].
  destruct (IH _ _ _ _ H Er); auto. right. apply in_or_app. auto.
Qed.
Lemma rounds sch : forall s k s' l, inv s -> nth_error (c_th s) k = Some (A2 true) -> crun s sch = (s', l) -> fair_use l ->
  (inv s' /\ nth_error (c_th s') k = Some (A2 true) /\ forall u, (todo s' u <= todo s u - turns u sch)%nat)
  \/ nth_error (c_th s') k = Some (A3 true) \/ In (EAllRet k) l.
Proof.
  induction sch as [|[t a] sch IH]; intros s k s' l I Hk E F; cbn [crun] in E.
  - injection E as <- <-. left. split; [exact I|]. split; [exact Hk|]. intros u. cbn. lia.
  - pose proof (turn_ok s k t a I Hk) as Ht. destruct (cstep s t a) as [[s1 l1]|] eqn:Es.
    + destruct (crun s1 sch) as [s2 l2] eqn:Er. injection E as <- <-. apply fair_app in F. destruct F as [F1 F2].
      destruct (Ht F1) as [(Hk1 & Hu & Htd)|Hk1].
      * destruct (IH s1 k s2 l2 (step_inv _ _ _ _ _ I Es F1) Hk1 Er F2) as [(I2 & Hk2 & Hu2)|[H|H]]; auto.
        -- left. split; [exact I2|]. split; [exact Hk2|]. intros u. specialize (Hu2 u). unfold turns in *. cbn [map fst count_occ].
           destruct (Nat.eq_dec t u) as [->|Hne]; [lia|]. rewrite (Hu u) in Hu2 by auto. lia.
        -- right; right. apply in_or_app. auto.
      * right. destruct (a3_run _ _ _ _ _ Hk1 Er); auto. right. apply in_or_app. auto.
    + destruct (IH s k s' l I Hk E F) as [(I2 & Hk2 & Hu2)|[H|H]]; auto.
      left. split; [exact I2|]. split; [exact Hk2|]. intros u. specialize (Hu2 u). unfold turns in *. cbn [map fst count_occ].
      destruct (Nat.eq_dec t u) as [->|Hne]; lia.
Qed.
(** C71: notifyAll always returns: whatever the other threads do, once every thread has had four turns, and the caller two more, it has *)
Theorem C71_notify_all_returns : forall n sch s tr k rest a1 a2 s' l, crun (cond0 n) sch = (s, tr) -> nth_error (c_th s) k = Some (A2 true) ->
  crun s (rest ++ [(k, a1); (k, a2)]) = (s', l) -> fair_use (tr ++ l) ->
  (forall u, (u < n)%nat -> (4 <= turns u rest)%nat) -> In (EAllRet k) l.
Proof.
  intros n sch s tr k rest a1 a2 s' l E Hk El F Hr. apply fair_app in F. destruct F as [F1 F2].
  destruct (program_told _ _ _ _ E F1) as (I & _ & Hlen). rewrite crun_app in El. destruct (crun s rest) as [s1 l1] eqn:E1.
  destruct (crun s1 [(k, a1); (k, a2)]) as [s2 l2] eqn:E2. injection El as <- <-. apply fair_app in F2. destruct F2 as [F2 F3].
  assert (Hmono : zlen (c_th s1) = Z.of_nat n) by (destruct (run_told rest s (Z.of_nat n) tr s1 l1 I Hlen) as (_ & _ & H); auto; apply (program_told _ _ _ _ E F1)).
  destruct (rounds rest s k s1 l1 I Hk E1 F2) as [(I1 & Hk1 & Hu)|[H|H]].
  - assert (Hz : forall u, todo s1 u = 0%nat).
    { intros u. destruct (lt_dec u n) as [Hu'|Hu'].
      - specialize (Hu u). specialize (Hr u Hu'). assert (todo s u <= 4)%nat by (unfold todo; destruct (nth_error _ u) as [[]|]; cbn; lia). lia.
      - unfold todo. replace (nth_error (c_th s1) u) with (@None cpc); auto. symmetry. apply nth_error_None. unfold zlen in Hmono. lia. }
    assert (Hcls : forall f, (forall p, f p = true -> left_to_do p <> 0%nat) -> cnt f (c_th s1) = 0).
    { intros f Hf. apply cnt_none. intros t p Hp. destruct (f p) eqn:Ef; auto. contradiction (Hf p Ef). specialize (Hz t). unfold todo in Hz. rewrite Hp in Hz. exact Hz. }
    assert (Hdone : c_done s1 = true).
    { pose proof (v_wn _ I1) as H1. rewrite !Hcls in H1 by (intros []; cbn; congruence).
      pose proof (cnt_in isA2 _ _ _ Hk1 eq_refl). pose proof (v_bc _ I1). pose proof (cnt_pos isA3 (c_th s1)).
      assert (HA : cnt isA2 (c_th s1) = 1) by (destruct (c_bc s1); cbn [b2z] in *; lia).
      destruct (v_a2 _ I1 HA) as [_ H4]. rewrite H1, Hcls in H4 by (intros []; cbn; congruence). destruct (c_done s1); auto; cbn in H4; lia. }
    destruct s1 as [th ow wn sema done bc]. cbn [c_th c_done] in *. subst done. cbn [crun cstep] in E2. rewrite Hk1 in E2. cbn [crun cstep] in E2.
    rewrite nth_error_upd_eq in E2 by (apply nth_error_Some; congruence). injection E2 as <- <-. apply in_or_app. right. left. reflexivity.
  - destruct s1 as [th ow wn sema done bc]. cbn [c_th] in *. cbn [crun cstep] in E2. rewrite H in E2.
    match type of E2 with (let (_, _) := ?x in _) = _ => destruct x as [s3 l3] end. injection E2 as <- <-. apply in_or_app. right. left. reflexivity.
  - apply in_or_app. auto.
Qed.

(** two waiters, one notifyOne, a broadcast under way and its end *)
Definition sch1 : list (nat * act) :=
  [(1,Lock);(1,Wait);(1,Go);(2,Lock);(2,Wait);(2,Go);(0,Lock);(0,One);(0,Go);(2,Go);(0,All)]%nat.
Definition sch2 : list (nat * act) :=
  [(0,Go);(1,Go);(2,Go);(0,Go);(1,Go);(2,Go);(0,Go);(1,Go);(2,Go);(1,Go);(2,Go);(0,Go)]%nat.
Example C71_ex : exists s s' l, crun (cond0 3) sch1 = (s, [EWait 1; EWait 2; EOne 0; EWoke 2; EAll 0 true]) /\
  nth_error (c_th s) 0 = Some (A2 true) /\ crun s (sch2 ++ [(0,Go);(0,Go)])%nat = (s', l) /\ l = [EWoke 1; EAllRet 0] /\
  fair_use ([EWait 1; EWait 2; EOne 0; EWoke 2; EAll 0 true] ++ l) /\ (forall u, (u < 3)%nat -> (4 <= turns u sch2)%nat).
Proof.
  do 3 eexists. split; [reflexivity|]. split; [reflexivity|]. split; [reflexivity|]. split; [reflexivity|]. split.
  - split; cbn; intros; intuition congruence.
  - intros [|[|[|u]]] H; cbn; lia.
Qed.
Example C71_blocked_ex : exists s tr, crun (cond0 3) [(1,Lock);(1,Wait);(1,Go);(2,Lock);(2,Wait);(2,Go);(0,One);(0,Go);(2,Go)]%nat = (s, tr) /\
  tr = [] ++ EWait 1 :: [EWait 2; EOne 0; EWoke 2] /\ nth_error (c_th s) 1 = Some W2 /\ cstep s 1 Go = None /\ fair_use tr /\
  (forall u h, nth_error (c_th s) u <> Some (N2 h)).
Proof.
  do 2 eexists. split; [reflexivity|]. split; [reflexivity|]. split; [reflexivity|]. split; [reflexivity|].
  split; [split; cbn; intros; intuition congruence|]. intros [|[|[|[|]]]] h; cbn; congruence.
Qed.

(** ** Finding: notifyAll without the mutex can hang: a thread that starts to wait meanwhile takes the unit of a thread that was
    waiting, which is not woken, and notifyAll waits for it for ever *)
Theorem C71_steal_finding : exists s,
  crun (cond0 3) [(1,Lock);(1,Wait);(1,Go);(0,All);(2,Lock);(2,Wait);(2,Go);(2,Go);(2,Go);(2,Go);(2,Unlock)]%nat
    = (s, [EWait 1; EAll 0 false; EWait 2; EWoke 2; EReturn 2]) /\
  c_th s = [A2 false; W2; Idle] /\ c_owner s = None /\ (forall a, cstep s 0 a = None) /\ (forall a, cstep s 1 a = None).
Proof. eexists. repeat split. Qed.
(** ** Finding: a notification is kept: two calls of notifyOne for one waiting thread make a later wait return without a notification *)
Theorem C71_stored_finding : exists s tr,
  crun (cond0 2) [(1,Lock);(1,Wait);(1,Go);(0,One);(0,Go);(0,One);(0,Go);(1,Go);(1,Go);(1,Go);(1,Wait);(1,Go);(1,Go);(1,Go);(1,Go)]%nat = (s, tr) /\
  tr = [EWait 1; EOne 0; EOne 0; EWoke 1; EReturn 1] ++ [EWait 1; EWoke 1; EReturn 1].
Proof. do 2 eexists. split; reflexivity. Qed.

Print Assumptions C71_notify_all.
Print Assumptions C71_notify_one.
Print Assumptions C71_no_more.
Print Assumptions C71_mutex.
Print Assumptions C71_return.
Print Assumptions C71_notify_all_returns.
Print Assumptions C71_steal_finding.
Print Assumptions C71_stored_finding.
