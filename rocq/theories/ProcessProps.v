(** Theorems about process.hpp: C66 (what Start reports), C67 (descriptors and arguments), C68 (Process objects and exit codes),
    C69 (the Windows command line). *)
Require Import Verif.Common Verif.ProcessModel.

(** ** tables *)
Definition same (t t' : fdt) : Prop := forall n, look t n = look t' n.

Lemma look_set_eq t n v : look (setd t n v) n = v.
Proof. revert t. induction n; intros t; cbn; auto. apply IHn. Qed.
Lemma look_set_ne t n m v : n <> m -> look (setd t n v) m = look t m.
Proof.
  revert t m. induction n as [|n IH]; intros t m H; destruct m as [|m]; cbn [setd]; unfold look; cbn [nth].
  - congruence.
  - destruct t; cbn; [destruct m; reflexivity|reflexivity].
  - destruct t; reflexivity.
  - change (look (setd (tl t) n v) m = nth (S m) t None). rewrite IH by congruence.
    destruct t; cbn; [unfold look; cbn; destruct m; reflexivity|reflexivity].
Qed.
Lemma look_set t n m v : look (setd t n v) m = if Nat.eqb n m then v else look t m.
Proof. destruct (Nat.eqb_spec n m) as [->|]; [apply look_set_eq|now apply look_set_ne]. Qed.
Lemma look_lowest t : look t (lowest t) = None.
Proof. induction t as [|[e|] t IH]; cbn; auto. Qed.
Lemma lowest_below t n : (n < lowest t)%nat -> look t n <> None.
Proof.
  revert n. induction t as [|[e|] t IH]; intros n H; cbn in H; try lia.
  destruct n; cbn; [congruence|]. apply IH. lia.
Qed.
Lemma look_close_from k f t m : look (close_from k f t) m = if (f <=? m)%nat && (m <? f + k)%nat then None else look t m.
Proof.
  revert f t. induction k as [|k IH]; intros f t; cbn [close_from].
  - destruct (Nat.leb_spec f m), (Nat.ltb_spec m (f + 0)); cbn; auto; lia.
  - rewrite IH, look_set.
    destruct (Nat.leb_spec (S f) m), (Nat.ltb_spec m (S f + k)), (Nat.leb_spec f m), (Nat.ltb_spec m (f + S k)), (Nat.eqb_spec f m); cbn; auto; lia.
Qed.
Lemma holds_look o t : holds o t = true <-> exists n, is_obj o (look t n) = true.
Proof.
  unfold holds. rewrite existsb_exists. split.
  - intros (x & Hin & E). apply (In_nth _ _ None) in Hin. destruct Hin as (n & _ & En). exists n. unfold look. now rewrite En.
  - intros (n & E). destruct (Nat.lt_ge_cases n (length t)) as [L|L].
    + exists (look t n). split; auto. apply nth_In. exact L.
    + unfold look in E. rewrite nth_overflow in E by lia. destruct o; discriminate.
Qed.
Lemma holds_not o t : holds o t = false <-> forall n, is_obj o (look t n) = false.
Proof.
  split.
  - intros H n. destruct (is_obj o (look t n)) eqn:E; auto.
    assert (holds o t = true) by (apply holds_look; eauto). congruence.
  - intros H. destruct (holds o t) eqn:E; auto. apply holds_look in E. destruct E as (n & E). rewrite H in E. congruence.
Qed.
Lemma look_exec t n : look (at_exec t) n = match look t n with Some (_, true) => None | e => e end.
Proof.
  revert n. induction t as [|x t IH]; intros n; [destruct n; reflexivity|].
  destruct n as [|n]; [cbn; destruct x as [[o [|]]|]; reflexivity|apply (IH n)].
Qed.

(** ** specification *)
(** the caller holds no end of the pipe that Start is going to make *)
Definition fresh (t : fdt) : Prop := forall n, is_obj FPipeR (look t n) = false /\ is_obj FPipeW (look t n) = false.
(** n is the k-th free number of the table (k = 0: the lowest) *)
Definition free (t : fdt) (n : nat) : Prop := look t n = None.
Definition first_free (t : fdt) (r : nat) : Prop := free t r /\ forall n, (n < r)%nat -> ~ free t n.
(** r and w are the two lowest free numbers: those of the reading and the writing end *)
Definition ends (t : fdt) (r w : nat) : Prop :=
  first_free t r /\ (r < w)%nat /\ free t w /\ forall n, (n < w)%nat -> n <> r -> ~ free t n.
(** the bound of the loop that closes descriptors in the child, when it is defined *)
Definition limit (e : env) : option Z := if e_sysconf e <? 0 then Some 1024 else e_junk e.
Definition runs (o : sout) : Prop := exists argv t, s_child o = Some (CRuns argv t).

Lemma lowest_first t : first_free t (lowest t).
Proof. split; [apply look_lowest|intros n H E; now apply (lowest_below _ _ H)]. Qed.
Lemma first_free_lowest t r : first_free t r -> r = lowest t.
Proof.
  intros [H1 H2]. destruct (Nat.lt_trichotomy r (lowest t)) as [L|[E|L]]; auto.
  - now apply lowest_below in L.
  - apply H2 in L. contradiction (L (look_lowest t)).
Qed.
Lemma ends_w t r w b : ends t r w -> r = lowest t /\ w = lowest (setd t r (Some (FPipeR, b))).
Proof.
  intros (F & L & Fw & H). split; [now apply first_free_lowest|]. apply first_free_lowest. split.
  - unfold free in *. rewrite look_set_ne; auto. lia.
  - intros n Hn E. unfold free in E. rewrite look_set in E. destruct (Nat.eqb_spec r n); [discriminate|].
    apply (H n); auto.
Qed.
Lemma ends_exist t : exists r w, ends t r w.
Proof.
  exists (lowest t), (lowest (setd t (lowest t) (Some (FPipeR, false)))).
  pose proof (lowest_first t) as F. pose proof (lowest_first (setd t (lowest t) (Some (FPipeR, false)))) as [G1 G2].
  unfold free in *. rewrite look_set in G1.
  destruct (Nat.eqb_spec (lowest t) (lowest (setd t (lowest t) (Some (FPipeR, false))))) as [E|E]; [discriminate|].
  assert (L : (lowest t < lowest (setd t (lowest t) (Some (FPipeR, false))))%nat).
  { destruct (Nat.lt_trichotomy (lowest t) (lowest (setd t (lowest t) (Some (FPipeR, false))))) as [L|[L|L]]; auto; try lia.
    destruct F as [_ F]. now apply F in L. }
  split; [exact F|]. split; [exact L|]. split; [exact G1|].
  intros n Hn Hr Ef. apply (G2 n Hn). rewrite look_set_ne by congruence. exact Ef.
Qed.

(** ** the caller's side *)
Section Run.
Context (e : env) (t : fdt) (exe : list Z) (arg : list (list Z)) (cs : bool) (r w : nat).
Context (Hp : e_pipe e = true) (Hf : e_fcntl e = true) (Hends : ends t r w).
(** the table after Pipe::init *)
Definition tinit : fdt := setd (setd (setd t r (Some (FPipeR, false))) w (Some (FPipeW, false))) w (Some (FPipeW, true)).
Lemma init_ok : pipe_init e t = (true, mk_pipe (Some r) (Some w), tinit).
Proof.
  unfold pipe_init, tinit. rewrite Hp, Hf. cbn [negb]. destruct (ends_w t r w false Hends) as [<- <-]. reflexivity.
Qed.
Lemma look_tinit n : look tinit n = if Nat.eqb w n then Some (FPipeW, true) else if Nat.eqb r n then Some (FPipeR, false) else look t n.
Proof. unfold tinit. rewrite !look_set. destruct (Nat.eqb w n); reflexivity. Qed.
End Run.

Lemma rw_ne t r w : ends t r w -> r <> w.
Proof. intros (_ & L & _). lia. Qed.

(** the effect of toDevNull: newFd is the lowest free number *)
Lemma toDevNull_look e i fd b t ok t' : toDevNull e i fd b t = (ok, t') ->
  forall n, look t' n = if ok && Nat.eqb n fd && negb (Nat.eqb n (lowest t)) then Some (FNull b, false)
                        else look t n.
Proof.
  unfold toDevNull. intros H n.
  destruct (e_open e i); cbn [negb] in H; [|injection H as <- <-; reflexivity].
  destruct (e_dup e i); injection H as <- <-; cbn [andb].
  - destruct (Nat.eqb_spec (lowest t) fd) as [E|E].
    + rewrite !look_set. destruct (Nat.eqb_spec (lowest t) n) as [En|En].
      * subst n. rewrite Nat.eqb_refl. cbn [negb]. rewrite andb_false_r. symmetry. apply look_lowest.
      * destruct (Nat.eqb_spec n fd); [congruence|reflexivity].
    + rewrite !look_set. destruct (Nat.eqb_spec (lowest t) n) as [En|En].
      * subst n. rewrite Nat.eqb_refl. cbn [negb]. rewrite andb_false_r. symmetry. apply look_lowest.
      * destruct (Nat.eqb_spec n (lowest t)); [congruence|]. cbn [negb]. rewrite andb_true_r.
        destruct (Nat.eqb_spec fd n), (Nat.eqb_spec n fd); try congruence; reflexivity.
  - rewrite !look_set. destruct (Nat.eqb_spec (lowest t) n) as [En|En]; auto. subst n. symmetry. apply look_lowest.
Qed.

Lemma toDevNull_high e i fd b t ok t' : toDevNull e i fd b t = (ok, t') -> forall n, n <> fd -> look t' n = look t n.
Proof.
  intros H n Hn. rewrite (toDevNull_look _ _ _ _ _ _ _ H). destruct (Nat.eqb_spec n fd); [congruence|].
  rewrite andb_false_r. reflexivity.
Qed.
Lemma toDevNull_or e i fd b t ok t' : toDevNull e i fd b t = (ok, t') ->
  forall n, look t' n = look t n \/ look t' n = Some (FNull b, false).
Proof. intros H n. rewrite (toDevNull_look _ _ _ _ _ _ _ H). destruct (_ && _); auto. Qed.
(** if the descriptor is open, it becomes the null device *)
Lemma toDevNull_open e i fd b t t' : toDevNull e i fd b t = (true, t') -> look t fd <> None -> look t' fd = Some (FNull b, false).
Proof.
  intros H Ho. rewrite (toDevNull_look _ _ _ _ _ _ _ H). cbn [andb]. rewrite Nat.eqb_refl.
  destruct (Nat.eqb_spec fd (lowest t)) as [E|]; [|reflexivity]. rewrite E, look_lowest in Ho. congruence.
Qed.
Definition null_ent (x : option (fobj * bool)) : Prop := exists b, x = Some (FNull b, false).
Lemma stdio_look e cs t ok t' : stdio e cs t = (ok, t') ->
  (forall n, (cs = false \/ (3 <= n)%nat) -> look t' n = look t n) /\
  (forall n, look t' n = look t n \/ null_ent (look t' n)).
Proof.
  unfold stdio. destruct cs; [|intros H; injection H as <- <-; auto].
  destruct (toDevNull e 0 0 true t) as [ok0 t0] eqn:E0. intros H.
  pose proof (toDevNull_high _ _ _ _ _ _ _ E0) as A0. pose proof (toDevNull_or _ _ _ _ _ _ _ E0) as B0.
  destruct ok0; cbn [negb] in H; [|injection H as <- <-].
  2:{ split; intros n; [intros [Hc|Hn]; [discriminate|apply A0; lia]|destruct (B0 n); [auto|right; eexists; eauto]]. }
  destruct (toDevNull e 1 1 false t0) as [ok1 t1] eqn:E1.
  pose proof (toDevNull_high _ _ _ _ _ _ _ E1) as A1. pose proof (toDevNull_or _ _ _ _ _ _ _ E1) as B1.
  assert (C1 : (forall n, (3 <= n)%nat -> look t1 n = look t n) /\ (forall n, look t1 n = look t n \/ null_ent (look t1 n))).
  { split; intros n.
    - intros Hn. rewrite A1, A0 by lia. reflexivity.
    - destruct (B1 n) as [->|]; [destruct (B0 n)|]; auto; right; eexists; eauto. }
  destruct ok1; cbn [negb] in H; [|injection H as <- <-].
  2:{ split; intros n; [intros [Hc|Hn]; [discriminate|now apply C1]|apply C1]. }
  pose proof (toDevNull_high _ _ _ _ _ _ _ H) as A2. pose proof (toDevNull_or _ _ _ _ _ _ _ H) as B2.
  split; intros n.
  - intros [Hc|Hn]; [discriminate|]. rewrite A2 by lia. now apply C1.
  - destruct (B2 n) as [->|]; [apply C1|]. right; eexists; eauto.
Qed.
Lemma stdio_null e t t' : stdio e true t = (true, t') -> (forall n, (n < 3)%nat -> look t n <> None) ->
  look t' 0 = Some (FNull true, false) /\ look t' 1 = Some (FNull false, false) /\ look t' 2 = Some (FNull false, false).
Proof.
  unfold stdio. intros H Ho.
  destruct (toDevNull e 0 0 true t) as [ok0 t0] eqn:E0. destruct ok0; cbn [negb] in H; [|discriminate].
  destruct (toDevNull e 1 1 false t0) as [ok1 t1] eqn:E1. destruct ok1; cbn [negb] in H; [|discriminate].
  pose proof (toDevNull_high _ _ _ _ _ _ _ E0) as A0. pose proof (toDevNull_high _ _ _ _ _ _ _ E1) as A1.
  pose proof (toDevNull_high _ _ _ _ _ _ _ H) as A2.
  apply toDevNull_open in E0; [|apply Ho; lia].
  apply toDevNull_open in E1; [|rewrite A0 by lia; apply Ho; lia].
  apply toDevNull_open in H; [|rewrite A1, A0 by lia; apply Ho; lia].
  rewrite A2, A1 by lia. rewrite A2 by lia. auto.
Qed.

(** the child, in the table it inherits: what it has written, what it runs *)
Lemma child_cases e t exe arg cs r w c byte : fresh t -> ends t r w ->
  child e (mk_pipe (Some r) (Some w)) (tinit t r w) exe arg cs = Ok (c, byte) ->
  exists ok t1, stdio e cs (setd (tinit t r w) r None) = (ok, t1) /\
  (ok = false /\ c = CExits /\ byte = (e_write e && is_obj FPipeW (look t1 w)) \/
   ok = true /\ exists v, limit e = Some v /\
   let t2 := close_from (Z.to_nat (v - 3)) 3 t1 in
   (e_exec e = true /\ c = CRuns (c_str exe :: map c_str arg) (at_exec t2) /\ byte = false \/
    e_exec e = false /\ c = CExits /\ byte = (e_write e && is_obj FPipeW (look t2 w)))).
Proof.
  intros Hfr He. unfold child, close_r. cbn [p_r p_w].
  destruct (stdio e cs (setd (tinit t r w) r None)) as [ok t1] eqn:Es. intros H. exists ok, t1. split; auto.
  destruct ok; cbn [negb] in H; [right|left].
  2:{ unfold child_err in H. cbn [p_w] in H. injection H as <- <-. auto. }
  split; auto. unfold limit.
  assert (Hv : exists v, (if e_sysconf e <? 0 then Ok 1024 else match e_junk e with Some v => Ok v | None => UB end) = Ok v /\
               (if e_sysconf e <? 0 then Some 1024 else e_junk e) = Some v).
  { destruct (e_sysconf e <? 0); [eauto|]. destruct (e_junk e); [eauto|discriminate]. }
  destruct Hv as (v & Ev & El). rewrite Ev in H. cbn [bind] in H. exists v. split; auto.
  destruct (e_exec e); [left|right]; [injection H as <- <-; auto|].
  unfold child_err in H. cbn [p_w] in H. injection H as <- <-. auto.
Qed.

Lemma parent_fds t r w : ends t r w -> same (setd (setd (tinit t r w) w None) r None) t.
Proof.
  intros He n. pose proof (rw_ne _ _ _ He) as Hne. destruct He as ([Fr _] & _ & Fw & _). unfold free in *.
  rewrite !look_set, look_tinit.
  destruct (Nat.eqb_spec r n) as [<-|]; [congruence|]. destruct (Nat.eqb_spec w n) as [<-|]; congruence.
Qed.
Lemma parent_fds' t r w : ends t r w -> same (setd (setd (tinit t r w) r None) w None) t.
Proof.
  intros He n. pose proof (rw_ne _ _ _ He) as Hne. destruct He as ([Fr _] & _ & Fw & _). unfold free in *.
  rewrite !look_set, look_tinit.
  destruct (Nat.eqb_spec w n) as [<-|]; [congruence|]. destruct (Nat.eqb_spec r n) as [<-|]; congruence.
Qed.
Lemma init_fail e t r w p t' : ends t r w -> pipe_init e t = (false, p, t') -> same (pipe_dtor p t') t.
Proof.
  intros He. unfold pipe_init. destruct (e_pipe e); cbn [negb].
  2:{ intros H. injection H as <- <-. intros n. reflexivity. }
  destruct (ends_w t r w false He) as [<- <-]. destruct (e_fcntl e); cbn [negb]; [discriminate|].
  intros H. injection H as <- <-. unfold pipe_dtor, close_r, close_w. cbn [p_r p_w snd]. intros n.
  pose proof (rw_ne _ _ _ He) as Hne. destruct He as ([Fr _] & _ & Fw & _). unfold free in *. rewrite !look_set.
  destruct (Nat.eqb_spec w n) as [<-|]; [congruence|]. destruct (Nat.eqb_spec r n) as [<-|]; congruence.
Qed.

(** after exec the writing end is closed: it is marked close-on-exec, and nothing else refers to it *)
Lemma exec_closes e t cs r w ok t1 v : fresh t -> ends t r w -> stdio e cs (setd (tinit t r w) r None) = (ok, t1) ->
  holds FPipeW (at_exec (close_from v 3 t1)) = false.
Proof.
  intros Hfr He Es. apply holds_not. intros n. rewrite look_exec, look_close_from.
  destruct (_ && _); [reflexivity|]. apply stdio_look in Es. destruct Es as [_ Es]. destruct (Es n) as [E|[b E]]; rewrite E.
  - rewrite look_set, look_tinit. destruct (Nat.eqb r n); [reflexivity|]. destruct (Nat.eqb w n); [reflexivity|].
    specialize (Hfr n). destruct (look t n) as [[[] []]|]; cbn in *; intuition congruence.
  - reflexivity.
Qed.

Lemma Start_cases e t exe arg cs r w : fresh t -> ends t r w ->
  match Start e t exe arg cs with
  | Ok o => same (s_fds o) t /\
    ((e_pipe e = false \/ e_fcntl e = false \/ e_fork e = None) /\ s_ret o = false /\ s_hdl o = None /\ s_child o = None \/
     exists pid c byte, e_pipe e = true /\ e_fcntl e = true /\ e_fork e = Some pid /\
       child e (mk_pipe (Some r) (Some w)) (tinit t r w) exe arg cs = Ok (c, byte) /\ s_child o = Some c /\
       s_ret o = negb (byte && negb (e_intr e)) /\ s_hdl o = (if s_ret o then Some pid else None))
  | UB => limit e = None /\ e_pipe e = true /\ e_fcntl e = true /\ e_fork e <> None
  | _ => False
  end.
Proof.
  intros Hfr He. unfold Start. destruct (pipe_init e t) as [[ok p] t'] eqn:Ei.
  destruct ok; cbn [negb].
  2:{ cbn [s_fds s_ret s_hdl s_child]. split; [eapply init_fail; eauto|]. left. unfold pipe_init in Ei.
      destruct (e_pipe e); [|auto]. destruct (e_fcntl e); [|auto]. cbn in Ei. congruence. }
  assert (Hp : e_pipe e = true) by (unfold pipe_init in Ei; destruct (e_pipe e); cbn in Ei; congruence).
  assert (Hf : e_fcntl e = true).
  { unfold pipe_init in Ei. rewrite Hp in Ei. cbn [negb] in Ei. destruct (e_fcntl e); cbn in Ei; congruence. }
  rewrite (init_ok e t r w Hp Hf He) in Ei. injection Ei as <- <-.
  destruct (e_fork e) as [pid|] eqn:Efk.
  2:{ cbn [s_fds s_ret s_hdl s_child]. split; [|left; auto].
      unfold pipe_dtor, close_r, close_w. cbn [p_r p_w snd]. now apply parent_fds'. }
  destruct (child e (mk_pipe (Some r) (Some w)) (tinit t r w) exe arg cs) as [[c byte]| | |] eqn:Ec; cbn [bind].
  - pose proof (rw_ne _ _ _ He) as Hne.
    unfold close_w at 1. cbn [p_r p_w]. unfold pipe_read. cbn [p_r].
    rewrite look_set, look_tinit, Nat.eqb_refl. destruct (Nat.eqb_spec w r) as [|_]; [congruence|]. cbn [is_obj negb]. rewrite orb_false_r.
    assert (Hd : same (pipe_dtor (mk_pipe (Some r) None) (setd (tinit t r w) w None)) t).
    { unfold pipe_dtor, close_r, close_w. cbn [p_r p_w snd]. now apply parent_fds. }
    assert (Hh : holds FPipeW (setd (tinit t r w) w None) = false).
    { apply holds_not. intros n. rewrite look_set, look_tinit. destruct (Nat.eqb w n); [reflexivity|].
      destruct (Nat.eqb r n); [reflexivity|apply Hfr]. }
    assert (Hc : match c with CRuns _ t' => holds FPipeW t' | CExits => false end = false).
    { destruct (child_cases _ _ _ _ _ _ _ _ _ Hfr He Ec) as (ok & t1 & Es & Hcase).
      destruct Hcase as [(_ & -> & _)|(_ & v & _ & [(_ & -> & _)|(_ & -> & _)])]; auto. eapply exec_closes; eauto. }
    rewrite Hh, Hc. cbn [orb].
    destruct (e_intr e); [|destruct byte]; cbn [bind]; cbn [Z.eqb Pos.eqb s_fds s_ret s_hdl s_child]; (split; [exact Hd|]); right;
      exists pid, c; eexists; rewrite ?andb_false_r; cbn [negb andb]; intuition eauto.
  - exfalso. unfold child in Ec. unfold close_r in Ec. cbn [p_r] in Ec.
    destruct (stdio _ _ _) as [ok t1]. destruct ok; cbn [negb] in Ec; [|discriminate].
    destruct (e_sysconf e <? 0); [|destruct (e_junk e)]; cbn [bind] in Ec; try discriminate; destruct (e_exec e); discriminate.
  - unfold child, close_r in Ec. cbn [p_r p_w] in Ec. unfold limit.
    destruct (stdio _ _ _) as [ok t1]. destruct ok; cbn [negb] in Ec; [|discriminate].
    destruct (e_sysconf e <? 0); [|destruct (e_junk e)]; cbn [bind] in Ec;
      try (destruct (e_exec e); discriminate).
    repeat split; auto. congruence.
  - exfalso. unfold child in Ec. unfold close_r in Ec. cbn [p_r] in Ec.
    destruct (stdio _ _ _) as [ok t1]. destruct ok; cbn [negb] in Ec; [|discriminate].
    destruct (e_sysconf e <? 0); [|destruct (e_junk e)]; cbn [bind] in Ec; try discriminate; destruct (e_exec e); discriminate.
Qed.

(** ** C66: what Start reports *)

(** the child can still write into the pipe when execv fails: the loop that closes descriptors stops before it, it is not one of the
    standard descriptors being replaced, and neither the write nor the caller's read is disturbed *)
Definition notice_arrives (e : env) (cs : bool) (w : nat) : Prop :=
  (forall v, limit e = Some v -> (w < 3)%nat \/ v <= Z.of_nat w) /\ (cs = true -> (3 <= w)%nat) /\ e_write e = true /\ e_intr e = false.

(** C66: Start returns true exactly if the program runs in a child, and then *hdl is its pid; otherwise *hdl is not touched *)
Theorem C66_reported : forall e t exe arg cs r w o, fresh t -> ends t r w -> notice_arrives e cs w ->
  Start e t exe arg cs = Ok o ->
  (s_ret o = true <-> runs o) /\ s_hdl o = (if s_ret o then e_fork e else None).
Proof.
  intros e t exe arg cs r w o Hfr He (Hl & Hc & Hw & Hi) E.
  pose proof (Start_cases e t exe arg cs r w Hfr He) as H. rewrite E in H. destruct H as (_ & [(_ & Hr & Hh & Hch)|H]).
  - rewrite Hr, Hh. split; auto. split; [congruence|]. intros (argv & t' & Hx). congruence.
  - destruct H as (pid & c & byte & Hp & Hf & Hk & Ec & Hch & Hr & Hh). rewrite Hi in Hr. cbn [negb] in Hr. rewrite andb_true_r in Hr.
    split; [|rewrite Hk; exact Hh]. unfold runs. rewrite Hch, Hr.
    destruct (child_cases _ _ _ _ _ _ _ _ _ Hfr He Ec) as (ok & t1 & Es & Hcase).
    pose proof (rw_ne _ _ _ He) as Hne.
    assert (Lw : is_obj FPipeW (look t1 w) = true).
    { apply stdio_look in Es. destruct Es as [Es _]. rewrite Es.
      - rewrite look_set, look_tinit. destruct (Nat.eqb_spec r w); [congruence|]. rewrite Nat.eqb_refl. reflexivity.
      - destruct cs; auto. }
    destruct Hcase as [(_ & -> & ->)|(_ & v & Ev & [(_ & -> & ->)|(_ & -> & ->)])].
    + rewrite Hw, Lw. cbn. split; [congruence|]. intros (a & b & Hx). congruence.
    + cbn. split; eauto.
    + rewrite Hw, look_close_from.
      destruct (Nat.leb_spec 3 w), (Nat.ltb_spec w (3 + Z.to_nat (v - 3))); cbn [andb]; rewrite ?Lw; cbn;
        try (split; [congruence|]; intros (a & b & Hx); congruence).
      exfalso. destruct (Hl v Ev); lia.
Qed.

(** C66: if every step succeeds the program is run, with the arguments given, each up to its first NUL *)
Theorem C66_runs : forall e t exe arg cs pid v, fresh t ->
  e_pipe e = true -> e_fcntl e = true -> e_fork e = Some pid -> (cs = true -> forall i, (i < 3)%nat -> e_open e i = true /\ e_dup e i = true) ->
  limit e = Some v -> e_exec e = true ->
  exists o t', Start e t exe arg cs = Ok o /\ s_ret o = true /\ s_hdl o = Some pid /\ s_child o = Some (CRuns (c_str exe :: map c_str arg) t').
Proof.
  intros e t exe arg cs pid v Hfr Hp Hf Hk Hs Hl Hx. destruct (ends_exist t) as (r & w & He).
  pose proof (Start_cases e t exe arg cs r w Hfr He) as H.
  destruct (Start e t exe arg cs) as [o| | |]; try contradiction; [|destruct H; congruence].
  destruct H as (_ & [([H|[H|H]] & _)|H]); try congruence.
  destruct H as (pid' & c & byte & _ & _ & Hk' & Ec & Hch & Hr & Hh).
  destruct (child_cases _ _ _ _ _ _ _ _ _ Hfr He Ec) as (ok & t1 & Es & Hcase).
  assert (Hok : ok = true).
  { unfold stdio in Es. destruct cs; [|congruence]. unfold toDevNull in Es.
    destruct (Hs eq_refl 0%nat ltac:(lia)) as [O0 D0]. destruct (Hs eq_refl 1%nat ltac:(lia)) as [O1 D1].
    destruct (Hs eq_refl 2%nat ltac:(lia)) as [O2 D2]. rewrite O0, D0, O1, D1, O2, D2 in Es. cbn [negb] in Es. congruence. }
  destruct Hcase as [(? & _)|(_ & v' & Ev & [(_ & -> & ->)|(? & _)])]; try congruence.
  exists o. eexists. cbn in Hr. rewrite Hr in Hh. repeat split; eauto. congruence.
Qed.

(** C66: Start returns (it does not wait for ever, nor throw) unless it reads the uninitialised variable *)
Theorem C66_returns : forall e t exe arg cs, fresh t -> limit e <> None -> exists o, Start e t exe arg cs = Ok o.
Proof.
  intros e t exe arg cs Hfr Hl. destruct (ends_exist t) as (r & w & He).
  pose proof (Start_cases e t exe arg cs r w Hfr He) as H.
  destruct (Start e t exe arg cs) as [o| | |]; try contradiction; [eauto|destruct H; congruence].
Qed.

(** a table as at the start of a program: descriptors 0, 1, 2 *)
Definition std3 : fdt := [Some (FOld 0, false); Some (FOld 1, false); Some (FOld 2, false)].
Definition env0 (sysconf : Z) (junk : option Z) (exec : bool) : env :=
  mk_env true true (Some 77) (fun _ => true) (fun _ => true) sysconf junk exec true false true.
Lemma fresh_look t : holds FPipeR t = false -> holds FPipeW t = false -> fresh t.
Proof. intros H1 H2 n. split; [now apply holds_not|now apply holds_not]. Qed.
Lemma std3_ends : ends std3 3 4.
Proof.
  unfold ends, first_free, free. cbn. repeat split; auto; intros n H; do 5 (destruct n as [|n]; cbn; try congruence; try lia).
Qed.
(** the hypotheses of C66_reported are met; a failing execv is then reported *)
Example C66_reported_ex :
  fresh std3 /\ ends std3 3 4 /\ notice_arrives (env0 256 (Some 0) false) true 4 /\
  exists o, Start (env0 256 (Some 0) false) std3 [47;120] [[97]; [98]] true = Ok o /\ s_ret o = false /\ s_child o = Some CExits /\ s_zombie o = false.
Proof.
  split; [apply fresh_look; reflexivity|]. split; [apply std3_ends|]. split.
  { split; [intros v Hv; right; cbn in Hv; injection Hv as <-; lia|]. split; [lia|auto]. }
  eexists. split; [reflexivity|auto].
Qed.
(** without any undefined behaviour: descriptors 0 and 1 closed, sysconf without an answer *)
Example C66_defined_ex :
  let t := [None; None; Some (FOld 2, false)] in
  fresh t /\ ends t 0 1 /\ notice_arrives (env0 (-1) None false) false 1 /\
  exists o, Start (env0 (-1) None false) t [47;120] [] false = Ok o /\ s_ret o = false.
Proof.
  cbn zeta. split; [apply fresh_look; reflexivity|]. split.
  { unfold ends, first_free, free. cbn. repeat split; auto; intros n H; do 5 (destruct n as [|n]; cbn; try congruence; try lia). }
  split; [split; [intros v Hv; left; lia|split; [discriminate|auto]]|].
  eexists. split; [vm_compute; reflexivity|reflexivity].
Qed.
Example C66_runs_ex : exists o t', Start (env0 256 (Some 0) true) std3 [47;120] [[97;0;98]; []] true = Ok o /\
  s_ret o = true /\ s_hdl o = Some 77 /\ s_child o = Some (CRuns [[47;120]; [97]; []] t').
Proof. do 2 eexists. split; [vm_compute; reflexivity|]. repeat split; reflexivity. Qed.

(** ** Finding: maxFd is initialised from itself: whenever sysconf answers, a successful start reads an uninitialised variable *)
Theorem C66_uninit_finding : forall e t exe arg pid, fresh t ->
  e_pipe e = true -> e_fcntl e = true -> e_fork e = Some pid -> 0 <= e_sysconf e -> e_junk e = None ->
  Start e t exe arg false = UB.
Proof.
  intros e t exe arg pid Hfr Hp Hf Hk Hs Hj. destruct (ends_exist t) as (r & w & He). unfold Start.
  rewrite (init_ok e t r w Hp Hf He). cbn [negb]. rewrite Hk. unfold child, close_r. cbn [p_r stdio negb].
  destruct (Z.ltb_spec (e_sysconf e) 0); [lia|]. rewrite Hj. reflexivity.
Qed.
(** ** Finding: when the loop does run it closes the pipe before execv, so that a program that cannot be executed is reported as
    started: true and the pid of a process that has already exited *)
Theorem C66_lost_finding : forall e t exe arg r w pid, fresh t -> ends t r w -> (3 <= w)%nat -> Z.of_nat w < 1024 ->
  e_pipe e = true -> e_fcntl e = true -> e_fork e = Some pid -> e_sysconf e < 0 -> e_exec e = false ->
  exists o, Start e t exe arg false = Ok o /\ s_ret o = true /\ s_hdl o = Some pid /\ s_child o = Some CExits.
Proof.
  intros e t exe arg r w pid Hfr He H3 Hw Hp Hf Hk Hs Hx.
  assert (Hl : limit e = Some 1024) by (unfold limit; destruct (Z.ltb_spec (e_sysconf e) 0); [auto|lia]).
  pose proof (Start_cases e t exe arg false r w Hfr He) as H.
  destruct (Start e t exe arg false) as [o| | |]; try contradiction; [|destruct H; congruence].
  destruct H as (_ & [([H|[H|H]] & _)|H]); try congruence.
  destruct H as (pid' & c & byte & _ & _ & Hk' & Ec & Hch & Hr & Hh).
  destruct (child_cases _ _ _ _ _ _ _ _ _ Hfr He Ec) as (ok & t1 & Es & Hcase). cbn [stdio] in Es. injection Es as <- <-.
  destruct Hcase as [(? & _)|(_ & v & Ev & [(? & _)|(_ & -> & ->)])]; try congruence.
  assert (v = 1024) by congruence. subst v. exists o. split; auto.
  rewrite look_close_from in Hr. destruct (Nat.leb_spec 3 w); [|lia]. destruct (Nat.ltb_spec w (3 + Z.to_nat (1024 - 3))); [|lia].
  cbn [andb is_obj] in Hr. rewrite andb_false_r in Hr. cbn in Hr. rewrite Hr in Hh. split; auto. split; [congruence|auto].
Qed.
(** ** Finding: a caller without stdin and stdout gets the pipe on descriptors 0 and 1, which closeStdio then replaces *)
Theorem C66_stdio_finding : exists o, Start (env0 256 (Some 0) false) [None; None; Some (FOld 2, false)] [47;120] [] true = Ok o /\
  s_ret o = true /\ s_child o = Some CExits.
Proof. eexists. split; [reflexivity|auto]. Qed.
(** ** Finding: a signal that interrupts the caller's read turns a failed start into a reported success *)
Theorem C66_intr_finding : exists o,
  Start (mk_env true true (Some 77) (fun _ => true) (fun _ => true) 256 (Some 0) false true true true) std3 [47;120] [] false = Ok o /\
  s_ret o = true /\ s_hdl o = Some 77 /\ s_child o = Some CExits.
Proof. eexists. split; [reflexivity|auto]. Qed.
(** ** Finding: the child that could not execute the program is waited for without blocking, so it may stay behind as a zombie *)
Theorem C66_zombie_finding : exists o,
  Start (mk_env true true (Some 77) (fun _ => true) (fun _ => true) 256 (Some 0) false true false false) std3 [47;120] [] false = Ok o /\
  s_ret o = false /\ s_zombie o = true.
Proof. eexists. split; [reflexivity|auto]. Qed.

(** ** C67: descriptors *)
(** C67: whatever happens, the caller has the same descriptors afterwards *)
Theorem C67_caller : forall e t exe arg cs o, fresh t -> Start e t exe arg cs = Ok o -> forall n, look (s_fds o) n = look t n.
Proof.
  intros e t exe arg cs o Hfr E. destruct (ends_exist t) as (r & w & He).
  pose proof (Start_cases e t exe arg cs r w Hfr He) as H. rewrite E in H. apply H.
Qed.
(** what a descriptor becomes across execv *)
Definition inherited (x : option (fobj * bool)) : option (fobj * bool) := match x with Some (_, true) => None | _ => x end.
(** C67: the program started gets the arguments, the null device on 0, 1 and 2 if asked for (and these are open in the caller),
    nothing from 3 to the limit, and the caller's other descriptors that are not close-on-exec *)
Theorem C67_program : forall e t exe arg cs o argv t', fresh t -> Start e t exe arg cs = Ok o -> s_child o = Some (CRuns argv t') ->
  argv = c_str exe :: map c_str arg /\
  exists v, limit e = Some v /\
  (forall n, (3 <= n)%nat -> Z.of_nat n < v -> look t' n = None) /\
  (forall n, (3 <= n)%nat /\ v <= Z.of_nat n \/ (n < 3)%nat /\ cs = false -> look t' n = inherited (look t n)) /\
  (cs = true -> (forall n, (n < 3)%nat -> look t n <> None) ->
   look t' 0 = Some (FNull true, false) /\ look t' 1 = Some (FNull false, false) /\ look t' 2 = Some (FNull false, false)).
Proof.
  intros e t exe arg cs o argv t' Hfr E Hr. destruct (ends_exist t) as (r & w & He).
  pose proof (Start_cases e t exe arg cs r w Hfr He) as H. rewrite E in H. destruct H as (_ & [(_ & _ & _ & H)|H]); [congruence|].
  destruct H as (pid & c & byte & _ & _ & _ & Ec & Hch & _ & _).
  assert (c = CRuns argv t') by congruence. subst c.
  destruct (child_cases _ _ _ _ _ _ _ _ _ Hfr He Ec) as (ok & t1 & Es & Hcase).
  destruct Hcase as [(_ & ? & _)|(-> & v & Ev & [(_ & Ec' & _)|(_ & ? & _)])]; try congruence.
  injection Ec' as -> ->. split; auto. exists v. split; auto.
  pose proof (rw_ne _ _ _ He) as Hne. pose proof He as ([Fr Fr'] & Lrw & Fw & _). unfold free in *.
  pose proof (stdio_look _ _ _ _ _ Es) as [Ls _].
  assert (L0 : forall n, inherited (look (setd (tinit t r w) r None) n) = inherited (look t n)).
  { intros n. rewrite look_set, look_tinit. destruct (Nat.eqb_spec r n) as [<-|]; [now rewrite Fr|].
    destruct (Nat.eqb_spec w n) as [<-|]; [now rewrite Fw|reflexivity]. }
  split; [|split].
  - intros n H3 Hn. rewrite look_exec, look_close_from. destruct (Nat.leb_spec 3 n); [|lia].
    destruct (Nat.ltb_spec n (3 + Z.to_nat (v - 3))); [reflexivity|lia].
  - intros n Hn. rewrite look_exec, look_close_from. rewrite <- L0, <- Ls by intuition lia.
    destruct (Nat.leb_spec 3 n), (Nat.ltb_spec n (3 + Z.to_nat (v - 3))); cbn [andb].
    { exfalso. destruct Hn as [[? ?]|[? ?]]; lia. }
    all: unfold inherited; destruct (look t1 n) as [[? []]|]; reflexivity.
  - intros -> Ho. apply stdio_null in Es.
    + rewrite !look_exec, !look_close_from. cbn [Nat.leb andb]. destruct Es as (-> & -> & ->). auto.
    + intros n Hn. assert (Hnr : n <> r) by (intros ->; apply (Ho r); auto).
      rewrite look_set, look_tinit. destruct (Nat.eqb_spec r n); [congruence|]. destruct (Nat.eqb_spec w n); [congruence|]. now apply Ho.
Qed.
(** a program that gets the null device, loses descriptor 3 and inherits 5, with 4 close-on-exec *)
Example C67_program_ex :
  let t := std3 ++ [Some (FOld 3, false); Some (FOld 4, true); Some (FOld 5, false)] in
  exists o argv t', Start (env0 256 (Some 4) true) t [47;120] [[97]] true = Ok o /\ s_child o = Some (CRuns argv t') /\
  argv = [[47;120]; [97]] /\ look t' 0 = Some (FNull true, false) /\ look t' 3 = None /\ look t' 4 = None /\ look t' 5 = Some (FOld 5, false) /\
  s_fds o = t ++ [None; None].
Proof. cbn zeta. do 3 eexists. split; [vm_compute; reflexivity|]. split; [vm_compute; reflexivity|]. repeat split; reflexivity. Qed.

(** ** Finding: if stdin is closed in the caller, closeStdio leaves it closed in the program (open returns 0, and 0 is then closed),
    so that the first file the program opens becomes its standard input *)
Theorem C67_stdin_finding : exists o t', Start (env0 256 (Some 0) true) [None; Some (FOld 1, false); Some (FOld 2, false)] [47;120] [] true = Ok o /\
  s_child o = Some (CRuns [[47;120]] t') /\ look t' 0 = None /\ look t' 1 = Some (FNull false, false).
Proof. do 2 eexists. split; [vm_compute; reflexivity|]. repeat split; reflexivity. Qed.
(** ** Finding: run(exe, p1, ..., p9) drops empty arguments, also in the middle *)
Theorem C67_empty_finding : run_args [[97]; []; [98]] = [[97]; [98]].
Proof. reflexivity. Qed.

(** ** C68: Process objects *)

(** the life of the child with a given pid, read off what has been seen *)
Inductive life := LNone | LRuns | LEnded (st : pstat) | LReported.
Definition life_step (pid : Z) (l : life) (o : obs) : life :=
  match o with
  | OStart q => if q =? pid then LRuns else l
  | OEnd q st => if q =? pid then LEnded st else l
  | OAnswer q alive _ => if (q =? pid) && negb alive then match l with LEnded _ => LReported | _ => l end else l
  end.
Definition life_of (pid : Z) (tr : list obs) : life := fold_left (life_step pid) tr LNone.
(** the exit code of a process that ended so *)
Definition code_of (st : pstat) : Z := match st with PExited c => c | _ => -1 end.
(** what isAlive is to answer *)
Definition answer_for (l : life) : bool * Z :=
  match l with
  | LRuns => (true, 0)
  | LEnded st => (false, code_of st)
  | _ => (false, 0)
  end.

Lemma kfind_kdel p q k : kfind p (kdel q k) = if q =? p then None else kfind p k.
Proof.
  unfold kdel. induction k as [|[a s] k IH]; cbn [filter kfind fst]; [destruct (q =? p); reflexivity|].
  destruct (Z.eqb_spec a q) as [->|Ha]; cbn [negb kfind].
  - rewrite IH. destruct (Z.eqb_spec q p); reflexivity.
  - destruct (Z.eqb_spec a p) as [->|]; [|exact IH]. destruct (Z.eqb_spec q p); congruence.
Qed.

(** the kernel's view and the life of each child agree *)
Definition agrees (k : kern) (tr : list obs) : Prop := forall pid,
  match life_of pid tr with
  | LRuns => kfind pid k = Some PRunning
  | LEnded st => kfind pid k = Some st /\ st <> PRunning
  | _ => kfind pid k = None
  end /\ (pid <= 0 -> life_of pid tr = LNone).
Lemma life_snoc pid tr l : life_of pid (tr ++ l) = fold_left (life_step pid) l (life_of pid tr).
Proof. apply fold_left_app. Qed.
(** the cases of isAlive *)
Lemma isAlive_cases h k : h <> 0 -> isAlive h k =
  if h =? -1 then (false, 0, k) else
  match kfind h k with
  | None => (false, 0, k)
  | Some PRunning => (true, 0, k)
  | Some st => (false, code_of st, kdel h k)
  end.
Proof.
  intros H0. unfold isAlive, isValid, InvalidHandle, IsAlive, waitpid. destruct (Z.eqb_spec h (-1)) as [|H1]; cbn [negb]; auto.
  destruct (kfind h k) as [[|c|]|].
  - reflexivity.
  - destruct (Z.eqb_spec h 0); [congruence|]. rewrite Z.eqb_refl. reflexivity.
  - destruct (Z.eqb_spec h 0); [congruence|]. rewrite Z.eqb_refl. reflexivity.
  - change (-1 =? 0) with false. cbv iota. destruct (Z.eqb_spec (-1) h); [congruence|reflexivity].
Qed.
Lemma isAlive_agrees h k tr b c k' : agrees k tr -> h <> 0 -> isAlive h k = (b, c, k') ->
  agrees k' (tr ++ [OAnswer h b c]) /\ (h <> -1 -> (b, c) = answer_for (life_of h tr)).
Proof.
  intros Ha H0 Ei. rewrite (isAlive_cases _ _ H0) in Ei. destruct (Z.eqb_spec h (-1)) as [->|H1].
  { injection Ei as <- <- <-. split; [|congruence]. intros pid. rewrite life_snoc. cbn [fold_left life_step negb]. rewrite andb_true_r.
    specialize (Ha pid). destruct (Z.eqb_spec (-1) pid) as [<-|]; [|exact Ha].
    destruct Ha as [Ha Hp]. specialize (Hp ltac:(lia)). rewrite Hp in *. auto. }
  pose proof (Ha h) as [Hh Hp]. split.
  - intros pid. rewrite life_snoc. cbn [fold_left life_step]. pose proof (Ha pid) as Hpid.
    destruct (Z.eqb_spec h pid) as [<-|Hne]; cbn [andb].
    + destruct (life_of h tr) as [| |st|] eqn:El.
      * rewrite Hh in Ei. injection Ei as <- <- <-. cbn [negb]. split; auto.
      * rewrite Hh in Ei. injection Ei as <- <- <-. cbn [negb]. split; auto.
      * destruct Hh as [Hh Hst]. rewrite Hh in Ei.
        destruct st; [congruence| |]; injection Ei as <- <- <-; cbn [negb]; (split; [rewrite kfind_kdel, Z.eqb_refl; reflexivity|
          intros Hle; specialize (Hp Hle); congruence]).
      * rewrite Hh in Ei. injection Ei as <- <- <-. cbn [negb]. split; auto.
    + assert (Ek : kfind pid k' = kfind pid k).
      { destruct (kfind h k) as [[|c'|]|]; injection Ei as <- <- <-; auto; rewrite kfind_kdel; destruct (Z.eqb_spec h pid); congruence. }
      rewrite Ek. exact Hpid.
  - intros _. destruct (life_of h tr) as [| |st|] eqn:El; cbn [answer_for].
    + rewrite Hh in Ei. congruence.
    + rewrite Hh in Ei. congruence.
    + destruct Hh as [Hh Hst]. rewrite Hh in Ei. destruct st; congruence.
    + rewrite Hh in Ei. congruence.
Qed.

(** objects never hold 0 *)
Definition nonzero (s : psys) : Prop := forall i h, nth_error (y_objs s) i = Some h -> h <> 0.
Lemma nth_error_upd {A} (l : list A) n m v x : nth_error (upd l n v) m = Some x -> x = v \/ nth_error l m = Some x.
Proof.
  destruct (Nat.eq_dec n m) as [<-|Hne].
  - intros H. destruct (Nat.lt_ge_cases n (length l)) as [L|L].
    + rewrite nth_error_upd_eq in H by auto. left; congruence.
    + assert (nth_error (upd l n v) n <> None) by congruence. apply nth_error_Some in H0. rewrite upd_length in H0. lia.
  - rewrite nth_error_upd_ne by auto. auto.
Qed.
Lemma pstep_agrees s o s' l tr : nonzero s -> agrees (y_kern s) tr -> pstep s o = Ok (s', l) ->
  nonzero s' /\ agrees (y_kern s') (tr ++ l) /\
  forall a h b c post, l = a ++ OAnswer h b c :: post -> h <> -1 -> (b, c) = answer_for (life_of h (tr ++ a)).
Proof.
  intros Hz Ha E. destruct o as [d k|d k|i pid|i|i|pid st]; cbn in E.
  - destruct (nth_error (y_objs s) d) as [a|]; [|discriminate]. destruct (nth_error (y_objs s) k) as [b|] eqn:Eb; [|discriminate].
    destruct (_ || _); [discriminate|]. cbn in E. injection E as <- <-. rewrite app_nil_r. split; [|split; auto].
    2:{ intros [|? ?]; discriminate. }
    intros i h Hi. cbn in Hi. apply nth_error_upd in Hi. destruct Hi as [->|Hi]; [discriminate|].
    apply nth_error_upd in Hi. destruct Hi as [->|Hi]; [eapply Hz; eauto|eapply Hz; eauto].
  - destruct (nth_error (y_objs s) d) as [a|]; [|discriminate]. destruct (nth_error (y_objs s) k) as [b|] eqn:Eb; [|discriminate].
    destruct (Nat.eqb d k); [|unfold move in E; destruct (isValid a); [discriminate|cbn in E]]; injection E as <- <-; rewrite app_nil_r;
      (split; [|split; [auto|intros [|? ?]; discriminate]]); auto.
    intros i h Hi. cbn in Hi. apply nth_error_upd in Hi. destruct Hi as [->|Hi]; [discriminate|].
    apply nth_error_upd in Hi. destruct Hi as [->|Hi]; [eapply Hz; eauto|eapply Hz; eauto].
  - destruct (nth_error (y_objs s) i) as [h|]; [|discriminate]. destruct pid as [q|].
    + cbn in E. destruct (Z.leb_spec q 0) as [|Hq]; [discriminate|]. cbn [orb] in E.
      destruct (kfind q (y_kern s)) eqn:Ek; [discriminate|]. injection E as <- <-. cbn [y_kern]. split; [|split].
      * intros j h' Hi. cbn in Hi. apply nth_error_upd in Hi. destruct Hi as [->|Hi]; [lia|eapply Hz; eauto].
      * intros pid. rewrite life_snoc. cbn [fold_left life_step kfind]. specialize (Ha pid).
        destruct (Z.eqb_spec q pid) as [->|]; [split; [reflexivity|lia]|exact Ha].
      * intros [|? [|? ?]]; discriminate.
    + cbn in E. injection E as <- <-. rewrite app_nil_r. split; [|split; auto; intros [|? ?]; discriminate].
      intros j h' Hi. cbn in Hi. apply nth_error_upd in Hi. destruct Hi as [->|Hi]; [discriminate|eapply Hz; eauto].
  - destruct (nth_error (y_objs s) i) as [h|] eqn:Eh; [|discriminate]. destruct (isAlive h (y_kern s)) as [[b c] k'] eqn:Ei.
    injection E as <- <-. cbn [y_kern]. apply (isAlive_agrees _ _ tr) in Ei; [|auto|eapply Hz; eauto]. destruct Ei as [E1 E2].
    split; [exact Hz|]. split; [exact E1|]. intros [|? [|? ?]] ? ? ? ? Hl; try discriminate. injection Hl as <- <- <- _.
    rewrite app_nil_r. exact E2.
  - destruct (nth_error (y_objs s) i) as [h|]; [|discriminate]. injection E as <- <-. rewrite app_nil_r.
    split; [|split; auto; intros [|? ?]; discriminate].
    intros j h' Hi. cbn in Hi. apply nth_error_upd in Hi. destruct Hi as [->|Hi]; [discriminate|eapply Hz; eauto].
  - assert (Hst : kfind pid (y_kern s) = Some PRunning /\ st <> PRunning /\
                  mk_psys (y_objs s) ((pid, st) :: kdel pid (y_kern s)) = s' /\ l = [OEnd pid st]).
    { destruct (kfind pid (y_kern s)) as [[]|]; try discriminate. destruct st; try discriminate; injection E as <- <-; repeat split; auto; discriminate. }
    destruct Hst as (Hk & Hst & <- & ->). split; [exact Hz|]. cbn [y_kern]. split; [|intros [|? [|? ?]]; discriminate].
    intros p. rewrite life_snoc. cbn [fold_left life_step kfind]. pose proof (Ha p) as Hp.
    destruct (Z.eqb_spec pid p) as [->|Hne].
    + split; [auto|]. intros Hle. destruct Hp as [Hp Hp']. rewrite (Hp' Hle) in Hp. congruence.
    + rewrite kfind_kdel. destruct (Z.eqb_spec pid p); [congruence|exact Hp].
Qed.

Lemma psteps_agrees os : forall s s' l tr, nonzero s -> agrees (y_kern s) tr -> psteps s os = Ok (s', l) ->
  forall a h b c post, l = a ++ OAnswer h b c :: post -> h <> -1 -> (b, c) = answer_for (life_of h (tr ++ a)).
Proof.
  induction os as [|o os IH]; intros s s' l tr Hz Ha E; cbn in E.
  - injection E as <- <-. intros [|? ?]; discriminate.
  - destruct (pstep s o) as [[s1 l1]| | |] eqn:E1; try discriminate. cbn [bind] in E.
    destruct (psteps s1 os) as [[s2 l2]| | |] eqn:E2; try discriminate. cbn [bind] in E. injection E as <- <-.
    destruct (pstep_agrees _ _ _ _ _ Hz Ha E1) as (Hz1 & Ha1 & Hans). specialize (IH s1 s2 l2 (tr ++ l1) Hz1 Ha1 E2).
    intros a h b c post El Hh.
    assert (Hc : (exists post', l1 = a ++ OAnswer h b c :: post') \/ (exists a', a = l1 ++ a' /\ l2 = a' ++ OAnswer h b c :: post)).
    { clear - El. revert a El. induction l1 as [|x l1 IHl]; intros a El; cbn in El.
      - right. exists a. auto.
      - destruct a as [|y a]; cbn in El; injection El as -> El; [left; eexists; reflexivity|].
        destruct (IHl a El) as [(p & ->)|(a' & -> & ->)]; [left; eexists; reflexivity|right; exists a'; auto]. }
    destruct Hc as [(post' & ->)|(a' & -> & ->)].
    + eapply Hans; eauto.
    + rewrite app_assoc. eapply IH; eauto.
Qed.

(** a program that starts with n Process objects constructed and no children *)
Definition pinit (n : nat) : psys := mk_psys (repeat InvalidHandle n) [].

(** C68: in every history each answer of isAlive is the right one: alive exactly while the child runs; the first answer after its end
    gives its exit code (-1 if it was killed); later ones give 0 *)
Theorem C68_answers : forall n os s tr pre pid alive code post,
  psteps (pinit n) os = Ok (s, tr) -> tr = pre ++ OAnswer pid alive code :: post -> pid <> InvalidHandle ->
  (alive, code) = answer_for (life_of pid pre).
Proof.
  intros n os s tr pre pid alive code post E Et Hp.
  apply (psteps_agrees os (pinit n) s tr [] ) with (a := pre) (post := post) in Et; auto.
  - intros i h Hi. cbn in Hi. apply nth_error_In, repeat_spec in Hi. subst h. discriminate.
  - intros p. cbn. auto.
Qed.
Example C68_answers_ex :
  exists s, psteps (pinit 2) [PRun 0 (Some 5); PAlive 0; PCopy 1 0; PAlive 0; PAlive 1; PEnd 5 (PExited 3); PAlive 1; PAlive 1] =
  Ok (s, [OStart 5; OAnswer 5 true 0; OAnswer (-1) false 0; OAnswer 5 true 0; OEnd 5 (PExited 3); OAnswer 5 false 3; OAnswer 5 false 0]) /\
  y_objs s = [-1; 5].
Proof. eexists. split; reflexivity. Qed.

(** the pids handed out in a history *)
Definition started (tr : list obs) : list Z := flat_map (fun o => match o with OStart p => [p] | _ => [] end) tr.
Definition exclusive (objs : list Z) : Prop := forall i j h, nth_error objs i = Some h -> nth_error objs j = Some h -> h <> InvalidHandle -> i = j.
Lemma excl_upd_inv objs i : exclusive objs -> exclusive (upd objs i InvalidHandle).
Proof.
  intros H a b h Ha Hb Hh. apply nth_error_upd in Ha. apply nth_error_upd in Hb.
  destruct Ha as [|Ha]; [congruence|]. destruct Hb as [|Hb]; [congruence|]. eapply H; eauto.
Qed.
Lemma upd_neq_inv {A} (l : list A) i v j x : nth_error (upd l i v) j = Some x -> x <> v -> j <> i /\ nth_error l j = Some x.
Proof.
  intros H Hx. destruct (Nat.eq_dec j i) as [->|Hne].
  - exfalso. destruct (Nat.lt_ge_cases i (length l)) as [L|L].
    + rewrite nth_error_upd_eq in H by auto. congruence.
    + assert (Hn : nth_error (upd l i v) i <> None) by congruence. apply nth_error_Some in Hn. rewrite upd_length in Hn. lia.
  - rewrite nth_error_upd_ne in H by auto. auto.
Qed.
(** moving the handle of k to d, where d holds none *)
Lemma excl_move objs d k b : exclusive objs -> nth_error objs k = Some b -> d <> k -> exclusive (upd (upd objs d b) k InvalidHandle).
Proof.
  intros H Hk Hne i j h Hi Hj Hh.
  apply upd_neq_inv in Hi; auto. apply upd_neq_inv in Hj; auto. destruct Hi as [Ik Hi], Hj as [Jk Hj].
  destruct (Z.eq_dec h b) as [->|Hb].
  - destruct (Nat.eq_dec i d) as [->|Id], (Nat.eq_dec j d) as [->|Jd]; auto.
    + rewrite nth_error_upd_ne in Hj by auto. contradiction Jk. eapply H; eauto.
    + rewrite nth_error_upd_ne in Hi by auto. contradiction Ik. eapply H; eauto.
    + rewrite nth_error_upd_ne in Hi, Hj by auto. eapply H; eauto.
  - apply upd_neq_inv in Hi; auto. apply upd_neq_inv in Hj; auto. eapply H; intuition eauto.
Qed.
Lemma pstep_excl s o s' l ps : (forall i h, nth_error (y_objs s) i = Some h -> h <> InvalidHandle -> In h ps) -> exclusive (y_objs s) ->
  pstep s o = Ok (s', l) -> NoDup (ps ++ started l) ->
  (forall i h, nth_error (y_objs s') i = Some h -> h <> InvalidHandle -> In h (ps ++ started l)) /\ exclusive (y_objs s').
Proof.
  intros Hin Hex E Hnd. destruct o as [d k|d k|i pid|i|i|pid st]; cbn in E.
  - destruct (nth_error (y_objs s) d) as [a|]; [|discriminate]. destruct (nth_error (y_objs s) k) as [b|] eqn:Eb; [|discriminate].
    destruct (Nat.eqb_spec d k) as [|Hne]; [discriminate|]. destruct (isValid a); [discriminate|]. cbn in E. injection E as <- <-.
    cbn [started flat_map y_objs]. rewrite app_nil_r. split; [|now apply excl_move].
    intros i h Hi Hh. apply nth_error_upd in Hi. destruct Hi as [|Hi]; [congruence|]. apply nth_error_upd in Hi. destruct Hi as [->|Hi]; eauto.
  - destruct (nth_error (y_objs s) d) as [a|]; [|discriminate]. destruct (nth_error (y_objs s) k) as [b|] eqn:Eb; [|discriminate].
    destruct (Nat.eqb_spec d k) as [|Hne].
    + injection E as <- <-. cbn [started flat_map]. rewrite app_nil_r. auto.
    + unfold move in E. destruct (isValid a); [discriminate|]. cbn in E. injection E as <- <-.
      cbn [started flat_map y_objs]. rewrite app_nil_r. split; [|now apply excl_move].
      intros i h Hi Hh. apply nth_error_upd in Hi. destruct Hi as [|Hi]; [congruence|]. apply nth_error_upd in Hi. destruct Hi as [->|Hi]; eauto.
  - destruct (nth_error (y_objs s) i) as [h|]; [|discriminate]. destruct pid as [q|].
    + cbn in E. destruct (_ || _); [discriminate|]. injection E as <- <-. cbn [y_objs started flat_map app] in *.
      apply NoDup_remove_2 in Hnd. rewrite app_nil_r in Hnd. split.
      * intros j h' Hj Hh. apply in_or_app. apply nth_error_upd in Hj. destruct Hj as [->|Hj]; [right; left; reflexivity|left; eauto].
      * intros a b h' Hna Hnb Hh. destruct (Z.eq_dec h' q) as [->|Hq].
        -- assert (Hold : forall x, nth_error (upd (y_objs s) i q) x = Some q -> x = i).
           { intros x Hx. destruct (Nat.eq_dec x i) as [|Hxi]; auto. rewrite nth_error_upd_ne in Hx by auto. contradiction Hnd. eauto. }
           rewrite (Hold a Hna), (Hold b Hnb). reflexivity.
        -- apply upd_neq_inv in Hna; auto. apply upd_neq_inv in Hnb; auto. eapply Hex; intuition eauto.
    + cbn in E. injection E as <- <-. cbn [y_objs started flat_map]. rewrite app_nil_r. split; [|now apply excl_upd_inv].
      intros j h' Hj Hh. apply nth_error_upd in Hj. destruct Hj as [|Hj]; [contradiction|eauto].
  - destruct (nth_error (y_objs s) i) as [h|]; [|discriminate]. destruct (isAlive h (y_kern s)) as [[b c] k'].
    injection E as <- <-. cbn [y_objs started flat_map app]. rewrite app_nil_r. auto.
  - destruct (nth_error (y_objs s) i) as [h|]; [|discriminate]. injection E as <- <-.
    cbn [y_objs started flat_map]. rewrite app_nil_r. split; [|now apply excl_upd_inv].
    intros j h' Hj Hh. apply nth_error_upd in Hj. destruct Hj as [|Hj]; [contradiction|eauto].
  - assert (Hst : y_objs s' = y_objs s /\ l = [OEnd pid st]).
    { destruct (kfind pid (y_kern s)) as [[]|]; try discriminate. destruct st; try discriminate; injection E as <- <-; auto. }
    destruct Hst as (-> & ->). cbn [started flat_map app]. rewrite app_nil_r. auto.
Qed.
Lemma started_app a b : started (a ++ b) = started a ++ started b.
Proof. apply flat_map_app. Qed.
Lemma NoDup_app_l {A} (a b : list A) : NoDup (a ++ b) -> NoDup a.
Proof. induction a as [|x a IH]; intros H; [constructor|]. inversion H; subst. constructor; auto. intros Hin. apply H2. apply in_or_app; auto. Qed.
Lemma psteps_excl os : forall s s' l ps, (forall i h, nth_error (y_objs s) i = Some h -> h <> InvalidHandle -> In h ps) -> exclusive (y_objs s) ->
  psteps s os = Ok (s', l) -> NoDup (ps ++ started l) -> exclusive (y_objs s').
Proof.
  induction os as [|o os IH]; intros s s' l ps Hin Hex E Hnd; cbn in E.
  - injection E as <- <-. exact Hex.
  - destruct (pstep s o) as [[s1 l1]| | |] eqn:E1; try discriminate. cbn [bind] in E.
    destruct (psteps s1 os) as [[s2 l2]| | |] eqn:E2; try discriminate. cbn [bind] in E. injection E as <- <-.
    rewrite started_app, app_assoc in Hnd.
    destruct (pstep_excl _ _ _ _ ps Hin Hex E1 (NoDup_app_l _ _ Hnd)) as [H1 H2]. eapply IH; eauto.
Qed.
(** C68: as long as the kernel does not hand out a pid twice, no two objects ever hold the same child *)
Theorem C68_exclusive : forall n os s tr i j pid, psteps (pinit n) os = Ok (s, tr) -> NoDup (started tr) ->
  nth_error (y_objs s) i = Some pid -> nth_error (y_objs s) j = Some pid -> pid <> InvalidHandle -> i = j.
Proof.
  intros n os s tr i j pid E Hnd Hi Hj Hp.
  assert (Hall : forall i h, nth_error (y_objs (pinit n)) i = Some h -> h = InvalidHandle).
  { intros k h Hk. cbn in Hk. now apply nth_error_In, repeat_spec in Hk. }
  assert (Hex : exclusive (y_objs s)).
  { apply (psteps_excl os (pinit n) s tr []); auto.
    - intros k h Hk Hh. apply Hall in Hk. contradiction.
    - intros a b h Ha _ Hh. apply Hall in Ha. contradiction. }
  eapply Hex; eauto.
Qed.

(** ** Finding: an object keeps the pid after its child has been waited for; if the kernel uses the pid again for another child of
    the caller, the old object reports on that one and takes its exit code away *)
Theorem C68_reuse_finding :
  exists s, psteps (pinit 2) [PRun 0 (Some 5); PEnd 5 (PExited 0); PAlive 0; PRun 1 (Some 5); PEnd 5 (PExited 7); PAlive 0; PAlive 1] =
  Ok (s, [OStart 5; OEnd 5 (PExited 0); OAnswer 5 false 0; OStart 5; OEnd 5 (PExited 7); OAnswer 5 false 7; OAnswer 5 false 0]).
Proof. eexists. reflexivity. Qed.
(** ** Finding: assigning to an object that has been used fails its assertion, also when its child has long ended *)
Theorem C68_assign_finding :
  psteps (pinit 2) [PRun 0 (Some 5); PEnd 5 (PExited 0); PAlive 0; PRun 1 (Some 6); PAssign 0 1] = Exn.
Proof. reflexivity. Qed.

(** ** C69: the Windows command line *)

(** How a Windows program splits its command line (the rules of the Microsoft C runtime and CommandLineToArgvW): the first word is
    what stands between its quotes; in the others, space and tab separate outside quotes; a quote opens or closes a quoted part; of
    2k backslashes before a quote k remain, of 2k+1 before a quote k and the quote itself; other backslashes stand for themselves.
    State: the word being read (None between words), inside quotes, the number of backslashes just read.
    (The variants differ in what two quotes inside quotes mean; these do not occur in what follows.) *)
Definition bs (n : nat) : list Z := repeat 92 n.
Definition word (w : option (list Z)) : list Z := match w with Some a => a | None => [] end.
Fixpoint split_words (w : option (list Z)) (inq : bool) (k : nat) (s : list Z) : list (list Z) :=
  match s with
  | [] => match w with Some a => [a ++ bs k] | None => [] end
  | c :: r =>
    if c =? 92 then split_words (Some (word w)) inq (S k) r
    else if c =? 34 then
      let a := word w ++ bs (Nat.div2 k) in
      if Nat.odd k then split_words (Some (a ++ [34])) inq 0 r else split_words (Some a) (negb inq) 0 r
    else if ((c =? 32) || (c =? 9)) && negb inq then
      match w with Some a => (a ++ bs k) :: split_words None inq 0 r | None => split_words None inq 0 r end
    else split_words (Some (word w ++ bs k ++ [c])) inq 0 r
  end.
(** the program's name, then the words *)
Fixpoint until_quote (s : list Z) : list Z * list Z :=
  match s with
  | [] => ([], [])
  | c :: r => if c =? 34 then ([], r) else let '(a, b) := until_quote r in (c :: a, b)
  end.
Definition windows_argv (s : list Z) : list (list Z) :=
  match s with
  | 34 :: r => let '(a, b) := until_quote r in a :: split_words None false 0 b
  | _ => []
  end.

(** no backslash stands before a quote or at the end *)
Fixpoint plain (s : list Z) : Prop :=
  match s with
  | [] => True
  | c :: r => (c = 92 -> match r with [] => False | d :: _ => d <> 34 end) /\ plain r
  end.

Lemma until_quote_app s r : ~ In 34 s -> until_quote (s ++ 34 :: r) = (s, r).
Proof.
  induction s as [|c s IH]; intros H; cbn; [reflexivity|].
  destruct (Z.eqb_spec c 34) as [->|]; [contradiction H; left; reflexivity|]. rewrite IH; [reflexivity|]. intros Hin. apply H. now right.
Qed.
Lemma bs_S k a : bs (S k) ++ a = bs k ++ 92 :: a.
Proof. induction k as [|k IH]; [reflexivity|]. change (bs (S (S k)) ++ a) with (92 :: bs (S k) ++ a). rewrite IH. reflexivity. Qed.
(** inside quotes: the escaped argument up to the closing quote is read back; k backslashes are pending *)
Lemma split_quoted a : forall pre k rest, plain a -> (k <> 0%nat -> match a with [] => False | d :: _ => d <> 34 end) ->
  split_words (Some pre) true k (escape a ++ 34 :: rest) = split_words (Some (pre ++ bs k ++ a)) false 0 rest.
Proof.
  induction a as [|c a IH]; intros pre k rest Hp Hk.
  - cbn [escape app]. destruct k as [|k]; [|contradiction (Hk ltac:(discriminate))].
    cbn [split_words]. change (34 =? 92) with false. change (34 =? 34) with true. cbv iota. cbn [Nat.odd Nat.even negb Nat.div2 bs repeat word].
    rewrite !app_nil_r. reflexivity.
  - destruct Hp as [Hc Hp]. cbn [escape]. destruct (Z.eqb_spec c 34) as [->|Hq].
    + destruct k as [|k]; [|contradiction (Hk ltac:(discriminate)); reflexivity].
      cbn [app split_words]. change (92 =? 92) with true. change (34 =? 92) with false. change (34 =? 34) with true. cbv iota.
      change (Nat.odd 1) with true. cbv iota. cbn [Nat.div2 bs repeat word]. rewrite app_nil_r.
      rewrite IH; auto; [|lia]. cbn [bs repeat app]. rewrite <- app_assoc. reflexivity.
    + cbn [app split_words]. destruct (Z.eqb_spec c 92) as [->|Hb].
      * cbn [word]. rewrite IH; [|exact Hp|intros _; exact (Hc eq_refl)]. rewrite bs_S. reflexivity.
      * destruct (Z.eqb_spec c 34); [congruence|]. cbn [negb]. rewrite andb_false_r. cbn [word].
        rewrite IH; auto; [|lia]. cbn [bs repeat app]. rewrite <- !app_assoc. reflexivity.
Qed.
(** C69: a program started with that command line sees the program name and exactly the arguments given, if no argument has a
    backslash before a quote or at its end (and the program's name no quote) *)
Theorem C69_arguments : forall exe args, ~ In 34 exe -> (forall a, In a args -> plain a) ->
  windows_argv (cmdLine exe args) = exe :: args.
Proof.
  intros exe args He Ha. unfold cmdLine, windows_argv. cbn [app]. rewrite until_quote_app by auto. f_equal.
  induction args as [|a args IH]; [reflexivity|].
  cbn [map concat app split_words].
  change (32 =? 92) with false. change (32 =? 34) with false. change ((32 =? 32) || (32 =? 9)) with true. cbn [negb andb].
  change (34 =? 92) with false. change (34 =? 34) with true. cbv iota. cbn [Nat.odd Nat.even negb Nat.div2 bs repeat word app].
  rewrite <- app_assoc. cbn [app].
  rewrite split_quoted; [|apply Ha; left; reflexivity|congruence]. cbn [bs repeat app].
  assert (IH' := IH (fun b Hb => Ha b (or_intror Hb))).
  destruct args as [|b args].
  - cbn. rewrite app_nil_r. reflexivity.
  - cbn [map concat app] in IH' |- *. cbn [split_words] in IH' |- *.
    change (32 =? 92) with false in *. change (32 =? 34) with false in *. change ((32 =? 32) || (32 =? 9)) with true in *. cbn [negb andb] in *.
    cbv iota in *. rewrite IH'. cbn [bs repeat]. rewrite app_nil_r. reflexivity.
Qed.
(** C69: the arguments cannot change the program *)
Theorem C69_program : forall exe args, ~ In 34 exe -> exists l, windows_argv (cmdLine exe args) = exe :: l.
Proof. intros exe args He. unfold cmdLine, windows_argv. cbn [app]. rewrite until_quote_app by auto. eauto. Qed.
(** the program C:\x y.exe with four arguments: a b; say, a space, hi between quotes; the empty one; c\d *)
Example C69_ex :
  let exe := [67;58;92;120;32;121;46;101;120;101] in
  let args := [[97;32;98]; [115;97;121;32;34;104;105;34]; []; [99;92;100]] in
  ~ In 34 exe /\ (forall a, In a args -> plain a) /\ windows_argv (cmdLine exe args) = exe :: args.
Proof.
  cbn zeta. split; [cbn; lia|]. split; [|reflexivity].
  intros a [<-|[<-|[<-|[<-|[]]]]]; cbn; repeat split; try congruence; try lia.
Qed.
(** ** Finding: an argument that ends in a backslash (a directory name, say) swallows the next one *)
Theorem C69_backslash_finding : windows_argv (cmdLine [120] [[97;92]; [98]]) = [[120]; [97;34;32;98]].
Proof. reflexivity. Qed.
(** ** Finding: an argument with a backslash before a quote ends its own quoting, and what follows becomes further arguments:
    one argument (a, backslash, quote, space, /x) arrives as two *)
Theorem C69_inject_finding : windows_argv (cmdLine [120] [[97;92;34;32;47;120]]) = [[120]; [97;92]; [47;120]].
Proof. reflexivity. Qed.

Print Assumptions C66_reported.
Print Assumptions C66_runs.
Print Assumptions C66_returns.
Print Assumptions C66_uninit_finding.
Print Assumptions C66_lost_finding.
Print Assumptions C66_stdio_finding.
Print Assumptions C66_intr_finding.
Print Assumptions C66_zombie_finding.
Print Assumptions C67_caller.
Print Assumptions C67_program.
Print Assumptions C67_stdin_finding.
Print Assumptions C67_empty_finding.
Print Assumptions C68_answers.
Print Assumptions C68_exclusive.
Print Assumptions C68_reuse_finding.
Print Assumptions C68_assign_finding.
Print Assumptions C69_arguments.
Print Assumptions C69_program.
Print Assumptions C69_backslash_finding.
Print Assumptions C69_inject_finding.
