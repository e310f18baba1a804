(** C55: ownership of the handles of Socket (include/cybozu/socket.hpp) and ThreadBase (include/cybozu/thread.hpp) *)
Require Import Verif.Common Verif.HandleModel.

(** ** Specification, on the history of system calls: how often a number was handed out and given back *)
Fixpoint n_alloc (h : Z) (tr : list hev) : Z :=
  match tr with [] => 0 | HAlloc x :: r => (if x =? h then 1 else 0) + n_alloc h r | _ :: r => n_alloc h r end.
Fixpoint n_release (h : Z) (tr : list hev) : Z :=
  match tr with [] => 0 | HRelease _ x :: r => (if x =? h then 1 else 0) + n_release h r | _ :: r => n_release h r end.
(** every release concerns a handle acquired exactly once more than it was released before: nothing is released twice, and no
    number that now belongs to somebody else *)
Definition no_double_release (tr : list hev) : Prop := forall a r h b, tr = a ++ HRelease r h :: b -> n_alloc h a = n_release h a + 1.

Lemma n_alloc_app : forall h a b, n_alloc h (a ++ b) = n_alloc h a + n_alloc h b.
Proof. intros h a b. induction a as [|[]]; cbn [app n_alloc]; lia. Qed.
Lemma n_release_app : forall h a b, n_release h (a ++ b) = n_release h a + n_release h b.
Proof. intros h a b. induction a as [|[]]; cbn [app n_release]; lia. Qed.

Section P.
Variable invalid : Z.
Notation hstep := (hstep invalid).
Notation hreach := (hreach invalid).

(** no operation is under way; every object was closed or destroyed *)
Definition all_idle (s : hsys) : Prop := forall t p, nth_error (h_pc s) t = Some p -> p = HIdle.
Definition all_closed (s : hsys) : Prop := forall k x, nth_error (h_cell s) k = Some x -> x = invalid.
(** the step stores into an object that holds h *)
Definition overwrites (h : Z) (s s' : hsys) : Prop := exists t d x,
  nth_error (h_pc s) t = Some (HStore d x) /\ nth_error (h_cell s) d = Some h /\ nth_error (h_pc s') t = Some HIdle.

Definition one (h x : Z) : Z := if x =? h then 1 else 0.
Definition onep (h : Z) (p : hpc) : Z := match p with HRel _ x _ => one h x | HStore _ x => one h x | _ => 0 end.
Definition sumf {A} (f : A -> Z) (l : list A) : Z := fold_right (fun x a => f x + a) 0 l.
Definition cnt (h : Z) (s : hsys) : Z := sumf (one h) (h_cell s) + sumf (onep h) (h_pc s).
Definition isopen (h : Z) (s : hsys) : Z := if existsb (Z.eqb h) (h_open s) then 1 else 0.

Lemma sum_upd : forall A (f : A -> Z) l k t x, nth_error l k = Some t -> sumf f (upd l k x) = sumf f l - f t + f x.
Proof.
  intros A f l. unfold sumf. induction l as [|y l IH]; intros k t x H; [destruct k; discriminate|]. destruct k as [|k]; cbn [upd fold_right nth_error] in *.
  - assert (y = t) by congruence. subst. lia.
  - rewrite (IH k t x H). lia.
Qed.
Lemma sum_nonneg : forall A (f : A -> Z) l, (forall x, 0 <= f x) -> 0 <= sumf f l.
Proof. intros A f l H. unfold sumf. induction l as [|x l IH]; cbn [fold_right]; [lia|]. specialize (H x). lia. Qed.
Lemma sum_in : forall A (f : A -> Z) l k x, (forall x, 0 <= f x) -> nth_error l k = Some x -> f x <= sumf f l.
Proof.
  intros A f l. unfold sumf. induction l as [|y l IH]; intros k x H N; [destruct k; discriminate|]. pose proof (sum_nonneg A f l H) as P. unfold sumf in P.
  destruct k as [|k]; cbn [nth_error fold_right] in *; [assert (y = x) by congruence; subst; lia|]. specialize (IH k x H N). specialize (H y). lia.
Qed.
Lemma one_nonneg : forall h x, 0 <= one h x. Proof. intros. unfold one. destruct (_ =? _); lia. Qed.
Lemma onep_nonneg : forall h p, 0 <= onep h p. Proof. intros h []; cbn [onep]; try lia; apply one_nonneg. Qed.
Lemma isopen_in : forall h s, isopen h s = 1 <-> In h (h_open s).
Proof.
  intros. unfold isopen. destruct (existsb (Z.eqb h) (h_open s)) eqn:E.
  - split; auto. intros _. apply existsb_exists in E. destruct E as (x & I & Q). apply Z.eqb_eq in Q. congruence.
  - split; [discriminate|]. intros I. exfalso. assert (existsb (Z.eqb h) (h_open s) = true) by (apply existsb_exists; exists h; split; [auto|apply Z.eqb_refl]). congruence.
Qed.
Lemma isopen_01 : forall h s, isopen h s = 0 \/ isopen h s = 1.
Proof. intros. unfold isopen. destruct (existsb _ _); auto. Qed.
Lemma existsb_remove : forall h x l, existsb (Z.eqb h) (removeZ x l) = if h =? x then false else existsb (Z.eqb h) l.
Proof.
  intros h x l. unfold removeZ. induction l as [|y l IH]; cbn [filter existsb]; [destruct (h =? x); auto|].
  destruct (Z.eqb_spec y x); cbn [negb existsb]; rewrite IH; destruct (Z.eqb_spec h x), (Z.eqb_spec h y); subst; auto; congruence.
Qed.

(** effect of one step on the number of places that hold h *)
Lemma onep_took : forall h r x c, h <> invalid -> onep h (took invalid r x c) = one h x.
Proof. intros h r x c H. unfold took. destruct (Z.eqb_spec x invalid) as [E|E]; [|reflexivity]. unfold one. destruct (Z.eqb_spec x h); [congruence|]. destruct c; reflexivity. Qed.
Lemma onep_after : forall h c, onep h (after c) = 0. Proof. intros h []; reflexivity. Qed.
Lemma one_invalid : forall h, h <> invalid -> one h invalid = 0.
Proof. intros. unfold one. destruct (Z.eqb_spec invalid h); congruence. Qed.

Ltac upd1 H := rewrite (sum_upd _ _ _ _ _ _ H).
Lemma step_cnt : forall h s s', h <> invalid -> hstep s s' -> cnt h s <= isopen h s ->
  cnt h s' <= isopen h s' /\
  (~ overwrites h s s' -> cnt h s = isopen h s -> cnt h s' = isopen h s') /\
  n_alloc h (h_tr s') - n_release h (h_tr s') - (isopen h s') <= n_alloc h (h_tr s) - n_release h (h_tr s) - isopen h s /\
  n_alloc h (h_tr s') - n_release h (h_tr s') - (isopen h s') >= n_alloc h (h_tr s) - n_release h (h_tr s) - isopen h s.
Proof.
  intros h s s' Hi St Hc.
  assert (Release: forall t r x c p, nth_error (h_pc s) t = Some (HRel r x c) -> onep h p = 0 ->
    let s' := mk_hsys (h_cell s) (upd (h_pc s) t p) (removeZ x (h_open s)) (h_tr s ++ [HRelease r x]) (h_bad s || negb (existsb (Z.eqb x) (h_open s))) in
    cnt h s' <= isopen h s' /\ (~ overwrites h s s' -> cnt h s = isopen h s -> cnt h s' = isopen h s') /\
    n_alloc h (h_tr s') - n_release h (h_tr s') - (isopen h s') <= n_alloc h (h_tr s) - n_release h (h_tr s) - isopen h s /\
    n_alloc h (h_tr s') - n_release h (h_tr s') - (isopen h s') >= n_alloc h (h_tr s) - n_release h (h_tr s) - isopen h s).
  { intros t r x c p H E. cbv zeta. unfold cnt, isopen in *. cbn [h_cell h_pc h_open h_tr]. upd1 H. rewrite E, existsb_remove, n_alloc_app, n_release_app. cbn [onep n_alloc n_release].
    pose proof (sum_nonneg _ (one h) (h_cell s) (one_nonneg h)). pose proof (sum_in _ (onep h) (h_pc s) t _ (onep_nonneg h) H) as Q. cbn [onep] in Q.
    unfold one in *. fold (one h) in *. rewrite (Z.eqb_sym h x). destruct (Z.eqb_spec x h); [|repeat split; try lia; intros; lia].
    destruct (existsb (Z.eqb h) (h_open s)); repeat split; intros; try lia. }
  destruct St as [s t k r x H Hk|s t d k x H Hd Hk|s t d k H Hd Hk|s t d x H Hd Hx Hn|s t d H Hd|s t r x c H|s t r x c H|s t d k x H Hk|s t d x H Ld].
  - unfold cnt, isopen in *. cbn [h_cell h_pc h_open h_tr]. upd1 H. upd1 Hk. rewrite (onep_took h r x KDone Hi), (one_invalid h Hi). cbn [onep]. repeat split; intros; lia.
  - unfold cnt, isopen in *. cbn [h_cell h_pc h_open h_tr]. upd1 H. upd1 Hd. rewrite (onep_took h RClose x (KMove d k) Hi), (one_invalid h Hi). cbn [onep]. repeat split; intros; lia.
  - unfold cnt, isopen, set_pc in *. cbn [h_cell h_pc h_open h_tr]. upd1 H. cbn [onep]. repeat split; intros; lia.
  - unfold cnt, isopen in *. cbn [h_cell h_pc h_open h_tr existsb]. upd1 H. rewrite n_alloc_app, n_release_app. cbn [onep n_alloc n_release]. change (one h x) with (if x =? h then 1 else 0).
    rewrite (Z.eqb_sym h x). destruct (Z.eqb_spec x h) as [E|E]; cbn [orb]; [|repeat split; intros; lia].
    destruct (existsb (Z.eqb h) (h_open s)) eqn:Q; [exfalso; apply Hn; apply existsb_exists in Q; destruct Q as (y & I & Ey); apply Z.eqb_eq in Ey; congruence|].
    repeat split; intros; lia.
  - unfold cnt, isopen, set_pc in *. cbn [h_cell h_pc h_open h_tr]. upd1 H. cbn [onep]. rewrite (one_invalid h Hi). repeat split; intros; lia.
  - apply (Release t r x c (after c) H). apply onep_after.
  - apply (Release t r x c HIdle H). reflexivity.
  - unfold cnt, isopen in *. cbn [h_cell h_pc h_open h_tr]. upd1 H. upd1 Hk. cbn [onep]. rewrite (one_invalid h Hi). repeat split; intros; lia.
  - destruct (nth_error (h_cell s) d) as [y|] eqn:Hd.
    + unfold cnt, isopen in *. cbn [h_cell h_pc h_open h_tr]. upd1 H. upd1 Hd. cbn [onep]. pose proof (one_nonneg h y). split; [lia|]. split; [|lia]. intros No E. enough (one h y = 0) by lia.
      unfold one. destruct (Z.eqb_spec y h) as [Ey|Ey]; auto. exfalso. apply No. exists t, d, x. cbn [h_pc]. subst y. split; auto. split; auto.
      clear - H. revert t H. induction (h_pc s) as [|q l IH]; intros t H; [destruct t; discriminate|]. destruct t; cbn [upd nth_error] in *; auto.
    + exfalso. apply nth_error_None in Hd. lia.
Qed.

Definition inv (s : hsys) : Prop := forall h, h <> invalid -> cnt h s <= isopen h s /\ n_alloc h (h_tr s) - n_release h (h_tr s) = isopen h s.
Lemma sum_repeat : forall A (f : A -> Z) x n, f x = 0 -> sumf f (repeat x n) = 0.
Proof. intros A f x n H. unfold sumf. induction n as [|n IH]; cbn [repeat fold_right]; lia. Qed.
Lemma cnt_init : forall h o n, h <> invalid -> cnt h (h_init invalid o n) = 0.
Proof. intros. unfold cnt, h_init. cbn [h_cell h_pc]. rewrite !sum_repeat; auto. apply one_invalid; auto. Qed.
Lemma inv_reach : forall o n s, hreach o n s -> inv s.
Proof.
  intros o n s R. induction R as [|s s' R IH St]; intros h Hh.
  - rewrite cnt_init by auto. cbn. lia.
  - destruct (IH h Hh) as [A B]. destruct (step_cnt h s s' Hh St A) as (P & _ & Q1 & Q2). split; [auto|lia].
Qed.
Lemma rel_valid : forall o n s, hreach o n s -> forall t r h c, nth_error (h_pc s) t = Some (HRel r h c) -> h <> invalid.
Proof.
  intros o n s R. induction R as [|s s' R IH St]; intros t0 r0 h0 c0 H0.
  - unfold h_init in H0. cbn [h_pc] in H0. apply nth_error_In, repeat_spec in H0. discriminate.
  - assert (U: forall t p, nth_error (upd (h_pc s) t p) t0 = Some (HRel r0 h0 c0) -> (forall r h c, p = HRel r h c -> h <> invalid) -> h0 <> invalid).
    { intros t p E Hp. destruct (Nat.eq_dec t t0) as [<-|D].
      - destruct (nth_error (h_pc s) t) eqn:Et; [|apply nth_error_None in Et; assert (nth_error (upd (h_pc s) t p) t = None) by (apply nth_error_None; rewrite upd_length; lia); congruence].
        rewrite nth_error_upd_eq in E by (apply nth_error_Some; congruence). injection E as ->. eapply Hp; eauto.
      - rewrite nth_error_upd_ne in E by auto. eapply IH; eauto. }
    assert (T: forall r x c r1 h1 c1, took invalid r x c = HRel r1 h1 c1 -> h1 <> invalid).
    { intros r x c r1 h1 c1. unfold took. destruct (Z.eqb_spec x invalid); [destruct c; discriminate|]. congruence. }
    assert (Af: forall c r h c', after c = HRel r h c' -> h <> invalid) by (intros []; discriminate).
    destruct St; cbn [h_pc set_pc] in H0; eapply U; eauto; intros; try discriminate.
Qed.

(** ** C55: no handle is ever released twice, whatever is closed, destroyed, moved, joined or detached concurrently *)
Theorem C55_never_twice : forall objects threads s, hreach objects threads s -> no_double_release (h_tr s) /\ h_bad s = false.
Proof.
  intros o n s R. induction R as [|s s' R [IH1 IH2] St]; [split; [intros a r h b E; destruct a; discriminate|reflexivity]|].
  assert (Rel: forall t r h c, nth_error (h_pc s) t = Some (HRel r h c) ->
     no_double_release (h_tr s ++ [HRelease r h]) /\ h_bad s || negb (existsb (Z.eqb h) (h_open s)) = false).
  { intros t r h c H. pose proof (rel_valid _ _ _ R _ _ _ _ H) as Hv. destruct (inv_reach _ _ _ R h Hv) as [A B].
    assert (O: isopen h s = 1). { pose proof (sum_nonneg _ (one h) (h_cell s) (one_nonneg h)). pose proof (sum_in _ (onep h) (h_pc s) t _ (onep_nonneg h) H) as Q. cbn [onep] in Q. unfold one in Q at 1. rewrite Z.eqb_refl in Q.
      destruct (isopen_01 h s); auto. unfold cnt in A. lia. }
    split.
    - intros a r' h' b E. destruct (@exists_last _ (HRelease r' h' :: b)) as (b' & e & Eb); [discriminate|]. rewrite Eb, app_assoc in E. apply app_inj_tail in E. destruct E as [E1 E2]. subst e.
      destruct b' as [|e b']; cbn [app] in Eb.
      + injection Eb as -> -> ->. rewrite app_nil_r in E1. subst a. lia.
      + injection Eb as <- ->. apply (IH1 a r' h' b'). auto.
    - rewrite IH2. unfold isopen in O. destruct (existsb _ _); [reflexivity|discriminate]. }
  destruct St; cbn [h_tr h_bad set_pc]; auto; try (eapply Rel; eauto).
  split; auto. intros a r h' b E. destruct (@exists_last _ (HRelease r h' :: b)) as (b' & e & Eb); [discriminate|]. rewrite Eb, app_assoc in E. apply app_inj_tail in E. destruct E as [E1 E2]. subst e.
  destruct b' as [|e b']; cbn [app] in Eb; [discriminate|]. injection Eb as <- ->. apply (IH1 a r h' b'). auto.
Qed.

(** ** and it is released exactly once if its object is closed or destroyed in the end and was not overwritten meanwhile.
    clean h: executions in which no store hits an object holding h. *)
Inductive hclean (h : Z) (objects threads : nat) : hsys -> Prop :=
| hc_init : hclean h objects threads (h_init invalid objects threads)
| hc_step : forall s s', hclean h objects threads s -> hstep s s' -> ~ overwrites h s s' -> hclean h objects threads s'.
Lemma clean_reach : forall h o n s, hclean h o n s -> hreach o n s.
Proof. intros h o n s R. induction R; [apply hr_init|eapply hr_step; eauto]. Qed.
Lemma clean_eq : forall h o n s, h <> invalid -> hclean h o n s -> cnt h s = isopen h s.
Proof.
  intros h o n s Hh R. induction R as [|s s' R IH St No]; [rewrite cnt_init by auto; reflexivity|].
  destruct (step_cnt h s s' Hh St ltac:(lia)) as (_ & P & _). auto.
Qed.
Lemma cnt_quiet : forall h s, h <> invalid -> all_idle s -> all_closed s -> cnt h s = 0.
Proof.
  intros h s Hh Hi Hc. assert (Z: forall A (f : A -> Z) l, (forall k x, nth_error l k = Some x -> f x = 0) -> sumf f l = 0).
  { intros A f l. unfold sumf. induction l as [|x l IH]; intros H; cbn [fold_right]; auto. rewrite IH; [rewrite (H 0%nat x eq_refl); auto|]. intros k y E. apply (H (S k) y E). }
  unfold cnt. rewrite !Z; auto.
  - intros t p E. rewrite (Hi t p E). reflexivity.
  - intros k x E. rewrite (Hc k x E). apply one_invalid; auto.
Qed.
Theorem C55_exactly_once : forall objects threads s h, h <> invalid -> hclean h objects threads s -> all_idle s -> all_closed s ->
  n_release h (h_tr s) = n_alloc h (h_tr s) /\ ~ In h (h_open s).
Proof.
  intros o n s h Hh R Hi Hc. pose proof (clean_eq _ _ _ _ Hh R) as E. rewrite cnt_quiet in E by auto. destruct (inv_reach _ _ _ (clean_reach _ _ _ _ R) h Hh) as [_ B].
  split; [lia|]. intros I. apply isopen_in in I. lia.
Qed.

(** in particular: an object that holds h is closed, destroyed, joined or detached by any number of threads at the same time *)
Definition closing (s s' : hsys) : Prop := hstep s s' /\ forall t p, nth_error (h_pc s) t = Some HIdle -> nth_error (h_pc s') t = Some p -> p = HIdle \/ exists r x, p = HRel r x KDone.
Inductive closings : hsys -> hsys -> Prop := cl_nil : forall s, closings s s | cl_step : forall s s' s'', closings s s' -> closing s' s'' -> closings s s''.
Lemma closings_idle : forall s s', closings s s' -> all_idle s -> forall t p, nth_error (h_pc s') t = Some p -> p = HIdle \/ exists r x, p = HRel r x KDone.
Proof.
  intros s s' C Hi. induction C as [s|s s' s'' C IH [St N]]; intros t p E; [left; apply (Hi t p E)|].
  specialize (IH Hi). destruct (nth_error (h_pc s') t) as [q|] eqn:Eq.
  - destruct (IH t q Eq) as [->|(r & x & ->)]; [apply (N t p Eq E)|].
    assert (U: forall t' p', nth_error (upd (h_pc s') t' p') t = Some p -> p = HRel r x KDone \/ (t' = t /\ p = p')).
    { intros t' p' F. destruct (Nat.eq_dec t' t) as [->|D]; [right; split; auto; rewrite nth_error_upd_eq in F by (apply nth_error_Some; congruence); congruence|left; rewrite nth_error_upd_ne in F by auto; congruence]. }
    destruct St; cbn [h_pc set_pc] in E; apply U in E; destruct E as [E|[-> E]]; subst; eauto; try congruence. left. assert (c = KDone) by congruence. subst. auto.
  - exfalso. apply nth_error_None in Eq. assert (nth_error (h_pc s'') t <> None) by congruence. apply nth_error_Some in H.
    destruct St; cbn [h_pc set_pc] in H; rewrite upd_length in H; lia.
Qed.
Theorem C55_concurrent_close : forall objects threads s s' k h, hreach objects threads s -> all_idle s ->
  nth_error (h_cell s) k = Some h -> h <> invalid -> closings s s' -> all_idle s' -> nth_error (h_cell s') k = Some invalid ->
  n_release h (h_tr s') = n_release h (h_tr s) + 1 /\ n_alloc h (h_tr s') = n_alloc h (h_tr s).
Proof.
  intros o n s s' k h R Hi Hk Hh C Hi' Hk'.
  destruct (inv_reach _ _ _ R h Hh) as [A B].
  assert (O: isopen h s = 1 /\ cnt h s = 1). { pose proof (sum_nonneg _ (onep h) (h_pc s) (onep_nonneg h)). pose proof (sum_in _ (one h) (h_cell s) k _ (one_nonneg h) Hk) as Q. unfold one in Q at 1. rewrite Z.eqb_refl in Q.
      destruct (isopen_01 h s); unfold cnt in *; lia. }
  destruct O as [O1 O2].
  assert (L: forall s1, closings s s1 -> hreach o n s1 /\ cnt h s1 = isopen h s1 /\ n_alloc h (h_tr s1) = n_alloc h (h_tr s) /\
      (forall k' , k' <> k -> nth_error (h_cell s1) k' <> Some h)).
  { intros s1 C1. induction C1 as [s|s s1 s2 C1 IH [St N]].
    - split; [auto|]. split; [lia|]. split; [auto|]. intros k' D E.
      assert (2 <= sumf (one h) (h_cell s)).
      { pose proof (sum_upd _ (one h) (h_cell s) k h invalid Hk) as U. rewrite (one_invalid h Hh) in U. unfold one in U at 3. rewrite Z.eqb_refl in U.
        assert (E': nth_error (upd (h_cell s) k invalid) k' = Some h) by (rewrite nth_error_upd_ne; auto).
        pose proof (sum_in _ (one h) _ k' _ (one_nonneg h) E') as Q. unfold one in Q at 1. rewrite Z.eqb_refl in Q. lia. }
      pose proof (sum_nonneg _ (onep h) (h_pc s) (onep_nonneg h)). unfold cnt in O2. lia.
    - destruct (IH R Hi Hk C A B O1 O2) as (R1 & E1 & N1 & P1); auto.
      split; [eapply hr_step; eauto|].
      destruct (step_cnt h s1 s2 Hh St ltac:(lia)) as (_ & P & _).
      assert (No: ~ overwrites h s1 s2). { intros (t & d & x & Q1 & _). pose proof (closings_idle _ _ C1 Hi t _ Q1) as [Q|(r & y & Q)]; discriminate. }
      split; [auto|].
      pose proof (closings_idle _ _ C1 Hi) as Cl.
      assert (NI: forall t p', nth_error (h_pc s1) t = Some HIdle -> h_pc s2 = upd (h_pc s1) t p' -> p' = HIdle \/ exists r x, p' = HRel r x KDone).
      { intros t p' Q1 Q2. apply (N t p' Q1). rewrite Q2. apply nth_error_upd_eq. apply nth_error_Some. congruence. }
      assert (Un: forall k0 k', k' <> k -> nth_error (upd (h_cell s1) k0 invalid) k' <> Some h).
      { intros k0 k' D Q. destruct (Nat.eq_dec k0 k') as [->|D']; [|rewrite nth_error_upd_ne in Q by auto; apply (P1 k' D Q)].
        destruct (nth_error (h_cell s1) k') eqn:Ek; [rewrite nth_error_upd_eq in Q by (apply nth_error_Some; congruence); congruence|].
        apply nth_error_None in Ek. assert (nth_error (upd (h_cell s1) k' invalid) k' = None) by (apply nth_error_None; rewrite upd_length; lia). congruence. }
      destruct St as [s1 t j r x H Hj|s1 t d j x H Hd Hj|s1 t d j H Hd Hj|s1 t d x H Hd Hx Hn|s1 t d H Hd|s1 t r x c H|s1 t r x c H|s1 t d j x H Hj|s1 t d x H Ld]; cbn [h_tr h_cell set_pc] in *.
      + split; [auto|]. apply Un.
      + split; [auto|]. apply Un.
      + split; [auto|]. auto.
      + destruct (NI t _ H eq_refl) as [Q|(r & y & Q)]; discriminate.
      + split; [auto|]. auto.
      + rewrite n_alloc_app. cbn [n_alloc]. split; [lia|auto].
      + rewrite n_alloc_app. cbn [n_alloc]. split; [lia|auto].
      + split; [auto|]. apply Un.
      + destruct (Cl t _ H) as [Q|(r & y & Q)]; discriminate. }
  destruct (L s' C) as (R' & E' & N' & P').
  assert (Z0: cnt h s' = 0).
  { assert (Z: forall A (f : A -> Z) l, (forall i x, nth_error l i = Some x -> f x = 0) -> sumf f l = 0).
    { intros A0 f l. unfold sumf. induction l as [|x l IH]; intros H; cbn [fold_right]; auto. rewrite IH; [rewrite (H 0%nat x eq_refl); auto|]. intros i y E. apply (H (S i) y E). }
    unfold cnt. rewrite !Z; auto.
    - intros t p E. rewrite (Hi' t p E). reflexivity.
    - intros i x E. unfold one. destruct (Z.eqb_spec x h) as [->|]; auto. exfalso. destruct (Nat.eq_dec i k) as [->|D]; [congruence|apply (P' i D E)]. }
  destruct (inv_reach _ _ _ R' h Hh) as [_ B']. lia.
Qed.

(** ** A discipline under which nothing is overwritten: only the thread own d assigns to object d (connect, bind, accept, begin,
    move to it), and connect, bind, accept and begin are called on an object that holds nothing; anybody may close it, destroy
    it, or move from it at any time. *)
Definition disciplined (own : nat -> nat) (s s' : hsys) : Prop := forall t p, nth_error (h_pc s) t = Some HIdle -> nth_error (h_pc s') t = Some p ->
  match p with
  | HIdle | HRel _ _ KDone => True
  | HRel _ _ (KMove d _) => own d = t
  | HTake d _ | HStore d _ => own d = t /\ nth_error (h_cell s) d = Some invalid
  end.
Inductive hdisc (own : nat -> nat) (objects threads : nat) : hsys -> Prop :=
| hd_init : hdisc own objects threads (h_init invalid objects threads)
| hd_step : forall s s', hdisc own objects threads s -> hstep s s' -> disciplined own s s' -> hdisc own objects threads s'.
Definition target (p : hpc) : option nat := match p with HRel _ _ (KMove d _) | HTake d _ | HStore d _ => Some d | _ => None end.
Definition dinv (own : nat -> nat) (s : hsys) : Prop := forall t p d, nth_error (h_pc s) t = Some p -> target p = Some d -> own d = t /\ nth_error (h_cell s) d = Some invalid.
Lemma nth_upd_inv : forall A (l : list A) t p t0 q, nth_error (upd l t p) t0 = Some q -> (t0 = t /\ q = p) \/ (t0 <> t /\ nth_error l t0 = Some q).
Proof.
  intros A l t p t0 q E. destruct (Nat.eq_dec t0 t) as [->|D].
  - left. destruct (nth_error l t) eqn:Q; [rewrite nth_error_upd_eq in E by (apply nth_error_Some; congruence); split; congruence|].
    apply nth_error_None in Q. assert (nth_error (upd l t p) t = None) by (apply nth_error_None; rewrite upd_length; lia). congruence.
  - right. rewrite nth_error_upd_ne in E by auto. auto.
Qed.
Lemma dinv_reach : forall own o n s, hdisc own o n s -> dinv own s.
Proof.
  intros own o n s R. induction R as [|s s' R IH St D]; intros t0 p0 d0 E T.
  - unfold h_init in E. cbn [h_pc] in E. apply nth_error_In, repeat_spec in E. subst. discriminate.
  - assert (Inv: forall k, nth_error (h_cell s) d0 = Some invalid -> nth_error (upd (h_cell s) k invalid) d0 = Some invalid).
    { intros k Q. destruct (Nat.eq_dec k d0) as [->|N]; [apply nth_error_upd_eq; apply nth_error_Some; congruence|rewrite nth_error_upd_ne; auto]. }
    assert (Self: forall t k, nth_error (h_pc s) t = Some k -> forall p, nth_error (upd (h_pc s) t p) t = Some p).
    { intros t k Q p. apply nth_error_upd_eq. apply nth_error_Some. congruence. }
    destruct St as [s t j r x H Hj|s t d j x H Hd Hj|s t d j H Hd Hj|s t d x H Hd Hx Hn|s t d H Hd|s t r x c H|s t r x c H|s t d j x H Hj|s t d x H Ld];
      cbn [h_pc h_cell set_pc] in *; unfold disciplined in D; cbn [h_pc h_cell set_pc] in D; apply nth_upd_inv in E; destruct E as [[-> ->]|[Nt E]];
      try (destruct (IH t0 p0 d0 E T) as [Q1 Q2]; split; [exact Q1|]; auto; fail).
    + unfold took in T. destruct (x =? invalid); discriminate.
    + specialize (D t _ H (Self _ _ H _)). unfold took in *. destruct (Z.eqb_spec x invalid) as [Ex|Ex]; cbn [after target] in *; assert (d = d0) by congruence; subst d0.
      * destruct D as [D1 D2]. split; auto.
      * split; auto. apply nth_error_upd_eq. apply nth_error_Some. congruence.
    + specialize (D t _ H (Self _ _ H _)). cbn [target] in T. assert (d = d0) by congruence. subst d0. exact D.
    + specialize (D t _ H (Self _ _ H _)). cbn [target] in T. assert (d = d0) by congruence. subst d0. exact D.
    + specialize (D t _ H (Self _ _ H _)). cbn [target] in T. assert (d = d0) by congruence. subst d0. exact D.
    + destruct c as [|d k]; cbn [after target] in T; [discriminate|]. apply (IH t (HRel r x (KMove d k)) d0 H). auto.
    + discriminate.
    + cbn [target] in T. destruct (IH t (HTake d j) d0 H T) as [Q1 Q2]. split; auto.
    + discriminate.
    + destruct (IH t0 p0 d0 E T) as [Q1 Q2]. split; auto. destruct (Nat.eq_dec d d0) as [->|N]; [|rewrite nth_error_upd_ne; auto].
      destruct (IH t (HStore d0 x) d0 H eq_refl) as [Q3 _]. congruence.
Qed.
Theorem C55_discipline : forall own objects threads s h, h <> invalid -> hdisc own objects threads s -> hclean h objects threads s.
Proof.
  intros own o n s h Hh R. induction R as [|s s' R IH St D]; [apply hc_init|]. eapply hc_step; eauto.
  intros (t & d & x & Q1 & Q2 & _). destruct (dinv_reach _ _ _ _ R t _ d Q1 eq_refl) as [_ Q]. congruence.
Qed.

(** ** No operation hangs: every step of an operation under way lowers a measure, and one is possible while any is under way *)
Definition ht (p : hpc) : Z := match p with HIdle => 0 | HRel _ _ KDone => 1 | HStore _ _ => 1 | HTake _ _ => 2 | HRel _ _ (KMove _ _) => 3 end.
Definition hmeasure (s : hsys) : Z := sumf ht (h_pc s).
(** a step by a thread that was in the middle of an operation *)
Definition busy_step (s s' : hsys) : Prop := hstep s s' /\ exists t p p', nth_error (h_pc s) t = Some p /\ p <> HIdle /\ nth_error (h_pc s') t = Some p' /\ p' <> p.
Lemma bounds : forall o n s, hreach o n s -> forall t p, nth_error (h_pc s) t = Some p ->
  match p with HRel _ _ (KMove d k) | HTake d k => (d < length (h_cell s))%nat /\ (k < length (h_cell s))%nat | HStore d _ => (d < length (h_cell s))%nat | _ => True end.
Proof.
  intros o n s R. induction R as [|s s' R IH St]; intros t0 p0 E.
  - unfold h_init in E. cbn [h_pc] in E. apply nth_error_In, repeat_spec in E. subst. exact Logic.I.
  - destruct St as [s t j r x H Hj|s t d j x H Hd Hj|s t d j H Hd Hj|s t d x H Hd Hx Hn|s t d H Hd|s t r x c H|s t r x c H|s t d j x H Hj|s t d x H Ld];
      cbn [h_pc h_cell set_pc] in *; rewrite ?upd_length; apply nth_upd_inv in E; destruct E as [[-> ->]|[Nt E]]; try apply (IH t0 p0 E); auto.
    + unfold took. destruct (x =? invalid); exact Logic.I.
    + assert (d < length (h_cell s))%nat by (apply nth_error_Some; congruence). unfold took. destruct (x =? invalid); cbn [after]; auto.
    + destruct c; cbn [after]; auto. apply (IH t _ H).
    + apply (IH t _ H).
Qed.
Theorem C55_no_hang : forall objects threads s, hreach objects threads s ->
  0 <= hmeasure s /\ (forall s', busy_step s s' -> hmeasure s' < hmeasure s) /\ (~ all_idle s -> exists s', busy_step s s').
Proof.
  intros o n s R. split; [|split].
  - apply sum_nonneg. intros [|? ? []| |]; cbn; lia.
  - intros s' [St (t0 & p0 & p0' & E0 & N0 & E0' & C0)]. unfold hmeasure.
    destruct St as [s t j r x H Hj|s t d j x H Hd Hj|s t d j H Hd Hj|s t d x H Hd Hx Hn|s t d H Hd|s t r x c H|s t r x c H|s t d j x H Hj|s t d x H Ld];
      cbn [h_pc set_pc] in *; rewrite (sum_upd _ _ _ _ _ _ H); apply nth_upd_inv in E0'; destruct E0' as [[-> ->]|[Nt E]]; try congruence; cbn [ht]; try lia.
    + destruct c; cbn [after ht]; lia.
    + destruct c; cbn [after ht]; lia.
  - intros Ni. assert (Ex: exists t p, nth_error (h_pc s) t = Some p /\ p <> HIdle).
    { unfold all_idle in Ni. clear R. induction (h_pc s) as [|p l IH]; [exfalso; apply Ni; intros t p E; destruct t; discriminate|].
      assert (D: p = HIdle \/ p <> HIdle) by (destruct p; [left; reflexivity|right; discriminate|right; discriminate|right; discriminate]). destruct D as [->|D]; [|exists 0%nat, p; auto].
      destruct IH as (t & q & E & Nq); [|exists (S t), q; auto]. intros F. apply Ni. intros [|t] q E; [cbn in E; congruence|apply (F t q E)]. }
    destruct Ex as (t & p & E & Np). pose proof (bounds _ _ _ R t p E) as Bd.
    assert (Self: forall p', nth_error (upd (h_pc s) t p') t = Some p') by (intros; apply nth_error_upd_eq; apply nth_error_Some; congruence).
    destruct p as [|r x c|d k|d x]; [congruence| | |].
    + eexists. split; [eapply h_release; eauto|]. exists t, (HRel r x c), (after c). split; auto. split; auto. split; [apply Self|]. destruct c; discriminate.
    + destruct (nth_error (h_cell s) k) as [y|] eqn:Ek; [|apply nth_error_None in Ek; lia].
      eexists. split; [eapply h_take; eauto|]. exists t, (HTake d k), (HStore d y). split; auto. split; auto. split; [apply Self|discriminate].
    + eexists. split; [eapply h_store; eauto|]. exists t, (HStore d x), HIdle. split; auto. split; auto. split; [apply Self|discriminate].
Qed.
End P.

(** ** Non-vacuity: connect, then close and destroy from two threads; the exchange lets exactly one through *)
Tactic Notation "nx" hyp(R) tactic3(t) := let R' := fresh in eassert (R' : hreach (-1) _ _ _) by (eapply hr_step; [exact R|t]); cbn in R'; clear R; rename R' into R.
Ltac nin := let H := fresh in intros H; repeat (destruct H as [H|H]; [discriminate H|]); destruct H.
Example C55_ex : exists s, hreach (-1) 1 3 s /\ all_idle s /\ all_closed (-1) s /\ h_tr s = [HAlloc 5; HRelease RClose 5].
Proof.
  pose proof (hr_init (-1) 1 3) as R. cbn in R.
  nx R (eapply (h_alloc _ _ 0 0 5); [reflexivity|cbn; lia|lia|nin]).
  nx R (eapply (h_store _ _ 0 0 5); [reflexivity|cbn; lia]).
  nx R (eapply (h_close _ _ 1 0 RClose 5); reflexivity).
  nx R (eapply (h_close _ _ 2 0 RClose (-1)); reflexivity).
  nx R (eapply (h_release _ _ 1 RClose 5 KDone); reflexivity).
  eexists. split; [exact R|]. split; [|split; [|reflexivity]].
  - intros [|[|[|[|t]]]] p E; cbn in E; congruence.
  - intros [|[|k]] x E; cbn in E; congruence.
Qed.
(** ... and a disciplined execution with a move: the handle moves to object 1 while another thread destroys object 0 *)
Tactic Notation "nd" hyp(R) tactic3(t) := let R' := fresh in
  eassert (R' : hdisc (-1) (fun _ => 0%nat) _ _ _) by (eapply hd_step; [exact R|t|
    let t := fresh in let p := fresh in let E1 := fresh in let E2 := fresh in intros t p E1 E2; destruct t as [|[|[|?]]]; cbn in E1, E2; try discriminate E1; try (injection E2 as <-); cbn; auto]);
  cbn in R'; clear R; rename R' into R.
Example C55_discipline_ex : exists s, hdisc (-1) (fun _ => 0%nat) 2 2 s /\ all_idle s /\ all_closed (-1) s /\ h_tr s = [HAlloc 5; HRelease RClose 5].
Proof.
  pose proof (hd_init (-1) (fun _ => 0%nat) 2 2) as R. cbn in R.
  nd R (eapply (h_alloc _ _ 0 0 5); [reflexivity|cbn; lia|lia|nin]).
  nd R (eapply (h_store _ _ 0 0 5); [reflexivity|cbn; lia]).
  nd R (eapply (h_move _ _ 0 1 0 (-1)); [reflexivity|reflexivity|cbn; lia]).
  nd R (eapply (h_take _ _ 0 1 0 5); reflexivity).
  nd R (eapply (h_close _ _ 1 0 RClose (-1)); reflexivity).
  nd R (eapply (h_store _ _ 0 1 5); [reflexivity|cbn; lia]).
  nd R (eapply (h_close _ _ 1 1 RClose 5); reflexivity).
  nd R (eapply (h_release _ _ 1 RClose 5 KDone); reflexivity).
  eexists. split; [exact R|]. split; [|split; [|reflexivity]].
  - intros [|[|[|t]]] p E; cbn in E; congruence.
  - intros [|[|[|k]]] x E; cbn in E; congruence.
Qed.

(** ** Finding: bind and accept on an object that is already open leak its handle: everything is closed, one handle stays open *)
Theorem C55_overwrite_finding : exists s, hreach (-1) 1 1 s /\ all_idle s /\ all_closed (-1) s /\ h_tr s = [HAlloc 5; HAlloc 6; HRelease RClose 6] /\ h_open s = [5].
Proof.
  pose proof (hr_init (-1) 1 1) as R. cbn in R.
  nx R (eapply (h_alloc _ _ 0 0 5); [reflexivity|cbn; lia|lia|nin]).
  nx R (eapply (h_store _ _ 0 0 5); [reflexivity|cbn; lia]).
  nx R (eapply (h_alloc _ _ 0 0 6); [reflexivity|cbn; lia|lia|nin]).
  nx R (eapply (h_store _ _ 0 0 6); [reflexivity|cbn; lia]).
  nx R (eapply (h_close _ _ 0 0 RClose 6); reflexivity).
  nx R (eapply (h_release _ _ 0 RClose 6 KDone); reflexivity).
  eexists. split; [exact R|]. split; [|split; [|split; reflexivity]].
  - intros [|[|t]] p E; cbn in E; congruence.
  - intros [|[|k]] x E; cbn in E; congruence.
Qed.
(** ** Finding: two threads that move to the same object at the same time leak one of the two handles, since the store in moveFrom
    is not an exchange *)
Theorem C55_move_race_finding : exists s, hreach (-1) 3 2 s /\ all_idle s /\ all_closed (-1) s /\ h_tr s = [HAlloc 5; HAlloc 6; HRelease RClose 6] /\ h_open s = [5].
Proof.
  pose proof (hr_init (-1) 3 2) as R. cbn in R.
  nx R (eapply (h_alloc _ _ 0 0 5); [reflexivity|cbn; lia|lia|nin]).
  nx R (eapply (h_store _ _ 0 0 5); [reflexivity|cbn; lia]).
  nx R (eapply (h_alloc _ _ 0 1 6); [reflexivity|cbn; lia|lia|nin]).
  nx R (eapply (h_store _ _ 0 1 6); [reflexivity|cbn; lia]).
  nx R (eapply (h_move _ _ 0 2 0 (-1)); [reflexivity|reflexivity|cbn; lia]).
  nx R (eapply (h_move _ _ 1 2 1 (-1)); [reflexivity|reflexivity|cbn; lia]).
  nx R (eapply (h_take _ _ 0 2 0 5); reflexivity).
  nx R (eapply (h_take _ _ 1 2 1 6); reflexivity).
  nx R (eapply (h_store _ _ 0 2 5); [reflexivity|cbn; lia]).
  nx R (eapply (h_store _ _ 1 2 6); [reflexivity|cbn; lia]).
  nx R (eapply (h_close _ _ 0 2 RClose 6); reflexivity).
  nx R (eapply (h_release _ _ 0 RClose 6 KDone); reflexivity).
  eexists. split; [exact R|]. split; [|split; [|split; reflexivity]].
  - intros [|[|[|t]]] p E; cbn in E; congruence.
  - intros [|[|[|[|k]]]] x E; cbn in E; congruence.
Qed.
(** ** Finding: moving an object to itself closes its connection *)
Theorem C55_self_move_finding : exists s, hreach (-1) 1 1 s /\ all_idle s /\ h_cell s = [-1] /\ h_tr s = [HAlloc 5; HRelease RClose 5].
Proof.
  pose proof (hr_init (-1) 1 1) as R. cbn in R.
  nx R (eapply (h_alloc _ _ 0 0 5); [reflexivity|cbn; lia|lia|nin]).
  nx R (eapply (h_store _ _ 0 0 5); [reflexivity|cbn; lia]).
  nx R (eapply (h_move _ _ 0 0 0 5); [reflexivity|reflexivity|cbn; lia]).
  nx R (eapply (h_release _ _ 0 RClose 5 (KMove 0 0)); reflexivity).
  nx R (eapply (h_take _ _ 0 0 0 (-1)); reflexivity).
  nx R (eapply (h_store _ _ 0 0 (-1)); [reflexivity|cbn; lia]).
  eexists. split; [exact R|]. split; [|split; reflexivity].
  intros [|[|t]] p E; cbn in E; congruence.
Qed.

Print Assumptions C55_never_twice.
Print Assumptions C55_exactly_once.
Print Assumptions C55_concurrent_close.
Print Assumptions C55_discipline.
Print Assumptions C55_no_hang.
Print Assumptions C55_overwrite_finding.
Print Assumptions C55_move_race_finding.
Print Assumptions C55_self_move_finding.
