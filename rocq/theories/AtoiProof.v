Require Import Verif.Common Verif.AtoiModel Verif.AtoiSpec.

(** * positional values *)
Lemma fold_value base l a :
  fold_left (fun a d => a * base + d) l a = a * base ^ zlen l + value base l.
Proof.
  unfold value. revert a. induction l as [|d l IH]; intros a.
  - cbn [fold_left]. change (zlen (@nil Z)) with 0. rewrite Z.pow_0_r. lia.
  - cbn [fold_left]. rewrite IH, (IH (0 * base + d)). rewrite zlen_cons.
    rewrite Z.pow_add_r by (pose proof (zlen_nonneg l); lia). rewrite Z.pow_1_r. ring.
Qed.

Lemma value_cons base d l : value base (d :: l) = d * base ^ zlen l + value base l.
Proof. unfold value at 1. cbn [fold_left]. rewrite fold_value. ring. Qed.

Lemma value_nil base : value base [] = 0. Proof. reflexivity. Qed.

Lemma value_snoc base l d : value base (l ++ [d]) = value base l * base + d.
Proof. unfold value. rewrite fold_left_app. reflexivity. Qed.

Lemma value_app base l1 l2 : value base (l1 ++ l2) = value base l1 * base ^ zlen l2 + value base l2.
Proof. unfold value at 1. rewrite fold_left_app. rewrite fold_value. reflexivity. Qed.

Lemma value_bounds base l :
  1 < base -> Forall (fun d => 0 <= d < base) l -> 0 <= value base l < base ^ zlen l.
Proof.
  intros Hb. induction 1 as [|d l Hd Hl IH].
  - rewrite value_nil, zlen_nil. simpl. lia.
  - rewrite value_cons, zlen_cons. rewrite Z.pow_add_r by (pose proof (zlen_nonneg l); lia).
    rewrite Z.pow_1_r. pose proof (Z.pow_pos_nonneg base (zlen l)). nia.
Qed.

(** two numerals of the same length with equal value are equal *)
Lemma value_inj_len base l1 l2 :
  1 < base -> Forall (fun d => 0 <= d < base) l1 -> Forall (fun d => 0 <= d < base) l2 ->
  length l1 = length l2 -> value base l1 = value base l2 -> l1 = l2.
Proof.
  intros Hb H1. revert l2. induction H1 as [|d l Hd Hl IH]; intros [|d2 l2] H2 Hlen Hv; simpl in Hlen; try lia; auto.
  apply Forall_cons_iff in H2 as [Hd2 H4].
  rewrite !value_cons in Hv.
  assert (zlen l = zlen l2) as E by (unfold zlen; lia). rewrite E in Hv.
  pose proof (value_bounds base l Hb Hl). pose proof (value_bounds base l2 Hb H4). rewrite E in *.
  assert (d = d2) by nia. subst. f_equal. apply IH; auto; lia.
Qed.

(** canonical numerals (nonempty, nonzero head unless a single zero) are determined by the value *)
Lemma value_canon_inj base l1 l2 :
  1 < base -> Forall (fun d => 0 <= d < base) l1 -> Forall (fun d => 0 <= d < base) l2 ->
  (forall t, l1 = 0 :: t -> False) -> (forall t, l2 = 0 :: t -> False) ->
  value base l1 = value base l2 -> l1 = l2.
Proof.
  intros Hb H1 H2 N1 N2 Hv.
  apply (value_inj_len base); auto.
  (* equal lengths: a numeral with nonzero head is >= base^(len-1) *)
  assert (L: forall l, Forall (fun d => 0 <= d < base) l -> (forall t, l = 0 :: t -> False) -> l <> [] ->
             base ^ (zlen l - 1) <= value base l).
  { intros l Hl N Hn. destruct l as [|d l]; [congruence|].
    apply Forall_cons_iff in Hl as [Hd H4]. assert (d <> 0) by (intros ->; eapply N; eauto).
    rewrite value_cons, zlen_cons. replace (1 + zlen l - 1) with (zlen l) by lia.
    pose proof (value_bounds base l Hb H4). pose proof (Z.pow_pos_nonneg base (zlen l)). pose proof (zlen_nonneg l). nia. }
  destruct l1 as [|d1 l1], l2 as [|d2 l2]; auto.
  - rewrite value_nil in Hv. pose proof (L _ H2 N2 ltac:(congruence)) as Q.
    rewrite <- Hv in Q. pose proof (Z.pow_pos_nonneg base (zlen (d2 :: l2) - 1)).
    rewrite zlen_cons in *. pose proof (zlen_nonneg l2). lia.
  - rewrite value_nil in Hv. pose proof (L _ H1 N1 ltac:(congruence)) as Q.
    rewrite Hv in Q. pose proof (Z.pow_pos_nonneg base (zlen (d1 :: l1) - 1)).
    rewrite zlen_cons in *. pose proof (zlen_nonneg l1). lia.
  - pose proof (L _ H1 N1 ltac:(congruence)) as Q1. pose proof (L _ H2 N2 ltac:(congruence)) as Q2.
    pose proof (value_bounds base _ Hb H1) as B1. pose proof (value_bounds base _ Hb H2) as B2.
    set (a := zlen (d1 :: l1)) in *. set (b := zlen (d2 :: l2)) in *.
    assert (1 <= a) by (unfold a; rewrite zlen_cons; pose proof (zlen_nonneg l1); lia).
    assert (1 <= b) by (unfold b; rewrite zlen_cons; pose proof (zlen_nonneg l2); lia).
    assert (a = b); [|unfold a, b, zlen in *; lia].
    destruct (Z.lt_trichotomy a b) as [Hlt|[Heq|Hgt]]; auto; exfalso.
    + assert (base ^ a <= base ^ (b - 1)) by (apply Z.pow_le_mono_r; lia). lia.
    + assert (base ^ b <= base ^ (a - 1)) by (apply Z.pow_le_mono_r; lia). lia.
Qed.

Lemma value_zeros base k l : value base (repeat 0 k ++ l) = value base l.
Proof. induction k; [reflexivity|]. cbn [repeat app]. rewrite value_cons, IHk. ring. Qed.

(** * visible text *)
Lemma visible_bytes p n : bytes p -> bytes (visible p n).
Proof.
  intros H. revert n. induction H; intros n; simpl; destruct (n <=? 0); try constructor.
  destruct (x =? 0); constructor; auto. apply IHForall.
Qed.

Lemma visible_nonul p n : Forall (fun c => c <> 0) (visible p n).
Proof.
  revert n. induction p; intros n; simpl; destruct (n <=? 0); try constructor.
  destruct (a =? 0) eqn:E; constructor; auto. lia.
Qed.

Lemma readable_cons c p n : readable (c :: p) n -> 0 < n -> c <> 0 -> readable p (n - 1).
Proof.
  unfold readable. rewrite zlen_cons. intros [H|H] Hn Hc; [left; lia|right].
  simpl in H. destruct H; [congruence|auto].
Qed.

Lemma readable_nonempty p n : readable p n -> 0 < n -> p <> [].
Proof. intros [H|H] Hn E; subst; [rewrite zlen_nil in H; lia|destruct H]. Qed.

(** the skip-zero loop *)
Lemma skip_zero_spec p n : readable p n -> 0 <= n ->
  exists k, skip_zero p n = Ok (skipn k p, n - Z.of_nat k) /\
    visible p n = repeat 48 k ++ visible (skipn k p) (n - Z.of_nat k) /\
    readable (skipn k p) (n - Z.of_nat k) /\ 0 <= n - Z.of_nat k /\
    (forall t, visible (skipn k p) (n - Z.of_nat k) = 48 :: t -> False) /\
    (k <= length p)%nat.
Proof.
  revert n. induction p as [|c p IH]; intros n Hr Hn.
  - assert (n = 0) by (destruct Hr as [H|[]]; rewrite zlen_nil in H; lia). subst.
    exists O. simpl. repeat split; auto; try lia. discriminate.
  - simpl skip_zero. destruct (n <=? 0) eqn:En.
    + exists O. simpl. rewrite Z.sub_0_r, En. repeat split; auto; try lia. discriminate.
    + destruct (c =? 48) eqn:Ec.
      * assert (c = 48) by lia. subst c.
        destruct (IH (n - 1)) as (k & E & V & R & N & Z0 & L).
        { eapply readable_cons; eauto; lia. } { lia. }
        exists (S k). replace (n - Z.of_nat (S k)) with (n - 1 - Z.of_nat k) by lia.
        simpl skipn. rewrite E. repeat split; auto; try (simpl; lia).
        simpl. rewrite En. simpl. rewrite V. reflexivity.
      * exists O. simpl skipn. rewrite Z.sub_0_r. repeat split; auto; try (simpl; lia).
        simpl. rewrite En. destruct (c =? 0); [discriminate|]. intros t Et. inversion Et. lia.
Qed.

(** well-formed type descriptors *)
Definition wf_ty (t : ityp) : Prop :=
  0 <= t_ov1 t /\ 48 < t_ov2 t <= 57 /\ t_ov1 t * 10 + (t_ov2 t - 48) = t_max t + 1 /\ t_min t <= 0.

Definition digitb (c : Z) : bool := (48 <=? c) && (c <=? 57).
Lemma digitb_spec c : digitb c = true <-> is_digit c.
Proof. unfold digitb, is_digit. lia. Qed.
Lemma forallb_digit s : forallb digitb s = true <-> Forall is_digit s.
Proof. rewrite forallb_forall, Forall_forall. split; intros H x Hx; apply digitb_spec; auto. Qed.

Definition acc (x : Z) (s : list Z) : Z := fold_left (fun a d => a * 10 + d) (map dec_digit s) x.

Lemma acc_mono x s : 0 <= x -> Forall is_digit s -> x <= acc x s.
Proof.
  intros Hx Hs. unfold acc. rewrite fold_value.
  pose proof (Z.pow_pos_nonneg 10 (zlen (map dec_digit s))). pose proof (zlen_nonneg (map dec_digit s)).
  assert (0 <= value 10 (map dec_digit s)).
  { apply value_bounds; [lia|]. apply Forall_map. eapply Forall_impl; [|exact Hs]. unfold is_digit, dec_digit. simpl; lia. }
  nia.
Qed.

Lemma acc_0 s : acc 0 s = dec_value s. Proof. reflexivity. Qed.

Lemma digit_loop_spec t p n x : wf_ty t -> bytes p -> readable p n -> 0 <= n -> 0 <= x <= t_max t ->
  digit_loop t p n x =
    Ok (if forallb digitb (visible p n) && (acc x (visible p n) <=? t_max t)
        then Some (acc x (visible p n)) else None).
Proof.
  intros Hwf Hb. revert n x. induction Hb as [|c p Hc Hp IH]; intros n x Hr Hn Hx.
  - assert (n = 0) by (destruct Hr as [H|[]]; rewrite zlen_nil in H; lia). subst. simpl.
    unfold acc; simpl. destruct (x <=? t_max t) eqn:E; [auto|lia].
  - cbn [digit_loop visible]. destruct (n <=? 0) eqn:En.
    { unfold acc; simpl. destruct (x <=? t_max t) eqn:E; [auto|lia]. }
    destruct (c =? 0) eqn:E0.
    { unfold acc; simpl. destruct (x <=? t_max t) eqn:E; [auto|lia]. }
    destruct Hwf as (W1 & W2 & W3 & W4). unfold is_byte in Hc.
    change (2 ^ 32) with 4294967296. cbn [forallb].
    destruct (digitb c) eqn:Ed; unfold digitb in Ed.
    + assert (Hy: (c - 48) mod 4294967296 = c - 48) by (apply Z.mod_small; lia).
      rewrite Hy. destruct (9 <? c - 48) eqn:E9; [lia|].
      destruct (_ || _ || _) eqn:Eov.
      * (* overflow detected: acc > max *)
        simpl. destruct (forallb digitb (visible p (n - 1))) eqn:Efb; simpl; auto.
        replace (acc x (c :: visible p (n - 1))) with (acc (x * 10 + (c - 48)) (visible p (n - 1))) by reflexivity.
        pose proof (acc_mono (x * 10 + (c - 48)) (visible p (n - 1))) as M.
        rewrite <- forallb_digit in M. specialize (M ltac:(lia) Efb).
        destruct (_ <=? t_max t) eqn:Em; auto. exfalso. lia.
      * assert (x * 10 + (c - 48) <= t_max t) by lia.
        destruct ((_ <? t_min t) || _) eqn:Eub; [lia|].
        rewrite IH; [reflexivity| |lia|lia].
        eapply readable_cons; eauto; lia.
    + assert ((9 <? (c - 48) mod 4294967296) = true) as ->; [|reflexivity].
      destruct (Z_lt_dec c 48).
      * replace ((c - 48) mod 4294967296) with (c - 48 + 4294967296); [lia|].
        symmetry. rewrite <- (Z_mod_plus_full _ 1). apply Z.mod_small. lia.
      * rewrite Z.mod_small; lia.
Qed.

(** * unsigned parser *)
Lemma dec_value_zeros k s : dec_value (repeat 48 k ++ s) = dec_value s.
Proof.
  unfold dec_value. rewrite map_app.
  replace (map dec_digit (repeat 48 k)) with (repeat 0 k); [apply value_zeros|].
  induction k; simpl; congruence.
Qed.

Lemma digits_zeros k s : forallb digitb (repeat 48 k ++ s) = forallb digitb s.
Proof. induction k; simpl; auto. Qed.

Lemma visible_hd p n : 0 < n -> readable p n -> forall c0, rd p 0 = Ok c0 ->
  (c0 = 0 -> visible p n = []) /\ (c0 <> 0 -> exists t, visible p n = c0 :: t).
Proof.
  intros Hn Hr c0 H. destruct p as [|c p]; [discriminate|].
  unfold rd in H. simpl in H. inversion H; subst.
  simpl. destruct (n <=? 0) eqn:E; [lia|]. split; intros Hc.
  - subst. reflexivity.
  - destruct (c0 =? 0) eqn:E0; [lia|]. eauto.
Qed.

Lemma rd0_ok p n : readable p n -> 0 < n -> exists c, rd p 0 = Ok c /\ In c p.
Proof.
  intros Hr Hn. pose proof (readable_nonempty _ _ Hr Hn). destruct p as [|c p]; [congruence|].
  exists c. split; [reflexivity|left; auto].
Qed.

Definition uint_result (t : ityp) (s : list Z) : option Z :=
  if negb (match s with [] => true | _ => false end) && forallb digitb s && (dec_value s <=? t_max t)
  then Some (dec_value s) else None.

Lemma t_max_pos t : wf_ty t -> 0 <= t_max t.
Proof. unfold wf_ty. lia. Qed.

Lemma convertToUint_spec t b p size :
  wf_ty t -> bytes p -> readable p size -> 0 <= size ->
  convertToUint t b p size =
    match uint_result t (visible p size) with
    | Some v => Ok (true, v)
    | None => fail_exit b p size
    end.
Proof.
  intros Hwf Hb Hr Hs. unfold convertToUint, uint_result.
  destruct (size <=? 0) eqn:E0.
  { assert (size = 0) by lia. subst. destruct p; reflexivity. }
  destruct (rd0_ok p size Hr ltac:(lia)) as (c0 & Ec & Hin). rewrite Ec. cbn [bind].
  destruct (visible_hd p size ltac:(lia) Hr _ Ec) as [V0 V1].
  destruct (c0 =? 0) eqn:Ez.
  { rewrite V0 by lia. reflexivity. }
  destruct (V1 ltac:(lia)) as (tl0 & Vt).
  destruct (skip_zero_spec p size Hr Hs) as (k & E & V & R & N & _ & L).
  rewrite E. cbn [bind].
  rewrite digit_loop_spec; auto.
  2: { unfold bytes in *. rewrite Forall_forall in *. intros x Hx. apply Hb.
       rewrite <- (firstn_skipn k p). apply in_or_app. auto. }
  2: { pose proof (t_max_pos t Hwf); lia. }
  cbn [bind]. rewrite acc_0.
  assert (NE: visible p size <> []) by congruence.
  rewrite V in NE |- *. rewrite digits_zeros, dec_value_zeros.
  destruct (repeat 48 k ++ _) eqn:Er; [congruence|]. cbn [negb andb].
  destruct (forallb _ _); cbn [andb]; [|reflexivity].
  destruct (_ <=? t_max t); reflexivity.
Qed.

Lemma uint_result_spec t s v :
  uint_result t s = Some v <-> unsigned_text s v /\ v <= t_max t.
Proof.
  unfold uint_result, unsigned_text. rewrite <- forallb_digit.
  destruct s as [|c s]; cbn [negb andb]; [split; [discriminate|intros [[H _] _]; congruence]|].
  destruct (forallb digitb (c :: s)) eqn:E; cbn [andb].
  - destruct (_ <=? _) eqn:E2; split; intros H.
    + inversion H; subst. repeat split; auto; try congruence. lia.
    + destruct H as [(H1 & H2 & H3) H4]. subst. reflexivity.
    + discriminate.
    + destruct H as [(H1 & H2 & H3) H4]. subst. lia.
  - split; [discriminate|]. intros [(H1 & H2 & H3) H4]. discriminate.
Qed.

(** * signed parser *)
Definition wf_sty (t : ityp) : Prop :=
  wf_ty t /\ t_min t = - (t_max t + 1) /\ canonical_dec (t_maxstr t) (t_max t + 1) /\ 0 < t_max t
  /\ zlen (t_maxstr t) <= 19.

Lemma strip_unique a b k k' : repeat 48 k ++ a = repeat 48 k' ++ b ->
  (forall t, a = 48 :: t -> False) -> (forall t, b = 48 :: t -> False) -> k = k' /\ a = b.
Proof.
  revert k'. induction k; intros [|k'] H Ha Hb; simpl in H; auto.
  - exfalso. eapply Ha; eauto.
  - exfalso. eapply Hb; symmetry; eauto.
  - inversion H as [H1]. destruct (IHk k' H1 Ha Hb). subst. auto.
Qed.

Lemma list_eqb_eq a b : list_eqb a b = true <-> a = b.
Proof.
  revert b. induction a as [|x a IH]; intros [|y b]; simpl; split; intros H; try discriminate; auto.
  - apply andb_true_iff in H as [H1 H2]. apply IH in H2. f_equal; [lia|auto].
  - inversion H; subst. apply andb_true_iff. split; [lia|]. apply IH; auto.
Qed.

Lemma visible_prefix m q n : Forall (fun c => c <> 0) m -> m <> [] ->
  (zlen m <= n /\ firstn (length m) q = m) <-> exists j, visible q n = m ++ j.
Proof.
  intros Hm. revert q n. induction Hm as [|c m Hc Hm IH]; intros q n Hne; [congruence|].
  rewrite zlen_cons. destruct m as [|c2 m].
  - change (zlen (@nil Z)) with 0. split.
    + intros [H1 H2]. destruct q as [|d q]; simpl in H2; [discriminate|]. inversion H2; subst.
      simpl. destruct (n <=? 0) eqn:E; [lia|]. destruct (c =? 0) eqn:E0; [lia|]. eauto.
    + intros [j Hj]. destruct q as [|d q]; simpl in Hj; destruct (n <=? 0) eqn:E; try discriminate.
      destruct (d =? 0); [discriminate|]. inversion Hj; subst. split; [lia|reflexivity].
  - specialize (IH (tl q) (n - 1) ltac:(congruence)).
    destruct q as [|d q].
    + split; [intros [_ H]; discriminate|]. intros [j Hj]. simpl in Hj. destruct (n <=? 0); discriminate.
    + cbn [tl] in IH. split.
      * intros [H1 H2]. cbn [length firstn] in H2. injection H2 as Hd H3. subst d.
        destruct IH as [IH _]. destruct IH as [j Hj]; [split; [lia|]|].
        { exact H3. }
        exists j. cbn [visible]. destruct (n <=? 0) eqn:E; [pose proof (zlen_nonneg (c2 :: m)); lia|].
        destruct (c =? 0) eqn:E0; [lia|]. rewrite Hj. reflexivity.
      * intros [j Hj]. cbn [visible] in Hj. destruct (n <=? 0) eqn:E; [discriminate|].
        destruct (d =? 0); [discriminate|]. injection Hj as Hd H3. subst d.
        destruct IH as [_ IH]. destruct IH as [I1 I2]; [exists j; auto|].
        split; [lia|]. cbn [length firstn] in *. f_equal. exact I2.
Qed.

Definition signed_accepts (t : ityp) := signed_language (t_min t) (t_max t).

Lemma canonical_dec_unique d1 d2 x : 0 < x -> canonical_dec d1 x -> canonical_dec d2 x -> d1 = d2.
Proof.
  intros Hx (N1 & D1 & V1 & Z1) (N2 & D2 & V2 & Z2).
  assert (M: map dec_digit d1 = map dec_digit d2).
  { apply (value_canon_inj 10); try lia.
    - apply Forall_map. eapply Forall_impl; [|exact D1]. unfold is_digit, dec_digit; simpl; lia.
    - apply Forall_map. eapply Forall_impl; [|exact D2]. unfold is_digit, dec_digit; simpl; lia.
    - intros t Ht. destruct d1 as [|c d1]; [discriminate|]. simpl in Ht. inversion Ht as [[H1 H2]].
      unfold dec_digit in H1. assert (c = 48) by lia. subst c.
      assert (d1 = []) by (eapply Z1; reflexivity). subst d1. vm_compute in V1. lia.
    - intros t Ht. destruct d2 as [|c d2]; [discriminate|]. simpl in Ht. inversion Ht as [[H1 H2]].
      unfold dec_digit in H1. assert (c = 48) by lia. subst c.
      assert (d2 = []) by (eapply Z2; reflexivity). subst d2. vm_compute in V2. lia. }
  clear -M. revert d2 M. induction d1; intros [|c d2] M; simpl in M; try discriminate; auto.
  inversion M. unfold dec_digit in *. f_equal; [lia|auto].
Qed.

(** strip leading zeros of a digit string *)
Lemma strip_exists s : exists k r, s = repeat 48 k ++ r /\ (forall t, r = 48 :: t -> False).
Proof.
  induction s as [|c s (k & r & E & H)].
  - exists O, []. split; [reflexivity|discriminate].
  - destruct (Z.eq_dec c 48).
    + exists (S k), r. subst. split; auto.
    + exists O, (c :: s). split; auto. intros t Ht. inversion Ht. congruence.
Qed.

Lemma maxstr_nonul t : wf_sty t -> Forall (fun c => c <> 0) (t_maxstr t) /\ t_maxstr t <> [] /\
  (forall j u, t_maxstr t ++ j = 48 :: u -> False).
Proof.
  intros (_ & _ & (N & D & V & Z) & Hp & _). repeat split; auto.
  - eapply Forall_impl; [|exact D]. unfold is_digit; simpl; lia.
  - intros j u H. destruct (t_maxstr t) as [|c m] eqn:E; [congruence|]. simpl in H. inversion H; subst.
    assert (m = []) by (eapply Z; reflexivity). subst m. assert (0 = t_max t + 1) by exact V. lia.
Qed.

Lemma zlen_skipn {A} (l : list A) k : (k <= length l)%nat -> zlen (skipn k l) = zlen l - Z.of_nat k.
Proof. intros. unfold zlen. rewrite skipn_length. lia. Qed.

Definition int_ok (t : ityp) (s : list Z) (r : option Z) : Prop :=
  match r with
  | Some v => signed_accepts t s v /\ forall v', signed_accepts t s v' -> v' = v
  | None => forall v', ~ signed_accepts t s v'
  end.

Lemma unsigned_head s v : unsigned_text s v -> forall t, s <> 45 :: t.
Proof.
  intros (_ & H & _) t ->. apply Forall_cons_iff in H as [H _]. unfold is_digit in H. lia.
Qed.

Lemma dec_value_nonneg s : Forall is_digit s -> 0 <= dec_value s.
Proof.
  intros Hs. apply value_bounds; [lia|]. apply Forall_map. eapply Forall_impl; [|exact Hs].
  unfold is_digit, dec_digit. simpl; lia.
Qed.

(** text without minus sign *)
Lemma int_ok_plus t s : wf_sty t -> (forall u, s <> 45 :: u) -> int_ok t s (uint_result t s).
Proof.
  intros Hw Hs. unfold int_ok. destruct (uint_result t s) as [v|] eqn:E.
  - apply uint_result_spec in E as [E1 E2]. split.
    + left. split; [left; auto|]. destruct E1 as (_ & D & ->). pose proof (dec_value_nonneg s D).
      destruct Hw as (Hw & -> & _). pose proof (t_max_pos _ Hw). lia.
    + intros v' [[[H|(d & w & H & _)] _]|(k & d & j & H & _)]; try (exfalso; eapply Hs; eauto; fail).
      destruct H as (_ & _ & ->). destruct E1 as (_ & _ & ->). reflexivity.
  - intros v' [[[H|(d & w & H & _)] Hr]|(k & d & j & H & _)]; try (exfalso; eapply Hs; eauto; fail).
    assert (uint_result t s = Some v') by (apply uint_result_spec; split; auto; lia). congruence.
Qed.

(** text with minus sign, d2 = digits after stripping zeros *)
Lemma int_ok_minus t k d2 :
  wf_sty t -> repeat 48 k ++ d2 <> [] -> (forall u, d2 = 48 :: u -> False) ->
  (forall j, d2 <> t_maxstr t ++ j) ->
  int_ok t (45 :: repeat 48 k ++ d2)
    (if forallb digitb d2 && (dec_value d2 <=? t_max t) then Some (- dec_value d2) else None).
Proof.
  intros Hw Hne Hz Hj.
  assert (Hq: forall v', signed_accepts t (45 :: repeat 48 k ++ d2) v' ->
     unsigned_text (repeat 48 k ++ d2) (- v') /\ dec_value d2 <= t_max t).
  { pose proof (maxstr_nonul t Hw) as (_ & _ & Hm48).
    destruct Hw as (Hw & Hmin & Hc & Hpos & _).
    intros v' [[[H|(d & w & H & Hu & Hv)] Hr]|(k' & d & j & H & Hcd & _)].
    - exfalso. eapply unsigned_head; eauto.
    - injection H as <-. subst v'. rewrite Z.opp_involutive. split; auto.
      destruct Hu as (_ & D & Hv). rewrite dec_value_zeros in Hv.
      destruct (Z_le_gt_dec (dec_value d2) (t_max t)); auto.
      assert (dec_value d2 = t_max t + 1) by lia.
      exfalso. apply (Hj []). rewrite app_nil_r. eapply canonical_dec_unique with (x := t_max t + 1); [lia| |auto].
      apply Forall_app in D as [_ D]. repeat split; auto.
      + intros ->. change (dec_value []) with 0 in *. lia.
      + intros u Hu. exfalso. eapply Hz; eauto.
    - injection H as H. rewrite Hmin, Z.opp_involutive in Hcd.
      assert (d = t_maxstr t) by (eapply (canonical_dec_unique _ _ (t_max t + 1)); eauto; lia). subst d.
      apply strip_unique in H as [_ H]; auto; [|intros; eapply Hm48; eauto]. exfalso. eapply Hj; eauto. }
  unfold int_ok. destruct (forallb digitb d2) eqn:Ed; cbn [andb].
  - destruct (_ <=? t_max t) eqn:El.
    + split.
      * left. split.
        { right. exists (repeat 48 k ++ d2), (dec_value d2). repeat split; auto.
          - apply forallb_digit. rewrite digits_zeros. auto.
          - rewrite dec_value_zeros. auto. }
        { apply forallb_digit in Ed. pose proof (dec_value_nonneg d2 Ed).
          destruct Hw as (Hw & -> & _). pose proof (t_max_pos _ Hw). lia. }
      * intros v' H. apply Hq in H as [(_ & _ & H) _]. rewrite dec_value_zeros in H. lia.
    + intros v' H. apply Hq in H as [_ H]. lia.
  - intros v' H. apply Hq in H as [(_ & H & _) _]. apply forallb_digit in H.
    rewrite digits_zeros in H. congruence.
Qed.

(** text "-" zeros max junk *)
Lemma int_ok_min t k j : wf_sty t -> int_ok t (45 :: repeat 48 k ++ t_maxstr t ++ j) (Some (t_min t)).
Proof.
  intros Hw. pose proof (maxstr_nonul t Hw) as (_ & _ & Hm48). pose proof Hw as (Hw' & Hmin & Hc & Hpos & _).
  split.
  - right. exists k, (t_maxstr t), j. split; [reflexivity|split; auto]. rewrite Hmin, Z.opp_involutive. exact Hc.
  - intros v' [[[H|(d & w & H & Hu & Hv)] Hr]|(k' & d & j' & H & Hcd & Hv)]; auto.
    + exfalso. eapply unsigned_head; eauto.
    + injection H as <-. destruct Hu as (_ & D & Hw2). rewrite dec_value_zeros in Hw2.
      apply Forall_app in D as [_ D]. apply Forall_app in D as [D1 D2].
      assert (t_max t + 1 <= dec_value (t_maxstr t ++ j)).
      { unfold dec_value. rewrite map_app, value_app.
        destruct Hc as (_ & _ & -> & _).
        pose proof (dec_value_nonneg j D2) as Q. unfold dec_value in Q.
        pose proof (Z.pow_pos_nonneg 10 (zlen (map dec_digit j))). pose proof (zlen_nonneg (map dec_digit j)). nia. }
      subst. lia.
Qed.

Lemma fail_exit_true p size : fail_exit true p size = Ok (false, 0). Proof. reflexivity. Qed.

Definition out_of (b : bool) (p : list Z) (size : Z) (r : option Z) : res (bool * Z) :=
  match r with Some v => Ok (true, v) | None => fail_exit b p size end.

Lemma bytes_skipn k p : bytes p -> bytes (skipn k p).
Proof.
  intros Hb. unfold bytes in *. rewrite Forall_forall in *. intros x Hx. apply Hb.
  rewrite <- (firstn_skipn k p). apply in_or_app. auto.
Qed.

Lemma convertToInt_spec t b p size :
  wf_sty t -> bytes p -> readable p size -> 0 <= size -> minus_slack p size ->
  exists r, convertToInt t b p size = out_of b p size r /\ int_ok t (visible p size) r.
Proof.
  intros Hw Hb Hr Hs Hsl. pose proof Hw as (Hw' & _). unfold convertToInt.
  assert (IE: forall s, s = [] -> int_ok t s None).
  { intros s -> v' [[[(H & _)|(d & w & H & _)] _]|(k' & d & j & H & _)]; congruence. }
  destruct (size <=? 0) eqn:E0.
  { exists None. split; [reflexivity|]. apply IE. destruct p; simpl; rewrite E0; auto. }
  destruct (rd0_ok p size Hr ltac:(lia)) as (c0 & Ec & Hin). rewrite Ec. cbn [bind].
  destruct (visible_hd p size ltac:(lia) Hr _ Ec) as [V0 V1].
  destruct (c0 =? 0) eqn:Ez.
  { exists None. split; [reflexivity|]. apply IE. apply V0. lia. }
  destruct p as [|c p]; [discriminate|]. unfold rd in Ec. simpl in Ec. injection Ec as ->.
  assert (Vc: visible (c0 :: p) size = c0 :: visible p (size - 1)) by (simpl; rewrite E0, Ez; auto).
  destruct (c0 =? 45) eqn:E45; cbn [tl].
  - assert (c0 = 45) by lia. subst c0. rewrite Vc.
    assert (Hr': readable p (size - 1)) by (eapply readable_cons; eauto; lia).
    assert (IE2: int_ok t [45] None).
    { intros v' [[[H|(d & w & H & Hu & _)] _]|(k' & d & j & H & Hc & _)].
      - eapply unsigned_head; eauto.
      - injection H as <-. destruct Hu; congruence.
      - injection H as H. destruct Hc as (Hn & _). destruct k'; [|discriminate]. destruct d; [congruence|discriminate]. }
    destruct (size - 1 <=? 0) eqn:E1.
    { exists None. split; [reflexivity|]. destruct p; cbn [visible]; rewrite E1; auto. }
    destruct (rd0_ok p (size - 1) Hr' ltac:(lia)) as (c1 & Ec1 & _). rewrite Ec1. cbn [bind].
    destruct (visible_hd p (size - 1) ltac:(lia) Hr' _ Ec1) as [V0' V1'].
    destruct (c1 =? 0) eqn:Ez1.
    { exists None. split; [reflexivity|]. rewrite V0' by lia. auto. }
    destruct (skip_zero_spec p (size - 1) Hr' ltac:(lia)) as (k & E & V & R & N & Z0 & L).
    rewrite E. cbn [bind andb]. set (q2 := skipn k p) in *. set (n2 := size - 1 - Z.of_nat k) in *.
    apply Forall_cons_iff in Hb as [_ Hb].
    assert (Hne: repeat 48 k ++ visible q2 n2 <> []).
    { rewrite <- V. destruct V1' as [u Hu]; [lia|]. congruence. }
    pose proof (maxstr_nonul t Hw) as (Hm0 & Hmne & _).
    pose proof (visible_prefix (t_maxstr t) q2 n2 Hm0 Hmne) as VP.
    destruct (zlen (t_maxstr t) <=? n2) eqn:En2.
    + (* memcmp performed *)
      assert (Hlen: (length (t_maxstr t) <= length q2)%nat).
      { assert (zlen (t_maxstr t) <= zlen q2); [|unfold zlen in *; lia].
        destruct Hsl as [Hsl|[Hsl|(a & sl & Hsl & Hsl2)]].
        - simpl in Hsl. congruence.
        - unfold q2. rewrite zlen_skipn by auto. rewrite zlen_cons in Hsl. unfold n2 in En2. lia.
        - (* k zeros are nonzero bytes, so k is at most the position of the NUL *)
          destruct a as [|a0 a]; [discriminate|]. injection Hsl as _ Hp.
          assert (Hka: (k <= length a)%nat).
          { assert (Hall: forall i, (i < k)%nat -> nth_error p i = Some 48).
            { assert (G: forall k p n u, visible p n = repeat 48 k ++ u -> forall i, (i < k)%nat -> nth_error p i = Some 48).
              { clear. induction k; intros p n u H i Hi; [lia|]. destruct p as [|c p]; simpl in H; destruct (n <=? 0); try discriminate.
                destruct (c =? 0); [discriminate|]. injection H as -> H. destruct i; simpl; auto. eapply IHk; eauto. lia. }
              eapply G; eauto. }
            destruct (Nat.le_gt_cases k (length a)); auto. specialize (Hall (length a) H).
            rewrite Hp, nth_error_app2, Nat.sub_diag in Hall by lia. discriminate. }
          destruct Hw as (_ & _ & _ & _ & H19).
          unfold q2. rewrite zlen_skipn by auto. rewrite Hp, zlen_app, zlen_cons. unfold zlen in *. lia. }
      unfold memcmp_eq. destruct (length q2 <? length (t_maxstr t))%nat eqn:El.
      { apply Nat.ltb_lt in El. lia. }
      cbn [bind]. destruct (list_eqb _ _) eqn:Eq.
      * apply list_eqb_eq in Eq. exists (Some (t_min t)). split; [reflexivity|].
        destruct VP as [VP _]. destruct VP as [j Hj]; [split; [lia|auto]|].
        rewrite V, Hj. apply int_ok_min. auto.
      * rewrite digit_loop_spec; auto; [|unfold q2; apply bytes_skipn; auto|pose proof (t_max_pos t Hw'); lia].
        cbn [bind]. rewrite acc_0.
        exists (if forallb digitb (visible q2 n2) && (dec_value (visible q2 n2) <=? t_max t)
                then Some (- dec_value (visible q2 n2)) else None).
        split; [destruct (_ && _); reflexivity|].
        rewrite V. apply int_ok_minus; auto.
        intros j Hj. destruct VP as [_ VP]. destruct VP as [_ Hf]; [eauto|].
        symmetry in Hf. apply list_eqb_eq in Hf. congruence.
    + cbn [bind].
      rewrite digit_loop_spec; auto; [|unfold q2; apply bytes_skipn; auto|pose proof (t_max_pos t Hw'); lia].
      cbn [bind]. rewrite acc_0.
      exists (if forallb digitb (visible q2 n2) && (dec_value (visible q2 n2) <=? t_max t)
                then Some (- dec_value (visible q2 n2)) else None).
      split; [destruct (_ && _); reflexivity|].
      rewrite V. apply int_ok_minus; auto.
      intros j Hj. destruct VP as [_ VP]. destruct VP as [Hn _]; [eauto|]. lia.
  - rewrite E0. change (rd (c0 :: p) 0) with (Ok c0 : res Z). cbn [bind]. rewrite Ez.
    exists (uint_result t (visible (c0 :: p) size)). split.
    2: { apply int_ok_plus; auto. intros u Hu. rewrite Vc in Hu. injection Hu. lia. }
    pose proof (convertToUint_spec t b (c0 :: p) size Hw' Hb Hr Hs) as U.
    unfold convertToUint in U. rewrite E0 in U. change (rd (c0 :: p) 0) with (Ok c0 : res Z) in U.
    cbn [bind] in U. rewrite Ez in U. unfold out_of. rewrite <- U.
    destruct (skip_zero (c0 :: p) size) as [[q2 n2]| | |]; cbn [bind andb]; auto.
Qed.

(** * hexadecimal parser *)
Definition xdigitb (c : Z) : bool :=
  ((48 <=? c) && (c <=? 57)) || ((65 <=? c) && (c <=? 70)) || ((97 <=? c) && (c <=? 102)).
Lemma forallb_xdigit s : forallb xdigitb s = true <-> Forall is_xdigit s.
Proof.
  rewrite forallb_forall, Forall_forall. unfold xdigitb, is_xdigit. split; intros H x Hx; specialize (H x Hx); lia.
Qed.

Lemma hex_digit_spec c : is_byte c -> hex_digit c = if xdigitb c then Some (xdigit c) else None.
Proof.
  unfold is_byte. intros Hc. unfold hex_digit, xdigitb, xdigit. change (2 ^ 32) with 4294967296.
  assert (M: forall a, 0 <= a <= 97 -> (c - a) mod 4294967296 = if c <? a then c - a + 4294967296 else c - a).
  { intros a Ha. destruct (c <? a) eqn:E.
    - rewrite <- (Z_mod_plus_full _ 1). apply Z.mod_small. lia.
    - apply Z.mod_small. lia. }
  rewrite !M by lia.
  destruct (c <? 65) eqn:E1, (c <? 97) eqn:E2, (c <? 48) eqn:E3; try lia;
  repeat match goal with |- context [?a <=? ?b] => let E := fresh "E" in destruct (a <=? b) eqn:E; try lia end;
  cbn [andb orb]; try reflexivity; try (f_equal; lia).
Qed.

Definition xacc (x : Z) (s : list Z) : Z := fold_left (fun a d => a * 16 + d) (map xdigit s) x.

Lemma xdigit_range s : Forall is_xdigit s -> Forall (fun d => 0 <= d < 16) (map xdigit s).
Proof.
  intros Hs. apply Forall_map. eapply Forall_impl; [|exact Hs]. unfold is_xdigit, xdigit. intros a Ha.
  destruct (a <=? 57) eqn:?, (a <=? 70) eqn:?; lia.
Qed.

Lemma xacc_mono x s : 0 <= x -> Forall is_xdigit s -> x <= xacc x s.
Proof.
  intros Hx Hs. unfold xacc. rewrite fold_value.
  pose proof (Z.pow_pos_nonneg 16 (zlen (map xdigit s))). pose proof (zlen_nonneg (map xdigit s)).
  pose proof (value_bounds 16 (map xdigit s) ltac:(lia) (xdigit_range s Hs)). nia.
Qed.

Lemma hex_loop_spec tmax p n x : tmax mod 16 = 15 -> bytes p -> readable p n -> 0 <= n -> 0 <= x <= tmax ->
  hex_loop tmax p n x =
    Ok (if forallb xdigitb (visible p n) && (xacc x (visible p n) <=? tmax)
        then Some (xacc x (visible p n)) else None).
Proof.
  intros Hwf Hb. revert n x. induction Hb as [|c p Hc Hp IH]; intros n x Hr Hn Hx.
  - assert (n = 0) by (destruct Hr as [H|[]]; rewrite zlen_nil in H; lia). subst. simpl.
    unfold xacc; simpl. destruct (x <=? tmax) eqn:E; [auto|lia].
  - cbn [hex_loop visible]. destruct (n <=? 0) eqn:En.
    { unfold xacc; simpl. destruct (x <=? tmax) eqn:E; [auto|lia]. }
    destruct (c =? 0) eqn:E0.
    { unfold xacc; simpl. destruct (x <=? tmax) eqn:E; [auto|lia]. }
    rewrite hex_digit_spec by auto. cbn [forallb].
    destruct (xdigitb c) eqn:Ed; [|reflexivity]. cbn [andb].
    assert (Hd: 0 <= xdigit c < 16).
    { unfold xdigitb in Ed. unfold xdigit. destruct (c <=? 57) eqn:?, (c <=? 70) eqn:?; lia. }
    replace (xacc x (c :: visible p (n - 1))) with (xacc (x * 16 + xdigit c) (visible p (n - 1))) by reflexivity.
    destruct (tmax / 16 <? x) eqn:Eov.
    + destruct (forallb xdigitb (visible p (n - 1))) eqn:Efb; cbn [andb]; auto.
      apply forallb_xdigit in Efb.
      pose proof (xacc_mono (x * 16 + xdigit c) (visible p (n - 1)) ltac:(lia) Efb) as M.
      destruct (_ <=? tmax) eqn:Em; auto. exfalso. lia.
    + destruct (tmax <? x * 16 + xdigit c) eqn:Eub; [exfalso; lia|].
      apply IH; [|lia|lia]. eapply readable_cons; eauto; lia.
Qed.

Definition hex_result (t : ityp) (s : list Z) : option Z :=
  if negb (match s with [] => true | _ => false end) && forallb xdigitb s && (hex_value s <=? t_max t)
  then Some (hex_value s) else None.

Lemma hex_result_spec t s v : hex_result t s = Some v <-> hex_text s v /\ v <= t_max t.
Proof.
  unfold hex_result, hex_text. rewrite <- forallb_xdigit.
  destruct s as [|c s]; cbn [negb andb]; [split; [discriminate|intros [[H _] _]; congruence]|].
  destruct (forallb xdigitb (c :: s)) eqn:E; cbn [andb].
  - destruct (_ <=? _) eqn:E2; split; intros H.
    + inversion H; subst. repeat split; auto; try congruence. lia.
    + destruct H as [(H1 & H2 & H3) H4]. subst. reflexivity.
    + discriminate.
    + destruct H as [(H1 & H2 & H3) H4]. subst. lia.
  - split; [discriminate|]. intros [(H1 & H2 & H3) H4]. discriminate.
Qed.

Lemma convertHexToInt_spec t b p size :
  t_max t mod 16 = 15 -> 0 <= t_max t -> bytes p -> readable p size -> 0 <= size ->
  convertHexToInt t b p size = out_of b p size (hex_result t (visible p size)).
Proof.
  intros Hwf Hpos Hb Hr Hs. unfold convertHexToInt, hex_result, out_of.
  destruct (size <=? 0) eqn:E0.
  { assert (size = 0) by lia. subst. destruct p; reflexivity. }
  destruct (rd0_ok p size Hr ltac:(lia)) as (c0 & Ec & Hin). rewrite Ec. cbn [bind].
  destruct (visible_hd p size ltac:(lia) Hr _ Ec) as [V0 V1].
  destruct (c0 =? 0) eqn:Ez.
  { rewrite V0 by lia. reflexivity. }
  destruct (V1 ltac:(lia)) as (tl0 & Vt).
  rewrite hex_loop_spec; auto; [|lia]. cbn [bind].
  change (xacc 0 (visible p size)) with (hex_value (visible p size)).
  rewrite Vt. cbn [negb andb].
  destruct (forallb _ _); cbn [andb]; [|reflexivity].
  destruct (_ <=? t_max t); reflexivity.
Qed.
