(** Properties of include/cybozu/test.hpp (C77): the exit code and the summary of the runner tell exactly
    what the tests did, and every check macro records exactly one result. *)
Require Import Verif.Common Verif.TestModel.

(** ** Specification *)
(** what one piece of code does when it starts in world w *)
Definition after {W A} (c : comp W A) (w : W) : W := fst (fst (c w)).
Definition checks {W A} (c : comp W A) (w : W) : list bool := snd (fst (c w)).
Definition throws {W A} (c : comp W A) (w : W) : bool := match snd (c w) with inr _ => true | inl _ => false end.
(** the world test number i starts in, if the tests start in w: every test before it has run once, in order *)
Definition before {W} (ts : list (list Z * comp W unit)) (w : W) (i : nat) : W :=
  fold_left (fun w t => after (snd t) w) (firstn i ts) w.
(** all results of checks, and the number of tests left by an exception *)
Definition nth_test {W} (ts : list (list Z * comp W unit)) (i : nat) : comp W unit := nth i (map snd ts) (cret tt).
Definition all_checks {W} (ts : list (list Z * comp W unit)) (w : W) : list bool :=
  flat_map (fun i => checks (nth_test ts i) (before ts w i)) (seq 0 (length ts)).
Definition exceptions {W} (ts : list (list Z * comp W unit)) (w : W) : nat :=
  length (filter (fun i => throws (nth_test ts i) (before ts w i)) (seq 0 (length ts))).
Definition count (b : bool) (l : list bool) : Z := zlen (filter (Bool.eqb b) l).

(** the tests announced by the output, in order *)
Definition modules (out : list line) : list (list Z) := flat_map (fun l => match l with LModule n => [n] | _ => [] end) out.

(** ** Proofs *)
Lemma count_app b x y : count b (x ++ y) = count b x + count b y.
Proof. unfold count. rewrite filter_app, zlen_app. auto. Qed.
Lemma count_total l : count true l + count false l = zlen l.
Proof. unfold count. induction l as [|[] l IH]; [reflexivity|..]; cbn [filter Bool.eqb]; rewrite !zlen_cons; lia. Qed.
Lemma count_nonneg b l : 0 <= count b l.
Proof. apply zlen_nonneg. Qed.
Lemma count_false l : count false l = 0 <-> forall b, In b l -> b = true.
Proof.
  unfold count. induction l as [|b l IH]; [split; [intros _ b []|auto]|]. cbn [filter]. destruct b; cbn [Bool.eqb].
  - rewrite IH. split; [intros H b [<-|K]; auto|intros H b K; apply H; right; auto].
  - rewrite zlen_cons. pose proof (zlen_nonneg (filter (Bool.eqb false) l)).
    split; [lia|]. intros Q. specialize (Q false (or_introl eq_refl)). discriminate.
Qed.
Lemma triple (a b c a' b' c' : Z) : a = a' -> b = b' -> c = c' -> Ok (a, b, c) = Ok (a', b', c').
Proof. intros; subst; auto. Qed.
Lemma quint {W} (w : W) (a b c a' b' c' : Z) (o o' : list line) : a = a' -> b = b' -> c = c' -> o = o' -> Ok (w, (a, b, c), o) = Ok (w, (a', b', c'), o').
Proof. intros; subst; auto. Qed.
Lemma sets_ok ok ng ex ev : 0 <= ok -> 0 <= ng -> ok + ng + zlen ev < 2 ^ 31 ->
  sets (ok, ng, ex) ev = Ok (ok + count true ev, ng + count false ev, ex).
Proof.
  revert ok ng. induction ev as [|b ev IH]; intros ok ng H1 H2 H3; cbn [sets].
  - unfold count; simpl. rewrite !zlen_nil. apply triple; lia.
  - rewrite zlen_cons in H3. pose proof (zlen_nonneg ev). unfold set, int_add.
    destruct b.
    + replace ((ok + 1 <? 2 ^ 31) && (- 2 ^ 31 <=? ok + 1)) with true by lia. cbn [bind]. rewrite IH by lia.
      unfold count. cbn [filter Bool.eqb]. rewrite !zlen_cons. apply triple; lia.
    + replace ((ng + 1 <? 2 ^ 31) && (- 2 ^ 31 <=? ng + 1)) with true by lia. cbn [bind]. rewrite IH by lia.
      unfold count. cbn [filter Bool.eqb]. rewrite !zlen_cons. apply triple; lia.
Qed.

Lemma before_cons {W} t (ts : list (list Z * comp W unit)) w i : before (t :: ts) w (S i) = before ts (after (snd t) w) i.
Proof. reflexivity. Qed.
Lemma all_checks_cons {W} t (ts : list (list Z * comp W unit)) w :
  all_checks (t :: ts) w = checks (snd t) w ++ all_checks ts (after (snd t) w).
Proof.
  unfold all_checks. cbn [length seq flat_map]. f_equal. rewrite <- seq_shift, flat_map_concat_map, map_map, <- flat_map_concat_map. reflexivity.
Qed.
Lemma exceptions_cons {W} t (ts : list (list Z * comp W unit)) w :
  exceptions (t :: ts) w = ((if throws (snd t) w then 1 else 0) + exceptions ts (after (snd t) w))%nat.
Proof.
  unfold exceptions. cbn [length seq filter].
  assert (E: forall f (l : list nat), length (filter f (map S l)) = length (filter (fun i => f (S i)) l)).
  { intros f l. induction l; simpl; auto. destruct (f (S a)); simpl; auto. }
  change (throws (nth_test (t :: ts) 0) (before (t :: ts) w 0)) with (throws (snd t) w).
  rewrite <- seq_shift. destruct (throws (snd t) w); cbn [length]; rewrite E; reflexivity.
Qed.
Lemma exceptions_le {W} (ts : list (list Z * comp W unit)) w : (exceptions ts w <= length ts)%nat.
Proof. revert w. induction ts as [|t ts IH]; intros; [simpl; auto|]. rewrite exceptions_cons. simpl. specialize (IH (after (snd t) w)). destruct (throws _ _); lia. Qed.

Lemma exceptions_none {W} (ts : list (list Z * comp W unit)) w1 :
  exceptions ts w1 = 0%nat <-> forall i, (i < length ts)%nat -> throws (nth_test ts i) (before ts w1 i) = false.
Proof.
  unfold exceptions. rewrite length_zero_iff_nil. split.
  - intros Q i Hi. destruct (throws (nth_test ts i) (before ts w1 i)) eqn:T; auto. assert (K: In i []); [|destruct K]. rewrite <- Q. apply filter_In. split; auto. apply in_seq. lia.
  - intros Q. destruct (filter _ _) as [|i l] eqn:F; auto. assert (K: In i (i :: l)) by (left; auto). rewrite <- F in K. apply filter_In in K.
    destruct K as [K1 K2]. apply in_seq in K1. rewrite Q in K2 by lia. discriminate.
Qed.
Lemma run_tests_ok {W} (ts : list (list Z * comp W unit)) : forall w ok ng ex out,
  0 <= ok -> 0 <= ng -> 0 <= ex -> ok + ng + zlen (all_checks ts w) + ex + zlen ts < 2 ^ 31 ->
  exists out', run_tests ts w (ok, ng, ex) out =
    Ok (before ts w (length ts),
        (ok + count true (all_checks ts w), ng + count false (all_checks ts w), ex + Z.of_nat (exceptions ts w)), out ++ out')
    /\ modules out' = map fst ts.
Proof.
  induction ts as [|[name f] ts IH]; intros w ok ng ex out H1 H2 H3 H.
  - exists []. cbn [run_tests]. rewrite app_nil_r. unfold all_checks, exceptions, count. simpl. rewrite !zlen_nil. split; [|auto].
    apply quint; auto; lia.
  - rewrite all_checks_cons, zlen_app, zlen_cons in H. cbn [run_tests snd] in *.
    pose proof (zlen_nonneg ts). pose proof (zlen_nonneg (all_checks ts (after f w))).
    rewrite all_checks_cons, exceptions_cons, !count_app. cbn [snd]. unfold checks, throws, after in *.
    destruct (f w) as [[w1 ev] r] eqn:F. cbn [fst snd] in *.
    rewrite sets_ok by lia. cbn [bind].
    pose proof (count_nonneg true ev). pose proof (count_nonneg false ev). pose proof (count_total ev).
    destruct r as [u|e].
    + destruct (IH w1 (ok + count true ev) (ng + count false ev) ex (out ++ [LModule name])) as (out' & -> & M); try lia.
      exists (LModule name :: out'). rewrite <- app_assoc. split.
      * cbn [length]. rewrite before_cons. unfold after. cbn [snd]. rewrite F. cbn [fst app]. apply quint; auto; lia.
      * simpl. rewrite M. auto.
    + unfold int_add. replace ((ex + 1 <? 2 ^ 31) && (- 2 ^ 31 <=? ex + 1)) with true by lia. cbn [bind].
      destruct (IH w1 (ok + count true ev) (ng + count false ev) (ex + 1) ((out ++ [LModule name]) ++ [LStopped name (what_of e)])) as (out' & -> & M); try lia.
      exists (LModule name :: LStopped name (what_of e) :: out'). rewrite <- !app_assoc. split.
      * cbn [length]. rewrite before_cons. unfold after. cbn [snd]. rewrite F. cbn [fst app]. rewrite Nat2Z.inj_add. apply quint; auto; lia.
      * simpl. rewrite M. auto.
Qed.

(** what the runner does after a history of registrations; None: no SETUP_FIXTURE *)
Definition program {W} (fix_ : option (comp W unit * comp W unit)) (ts : list (list Z * comp W unit)) : autorun W :=
  let r := fold_left (fun r t => append (fst t) (snd t) r) ts newAutoRun in
  match fix_ with None => r | Some (i, t) => setup i t r end.
Lemma program_list {W} fix_ (ts : list (list Z * comp W unit)) :
  list_ (program fix_ ts) = ts /\ okCount (program fix_ ts) = 0 /\ ngCount (program fix_ ts) = 0 /\ exceptionCount (program fix_ ts) = 0
  /\ init_ (program fix_ ts) = option_map fst fix_ /\ term_ (program fix_ ts) = option_map snd fix_.
Proof.
  assert (G: forall ts (r : autorun W), let r' := fold_left (fun r t => append (fst t) (snd t) r) ts r in
    list_ r' = list_ r ++ ts /\ okCount r' = okCount r /\ ngCount r' = ngCount r /\ exceptionCount r' = exceptionCount r /\ init_ r' = init_ r /\ term_ r' = term_ r).
  { induction ts0 as [|t ts0 IH]; intros r; cbn [fold_left]; [rewrite app_nil_r; tauto|].
    destruct (IH (append (fst t) (snd t) r)) as (A & B & C & D & E & F). rewrite A, B, C, D, E, F. simpl. rewrite <- app_assoc. simpl. destruct t. tauto. }
  specialize (G ts newAutoRun). unfold program. destruct G as (A & B & C & D & E & F). destruct fix_ as [[i t]|]; simpl; rewrite ?A, ?B, ?C, ?D, ?E, ?F; simpl; auto 10.
Qed.

Definition start {W} (fix_ : option (comp W unit * comp W unit)) : comp W unit := match fix_ with None => cret tt | Some (i, _) => i end.
Definition finish {W} (fix_ : option (comp W unit * comp W unit)) : comp W unit := match fix_ with None => cret tt | Some (_, t) => t end.

(** The exit code is 0 exactly if nothing went wrong; every test runs, once, in order, whatever the
    others do; the summary counts are the true ones. *)
Theorem C77_run : forall (W : Type) fix_ (ts : list (list Z * comp W unit)) argv0 w,
  let w1 := after (start fix_) w in
  let w2 := before ts w1 (length ts) in
  let all := checks (start fix_) w ++ all_checks ts w1 ++ checks (finish fix_) w2 in
  zlen all + zlen ts < 2 ^ 31 ->
  exists w' out code, run (program fix_ ts) argv0 w = Ok (w', out, code) /\
    (throws (start fix_) w = true -> w' = w1 /\ code = 1) /\
    (throws (start fix_) w = false ->
       w' = after (finish fix_) w2 /\
       modules out = map fst ts /\
       (code = 0 <-> throws (finish fix_) w2 = false /\ (forall b, In b all -> b = true) /\
                     forall i, (i < length ts)%nat -> throws (nth_test ts i) (before ts w1 i) = false) /\
       (code = 0 \/ code = 1) /\
       (throws (finish fix_) w2 = false ->
          let ex := Z.of_nat (exceptions ts w1) in
          last out (LError None) =
            LSummary (getBaseName argv0) (zlen ts) (zlen all + ex) (count true all) (count false all) ex)).
Proof.
  intros W fix_ ts argv0 w w1 w2 all H.
  destruct (program_list fix_ ts) as (PL & P1 & P2 & P3 & PI & PT). unfold run. rewrite PL, P1, P2, P3, PI, PT.
  assert (SI: call_opt (option_map fst fix_) = start fix_) by (destruct fix_ as [[]|]; auto).
  assert (ST: call_opt (option_map snd fix_) = finish fix_) by (destruct fix_ as [[]|]; auto).
  rewrite SI, ST. subst all. rewrite !zlen_app in H.
  pose proof (zlen_nonneg ts). pose proof (zlen_nonneg (all_checks ts w1)). pose proof (zlen_nonneg (checks (finish fix_) w2)).
  pose proof (zlen_nonneg (checks (start fix_) w)).
  assert (X1: start fix_ w = (w1, checks (start fix_) w, snd (start fix_ w))) by (unfold w1, after, checks; destruct (start fix_ w) as [[] ?]; auto).
  assert (T1: throws (start fix_) w = match snd (start fix_ w) with inr _ => true | inl _ => false end) by reflexivity.
  rewrite X1. generalize dependent (snd (start fix_ w)). intros r1 _ T1.
  generalize dependent (checks (start fix_) w). intros ev1 K1 K2.
  rewrite sets_ok by lia. cbn [bind]. rewrite !Z.add_0_l.
  pose proof (count_nonneg true ev1). pose proof (count_nonneg false ev1). pose proof (count_total ev1).
  destruct r1 as [u|e]; cbn [snd] in T1; rewrite T1.
  2:{ eexists _, _, _. split; [reflexivity|]. split; [auto|discriminate]. }
  pose proof (exceptions_le ts w1) as EL. unfold zlen in EL.
  destruct (run_tests_ok ts w1 (count true ev1) (count false ev1) 0 []) as (out' & E & M); [lia..|]. rewrite E. cbn [bind app].
  fold w2.
  assert (X2: finish fix_ w2 = (after (finish fix_) w2, checks (finish fix_) w2, snd (finish fix_ w2))) by (unfold after, checks; destruct (finish fix_ w2) as [[] ?]; auto).
  assert (T2: throws (finish fix_) w2 = match snd (finish fix_ w2) with inr _ => true | inl _ => false end) by reflexivity.
  rewrite X2. generalize dependent (snd (finish fix_ w2)). intros r2 _ T2.
  set (ev2 := all_checks ts w1) in *. generalize dependent (checks (finish fix_) w2). intros ev3 K3 K4.
  pose proof (count_nonneg true ev2). pose proof (count_nonneg false ev2). pose proof (count_total ev2).
  rewrite sets_ok by lia. cbn [bind].
  pose proof (count_nonneg true ev3). pose proof (count_nonneg false ev3). pose proof (count_total ev3).
  set (ex := Z.of_nat (exceptions ts w1)) in *.
  assert (EX: 0 <= ex <= zlen ts) by (unfold ex, zlen; lia).
  destruct r2 as [u2|e2]; rewrite T2.
  - unfold int_add.
    replace ((count false ev1 + count false ev2 + count false ev3 + (0 + ex) <? 2 ^ 31) && (- 2 ^ 31 <=? count false ev1 + count false ev2 + count false ev3 + (0 + ex))) with true by lia.
    cbn [bind].
    match goal with |- context [if ?c then Ok ?x else UB] => replace c with true by lia end. cbn [bind].
    eexists _, _, _. split; [reflexivity|]. split; [discriminate|]. intros _. split; [auto|]. split.
    { unfold modules. rewrite flat_map_app. fold (modules out'). rewrite M. simpl. apply app_nil_r. }
    split.
    { pose proof count_false as CF.
      pose proof (exceptions_none ts w1) as EF.
      rewrite <- EF. rewrite <- CF, !count_app. unfold ex in *. destruct (0 <? _) eqn:G; [split; [discriminate|intros (_ & A & B); lia]|].
      split; [intros _; repeat split; lia|auto]. }
    split; [destruct (0 <? _); auto|]. intros _. rewrite last_last. cbv zeta. fold ex. rewrite !zlen_app, !count_app. f_equal; lia.
  - eexists _, _, _. split; [reflexivity|]. split; [discriminate|]. intros _. split; [auto|]. split.
    { unfold modules. rewrite flat_map_app. fold (modules out'). rewrite M. simpl. apply app_nil_r. }
    split; [split; [discriminate|intros (A & _); discriminate]|]. split; [auto|discriminate].
Qed.

(** ** The macros: one recorded check, with the right result; the statement runs once *)
Theorem C77_macros : forall (W : Type) (w : W),
  (forall x : comp W bool,
     after (TEST_ASSERT x) w = after x w /\
     match snd (x w) with
     | inl b => checks (TEST_ASSERT x) w = checks x w ++ [b] /\ throws (TEST_ASSERT x) w = false
     | inr e => checks (TEST_ASSERT x) w = checks x w /\ snd (TEST_ASSERT x w) = inr e
     end) /\
  (forall st isE,
     after (TEST_EXCEPTION st isE) w = after st w /\ throws (TEST_EXCEPTION st isE) w = false /\
     checks (TEST_EXCEPTION st isE) w = checks st w ++ [match snd (st w) with inl _ => false | inr e => isE e end]) /\
  (forall st, after (TEST_NO_EXCEPTION st) w = after st w /\ throws (TEST_NO_EXCEPTION st) w = false /\
     checks (TEST_NO_EXCEPTION st) w = checks st w ++ [negb (throws st w)]) /\
  (forall st isE msg, (forall e, isE e = true -> exists c m, e = Std c m) ->
     after (TEST_EXCEPTION_MESSAGE st isE msg) w = after st w /\ throws (TEST_EXCEPTION_MESSAGE st isE msg) w = false /\
     exists b, checks (TEST_EXCEPTION_MESSAGE st isE msg) w = checks st w ++ [b] /\
       (b = true <-> exists c a z, isE (Std c (a ++ msg ++ z)) = true /\ snd (st w) = inr (Std c (a ++ msg ++ z)))).
Proof.
  intros W w.
  assert (PFX: forall m s, is_prefix m s = true <-> exists z, s = m ++ z).
  { induction m as [|a m IH]; intros s; cbn [is_prefix]; [split; [intros _; exists s; reflexivity|auto]|].
    destruct s as [|b s]; [split; [discriminate|intros (z & Hz); discriminate]|].
    rewrite andb_true_iff, IH, Z.eqb_eq. split.
    - intros (-> & z & ->). exists z. auto.
    - intros (z & Hz). injection Hz as -> ->. eauto. }
  assert (CON: forall m s, contains m s = true <-> exists a z, s = a ++ m ++ z).
  { intros m s. induction s as [|b s IH]; cbn [contains]; rewrite orb_true_iff, PFX.
    - split; [intros [(z & ->)|]; [exists [], z; auto|discriminate]|]. intros (a & z & Hz). left. exists z. destruct a; [auto|discriminate].
    - rewrite IH. split.
      + intros [(z & ->)|(a & z & ->)]; [exists [], z|exists (b :: a), z]; auto.
      + intros (a & z & Hz). destruct a as [|a0 a]; [left; eauto|]. injection Hz as -> ->. eauto. }
  split; [|split; [|split]].
  - intros x. unfold TEST_ASSERT, cbind, cset, after, checks, throws. destruct (x w) as [[w' ev] [b|e]]; cbn; auto.
  - intros st isE. unfold TEST_EXCEPTION, cbind, ctry, cset, cret, after, checks, throws.
    destruct (st w) as [[w' ev] [b|e]]; cbn; [|destruct (isE e)]; cbn; rewrite ?app_nil_r; auto.
  - intros st. unfold TEST_NO_EXCEPTION, cbind, ctry, cset, after, checks, throws.
    destruct (st w) as [[w' ev] [b|e]]; cbn; auto.
  - intros st isE msg HE. unfold TEST_EXCEPTION_MESSAGE, cbind, ctry, cset, cret, after, checks, throws.
    destruct (st w) as [[w' ev] [b|e]] eqn:S; cbn; [|destruct (isE e) eqn:I]; cbn; rewrite ?app_nil_r.
    + split; [auto|]. split; [auto|]. eexists. split; [reflexivity|]. split; [discriminate|]. intros (c & a & z & _ & K). discriminate.
    + destruct (HE e I) as (c & m & ->). cbn. destruct (contains msg m) eqn:C; cbn; rewrite ?app_nil_r.
      * split; [auto|]. split; [auto|]. eexists. split; [reflexivity|]. split; [intros _|auto]. apply CON in C. destruct C as (a & z & ->). eauto.
      * split; [auto|]. split; [auto|]. eexists. split; [reflexivity|]. split; [discriminate|]. intros (c' & a & z & _ & K). injection K as -> ->.
        assert (contains msg (a ++ msg ++ z) = true) by (apply CON; eauto). congruence.
    + split; [auto|]. split; [auto|]. eexists. split; [reflexivity|]. split; [discriminate|]. intros (c & a & z & I' & K). congruence.
Qed.

(** the equality macros, for operands that only compute a value *)
Theorem C77_equal : forall (W A B : Type) (eq : A -> B -> bool) (pa : A -> comp W unit) (pb : B -> comp W unit) (w : W),
  (forall a b, checks (pa a) w = [] /\ after (pa a) w = w /\ throws (pa a) w = false /\ checks (pb b) w = [] /\ after (pb b) w = w /\ throws (pb b) w = false) ->
  (forall a b, TEST_EQUAL eq pa pb (cret a) (cret b) w = (w, [eq a b], inl tt)) /\
  (forall (x : Z -> A) (y : Z -> B) (n : nat),
     TEST_EQUAL_ARRAY eq pa pb (fun i => cret (x i)) (fun i => cret (y i)) 0 n w
     = (w, map (fun i => eq (x (Z.of_nat i)) (y (Z.of_nat i))) (seq 0 n), inl tt)).
Proof.
  intros W A B eq pa pb w H.
  assert (E: forall a b, TEST_EQUAL eq pa pb (cret a) (cret b) w = (w, [eq a b], inl tt)).
  { intros a b. unfold TEST_EQUAL, cbind, cret, cset. destruct (eq a b) eqn:Q; [auto|].
    specialize (H a b). unfold checks, after, throws in H. destruct (pa a w) as [[w1 ev1] [u1|e1]]; cbn in *; [|intuition discriminate].
    destruct H as (-> & -> & _ & H). destruct (pb b w) as [[w2 ev2] [u2|e2]]; cbn in *; [|intuition discriminate].
    destruct H as (-> & -> & _). destruct u2. auto. }
  split; [auto|]. intros x y n.
  assert (G: forall n i, TEST_EQUAL_ARRAY eq pa pb (fun i => cret (x i)) (fun i => cret (y i)) (Z.of_nat i) n w
     = (w, map (fun i => eq (x (Z.of_nat i)) (y (Z.of_nat i))) (seq i n), inl tt)).
  { induction n0 as [|n0 IH]; intros i; cbn [TEST_EQUAL_ARRAY seq map]; [auto|]. unfold cbind at 1. rewrite E.
    replace (Z.of_nat i + 1) with (Z.of_nat (S i)) by lia. rewrite IH. auto. }
  apply (G n 0%nat).
Qed.

(** the comparisons: strings up to the terminator, sizes with non-negative ints *)
Theorem C77_isEqual :
  (forall a b ra rb, ~ In 0 a -> ~ In 0 b -> exists r, isEqual_str (a ++ 0 :: ra) (b ++ 0 :: rb) = Ok r /\ (r = true <-> a = b)) /\
  (forall s i, 0 <= s < 2 ^ 64 -> 0 <= i < 2 ^ 31 -> (isEqual_size_int s i = true <-> s = i) /\ (isEqual_int_size i s = true <-> i = s)).
Proof.
  split.
  - induction a as [|x a IH]; intros b ra rb Ha Hb; destruct b as [|y b]; cbn [app isEqual_str].
    + exists true. rewrite !Z.eqb_refl. tauto.
    + exists false. destruct (Z.eqb_spec 0 y) as [<-|]; [exfalso; apply Hb; left; auto|]. split; [auto|]. split; discriminate.
    + exists false. destruct (Z.eqb_spec x 0) as [->|]; [exfalso; apply Ha; left; auto|]. split; [auto|]. split; discriminate.
    + destruct (Z.eqb_spec x y) as [->|N].
      * destruct (Z.eqb_spec y 0) as [->|]; [exfalso; apply Ha; left; auto|].
        destruct (IH b ra rb) as (r & -> & R); [firstorder..|]. exists r. split; [auto|]. rewrite R. split; [intros ->; auto|intros Q; injection Q; auto].
      * exists false. split; [auto|]. split; [discriminate|]. intros Q. injection Q. congruence.
  - intros s i Hs Hi. unfold isEqual_size_int, isEqual_int_size. rewrite !Z.mod_small by lia. rewrite !Z.eqb_eq. tauto.
Qed.

(** the name in the summary is the file name without directories and without everything from the first dot on *)
Theorem C77_baseName : forall dir base ext, ~ In 47 base -> ~ In 46 base -> ~ In 47 ext ->
  (dir = [] \/ exists d, dir = d ++ [47]) -> (ext = [] \/ exists e, ext = 46 :: e) -> getBaseName (dir ++ base ++ ext) = base.
Proof.
  intros dir base ext B1 B2 E1 D E.
  assert (N: forall s, ~ In 47 s -> find_last s 47 = None).
  { induction s as [|x s IH]; intros Q; cbn; auto. rewrite IH by (firstorder). destruct (Z.eqb_spec x 47); auto. exfalso. apply Q. left. auto. }
  assert (M: forall d s, ~ In 47 s -> find_last (d ++ 47 :: s) 47 = Some (length d)).
  { intros d s Q. induction d as [|x d IH]; cbn [app find_last]; [rewrite N by auto; auto|rewrite IH; auto]. }
  assert (NB: ~ In 47 (base ++ ext)) by (rewrite in_app_iff; tauto).
  assert (R: (match find_last (dir ++ base ++ ext) 47 with None => dir ++ base ++ ext | Some pos => skipn (S pos) (dir ++ base ++ ext) end) = base ++ ext).
  { destruct D as [->|(d & ->)]; [cbn [app]; rewrite N by auto; auto|]. rewrite <- app_assoc. cbn [app]. rewrite M by auto.
    replace (S (length d)) with (length (d ++ [47])) by (rewrite app_length; simpl; lia).
    change (d ++ 47 :: base ++ ext) with (d ++ [47] ++ (base ++ ext)). rewrite app_assoc. apply skipn_app_exact. }
  unfold getBaseName. rewrite R.
  assert (F: forall b, ~ In 46 b -> find_ch (b ++ ext) 46 = match ext with [] => None | _ => Some (length b) end).
  { induction b as [|x b IH]; intros Q; cbn [app find_ch length].
    - destruct E as [->|(e & ->)]; reflexivity.
    - destruct (Z.eqb_spec x 46) as [->|]; [exfalso; apply Q; left; auto|]. rewrite IH by (firstorder). destruct ext; auto. }
  rewrite F by auto. destruct E as [->|(e & ->)]; [apply app_nil_r|apply firstn_app_exact].
Qed.

Section examples.
(** a small program: the world is a counter; the second test throws, the third makes a false check *)
Let t1 : comp Z unit := fun w => (w + 1, [true; true], inl tt).
Let t2 : comp Z unit := fun w => (w + 10, [true], inr (Std 1 [98; 97; 100])).
Let t3 : comp Z unit := TEST_ASSERT (fun w => (w + 100, [], inl (w =? 0))).
Let ts := [([49], t1); ([50], t2); ([51], t3)].
Example C77_nonvacuous :
  run (program None ts) [47; 98; 46; 101] 0 =
    Ok (111, [LModule [49]; LModule [50]; LStopped [50] (Some [98; 97; 100]); LModule [51]; LSummary [98] 3 5 3 1 1], 1)
  /\ run (program None [([49], t1)]) [98] 0 = Ok (1, [LModule [49]; LSummary [98] 1 2 2 0 0], 0)
  /\ checks (TEST_EXCEPTION_MESSAGE t2 (fun e => match e with Std _ _ => true | _ => false end) [97; 100]) 0 = [true; true].
Proof. repeat split. Qed.
End examples.

(** ** Finding: CYBOZU_TEST_EQUAL evaluates its operands a second time when they differ: side effects
    happen twice and the printed values need not be the compared ones. *)
Theorem C77_equal_twice_finding :
  let next : comp Z Z := fun w => (w + 1, [], inl w) in
  after (TEST_EQUAL Z.eqb (fun _ => cret tt) (fun _ => cret tt) next (cret 0)) 0 = 1 /\
  after (TEST_EQUAL Z.eqb (fun _ => cret tt) (fun _ => cret tt) next (cret 0)) 5 = 7.
Proof. split; reflexivity. Qed.
(** ** Finding: comparing a size_t with a negative int succeeds for the wrapped value: SIZE_MAX equals -1. *)
Theorem C77_size_int_finding : isEqual_size_int (2 ^ 64 - 1) (- 1) = true /\ isEqual_int_size (- 1) (2 ^ 64 - 1) = true.
Proof. split; reflexivity. Qed.
(** ** Finding: float and double are compared by bit pattern: 0.0 and -0.0 differ, a NaN equals itself. *)
Theorem C77_float_finding : isEqual_bits 0 (2 ^ 63) = false /\ isEqual_bits 0x7ff8000000000000 0x7ff8000000000000 = true.
Proof. split; reflexivity. Qed.

Print Assumptions C77_run.
Print Assumptions C77_macros.
Print Assumptions C77_equal.
Print Assumptions C77_isEqual.
Print Assumptions C77_baseName.
