(** C103: Sleep; C104: thread::Begin (include/cybozu/thread.hpp) *)
Require Import Verif.Common Verif.ThreadModel.
Import ListNotations.
Local Open Scope Z_scope.

(** ** Sleep *)
(** a duration the system accepts *)
Definition accepted (t : timespec) : Prop := 0 <= tv_sec t /\ 0 <= tv_nsec t < 1000000000.
Definition total (t : timespec) : Z := tv_sec t * 1000000000 + tv_nsec t.

Lemma nanos_total t : nanos t = total t. Proof. reflexivity. Qed.
Lemma nanosleep_ok req g d : accepted req -> nanosleep req g d =
  match d with
  | Signal e => if Z.max 0 e <? total req then (Failed EINTR (of_nanos (total req - Z.max 0 e)), Z.max 0 e) else (Slept, Z.max 0 e)
  | Quiet late => (Slept, total req + Z.max 0 late)
  end.
Proof.
  intros [A B]. unfold nanosleep.
  replace ((tv_sec req <? 0) || (tv_nsec req <? 0) || (giga <=? tv_nsec req)) with false; [reflexivity|].
  symmetry. rewrite !orb_false_iff, !Z.ltb_ge, Z.leb_gt. unfold giga. lia.
Qed.
Lemma of_nanos_ok n : 0 <= n -> accepted (of_nanos n) /\ total (of_nanos n) = n.
Proof. intros H. unfold accepted, total, of_nanos, giga, tv_sec, tv_nsec. split; lia. Qed.

Lemma loop_sound ds : forall req g l t m, accepted req -> sleep_loop ds req g = Ok (l, t, m) ->
  total req <= t /\ m = None /\ Forall accepted l /\ (length l <= length ds)%nat.
Proof.
  induction ds as [|d ds IH]; intros req g l t m A E; [discriminate|].
  cbn [sleep_loop] in E. rewrite (nanosleep_ok _ _ _ A) in E.
  destruct d as [e|late].
  - destruct (Z.max 0 e <? total req) eqn:C.
    + rewrite Z.ltb_lt in C. change (negb (EINTR =? EINTR)) with false in E. cbv iota in E.
      destruct (of_nanos_ok (total req - Z.max 0 e)) as [A' T]; [lia|].
      destruct (sleep_loop ds (of_nanos (total req - Z.max 0 e)) g) as [[[l' t'] m']| | |] eqn:R; try discriminate.
      cbn [bind] in E. injection E as <- <- <-.
      destruct (IH _ _ _ _ _ A' R) as (B & -> & F & N). rewrite T in B.
      split; [lia|]. split; [reflexivity|]. split; [constructor; assumption|cbn [length]; lia].
    + rewrite Z.ltb_ge in C. injection E as <- <- <-.
      split; [lia|]. split; [reflexivity|]. split; [constructor; [assumption|constructor]|cbn [length]; lia].
  - injection E as <- <- <-.
    split; [lia|]. split; [reflexivity|]. split; [constructor; [assumption|constructor]|cbn [length]; lia].
Qed.
Lemma start_ok msec : 0 <= msec -> accepted (mk_ts (Z.quot msec 1000) (Z.rem msec 1000 * 1000000)) /\
  total (mk_ts (Z.quot msec 1000) (Z.rem msec 1000 * 1000000)) = msec * 1000000.
Proof.
  intros H. unfold accepted, total, tv_sec, tv_nsec. rewrite Z.quot_div_nonneg, Z.rem_mod_nonneg by lia. split; lia.
Qed.

(** Sleep(msec) does not return before msec milliseconds have gone by, however often signals interrupt it; every duration it asks
    for is one the system accepts, and nothing is printed *)
Theorem C103_not_early : forall msec ds garbage calls t printed,
  0 <= msec < 2 ^ 31 -> Sleep msec ds garbage = Ok (calls, t, printed) ->
  msec * 1000000 <= t /\ printed = None /\ Forall accepted calls.
Proof.
  intros msec ds g l t m H E. unfold Sleep in E. destruct (start_ok msec) as [A T]; [lia|].
  destruct (loop_sound _ _ _ _ _ _ A E) as (B & C & D & _). rewrite T in B. split; [exact B|]. split; assumption.
Qed.

Lemma loop_exact es : forall req g late rest, accepted req -> Forall (fun e => 0 <= e) es -> fold_right Z.add 0 es < total req ->
  exists l, sleep_loop (map Signal es ++ Quiet late :: rest) req g = Ok (l, total req + Z.max 0 late, None) /\
            length l = S (length es).
Proof.
  induction es as [|e es IH]; intros req g late rest A F S.
  - cbn [map app sleep_loop]. rewrite (nanosleep_ok _ _ _ A). eexists; split; reflexivity.
  - inversion F as [|? ? He F']; subst. cbn [fold_right] in S.
    assert (P : 0 <= fold_right Z.add 0 es) by (clear - F'; induction F'; cbn [fold_right]; lia).
    cbn [map app sleep_loop]. rewrite (nanosleep_ok _ _ _ A).
    replace (Z.max 0 e) with e by lia.
    assert (C : e <? total req = true) by (rewrite Z.ltb_lt; lia). rewrite C.
    change (negb (EINTR =? EINTR)) with false. cbv iota.
    destruct (of_nanos_ok (total req - e)) as [A' T]; [lia|].
    destruct (IH (of_nanos (total req - e)) g late rest A' F') as (l & E & L); [rewrite T; lia|].
    rewrite E, T. cbn [bind]. exists (req :: l). split; [f_equal; f_equal; f_equal; lia|cbn [length]; lia].
Qed.
(** signals do not lengthen the sleep either: after interruptions at e1, e1+e2, ... before the end, it returns as late as the last
    call of the system does, and calls the system once more than it was interrupted *)
Theorem C103_exact : forall msec es late rest garbage,
  0 <= msec < 2 ^ 31 -> Forall (fun e => 0 <= e) es -> fold_right Z.add 0 es < msec * 1000000 -> 0 <= late ->
  exists calls, Sleep msec (map Signal es ++ Quiet late :: rest) garbage = Ok (calls, msec * 1000000 + late, None) /\
                length calls = S (length es).
Proof.
  intros msec es late rest g H F S L. unfold Sleep. destruct (start_ok msec) as [A T]; [lia|].
  destruct (loop_exact es _ g late rest A F) as (l & E & N); [rewrite T; exact S|].
  exists l. rewrite E, T. replace (Z.max 0 late) with late by lia. split; [reflexivity|exact N].
Qed.
Lemma loop_returns ds : forall req g, accepted req -> (exists late, In (Quiet late) ds) -> exists r, sleep_loop ds req g = Ok r.
Proof.
  induction ds as [|d ds IH]; intros req g A [late I]; [destruct I|].
  cbn [sleep_loop]. rewrite (nanosleep_ok _ _ _ A). destruct d as [e|l].
  - destruct (Z.max 0 e <? total req) eqn:C; [|eexists; reflexivity].
    rewrite Z.ltb_lt in C. change (negb (EINTR =? EINTR)) with false. cbv iota.
    destruct (of_nanos_ok (total req - Z.max 0 e)) as [A' T]; [lia|].
    destruct I as [I|I]; [discriminate|].
    destruct (IH _ g A' (ex_intro _ late I)) as [[[l t] m] R]. rewrite R. eexists; reflexivity.
  - eexists; reflexivity.
Qed.
(** it returns as soon as one call of the system is not interrupted *)
Theorem C103_returns : forall msec ds late garbage, 0 <= msec < 2 ^ 31 -> In (Quiet late) ds -> exists r, Sleep msec ds garbage = Ok r.
Proof.
  intros msec ds late g H I. destruct (start_ok msec) as [A T]; [lia|]. apply loop_returns; [exact A|exists late; exact I].
Qed.
(** a negative time: one call of the system, which refuses it; Sleep prints EINVAL and returns at once *)
Theorem C103_negative : forall msec d ds garbage, - 2 ^ 31 <= msec < 0 ->
  exists req, Sleep msec (d :: ds) garbage = Ok ([req], 0, Some 22).
Proof.
  intros msec d ds g H. unfold Sleep. cbn [sleep_loop]. unfold nanosleep.
  replace ((tv_sec _ <? 0) || (tv_nsec _ <? 0) || (giga <=? tv_nsec _)) with true.
  - change (negb (EINVAL =? EINTR)) with true. eexists; reflexivity.
  - symmetry. cbn [tv_sec tv_nsec]. rewrite !orb_true_iff, !Z.ltb_lt. left.
    pose proof (Z.quot_rem' msec 1000) as Q. pose proof (Z.rem_bound_neg_pos msec 1000) as R.
    destruct (Z.eq_dec (Z.rem msec 1000) 0); [left|right]; lia.
Qed.
(** 2.5 seconds, interrupted twice, returning 7 nanoseconds late *)
Example C103_ex : Sleep 2500 [Signal 1600000000; Signal 3; Quiet 7; Signal 0] (mk_ts 0 0)
  = Ok ([mk_ts 2 500000000; mk_ts 0 900000000; mk_ts 0 899999997], 2500000007, None).
Proof. reflexivity. Qed.
Example C103_ex_neg : Sleep (-1) [Quiet 0] (mk_ts 0 0) = Ok ([mk_ts 0 (-1000000)], 0, Some 22).
Proof. reflexivity. Qed.

(** ** thread::Begin *)
Definition is_start (e : ev) : bool := match e with Start _ _ _ _ => true | _ => false end.
Definition starts (tr : list ev) : list ev := filter is_start tr.
(** the bytes of stack the caller asked for as the system sees them (size_t); 0 is the default *)
Definition asked (stackSize : Z) : Z := stackSize mod 2 ^ 64.

(** true: exactly one thread was started, with the entry, the argument and the stack asked for, and its handle is in hdl *)
Theorem C104_true : forall c hdl entry arg stackSize hdl' tr, Begin c hdl entry arg stackSize = (true, hdl', tr) ->
  starts tr = [Start hdl' entry arg (asked stackSize)].
Proof.
  intros c hdl entry arg s hdl' tr E. unfold Begin in E.
  destruct (r_init c =? 0); cbn [negb] in E; [|discriminate].
  destruct (s =? 0) eqn:S0; cbn [negb] in E.
  - apply Z.eqb_eq in S0. subst s. destruct (r_create c =? 0) eqn:C.
    + destruct (r_destroy c =? 0); cbn [negb] in E; [|discriminate]. injection E as <- <-. reflexivity.
    + destruct (r_destroy c =? 0); cbn [negb] in E; [|discriminate]. rewrite C in E. discriminate.
  - destruct (r_setstack c (s mod 2 ^ 64) =? 0) eqn:R; cbn [negb] in E.
    + destruct (r_create c =? 0) eqn:C.
      * destruct (r_destroy c =? 0); cbn [negb] in E; [|discriminate]. injection E as <- <-. reflexivity.
      * destruct (r_destroy c =? 0); cbn [negb] in E; [|discriminate]. rewrite C in E. discriminate.
    + destruct (r_destroy c =? 0); cbn [negb] in E; [|discriminate]. rewrite R in E. discriminate.
Qed.
(** false, and the attributes could be released: no thread was started and hdl is as before *)
Theorem C104_false : forall c hdl entry arg stackSize hdl' tr, r_destroy c = 0 ->
  Begin c hdl entry arg stackSize = (false, hdl', tr) -> starts tr = [] /\ hdl' = hdl.
Proof.
  intros c hdl entry arg s hdl' tr D E. unfold Begin in E. rewrite D in E.
  change (negb (0 =? 0)) with false in E. cbv iota in E.
  destruct (r_init c =? 0); cbn [negb] in E; [|injection E as <- <-; split; reflexivity].
  destruct (s =? 0); cbn [negb] in E.
  - destruct (r_create c =? 0) eqn:C; [discriminate|]. injection E as _ <- <-. split; reflexivity.
  - destruct (r_setstack c (s mod 2 ^ 64) =? 0) eqn:R; cbn [negb] in E.
    + destruct (r_create c =? 0) eqn:C; [discriminate|]. injection E as _ <- <-. split; reflexivity.
    + injection E as _ <- <-. split; reflexivity.
Qed.
(** it answers true if and only if every call it needs succeeds *)
Theorem C104_iff : forall c hdl entry arg stackSize,
  fst (fst (Begin c hdl entry arg stackSize)) = true <->
  r_init c = 0 /\ (stackSize <> 0 -> r_setstack c (asked stackSize) = 0) /\ r_create c = 0 /\ r_destroy c = 0.
Proof.
  intros c hdl entry arg s. unfold Begin, asked.
  destruct (Z.eqb_spec (r_init c) 0) as [I|I]; cbn [negb fst]; [|split; [discriminate|intros [J _]; contradiction]].
  destruct (Z.eqb_spec s 0) as [S0|S0]; cbn [negb].
  - destruct (Z.eqb_spec (r_create c) 0) as [C|C].
    + destruct (Z.eqb_spec (r_destroy c) 0) as [D|D]; cbn [negb fst].
      * split; [intros _|intros _; reflexivity]. split; [exact I|]. split; [intros N; contradiction|]. split; assumption.
      * split; [discriminate|]. intros (_ & _ & _ & J). contradiction.
    + split.
      * destruct (r_destroy c =? 0); cbn [negb fst]; [|discriminate]. destruct (Z.eqb_spec (r_create c) 0); [contradiction|discriminate].
      * intros (_ & _ & J & _). contradiction.
  - destruct (Z.eqb_spec (r_setstack c (s mod 2 ^ 64)) 0) as [R|R]; cbn [negb].
    + destruct (Z.eqb_spec (r_create c) 0) as [C|C].
      * destruct (Z.eqb_spec (r_destroy c) 0) as [D|D]; cbn [negb fst].
        -- split; [intros _|intros _; reflexivity]. split; [exact I|]. split; [intros _; exact R|]. split; assumption.
        -- split; [discriminate|]. intros (_ & _ & _ & J). contradiction.
      * split.
        -- destruct (r_destroy c =? 0); cbn [negb fst]; [|discriminate]. destruct (Z.eqb_spec (r_create c) 0); [contradiction|discriminate].
        -- intros (_ & _ & J & _). contradiction.
    + split.
      * destruct (r_destroy c =? 0); cbn [negb fst]; [|discriminate].
        destruct (Z.eqb_spec (r_setstack c (s mod 2 ^ 64)) 0); [contradiction|discriminate].
      * intros (_ & J & _). exfalso. apply R, J, S0.
Qed.
(** the attributes that were initialised are released as the last thing, on every way out, if the system lets them be *)
Theorem C104_attr : forall c hdl entry arg stackSize, r_destroy c = 0 ->
  let tr := snd (Begin c hdl entry arg stackSize) in
  (r_init c <> 0 /\ tr = []) \/ (r_init c = 0 /\ exists mid, tr = AttrInit :: mid ++ [AttrDestroy] /\ ~ In AttrInit mid /\ ~ In AttrDestroy mid).
Proof.
  intros c hdl entry arg s D. unfold Begin. rewrite D. change (negb (0 =? 0)) with false. cbv iota.
  destruct (Z.eqb_spec (r_init c) 0) as [I|I]; cbn [negb snd]; [right|left; split; [exact I|reflexivity]].
  split; [exact I|].
  destruct (s =? 0); cbn [negb].
  - destruct (r_create c =? 0); cbn [snd app].
    + eexists [_]. split; [reflexivity|]. split; intros [J|[]]; discriminate.
    + exists []. split; [reflexivity|]. split; intros [].
  - destruct (r_setstack c (s mod 2 ^ 64) =? 0); cbn [negb].
    + destruct (r_create c =? 0); cbn [snd app].
      * eexists [_; _]. split; [reflexivity|]. split; intros [J|[J|[]]]; discriminate.
      * eexists [_]. split; [reflexivity|]. split; intros [J|[]]; discriminate.
    + exists []. split; [reflexivity|]. split; intros [].
Qed.
(** ** Finding: if pthread_attr_destroy fails, Begin answers false although the thread runs and hdl is set (thread.hpp:127-130):
    a caller who believes the answer forgets a running thread *)
Theorem C104_destroy_finding : forall c hdl entry arg, r_init c = 0 -> r_create c = 0 -> r_destroy c <> 0 ->
  Begin c hdl entry arg 0 = (false, r_handle c, [AttrInit; Start (r_handle c) entry arg 0]).
Proof.
  intros c hdl entry arg I C D. unfold Begin. rewrite I, C. apply Z.eqb_neq in D. rewrite D. reflexivity.
Qed.
(** ** Finding: a negative stackSize is passed on as a size near 2^64 (thread.hpp:120), which the system may accept as an attribute *)
Theorem C104_negative_finding : forall c hdl entry arg n, 0 < n < 2 ^ 31 -> r_init c = 0 -> r_create c = 0 -> r_destroy c = 0 ->
  r_setstack c (2 ^ 64 - n) = 0 ->
  Begin c hdl entry arg (- n) = (true, r_handle c, [AttrInit; AttrStack (2 ^ 64 - n); Start (r_handle c) entry arg (2 ^ 64 - n); AttrDestroy]).
Proof.
  intros c hdl entry arg n H I C D S.
  assert (E : (- n) mod 2 ^ 64 = 2 ^ 64 - n) by (rewrite <- (Z.mod_small (2 ^ 64 - n) (2 ^ 64)) by lia;
    replace (2 ^ 64 - n) with (- n + 1 * 2 ^ 64) by lia; now rewrite Z.mod_add by lia).
  unfold Begin. rewrite I, C, D, E, S.
  replace (- n =? 0) with false by (symmetry; apply Z.eqb_neq; lia). reflexivity.
Qed.
Definition linux : calls := mk_calls 0 (fun n => if n <? 16384 then 22 else 0) 0 140001 0.
Example C104_ex : Begin linux 0 11 12 65536 = (true, 140001, [AttrInit; AttrStack 65536; Start 140001 11 12 65536; AttrDestroy]).
Proof. reflexivity. Qed.
Example C104_ex_small : Begin linux 5 11 12 1000 = (false, 5, [AttrInit; AttrDestroy]).
Proof. reflexivity. Qed.

(** GetProcessorNum: 0 on error, else what the system answers *)
Theorem C104_processors : forall n, GetProcessorNum (-1) = 0 /\ (0 <= n < 2 ^ 31 -> GetProcessorNum n = n).
Proof.
  intros n. split; [reflexivity|]. intros H. unfold GetProcessorNum.
  rewrite Z.mod_small by lia. replace (n <? 0) with false by (symmetry; apply Z.ltb_ge; lia).
  replace (n <? 2 ^ 31) with true by (symmetry; apply Z.ltb_lt; lia). reflexivity.
Qed.

Print Assumptions C103_not_early.
Print Assumptions C103_exact.
Print Assumptions C103_returns.
Print Assumptions C103_negative.
Print Assumptions C104_true.
Print Assumptions C104_false.
Print Assumptions C104_iff.
Print Assumptions C104_attr.
Print Assumptions C104_destroy_finding.
Print Assumptions C104_negative_finding.
Print Assumptions C104_processors.
