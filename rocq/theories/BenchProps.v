(** Properties of include/cybozu/benchmark.hpp (C78): the clock adds up the measured intervals and the
    macros call the function the announced number of times. *)
Require Import Verif.Common Verif.BenchModel.

(** ** Specification *)
(** length of an interval of a 64-bit counter that may wrap around once *)
Definition interval (p : Z * Z) : Z := (snd p - fst p) mod 2 ^ 64.
Fixpoint total (l : list (Z * Z)) : Z := match l with [] => 0 | p :: l => interval p + total l end.
(** the calls that measure the given intervals *)
Definition measure (l : list (Z * Z)) : list op := flat_map (fun p => [O_begin (fst p); O_end (snd p)]) l.
Definition rounds (ticks : nat -> Z * Z) (r : nat) : list (Z * Z) := map ticks (seq 0 r).

(** ** Proofs *)
Lemma begin_end c p : count_ c + 1 < 2 ^ 31 ->
  end_ (begin_ c (fst p)) (snd p) = Ok {| clock_ := (clock_ c + interval p) mod 2 ^ 64; count_ := count_ c + 1 |}.
Proof.
  intros H. unfold end_, begin_, interval. cbn [clock_ count_]. destruct (_ <? _) eqn:E; [|lia]. f_equal. f_equal.
  rewrite Zplus_mod_idemp_l, Zplus_mod_idemp_r. f_equal. lia.
Qed.
Theorem C78_sum : forall os l, zlen l < 2 ^ 31 ->
  (exists c, steps newClk os = Ok c) ->
  steps newClk (os ++ O_clear :: measure l) = Ok {| clock_ := total l mod 2 ^ 64; count_ := zlen l |}.
Proof.
  intros os l Hl (c & Hc).
  assert (A: forall os c c', steps c os = Ok c' -> forall os', steps c (os ++ os') = steps c' os').
  { induction os0 as [|o os0 IH]; intros c0 c1 E os'; cbn [app steps] in *; [congruence|].
    destruct (step c0 o); cbn [bind] in *; try discriminate. apply IH. auto. }
  rewrite (A _ _ _ Hc). cbn [steps step bind clear_].
  assert (G: forall l c, count_ c + zlen l < 2 ^ 31 -> 0 <= clock_ c < 2 ^ 64 ->
    steps c (measure l) = Ok {| clock_ := (clock_ c + total l) mod 2 ^ 64; count_ := count_ c + zlen l |}).
  { induction l0 as [|p l0 IH]; intros c0 H0 H1.
    - destruct c0 as [k n]. cbn [measure flat_map steps total clock_ count_] in *. rewrite zlen_nil, !Z.add_0_r, Z.mod_small by auto. auto.
    - rewrite zlen_cons in *. pose proof (zlen_nonneg l0). cbn [measure flat_map app steps step bind]. rewrite begin_end by lia. cbn [bind].
      fold (measure l0). rewrite IH; cbn [clock_ count_]; [|lia|apply Z.mod_pos_bound; lia]. cbn [total]. f_equal. f_equal; [|lia].
      rewrite Zplus_mod_idemp_l. f_equal. lia. }
  rewrite G; cbn [clear_ clock_ count_]; [|lia..]. auto.
Qed.

Lemma repeat_add {W} (f : W -> W) a b w : repeat_f f b (repeat_f f a w) = repeat_f f (a + b) w.
Proof. revert w. induction a; intros w; cbn; auto. Qed.
Lemma total_app a b : total (a ++ b) = total a + total b.
Proof. induction a as [|p a IH]; cbn [app total]; lia. Qed.
Lemma repeat_snoc {W} (f : W -> W) n w : repeat_f f (S n) w = f (repeat_f f n w).
Proof. revert w. induction n; intros w; auto. change (repeat_f f (S (S n)) w) with (repeat_f f (S n) (f w)). rewrite IHn. auto. Qed.

(** CYBOZU_BENCH stops after the first round that brings the measured sum above 10^8, at most after 100
    rounds; the function has then been called loopN1 times per round, and the count is not 0 *)
Theorem C78_bench : forall (W : Type) (f : W -> W) n1 ticks w,
  exists r c, (1 <= r <= 100)%nat /\ bench f n1 ticks w = Ok (Nat.iter (r * n1) f w, c) /\
    count_ c = Z.of_nat r /\ clock_ c = total (rounds ticks r) mod 2 ^ 64 /\
    (forall k, (1 <= k < r)%nat -> total (rounds ticks k) mod 2 ^ 64 <= 10 ^ 8) /\
    ((r < 100)%nat -> 10 ^ 8 < total (rounds ticks r) mod 2 ^ 64).
Proof.
  intros W f n1 ticks w.
  assert (IT: forall n w, repeat_f f n w = Nat.iter n f w) by (induction n; intros; [auto|rewrite repeat_snoc, IHn; auto]).
  assert (RS: forall i, rounds ticks (S i) = rounds ticks i ++ [ticks i]).
  { intros i. unfold rounds. rewrite seq_S, map_app. auto. }
  assert (G: forall k i c, (0 < k)%nat -> (i + k = 100)%nat -> count_ c = Z.of_nat i -> clock_ c = total (rounds ticks i) mod 2 ^ 64 ->
    (forall j, (1 <= j <= i)%nat -> total (rounds ticks j) mod 2 ^ 64 <= 10 ^ 8) ->
    exists r c', (i < r <= 100)%nat /\ bench_loop f n1 ticks k i (repeat_f f (i * n1) w) c = Ok (repeat_f f (r * n1) w, c') /\
      count_ c' = Z.of_nat r /\ clock_ c' = total (rounds ticks r) mod 2 ^ 64 /\
      (forall k, (1 <= k < r)%nat -> total (rounds ticks k) mod 2 ^ 64 <= 10 ^ 8) /\
      ((r < 100)%nat -> 10 ^ 8 < total (rounds ticks r) mod 2 ^ 64)).
  { induction k as [|k IH]; intros i c K E C1 C2 Hj; [lia|]. cbn [bench_loop]. rewrite begin_end by lia. cbn [bind clock_ count_].
    rewrite repeat_add. replace (i * n1 + n1)%nat with (S i * n1)%nat by lia.
    assert (S2: (clock_ c + interval (ticks i)) mod 2 ^ 64 = total (rounds ticks (S i)) mod 2 ^ 64).
    { rewrite RS, total_app, C2, Zplus_mod_idemp_l. cbn [total]. f_equal. lia. }
    rewrite S2. change maxClk with (10 ^ 8). destruct (10 ^ 8 <? _) eqn:G.
    - eexists (S i), _. split; [lia|]. split; [reflexivity|]. cbn [clock_ count_]. split; [lia|]. split; [auto|]. split; [intros; apply Hj; lia|lia].
    - destruct k as [|k].
      + cbn [bench_loop]. eexists (S i), _. split; [lia|]. split; [reflexivity|]. cbn [clock_ count_]. split; [lia|]. split; [auto|]. split; [intros; apply Hj; lia|lia].
      + destruct (IH (S i) {| clock_ := total (rounds ticks (S i)) mod 2 ^ 64; count_ := count_ c + 1 |}) as (r & c' & R & Q); cbn [clock_ count_]; [lia|lia|lia|auto| |].
        * intros j Hj2. destruct (Nat.eq_dec j (S i)) as [->|]; [lia|apply Hj; lia].
        * exists r, c'. split; [lia|]. exact Q. }
  destruct (G 100%nat 0%nat newClk) as (r & c & R & E & Q); [lia|lia|reflexivity|reflexivity|lia|].
  exists r, c. split; [lia|]. rewrite <- IT. split; [exact E|exact Q].
Qed.
Theorem C78_bench_c : forall (W : Type) (f : W -> W) N t w,
  bench_c f N t w = Ok (Nat.iter (Z.to_nat N) f w, {| clock_ := interval t; count_ := 1 |}).
Proof.
  intros W f N t w. unfold bench_c. rewrite begin_end by (cbn; lia). cbn [bind newClk clock_ count_]. f_equal. f_equal.
  - generalize (Z.to_nat N). intros n. induction n; auto. rewrite repeat_snoc, IHn. auto.
  - f_equal. unfold interval. rewrite Z.add_0_l, Zmod_mod. auto.
Qed.
Example C78_nonvacuous :
  steps newClk ([O_begin 7] ++ O_clear :: measure [(10, 15); (2 ^ 64 - 2, 3)]) = Ok {| clock_ := 10; count_ := 2 |}
  /\ bench (fun x => x + 1) 10 (fun i => (0, 60000000)) 0 = Ok (20, {| clock_ := 120000000; count_ := 2 |})
  /\ bench (fun x => x + 1) 10 (fun i => (0, 6)) 0 = Ok (1000, {| clock_ := 600; count_ := 100 |}).
Proof. repeat split. Qed.
(** ** Finding: one reading that goes backwards (a move to another processor) ends CYBOZU_BENCH after that
    round with a time near 2^64. *)
Theorem C78_backwards_finding : forall (W : Type) (f : W -> W) w,
  bench f 10 (fun i => (5, 4)) w = Ok (Nat.iter 10 f w, {| clock_ := 2 ^ 64 - 1; count_ := 1 |}).
Proof. reflexivity. Qed.

Print Assumptions C78_sum.
Print Assumptions C78_bench.
Print Assumptions C78_bench_c.
