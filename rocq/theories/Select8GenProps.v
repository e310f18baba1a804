(** C118: the program that prints the select table *)
Require Import Verif.Common Verif.Text Verif.Cnt Verif.ExceptionModel Verif.SucModel Verif.SucProof Verif.Select8GenModel.
Ltac Zify.zify_post_hook ::= idtac.
Local Open Scope Z_scope.

Lemma gen_loop_spec v r : 1 <= r -> forall n i, 0 <= i -> i + Z.of_nat n = 64 -> cnt (Z.testbit v) i < r ->
  let p := gen_loop n v r i (cnt (Z.testbit v) i) in if r <=? cnt (Z.testbit v) 64 then i <= p < 64 /\ is_sel (Z.testbit v) r p else p = 64.
Proof.
  intros Hr. induction n as [|n IH]; intros i Hi E L; cbn [gen_loop].
  - assert (i = 64) by lia. subst i. destruct (r <=? cnt (Z.testbit v) 64) eqn:Q; [lia|reflexivity].
  - pose proof (cnt_S (Z.testbit v) i Hi) as CS. assert (EC : (if Z.testbit v i then cnt (Z.testbit v) i + 1 else cnt (Z.testbit v) i) = cnt (Z.testbit v) (i + 1)) by (rewrite CS; destruct (Z.testbit v i); cbn; lia).
    rewrite EC. destruct (cnt (Z.testbit v) (i + 1) =? r) eqn:Q.
    + pose proof (cnt_mono (Z.testbit v) (i + 1) 64 ltac:(lia)). destruct (r <=? cnt (Z.testbit v) 64) eqn:Q2; [|lia]. split; [lia|]. split; [auto|]. destruct (Z.testbit v i) eqn:T; cbn in CS; [|lia]. split; [reflexivity|lia].
    + specialize (IH (i + 1) ltac:(lia) ltac:(lia)). assert (cnt (Z.testbit v) (i + 1) < r) as L' by (destruct (Z.testbit v i); cbn in CS; lia). specialize (IH L'). cbv zeta in *. destruct (r <=? cnt (Z.testbit v) 64); [|exact IH]. destruct IH as [A B]. split; [lia|exact B].
Qed.
(** the function of the generator finds the r-th set bit of any 64-bit word, and answers 64 if there are fewer *)
Theorem C118_select : forall v r, 1 <= r -> if r <=? cnt (Z.testbit v) 64 then 0 <= gen_select8 v r < 64 /\ is_sel (Z.testbit v) r (gen_select8 v r) else gen_select8 v r = 64.
Proof. intros v r Hr. apply (gen_loop_spec v r Hr 64 0); try lia. rewrite cnt_0; lia. Qed.
(** the library's select64, built on the table, answers the same for every word and every r from 1 on *)
Theorem C118_select64 : forall x64 v r, 0 <= v < 2 ^ 64 -> 1 <= r -> select64 x64 v r = Ok (gen_select8 v r).
Proof.
  intros x64 v r Hv Hr. destruct (C28_select64 x64 v r Hv Hr) as (p & E & S). rewrite E. pose proof (C118_select v r Hr) as G. f_equal. destruct (r <=? cnt (Z.testbit v) 64); [|congruence].
  eapply is_sel_unique; [apply S|apply G].
Qed.
(** what the program prints is the table of the library *)
Theorem C118_table : gen_table = select8_tbl.
Proof. vm_compute. reflexivity. Qed.
(** ** Finding: select with r = 0 is 0 for even words and 64 for odd ones
    Both the table and its generator compare the count with r after looking at a bit.  There is no 0-th set bit; the answers depend on bit 0
    alone and are not told apart from an answer for r = 1. *)
Theorem C118_zero_finding : forall v, gen_select8 v 0 = if Z.testbit v 0 then 64 else 0.
Proof.
  intros v. assert (G : forall n i c, 1 <= c -> gen_loop n v 0 i c = 64). { induction n as [|n IH]; intros i c Hc; [reflexivity|]. cbn [gen_loop]. destruct (Z.testbit v i), (_ =? 0) eqn:Q; try lia; apply IH; lia. }
  assert (S0 : forall n, gen_loop (S n) v 0 0 0 = if Z.testbit v 0 then gen_loop n v 0 1 1 else 0) by (intros n; cbn [gen_loop]; destruct (Z.testbit v 0); reflexivity).
  unfold gen_select8. rewrite (S0 63%nat), G by lia. reflexivity.
Qed.
Example gen_demo : gen_select8 (2 ^ 63 + 2 ^ 40 + 1) 3 = 63 /\ gen_select8 (2 ^ 63 + 2 ^ 40 + 1) 4 = 64 /\ select64 true (2 ^ 63 + 2 ^ 40 + 1) 2 = Ok 40 /\
  firstn 35 gen_print = str "{0, 64, 64, 64, 64, 64, 64, 64, }," ++ [10].
Proof. vm_compute. repeat split. Qed.
Print Assumptions C118_select.
Print Assumptions C118_select64.
Print Assumptions C118_table.
Print Assumptions C118_zero_finding.
