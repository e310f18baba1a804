(** C44, continued: the same Option parses several command lines *)
Require Import Verif.Common Verif.Text Verif.ConfigModel Verif.ConfigProps Verif.OptionModel Verif.OptionProps.
Local Open Scope Z_scope.

(** [calls o st done]: st is what o is after any number of calls of parse that returned true, and done are the pieces they read, in order:
    the k-th call reads its arguments behind the positional arguments of the calls before *)
Inductive calls (o : opt) : opt -> list piece -> Prop :=
| CNone : calls o o []
| CNext st done argv start prog st' next after ps e : calls o st done -> 1 <= start <= zlen argv ->
    parse st argv start prog = Ok (PTrue st' next after) -> reads o (length (positionals done)) (skipn (Z.to_nat start) argv) ps e -> finished o e ->
    calls o st' (done ++ ps).

Section again.
Variables (o : opt) (done : list piece) (argv : list (list Z)) (start : Z) (prog : bool).
Hypothesis W : wfo o.
Hypothesis B : 1 <= start <= zlen argv.
Let args := skipn (Z.to_nat start) argv.
Lemma again_start : parse (assigned o done) argv start prog = parse_loop (S (length argv)) (assigned o done) argv start.
Proof using B.
  unfold parse. destruct (zlen argv <? 1) eqn:E1; [lia|]. destruct (zlen argv <? start) eqn:E2; [lia|]. cbn [orb].
  destruct prog; [reflexivity|]. rewrite (rd_nth argv (start - 1) []) by lia. reflexivity.
Qed.
Lemma again_run ps e : reads o (length (positionals done)) args ps e ->
  (finished o e -> parse (assigned o done) argv start prog = Ok (final (assigned o (done ++ ps)) argv e)) /\
  (help_at o e -> parse (assigned o done) argv start prog = Ok PExit).
Proof using W B.
  intros R. rewrite again_start.
  assert (F : (length args < S (length argv))%nat) by (unfold args; rewrite skipn_length; lia).
  assert (LA : zlen argv <= start + zlen args) by (unfold args, zlen; rewrite skipn_length; lia).
  destruct (run o argv ps W done (S (length argv)) start args e (length (positionals done))) as (f' & pos' & P' & S' & F' & L' & E'); auto; try lia. rewrite E'. split.
  - intros FI. now apply (loop_finished o).
  - intros HA. now apply (loop_help o) with (e := e).
Qed.
Lemma again_cases : parse (assigned o done) argv start prog = Ok PFalse \/ exists ps e, reads o (length (positionals done)) args ps e /\ (finished o e \/ help_at o e).
Proof using W B.
  rewrite again_start. apply (loop_cases o argv W (length args)); auto; try lia; unfold args; try (rewrite skipn_length; lia). unfold zlen. rewrite skipn_length. lia.
Qed.
End again.

(** a further call of parse goes on where the calls before ended: its positional arguments go to the parameters that are still free, and
    what is mandatory may have been given in any of the calls *)
Theorem C44_again : forall o st done argv start prog, declared o -> calls o st done -> 1 <= start <= zlen argv ->
  forall st' next after, parse st argv start prog = Ok (PTrue st' next after) <->
    exists ps e, reads o (length (positionals done)) (skipn (Z.to_nat start) argv) ps e /\ finished o e /\ complete o (done ++ ps) /\ st' = assigned o (done ++ ps) /\
      match e with
      | [] => next = zlen argv /\ after = []
      | _ :: rest => next = zlen argv - zlen rest /\ after = if o_keep o then rest else []
      end.
Proof.
  intros o st done argv start prog D C B. assert (DW := D). apply declared_wf in DW.
  assert (ST : forall st done, st = assigned o done -> forall argv start prog, 1 <= start <= zlen argv -> forall st' next after, parse st argv start prog = Ok (PTrue st' next after) <->
    exists ps e, reads o (length (positionals done)) (skipn (Z.to_nat start) argv) ps e /\ finished o e /\ complete o (done ++ ps) /\ st' = assigned o (done ++ ps) /\
      match e with
      | [] => next = zlen argv /\ after = []
      | _ :: rest => next = zlen argv - zlen rest /\ after = if o_keep o then rest else []
      end).
  { clear st done argv start prog C B. intros st done -> argv start prog B st' next after. split.
    - intros H. destruct (again_cases o done argv start prog DW B) as [H'|(ps & e & R & [FI|HA])]; [congruence| |].
      + rewrite (proj1 (again_run o done argv start prog DW B ps e R) FI) in H. unfold final in H. destruct (all_must (assigned o (done ++ ps))) eqn:M; [|discriminate].
        exists ps, e. split; auto. split; auto. split; [now apply all_must_iff|]. destruct e as [|d rest]; injection H as <- <- <-; auto.
      + rewrite (proj2 (again_run o done argv start prog DW B ps e R) HA) in H. discriminate.
    - intros (ps & e & R & FI & CO & -> & X). rewrite (proj1 (again_run o done argv start prog DW B ps e R) FI). unfold final. rewrite (proj2 (all_must_iff o (done ++ ps) DW) CO). destruct e as [|d rest]; destruct X as [-> ->]; reflexivity. }
  assert (SA : st = assigned o done).
  { clear argv start prog B. induction C as [|st done argv start prog st' next after ps e C IH B H R FI]; [symmetry; now apply assigned_nil|].
    apply (ST st done IH argv start prog B) in H. destruct H as (ps' & e' & R' & FI' & _ & -> & _). destruct (C44_reading_unique o _ _ ps e ps' e' D R R' FI FI') as [-> _]. reflexivity. }
  now apply ST.
Qed.
(** ** Finding: the same command line may be refused the second time
    parse does not start afresh: a parameter that was set by the first call is not free any more, so its argument is redundant in the
    second. *)
Theorem C44_twice_finding : forall n acc v p, acc v = true -> ~ optlike v -> exists o st, appendParam opt_new n acc = Ok o /\ declared o /\
  parse o [p; v] 1 false = Ok (PTrue st 2 []) /\ i_got (nth 0 (o_params st) no_info) = [v] /\ parse st [p; v] 1 false = Ok PFalse.
Proof.
  intros n acc v p A NO. destruct (appendParam opt_new n acc) as [o| | |] eqn:E; try discriminate. assert (D : declared o) by (eapply DParam; [apply DNew|exact E]). injection E as <-.
  set (o := mk_opt [] [mk_info n N_is1 true acc false []] P_exact no_info [] [] false) in *.
  exists o, (assigned o [Pos v]). split; [reflexivity|]. split; [exact D|]. split; [|split].
  - apply C44_parse; auto; [cbn; lia|]. exists [Pos v], []. split; [|split; [exact I|]].
    + apply RPos; [intros []|exact NO|exact A|constructor].
    + split; [|split; [reflexivity|split; reflexivity]]. split; [intros i []|]. intros [|k] q K M; [cbn; lia|]. destruct k; discriminate K.
  - reflexivity.
  - unfold parse. cbn -[isOpt]. change (Pos.to_nat 1) with 1%nat. cbn [nth_error bind]. rewrite (proj2 (isOpt_false v) NO). reflexivity.
Qed.
(** two calls: the option in the first, the parameter in the second *)
Example again_demo : exists o st st' done, declared o /\ calls o st done /\ done = [Val (str "n") (str "1"); Pos (str "a")] /\ parse st [str "p"; str "b"] 1 false = Ok (PTrue st' 2 []) /\
  map i_got (o_params st') = [[str "a"]; [str "b"]].
Proof.
  destruct (appendMust opt_new (str "n") (fun _ => true)) as [o1| | |] eqn:E1; try discriminate. destruct (appendParam o1 (str "x") (fun _ => true)) as [o2| | |] eqn:E2; [|discriminate E1 + (injection E1 as <-; discriminate E2) ..].
  destruct (appendParamOpt o2 (str "y") (fun _ => true)) as [o| | |] eqn:E3; [|injection E1 as <-; injection E2 as <-; discriminate E3 ..].
  unfold appendMust in E1. assert (D : declared o) by (eapply DParamOpt; [|exact E3]; eapply DParam; [|exact E2]; eapply DSub; [apply DNew|exact E1]).
  injection E1 as <-. injection E2 as <-. injection E3 as <-. match type of D with declared ?x => set (o := x) in * end.
  exists o, (assigned o [Val (str "n") (str "1"); Pos (str "a")]), (assigned o [Val (str "n") (str "1"); Pos (str "a"); Pos (str "b")]), [Val (str "n") (str "1"); Pos (str "a")].
  split; [exact D|]. split; [|split; [reflexivity|split; [vm_compute; reflexivity|reflexivity]]].
  apply (CNext o o [] [str "p"; str "-n"; str "1"; str "a"] 1 false _ 4 [] [Val (str "n") (str "1"); Pos (str "a")] []); [apply CNone|cbn; lia|vm_compute; reflexivity| |exact I].
  cbn [Z.to_nat Pos.to_nat Pos.iter_op skipn]. eapply (RVal _ _ (mk_info (str "n") N_is1 true (fun _ => true) false [])); [|reflexivity|].
  - split; [left; reflexivity|]. split; [reflexivity|]. split; [intros []|discriminate].
  - apply RPos; [intros []| |reflexivity|constructor]. intros (r & X & _). discriminate X.
Qed.
Print Assumptions C44_again.
Print Assumptions C44_twice_finding.
