(** C117: what option.hpp prints *)
Require Import Verif.Common Verif.Text Verif.AtoiSpec Verif.ConfigModel Verif.ConfigProps Verif.OptionModel Verif.OptionProps Verif.NumProps Verif.OptIoModel Verif.OptIoProps Verif.ExceptionModel Verif.ExceptionProps Verif.OptionMsgModel.
Local Open Scope Z_scope.

(** ** Specification *)
(** why parse is false when it has read the pieces ps and e is left ([reads], [named], [optlike], [finished] and [values_for] are those of
    C44): the words of the message *)
Inductive reason (o : opt) (ps : list piece) : list (list Z) -> list Z -> Prop :=
| UnknownOpt s r : optlike (dash s) -> ~ In (dash s) (o_delims o) -> s <> o_help o -> (forall i, In i (o_infos o) -> i_name i <> s) ->
    reason o ps (dash s :: r) (str "bad opt")
| BadFlag i r : named o i N_is0 -> i_acc i (str "1") = false -> reason o ps (dash (i_name i) :: r) (str "bad value")
| NoValue i : named o i N_is1 -> reason o ps [dash (i_name i)] (str "bad value:no value for -" ++ i_name i)
| BadValue i v r : named o i N_is1 -> i_acc i v = false -> reason o ps (dash (i_name i) :: v :: r) (str "bad value:" ++ v ++ str " for -" ++ i_name i)
| BadElement i vs v r d : named o i N_any -> Forall (fun v => ~ optlike v /\ i_acc i v = true) vs -> ~ optlike v -> i_acc i v = false -> canonical_dec d (zlen vs) ->
    reason o ps (dash (i_name i) :: vs ++ v :: r) (str "bad value:" ++ v ++ str " for -" ++ i_name i ++ str ":" ++ d)
| NoElement i r : named o i N_any -> (forall a r', r = a :: r' -> optlike a) -> reason o ps (dash (i_name i) :: r) (str "no value:for -" ++ i_name i)
| BadParam v r p : ~ In v (o_delims o) -> ~ optlike v -> nth_error (o_params o) (length (positionals ps)) = Some p -> i_acc p v = false ->
    reason o ps (v :: r) (str "bad value:" ++ v ++ str " for " ++ i_name p)
| Redundant v r : ~ In v (o_delims o) -> ~ optlike v -> (length (o_params o) <= length (positionals ps))%nat -> o_pmode o <> P_variable ->
    reason o ps (v :: r) (str "redundant argVal:" ++ v)
| OptMissing e l1 i l2 : finished o e -> o_infos o = l1 ++ i :: l2 -> i_must i = true -> values_for (i_name i) ps = [] ->
    (forall j, In j l1 -> i_must j = true -> values_for (i_name j) ps <> []) -> reason o ps e (str "opt is necessary:" ++ i_name i)
| ParamMissing e l1 p l2 : finished o e -> (forall i, In i (o_infos o) -> i_must i = true -> values_for (i_name i) ps <> []) ->
    o_params o = l1 ++ p :: l2 -> i_must p = true -> (length (positionals ps) <= length l1)%nat ->
    (forall k q, nth_error l1 k = Some q -> i_must q = true -> (k < length (positionals ps))%nat) -> reason o ps e (str "param is necessary:" ++ i_name p).
(** lines of text *)
Definition unlines (l : list (list Z)) : list Z := flat_map (fun x => x ++ [10]) l.
Definition given_text (x : list Z) : list (list Z) := match x with [] => [] | _ => [x] end.
(** the line of an option, of a parameter, of a mandatory option in the first line *)
Definition option_line (x : info * list Z) : list Z := str "  -" ++ i_name (fst x) ++ str " " ++ snd x ++ (if i_must (fst x) then str " (must)" else []).
Definition param_line (x : info * list Z) : list Z := str "  " ++ i_name (fst x) ++ str " " ++ snd x.
Definition must_words (i : info) : list Z := str " -" ++ i_name i ++ match i_mode i with N_is0 => str " " | N_is1 => str " para" | N_any => str " para..." end.
Definition usage_line (o : opt) (name : list Z) : list Z :=
  str "usage:" ++ name ++ match o_infos o with [] => [] | _ => str " [opt]" end ++ flat_map must_words (filter i_must (o_infos o)) ++
  flat_map (fun p => str " " ++ i_name p) (o_params o) ++ match o_pmode o with P_variable => str " " ++ i_name (o_remains o) | _ => [] end.
Definition described (x : info * list Z) : bool := match snd x with [] => false | _ => true end.
(** the lines about parameters and options: every parameter with a text, the variable-length one, the help option, every option *)
Definition detail_lines (o : opt) (t : texts) : list (list Z) :=
  map param_line (filter described (combine (o_params o) (t_params t))) ++
  map param_line (filter described [(o_remains o, t_rest t)]) ++
  match o_help o with [] => [] | h => [str "  -" ++ h ++ str " " ++ t_help t] end ++
  map option_line (combine (o_infos o) (t_opts t)).
Definition help_text (o : opt) (t : texts) (name : list Z) : list Z :=
  unlines (given_text (t_desc t) ++
    match t_usage t with
    | [] => usage_line o name :: detail_lines o t
    | u => u :: if t_show t then detail_lines o t else []
    end).

(** ** Proof *)
Lemma unlines_app a b : unlines (a ++ b) = unlines a ++ unlines b.
Proof. apply flat_map_app. Qed.
Lemma usage_is o t n : usage o t n = help_text o t n.
Proof.
  assert (D : param_helps (o_params o) (t_params t) ++
    (if is_nil (t_rest t) then [] else str "  " ++ i_name (o_remains o) ++ str " " ++ t_rest t ++ [10]) ++
    (if is_nil (o_help o) then [] else str "  -" ++ o_help o ++ str " " ++ t_help t ++ [10]) ++
    opt_helps (o_infos o) (t_opts t) = unlines (detail_lines o t)).
  { unfold detail_lines. rewrite !unlines_app. f_equal; [|f_equal; [|f_equal]].
    - generalize (t_params t). induction (o_params o) as [|p l IH]; intros [|h hs]; auto. cbn [param_helps combine filter]. rewrite IH. destruct h as [|c h]; [reflexivity|].
      cbn [described snd is_nil map]. change (unlines (param_line (p, c :: h) :: ?x)) with ((param_line (p, c :: h) ++ [10]) ++ unlines x). unfold param_line. cbn [fst snd]. rewrite <- !app_assoc. reflexivity.
    - destruct (t_rest t) as [|c r]; [reflexivity|]. cbn [filter described snd is_nil map]. unfold unlines. cbn [flat_map]. unfold param_line. cbn [fst snd]. rewrite app_nil_r, <- !app_assoc. reflexivity.
    - destruct (o_help o) as [|c r]; [reflexivity|]. unfold unlines. cbn [flat_map is_nil]. rewrite app_nil_r, <- !app_assoc. reflexivity.
    - generalize (t_opts t). induction (o_infos o) as [|p l IH]; intros [|h hs]; auto. cbn [opt_helps combine map]. rewrite IH.
      change (unlines (option_line (p, h) :: ?x)) with ((option_line (p, h) ++ [10]) ++ unlines x). unfold option_line, info_usage. cbn [fst snd]. rewrite <- !app_assoc. reflexivity. }
  unfold usage, help_text. rewrite D, unlines_app. f_equal.
  - destruct (t_desc t); [reflexivity|]. unfold unlines. cbn [given_text flat_map is_nil]. now rewrite app_nil_r.
  - destruct (t_usage t) as [|c u]; cbn [is_nil].
    + change (unlines (usage_line o n :: ?x)) with ((usage_line o n ++ [10]) ++ unlines x). unfold usage_line. rewrite <- !app_assoc. do 2 f_equal.
      assert (S : short_all (o_infos o) = flat_map must_words (filter i_must (o_infos o))).
      { clear D. induction (o_infos o) as [|i l IH]; auto. cbn [short_all filter]. rewrite IH. destruct (i_must i); [|reflexivity]. cbn [flat_map]. f_equal.
        unfold shortUsage, must_words. destruct (i_mode i); reflexivity. }
      assert (P : param_names (o_params o) = flat_map (fun p => str " " ++ i_name p) (o_params o)) by (clear; induction (o_params o) as [|i l IH]; auto; cbn [param_names flat_map]; rewrite IH, app_assoc; reflexivity).
      rewrite S, P. destruct (o_infos o); reflexivity.
    + change (unlines ((c :: u) :: ?x)) with (((c :: u) ++ [10]) ++ unlines x). rewrite <- app_assoc. do 2 f_equal. destruct (t_show t); reflexivity.
Qed.

(** *** The message does not change what parse does *)
Definition forget (r : res (pres * list Z)) : res pres := let! (p, _) := r in Ok p.
Lemma any_msg_is f argv : forall pos i j, any_loop f argv pos i j = let! r := any_msg f argv pos i j in Ok match r with inl x => Some x | inr _ => None end.
Proof.
  induction f as [|f IH]; intros pos i j; [reflexivity|]. cbn [any_loop any_msg]. destruct (pos <? zlen argv); [|reflexivity]. destruct (rd argv pos) as [a| | |]; try reflexivity. cbn [bind].
  destruct (isOpt a); [reflexivity|]. destruct (var_set i a) as [i' [|]]; [apply IH|reflexivity].
Qed.
Lemma param_msg_is a : forall l, set_param l a = let '(r, u, bad) := param_msg l a in (r, u, match bad with Some _ => true | None => false end).
Proof.
  induction l as [|p l IH]; [reflexivity|]. cbn [set_param param_msg]. destruct (i_set p); [rewrite IH; destruct (param_msg l a) as [[r u] bad]; reflexivity|]. destruct (var_set p a) as [p' [|]]; reflexivity.
Qed.
Lemma missing_is l : forallb (fun i => negb (i_must i && negb (i_set i))) l = match missing l with None => true | Some _ => false end.
Proof. induction l as [|i l IH]; [reflexivity|]. cbn [forallb missing]. destruct (i_must i && negb (i_set i)); [reflexivity|exact IH]. Qed.
Lemma check_is o : all_must o = match check_msg o with None => true | Some _ => false end.
Proof.
  unfold all_must, check_msg. rewrite !missing_is. destruct (missing (o_infos o)); [reflexivity|]. destruct (missing (o_params o)); [reflexivity|]. cbn [andb].
  destruct (o_pmode o); auto. cbn [missing]. destruct (i_must (o_remains o) && negb (i_set (o_remains o))); reflexivity.
Qed.
Lemma forget_loop t pn argv : forall f o pos, forget (msg_loop t pn f o argv pos) = parse_loop f o argv pos.
Proof.
  induction f as [|f IH]; intros o pos; [reflexivity|]. cbn [msg_loop parse_loop]. destruct (pos <? zlen argv).
  - destruct (rd argv pos) as [a| | |]; try reflexivity. cbn [bind]. destruct (inDelimiters o a); [rewrite check_is; destruct (check_msg o); reflexivity|].
    destruct (isOpt a).
    + destruct (str_eq (o_help o) (skipn 1 a)); [reflexivity|]. destruct (find_opt (o_infos o) (skipn 1 a)) as [n|]; [|reflexivity]. destruct (rd (o_infos o) (Z.of_nat n)) as [i| | |]; try reflexivity. cbn [bind].
      destruct (i_mode i).
      * destruct (var_set i [49]) as [i' [|]]; [apply IH|reflexivity].
      * destruct (pos + 1 =? zlen argv); [reflexivity|]. destruct (rd argv (pos + 1)) as [v| | |]; try reflexivity. cbn [bind]. destruct (var_set i v) as [i' [|]]; [apply IH|reflexivity].
      * rewrite any_msg_is. destruct (any_msg (S (length argv)) argv (pos + 1) i 0) as [[[[i' pos'] j]|[v j]]| | |]; try reflexivity. cbn [bind]. destruct (0 <? j); [apply IH|reflexivity].
    + rewrite param_msg_is. destruct (param_msg (o_params o) a) as [[ps used] [n|]]; [reflexivity|]. destruct used; [apply IH|]. destruct (o_pmode o); try reflexivity. apply IH.
  - rewrite check_is. destruct (check_msg o); reflexivity.
Qed.

(** *** The loop with its output *)
Lemma any_msg_run vs r argv : forall f pos i j, 0 <= pos -> skipn (Z.to_nat pos) argv = vs ++ r -> (length vs < f)%nat ->
  Forall (fun v => ~ optlike v /\ i_acc i v = true) vs -> (forall a r', r = a :: r' -> optlike a) ->
  any_msg f argv pos i j = Ok (inl (fst (fold_left (fun s v => var_set (fst s) v) vs (i, true)), pos + zlen vs, j + zlen vs)).
Proof.
  intros f pos i j P S F A E. pose proof (any_loop_run vs r argv f pos i j P S F A E) as H. rewrite any_msg_is in H. destruct (any_msg f argv pos i j) as [[x|x]| | |]; try discriminate H. cbn [bind] in H. injection H as ->. reflexivity.
Qed.
Lemma any_msg_bad vs v r argv : forall f pos i j, 0 <= pos -> skipn (Z.to_nat pos) argv = vs ++ v :: r -> (length vs < f)%nat ->
  Forall (fun v => ~ optlike v /\ i_acc i v = true) vs -> ~ optlike v -> i_acc i v = false -> any_msg f argv pos i j = Ok (inr (v, j + zlen vs)).
Proof.
  induction vs as [|w vs IH]; intros f pos i j P S F A NO B; (destruct f as [|f]; [cbn in F; lia|]); cbn [any_msg app] in *; destruct (rd_skipn _ _ _ _ P S) as (R & L & S' & _); destruct (pos <? zlen argv) eqn:Q; try lia; rewrite R; cbn [bind].
  - rewrite (proj2 (isOpt_false v) NO). unfold var_set. rewrite B, zlen_nil, Z.add_0_r. reflexivity.
  - inversion A as [|? ? [A1 A2] A3]; subst. rewrite (proj2 (isOpt_false w)) by auto. rewrite (var_set_give i w) by auto. rewrite IH; auto; try lia; [|cbn in F; lia]. rewrite zlen_cons. do 3 f_equal. lia.
Qed.
Lemma param_msg_spec l : Forall unset l -> forall vs a,
  param_msg (give_params l vs) a =
    match nth_error l (length vs) with
    | Some p => if i_acc p a then (give_params l (vs ++ [a]), true, None) else (fst (fst (param_msg (give_params l vs) a)), true, Some (i_name p))
    | None => (give_params l vs, false, None)
    end.
Proof.
  induction 1 as [|p l [U1 U2] F IH]; intros [|v vs] a; cbn [give_params param_msg nth_error length app]; auto.
  - rewrite U1. destruct (i_acc p a) eqn:A.
    + rewrite var_set_give by auto. destruct l; reflexivity.
    + unfold var_set. rewrite A. reflexivity.
  - cbn [give i_set nonempty]. rewrite orb_true_r. specialize (IH vs a). destruct (nth_error l (length vs)) as [q|].
    + destruct (i_acc q a).
      * rewrite IH. reflexivity.
      * rewrite IH. cbn [fst]. reflexivity.
    + rewrite IH. reflexivity.
Qed.
(** one piece is consumed *)
Lemma mstep t pn o done f argv pos args p r k : wfo o -> 0 <= pos -> skipn (Z.to_nat pos) argv = args -> (length args < S f)%nat ->
  zlen argv <= pos + zlen args -> k = length (positionals done) -> reads o k args [p] r ->
  exists pos', 0 <= pos' /\ skipn (Z.to_nat pos') argv = r /\ (length r < f)%nat /\ zlen argv <= pos' + zlen r /\
    msg_loop t pn (S f) (assigned o done) argv pos = msg_loop t pn f (assigned o (done ++ [p])) argv pos'.
Proof.
  intros W P S F LA K R. cbn [msg_loop].
  inversion R as [|? i r0 ? ? NM AC RR|? i v r0 ? ? NM AC RR|? i vs r0 ? ? NM NE FA EN RR|? v r0 ? ? ND NO TK RR]; clear R;
    match goal with H : _ = args |- _ => rewrite <- H in S, F, LA; clear H end; subst.
  - (* flag *)
    inversion RR; subst. destruct NM as (I & M & D & H).
    destruct (rd_skipn _ _ _ _ P S) as (RD & L & S' & ZL). destruct (pos <? zlen argv) eqn:Q; [|lia]. rewrite RD. cbn [bind].
    change (inDelimiters (assigned o done) (dash (i_name i))) with (inDelimiters o (dash (i_name i))). rewrite (proj2 (inDelimiters_false _ _) D).
    rewrite (proj2 (isOpt_iff _)); [|destruct W as (_ & W & _); rewrite Forall_forall in W; now apply W].
    change (skipn 1 (dash (i_name i))) with (i_name i). change (o_help (assigned o done)) with (o_help o). rewrite str_eq_ne by congruence.
    change (o_infos (assigned o done)) with (map (fun i => give i (values_for (i_name i) done)) (o_infos o)).
    rewrite find_opt_map by reflexivity. destruct (find_opt_in (o_infos o) i) as (j & FJ & NJ); [apply W|auto|]. rewrite FJ.
    rewrite (nth_error_rd _ _ (give i (values_for (i_name i) done))) by (rewrite nth_error_map, NJ; reflexivity). cbn [bind].
    cbn [give i_mode]. rewrite M. change (mk_info (i_name i) (i_mode i) (i_must i) (i_acc i) (i_set i || nonempty (values_for (i_name i) done)) (i_got i ++ values_for (i_name i) done)) with (give i (values_for (i_name i) done)).
    rewrite var_set_give by exact AC. exists (pos + 1). split; [lia|]. split; auto. split; [cbn in F; lia|]. split; [lia|].
    f_equal. change (map (fun i => give i (values_for (i_name i) done)) (o_infos o)) with (o_infos (assigned o done)).
    apply (assign_opt o done (Flag (i_name i)) (i_name i) [[49]]); auto. intros m. cbn. destruct (str_eq m (i_name i)); reflexivity.
  - (* value *)
    inversion RR; subst. destruct NM as (I & M & D & H).
    destruct (rd_skipn _ _ _ _ P S) as (RD & L & S' & ZL). destruct (pos <? zlen argv) eqn:Q; [|lia]. rewrite RD. cbn [bind].
    destruct (rd_skipn _ _ _ _ (ltac:(lia) : 0 <= pos + 1) S') as (RD2 & L2 & S2 & ZL2).
    change (inDelimiters (assigned o done) (dash (i_name i))) with (inDelimiters o (dash (i_name i))). rewrite (proj2 (inDelimiters_false _ _) D).
    rewrite (proj2 (isOpt_iff _)); [|destruct W as (_ & W & _); rewrite Forall_forall in W; now apply W].
    change (skipn 1 (dash (i_name i))) with (i_name i). change (o_help (assigned o done)) with (o_help o). rewrite str_eq_ne by congruence.
    change (o_infos (assigned o done)) with (map (fun i => give i (values_for (i_name i) done)) (o_infos o)).
    rewrite find_opt_map by reflexivity. destruct (find_opt_in (o_infos o) i) as (j & FJ & NJ); [apply W|auto|]. rewrite FJ.
    rewrite (nth_error_rd _ _ (give i (values_for (i_name i) done))) by (rewrite nth_error_map, NJ; reflexivity). cbn [bind].
    cbn [give i_mode]. rewrite M. change (mk_info (i_name i) (i_mode i) (i_must i) (i_acc i) (i_set i || nonempty (values_for (i_name i) done)) (i_got i ++ values_for (i_name i) done)) with (give i (values_for (i_name i) done)).
    destruct (pos + 1 =? zlen argv) eqn:Q2; [lia|]. rewrite RD2. cbn [bind].
    rewrite var_set_give by exact AC. exists (pos + 1 + 1). split; [lia|]. split; auto. split; [cbn in F; lia|]. split; [lia|].
    f_equal. change (map (fun i => give i (values_for (i_name i) done)) (o_infos o)) with (o_infos (assigned o done)).
    apply (assign_opt o done (Val (i_name i) v) (i_name i) [v]); auto. intros m. cbn. destruct (str_eq m (i_name i)); reflexivity.
  - (* many *)
    inversion RR; subst. destruct NM as (I & M & D & H).
    destruct (rd_skipn _ _ _ _ P S) as (RD & L & S' & ZL). destruct (pos <? zlen argv) eqn:Q; [|lia]. rewrite RD. cbn [bind].
    change (inDelimiters (assigned o done) (dash (i_name i))) with (inDelimiters o (dash (i_name i))). rewrite (proj2 (inDelimiters_false _ _) D).
    rewrite (proj2 (isOpt_iff _)); [|destruct W as (_ & W & _); rewrite Forall_forall in W; now apply W].
    change (skipn 1 (dash (i_name i))) with (i_name i). change (o_help (assigned o done)) with (o_help o). rewrite str_eq_ne by congruence.
    change (o_infos (assigned o done)) with (map (fun i => give i (values_for (i_name i) done)) (o_infos o)).
    rewrite find_opt_map by reflexivity. destruct (find_opt_in (o_infos o) i) as (j & FJ & NJ); [apply W|auto|]. rewrite FJ.
    rewrite (nth_error_rd _ _ (give i (values_for (i_name i) done))) by (rewrite nth_error_map, NJ; reflexivity). cbn [bind].
    cbn [give i_mode]. rewrite M. change (mk_info (i_name i) (i_mode i) (i_must i) (i_acc i) (i_set i || nonempty (values_for (i_name i) done)) (i_got i ++ values_for (i_name i) done)) with (give i (values_for (i_name i) done)).
    assert (LV : (length vs < Datatypes.S (length argv))%nat). { apply (f_equal zlen) in S'. rewrite zlen_app in S'. pose proof (zlen_nonneg r). unfold zlen in *. rewrite skipn_length in S'. lia. }
    rewrite (any_msg_run vs r argv _ (pos + 1) (give i (values_for (i_name i) done)) 0) by (auto; lia). cbn [bind].
    rewrite fold_give1; [|exact NE|eapply Forall_impl; [|exact FA]; cbn; tauto].
    assert (ZV : 1 <= zlen vs) by (destruct vs; [congruence|rewrite zlen_cons; pose proof (zlen_nonneg vs); lia]).
    destruct (0 <? 0 + zlen vs) eqn:Q3; [|lia].
    exists (pos + 1 + zlen vs). split; [lia|]. split; [|split; [cbn in F; rewrite app_length in F; lia|split; [rewrite zlen_app in ZL; lia|]]].
    + replace (Z.to_nat (pos + 1 + zlen vs)) with (length vs + Z.to_nat (pos + 1))%nat by (unfold zlen; lia). rewrite <- skipn_skipn, S'. apply skipn_app_exact.
    + f_equal; [|lia]. change (map (fun i => give i (values_for (i_name i) done)) (o_infos o)) with (o_infos (assigned o done)).
      apply (assign_opt o done (Many (i_name i) vs) (i_name i) vs); auto. intros m. cbn. rewrite app_nil_r. reflexivity.
  - (* positional *)
    inversion RR; subst.
    destruct (rd_skipn _ _ _ _ P S) as (RD & L & S' & ZL). destruct (pos <? zlen argv) eqn:Q; [|lia]. rewrite RD. cbn [bind].
    change (inDelimiters (assigned o done) v) with (inDelimiters o v). rewrite (proj2 (inDelimiters_false _ _) ND), (proj2 (isOpt_false _) NO).
    change (o_params (assigned o done)) with (give_params (o_params o) (positionals done)).
    rewrite param_msg_spec by apply W. unfold taken in TK.
    exists (pos + 1). split; [lia|]. split; auto. split; [cbn in F; lia|]. split; [lia|].
    destruct (nth_error (o_params o) (length (positionals done))) as [p|] eqn:NP.
    + rewrite TK. f_equal. unfold set_params, assigned. cbn [o_infos o_params o_pmode o_remains o_help o_delims o_keep].
      assert (NL : (length (positionals done) < length (o_params o))%nat) by (apply nth_error_Some; congruence).
      rewrite positionals_app. f_equal.
      * apply map_ext. intros i. rewrite values_app. cbn [values_for flat_map]. now rewrite app_nil_r.
      * cbn [positionals flat_map app]. rewrite !skipn_all2; auto; try rewrite app_length; cbn; lia.
    + apply nth_error_None in NP. change (o_pmode (assigned o done)) with (o_pmode o). rewrite TK. f_equal.
      unfold set_remains, assigned. cbn [o_infos o_params o_pmode o_remains o_help o_delims o_keep].
      rewrite positionals_app. cbn [positionals flat_map app]. f_equal.
      * apply map_ext. intros i. rewrite values_app. cbn [values_for flat_map]. now rewrite app_nil_r.
      * symmetry. now apply give_params_long.
      * rewrite skipn_app. replace (length (o_params o) - length (positionals done))%nat with O by lia. cbn [skipn]. now rewrite give_rest_snoc.
Qed.
Lemma mrun t pn o argv ps : wfo o -> forall done f pos args e k, 0 <= pos -> skipn (Z.to_nat pos) argv = args -> (length args < f)%nat ->
  zlen argv <= pos + zlen args -> k = length (positionals done) -> reads o k args ps e ->
  exists f' pos', 0 <= pos' /\ skipn (Z.to_nat pos') argv = e /\ (length e < f')%nat /\ zlen argv <= pos' + zlen e /\
    msg_loop t pn f (assigned o done) argv pos = msg_loop t pn f' (assigned o (done ++ ps)) argv pos'.
Proof.
  intros W. induction ps as [|p ps IH]; intros done f pos args e k P S F LA K R.
  - inversion R; subst. exists f, pos. rewrite app_nil_r. auto 10.
  - destruct (reads_cons _ _ _ _ _ _ R) as (r & R1 & R2). destruct f as [|f]; [lia|].
    destruct (mstep t pn o done f argv pos args p r k) as (pos1 & P1 & S1 & F1 & LA1 & E1); auto.

    destruct (IH (done ++ [p]) f pos1 r e (k + length (positionals [p]))%nat) as (f' & pos' & P' & S' & F' & L' & E'); auto.
    { rewrite positionals_app, app_length. lia. }
    exists f', pos'. rewrite E1, E', <- app_assoc. auto 10.
Qed.


(** what is missing *)
Lemma missing_some l n : missing l = Some n <-> exists l1 i l2, l = l1 ++ i :: l2 /\ i_must i = true /\ i_set i = false /\ n = i_name i /\ Forall (fun j => i_must j && negb (i_set j) = false) l1.
Proof.
  induction l as [|i l IH]; cbn [missing]; [split; [discriminate|intros ([|? ?] & ? & ? & E & _); discriminate E]|].
  destruct (i_must i && negb (i_set i)) eqn:M.
  - split.
    + intros [= <-]. apply andb_true_iff in M. destruct M as [M1 M2]. exists [], i, l. repeat split; auto. now destruct (i_set i).
    + intros ([|j l1] & k & l2 & E & M1 & M2 & -> & F); injection E as -> ->; [reflexivity|]. inversion F; subst. congruence.
  - rewrite IH. split.
    + intros (l1 & k & l2 & -> & R). destruct R as (R1 & R2 & R3 & R4). exists (i :: l1), k, l2. repeat split; auto.
    + intros ([|j l1] & k & l2 & E & M1 & M2 & -> & F); injection E as -> ->; [rewrite M1, M2 in M; discriminate|]. inversion F; subst. exists l1, k, l2. auto.
Qed.
Lemma missing_none l : missing l = None <-> Forall (fun j => i_must j && negb (i_set j) = false) l.
Proof.
  induction l as [|i l IH]; cbn [missing]; [split; auto|]. destruct (i_must i && negb (i_set i)) eqn:M; split; intros H.
  - discriminate.
  - inversion H; subst. congruence.
  - constructor; auto. now apply IH.
  - apply IH. now inversion H.
Qed.
Lemma complain_two a b : complain [a; b] = str "OptionError:" ++ a ++ str ":" ++ b ++ [10].
Proof. unfold complain. cbn [flat_map]. rewrite app_nil_r. cbn [app]. rewrite <- !app_assoc. reflexivity. Qed.
Lemma give_params_app l1 l2 vs : (length vs <= length l1)%nat -> give_params (l1 ++ l2) vs = give_params l1 vs ++ l2.
Proof. revert vs. induction l1 as [|p l1 IH]; intros [|v vs] L; cbn in *; auto; try lia; [destruct l2; reflexivity|]. rewrite IH by lia. reflexivity. Qed.
Lemma opts_given ps l : Forall unset l -> (Forall (fun j => i_must j && negb (i_set j) = false) (map (fun i => give i (values_for (i_name i) ps)) l) <->
  (forall i, In i l -> i_must i = true -> values_for (i_name i) ps <> [])).
Proof.
  intros U. rewrite Forall_map, Forall_forall. rewrite Forall_forall in U. split.
  - intros H i I M. specialize (H i I). cbn [give i_must i_set] in H. rewrite M, (proj1 (U i I)) in H. destruct (values_for (i_name i) ps); [discriminate|congruence].
  - intros H i I. cbn [give i_must i_set]. rewrite (proj1 (U i I)). destruct (i_must i) eqn:M; auto. specialize (H i I M). destruct (values_for (i_name i) ps); [congruence|reflexivity].
Qed.
Lemma params_given l : Forall unset l -> forall vs, Forall (fun j => i_must j && negb (i_set j) = false) (give_params l vs) <->
  (forall k p, nth_error l k = Some p -> i_must p = true -> (k < length vs)%nat).
Proof.
  induction 1 as [|p l [U1 U2] F IH]; intros vs.
  - split; [intros _ [|k] ? E; discriminate|intros _; destruct vs; constructor].
  - destruct vs as [|v vs]; cbn [give_params].
    + split.
      * intros H k q E M. exfalso. assert (I : In q (p :: l)) by (eapply nth_error_In; eauto). rewrite Forall_forall in H. specialize (H q I). cbn beta in H. rewrite M in H.
        assert (U : i_set q = false) by (destruct I as [<-|I]; auto; rewrite Forall_forall in F; now apply F). rewrite U in H. discriminate.
      * intros H. apply Forall_forall. intros x I. apply In_nth_error in I. destruct I as (k & E). destruct (i_must x) eqn:M; auto. specialize (H k x E M). cbn in H. lia.
    + split.
      * intros H [|k] q E M; cbn in *; [lia|]. assert (k < length vs)%nat; [|lia]. inversion H; subst. eapply (proj1 (IH vs)); eauto.
      * intros H. constructor.
        -- cbn [give i_must i_set nonempty]. rewrite orb_true_r. destruct (i_must p); reflexivity.
        -- apply (proj2 (IH vs)); auto. intros k q E M. specialize (H (S k) q E M). cbn in H. lia.
Qed.
Lemma check_missing o ps : wfo o -> forall e, finished o e -> forall m, reason o ps e m -> check_msg (assigned o ps) = Some (str "OptionError:" ++ m ++ [10]).
Proof.
  intros (W0 & W & W1 & W2 & W3 & W4) e FI m R.
  assert (OL : forall i, In i (o_infos o) -> optlike (dash (i_name i))) by (rewrite Forall_forall in W; exact W).
  inversion R as [s r A B C D|i r (A & B & C & D)|i (A & B & C & D)|i v r (A & B & C & D)|i vs v r d (A & B & C & D)|i r (A & B & C & D)|v r p A B|v r A B|e' l1 i l2 F E M V PR|e' l1 p l2 F AO E M L PR]; subst; try (exfalso; cbn [finished] in FI; tauto).
  - unfold check_msg. assert (missing (o_infos (assigned o ps)) = Some (i_name i)) as ->.
    { apply missing_some. unfold assigned. cbn [o_infos]. rewrite E, map_app. cbn [map]. eexists _, _, _. split; [reflexivity|].
      rewrite E in W1. apply Forall_app in W1. destruct W1 as [U1 U2]. inversion U2 as [|? ? U3 U4]; subst. split; [exact M|]. split; [cbn [give i_set]; rewrite V, (proj1 U3); reflexivity|]. split; [reflexivity|]. now apply (opts_given ps l1 U1). }
    rewrite complain_two, <- !app_assoc. reflexivity.
  - unfold check_msg. assert (missing (o_infos (assigned o ps)) = None) as -> by (apply missing_none; now apply opts_given).
    assert (missing (o_params (assigned o ps)) = Some (i_name p)) as ->.
    { apply missing_some. unfold assigned. cbn [o_params]. rewrite E, give_params_app by exact L. eexists _, _, _. split; [reflexivity|].
      rewrite E in W2. apply Forall_app in W2. destruct W2 as [U1 U2]. inversion U2 as [|? ? U3 U4]; subst. split; [exact M|]. split; [apply U3|]. split; [reflexivity|]. now apply params_given. }
    rewrite complain_two, <- !app_assoc. reflexivity.
Qed.
Lemma first_missing {A} (P : nat -> A -> Prop) (D : forall k x, P k x \/ ~ P k x) l : (forall k x, nth_error l k = Some x -> ~ P k x) \/
  exists l1 x l2, l = l1 ++ x :: l2 /\ P (length l1) x /\ forall k y, nth_error l1 k = Some y -> ~ P k y.
Proof.
  induction l as [|x l IH] using rev_ind; [left; intros [|k] ? E; discriminate E|]. destruct IH as [N|(l1 & y & l2 & -> & P1 & P2)].
  - destruct (D (length l) x) as [Y|Y]; [right; exists l, x, []; auto|]. left. intros k y E. destruct (Nat.lt_ge_cases k (length l)) as [L|L].
    + rewrite nth_error_app1 in E by exact L. eauto.
    + rewrite nth_error_app2 in E by exact L. destruct (k - length l)%nat as [|n] eqn:Q; [injection E as <-; replace k with (length l) by lia; exact Y|destruct n; discriminate E].
  - right. exists l1, y, (l2 ++ [x]). rewrite <- app_assoc. auto.
Qed.
Lemma complete_or_missing o ps e : finished o e -> complete o ps \/ exists m, reason o ps e m.
Proof.
  intros FI.
  destruct (first_missing (fun (_ : nat) i => i_must i = true /\ values_for (i_name i) ps = []) ltac:(intros k x; cbn beta; destruct (i_must x), (values_for (i_name x) ps); auto; right; intros [A B]; discriminate) (o_infos o)) as [N|(l1 & i & l2 & E & (M & V) & PR)].
  2:{ right. eexists. eapply OptMissing with (l1 := l1); eauto. intros j J MJ VJ. apply In_nth_error in J. destruct J as (k & J). exact (PR k j J (conj MJ VJ)). }
  assert (O : forall i, In i (o_infos o) -> i_must i = true -> values_for (i_name i) ps <> []) by (intros i I M V; apply In_nth_error in I; destruct I as (k & I); exact (N k i I (conj M V))).
  destruct (first_missing (fun k p => i_must p = true /\ (length (positionals ps) <= k)%nat) ltac:(intros k x; cbn beta; destruct (i_must x), (Nat.le_gt_cases (length (positionals ps)) k); auto; right; intros [A B]; try discriminate; lia) (o_params o)) as [N2|(l1 & p & l2 & E & (M & L) & PR)].
  - left. split; auto. intros k p K M. destruct (Nat.lt_ge_cases k (length (positionals ps))) as [L|L]; auto. exfalso. exact (N2 k p K (conj M L)).
  - right. eexists. eapply ParamMissing with (l1 := l1); eauto. intros k q K MQ. destruct (Nat.lt_ge_cases k (length (positionals ps))) as [LT|GE]; auto. exfalso. exact (PR k q K (conj MQ GE)).
Qed.

(** every command line has a reading that ends well, at the help option or with a reason *)
Lemma all_cases o : wfo o -> forall n args done, (length args <= n)%nat -> zlen args < 2 ^ 31 ->
  exists ps e, reads o (length (positionals done)) args ps e /\ (finished o e \/ help_at o e \/ exists m, reason o (done ++ ps) e m).
Proof.
  intros W. induction n as [|n IH]; intros args done LN ZN.
  - destruct args; [|cbn in LN; lia]. exists [], []. split; [constructor|left; exact I].
  - destruct args as [|a args]; [exists [], []; split; [constructor|left; exact I]|]. rewrite zlen_cons in ZN. cbn [length] in LN.
    destruct (inDelimiters o a) eqn:DL. { exists [], (a :: args). split; [constructor|]. left. now apply inDelimiters_iff. }
    assert (NXT : forall p r, reads o (length (positionals done)) (a :: args) [p] r -> (length r <= length args)%nat -> exists ps e, reads o (length (positionals done)) (a :: args) ps e /\ (finished o e \/ help_at o e \/ exists m, reason o (done ++ ps) e m)).
    { intros p r R LR. destruct (IH r (done ++ [p])) as (ps & e & H1 & H2); [lia|unfold zlen in *; lia|]. exists (p :: ps), e. rewrite <- app_assoc in H2. split; auto. eapply reads_app1; eauto. rewrite positionals_app, app_length in H1. exact H1. }
    assert (DL' := proj1 (inDelimiters_false _ _) DL). assert (STOP : forall m, reason o done (a :: args) m -> exists ps e, reads o (length (positionals done)) (a :: args) ps e /\ (finished o e \/ help_at o e \/ exists m, reason o (done ++ ps) e m)).
    { intros m R. exists [], (a :: args). split; [constructor|]. right. right. rewrite app_nil_r. eauto. }
    destruct (isOpt a) eqn:OP.
    + apply isOpt_iff in OP. destruct (OP) as (s & EA & OD). subst a. change (45 :: s) with (dash s) in *.
      destruct (list_eq_dec Z.eq_dec s (o_help o)) as [HP|HP].
      { exists [], (dash s :: args). split; [constructor|]. right. left. subst s. split; [reflexivity|]. auto. }
      destruct (find_opt (o_infos o) s) as [j|] eqn:FJ.
      2:{ eapply STOP. apply UnknownOpt; auto. now apply find_opt_none. }
      destruct (find_opt_some _ _ _ FJ) as (i & NJ & NM).
      assert (ND : forall m, i_mode i = m -> named o i m).
      { intros m M. split; [eapply nth_error_In; eauto|]. split; auto. split; [rewrite NM; exact DL'|]. rewrite NM. exact HP. }
      subst s. destruct (i_mode i) eqn:M.
      * destruct (i_acc i [49]) eqn:A; [|eapply STOP; apply BadFlag; auto]. apply (NXT (Flag (i_name i)) args); [|lia]. apply RFlag; auto. constructor.
      * destruct args as [|v args]; [eapply STOP; apply NoValue; auto|]. cbn [length] in LN. destruct (i_acc i v) eqn:A; [|eapply STOP; apply BadValue; auto].
        apply (NXT (Val (i_name i) v) args); [|cbn [length]; lia]. apply RVal; auto. constructor.
      * assert (SP : forall l, (exists vs r, l = vs ++ r /\ Forall (fun v => ~ optlike v /\ i_acc i v = true) vs /\ (forall a r', r = a :: r' -> optlike a)) \/
          exists vs v r, l = vs ++ v :: r /\ Forall (fun v => ~ optlike v /\ i_acc i v = true) vs /\ ~ optlike v /\ i_acc i v = false).
        { induction l as [|x l IHl]; [left; exists [], []; repeat split; auto; discriminate|]. destruct (isOpt x) eqn:OX.
          - left. exists [], (x :: l). repeat split; auto. intros b r' [= <- <-]. now apply isOpt_iff.
          - apply isOpt_false in OX. destruct (i_acc i x) eqn:AX; [|right; exists [], x, l; auto].
            destruct IHl as [(vs & r & -> & F & E)|(vs & v & r & -> & F & E)]; [left; exists (x :: vs), r|right; exists (x :: vs), v, r]; split; auto. }
        destruct (SP args) as [(vs & r & -> & F & E)|(vs & v & r & -> & F & E1 & E2)].
        -- destruct vs as [|v vs]; [eapply STOP; cbn [app]; apply NoElement; auto|]. apply (NXT (Many (i_name i) (v :: vs)) r); [|rewrite app_length; cbn [length]; lia]. apply RMany; auto; try discriminate. constructor.
        -- eapply STOP. apply BadElement with (d := printf_d (zlen vs)); auto. rewrite zlen_app, zlen_cons in ZN. pose proof (zlen_nonneg vs). pose proof (zlen_nonneg r). destruct (d_text (zlen vs)) as [(_ & D)|(N & _)]; [lia|exact D|lia].
    + apply isOpt_false in OP. destruct (nth_error (o_params o) (length (positionals done))) as [p|] eqn:NP.
      * destruct (i_acc p a) eqn:A; [|eapply STOP; eapply BadParam; eauto]. apply (NXT (Pos a) args); [|lia]. apply RPos; auto; [unfold taken; rewrite NP; exact A|constructor].
      * assert (PM : o_pmode o = P_variable \/ o_pmode o <> P_variable) by (destruct (o_pmode o); auto; right; discriminate). destruct PM as [PM|PM].
        -- apply (NXT (Pos a) args); [|lia]. apply RPos; auto; [unfold taken; rewrite NP; exact PM|constructor].
        -- eapply STOP. apply Redundant; auto. now apply nth_error_None.
Qed.

(** the three ways the loop ends *)
Definition verdict (st : opt) (argv e : list (list Z)) : pres * list Z :=
  match check_msg st with
  | Some m => (PFalse, m)
  | None => (match e with [] => PTrue st (zlen argv) [] | _ :: rest => PTrue st (zlen argv - zlen rest) (if o_keep st then rest else []) end, [])
  end.
Lemma end_finished t pn o st argv pos e f : o_delims st = o_delims o -> 0 <= pos -> skipn (Z.to_nat pos) argv = e -> (length e < f)%nat -> zlen argv <= pos + zlen e ->
  finished o e -> msg_loop t pn f st argv pos = Ok (verdict st argv e).
Proof.
  intros D P S F L FI. destruct f as [|f]; [lia|]. cbn [msg_loop]. unfold verdict. destruct e as [|d rest].
  - apply skipn_nil_len in S; auto. destruct (pos <? zlen argv) eqn:Q; [lia|]. destruct (check_msg st); reflexivity.
  - destruct (rd_skipn _ _ _ _ P S) as (RD & L1 & S' & ZL). destruct (pos <? zlen argv) eqn:Q; [|lia]. rewrite RD. cbn [bind].
    assert (DD : inDelimiters st d = true) by (apply inDelimiters_iff; rewrite D; exact FI). rewrite DD.
    rewrite S'. replace (zlen argv - zlen rest) with (pos + 1) by lia. destruct (check_msg st); reflexivity.
Qed.
Lemma usage_assigned o t pn ps : usage (assigned o ps) t pn = usage o t pn.
Proof.
  unfold usage, assigned. cbn [o_infos o_params o_pmode o_remains o_help].
  assert (A : forall h, opt_helps (map (fun i => give i (values_for (i_name i) ps)) (o_infos o)) h = opt_helps (o_infos o) h).
  { induction (o_infos o) as [|i l IH]; intros [|h hs]; auto. cbn [map opt_helps]. rewrite IH. reflexivity. }
  assert (B : short_all (map (fun i => give i (values_for (i_name i) ps)) (o_infos o)) = short_all (o_infos o)).
  { clear A. induction (o_infos o) as [|i l IH]; auto. cbn [map short_all]. rewrite IH. reflexivity. }
  assert (C : forall vs h, param_helps (give_params (o_params o) vs) h = param_helps (o_params o) h).
  { clear. induction (o_params o) as [|i l IH]; intros [|v vs] [|h hs]; auto. cbn [give_params param_helps]. rewrite IH. reflexivity. }
  assert (D : forall vs, param_names (give_params (o_params o) vs) = param_names (o_params o)).
  { clear. induction (o_params o) as [|i l IH]; intros [|v vs]; auto. cbn [give_params param_names]. rewrite IH. reflexivity. }
  rewrite A, B, C, D. destruct (o_infos o); reflexivity.
Qed.
Lemma end_help t pn o ps argv pos e f : 0 <= pos -> skipn (Z.to_nat pos) argv = e -> (length e < f)%nat ->
  help_at o e -> msg_loop t pn f (assigned o ps) argv pos = Ok (PExit, help_text o t pn).
Proof.
  intros P S F HA. destruct f as [|f]; [lia|]. cbn [msg_loop]. destruct e as [|a rest]; [destruct HA|]. destruct HA as (E & O & N).
  destruct (rd_skipn _ _ _ _ P S) as (RD & L1 & S' & ZL). destruct (pos <? zlen argv) eqn:Q; [|lia]. rewrite RD. cbn [bind].
  assert (DD : inDelimiters (assigned o ps) a = false) by (apply inDelimiters_false; exact N). rewrite DD, (proj2 (isOpt_iff a) O), E.
  change (skipn 1 (dash (o_help o))) with (o_help o). change (o_help (assigned o ps)) with (o_help o). rewrite str_eq_refl, usage_assigned, usage_is. reflexivity.
Qed.
Lemma end_reason t pn o ps argv pos e f m : wfo o -> 0 <= pos -> skipn (Z.to_nat pos) argv = e -> (length e < f)%nat -> zlen argv <= pos + zlen e -> zlen argv < 2 ^ 31 ->
  reason o ps e m -> msg_loop t pn f (assigned o ps) argv pos = Ok (PFalse, str "OptionError:" ++ m ++ [10]).
Proof.
  intros W P S F LA ZA R.
  assert (FIN : finished o e -> msg_loop t pn f (assigned o ps) argv pos = Ok (PFalse, str "OptionError:" ++ m ++ [10])).
  { intros FI. rewrite (end_finished t pn o (assigned o ps) argv pos e f) by auto. unfold verdict. rewrite (check_missing o ps W e FI m R). reflexivity. }
  destruct f as [|f]; [lia|]. destruct (inDelimiters o (hd [] e)) eqn:DL, e as [|a rest]; try (apply FIN; exact I); [apply FIN; apply inDelimiters_iff; exact DL|]. cbn [hd] in DL.
  destruct (rd_skipn _ _ _ _ P S) as (RD & L & S' & ZL). cbn [msg_loop]. destruct (pos <? zlen argv) eqn:Q; [|lia]. rewrite RD. cbn [bind].
  change (inDelimiters (assigned o ps) a) with (inDelimiters o a). rewrite DL. apply inDelimiters_false in DL.
  change (o_help (assigned o ps)) with (o_help o). change (o_infos (assigned o ps)) with (map (fun i => give i (values_for (i_name i) ps)) (o_infos o)). rewrite find_opt_map by reflexivity.
  assert (OPT : forall i md, named o i md -> a = dash (i_name i) -> isOpt a = true /\ str_eq (o_help o) (skipn 1 a) = false /\ exists j, find_opt (o_infos o) (skipn 1 a) = Some j /\
    rd (map (fun i => give i (values_for (i_name i) ps)) (o_infos o)) (Z.of_nat j) = Ok (give i (values_for (i_name i) ps)) /\ i_mode (give i (values_for (i_name i) ps)) = md).
  { intros i md (I & M & D & H) ->. split; [apply isOpt_iff; destruct W as (_ & W & _); rewrite Forall_forall in W; now apply W|]. change (skipn 1 (dash (i_name i))) with (i_name i). split; [apply str_eq_ne; congruence|].
    destruct (find_opt_in (o_infos o) i) as (j & FJ & NJ); [apply W|auto|]. exists j. split; auto. split; [|exact M]. apply nth_error_rd. rewrite nth_error_map, NJ. reflexivity. }
  revert S S'. inversion R as [s r A B C D EA|i r N AC EA|i N EA|i v r N AC EA|i vs v r d N FA NO AC CD EA|i r N EN EA|v r p A B NP AC EA|v r A B NP PM EA|e' l1 i l2 FI|e' l1 p l2 FI]; subst; intros S S'.
  - rewrite (proj2 (isOpt_iff _) A). change (skipn 1 (dash s)) with s. rewrite str_eq_ne by congruence. destruct (find_opt (o_infos o) s) as [j|] eqn:FJ; [|reflexivity].
    destruct (find_opt_some _ _ _ FJ) as (i & NJ & NM). exfalso. apply (D i); auto. eapply nth_error_In; eauto.
  - destruct (OPT i N_is0 N eq_refl) as (-> & -> & j & -> & -> & M). cbn [bind]. rewrite M. unfold var_set. cbn [give i_acc]. change (str "1") with [49] in AC. rewrite AC. reflexivity.
  - destruct (OPT i N_is1 N eq_refl) as (-> & -> & j & -> & -> & M). cbn [bind]. rewrite M. rewrite zlen_nil in ZL. destruct (pos + 1 =? zlen argv) eqn:Q2; [|lia]. rewrite complain_two, <- !app_assoc. reflexivity.
  - destruct (OPT i N_is1 N eq_refl) as (-> & -> & j & -> & -> & M). cbn [bind]. rewrite M. rewrite zlen_cons in ZL. pose proof (zlen_nonneg r). destruct (pos + 1 =? zlen argv) eqn:Q2; [lia|].
    destruct (rd_skipn _ _ _ _ (ltac:(lia) : 0 <= pos + 1) S') as (RD2 & _). rewrite RD2. cbn [bind]. unfold var_set. cbn [give i_acc]. rewrite AC, complain_two, <- !app_assoc. reflexivity.
  - destruct (OPT i N_any N eq_refl) as (-> & -> & j & -> & -> & M). cbn [bind]. rewrite M.
    assert (LV : (length vs < Datatypes.S (length argv))%nat). { apply (f_equal zlen) in S'. rewrite zlen_app, zlen_cons in S'. pose proof (zlen_nonneg r). unfold zlen in *. rewrite skipn_length in S'. lia. }
    rewrite (any_msg_bad vs v r argv) by (auto; lia). cbn [bind]. rewrite Z.add_0_l. change (i_name (give i (values_for (i_name i) ps))) with (i_name i).
    assert (printf_d (zlen vs) = d) as ->. { rewrite zlen_app in ZL. pose proof (zlen_nonneg vs). pose proof (zlen_nonneg (v :: r)). apply (NumProps.C01_text_unique _ _ (zlen vs)); [apply d_text; lia|]. left. auto. }
    unfold complain. cbn [flat_map]. rewrite app_nil_r. cbn [app]. rewrite <- !app_assoc. cbn [app]. rewrite <- !app_assoc. reflexivity.
  - destruct (OPT i N_any N eq_refl) as (-> & -> & j & -> & -> & M). cbn [bind]. rewrite M.
    rewrite (any_msg_run [] rest argv); [|lia|exact S'|cbn; lia|constructor|exact EN]. cbn [bind fold_left fst]. rewrite zlen_nil. rewrite complain_two, <- !app_assoc. reflexivity.
  - rewrite (proj2 (isOpt_false _) B). change (o_params (assigned o ps)) with (give_params (o_params o) (positionals ps)). rewrite param_msg_spec by apply W. rewrite NP, AC. rewrite complain_two, <- !app_assoc. reflexivity.
  - rewrite (proj2 (isOpt_false _) B). change (o_params (assigned o ps)) with (give_params (o_params o) (positionals ps)). rewrite param_msg_spec by apply W. rewrite (proj2 (nth_error_None _ _) NP). change (o_pmode (assigned o ps)) with (o_pmode o).
    destruct (o_pmode o); try (exfalso; now apply PM); rewrite complain_two, <- !app_assoc; reflexivity.
  - exfalso. apply DL. exact FI.
  - exfalso. apply DL. exact FI.
Qed.

(** ** Theorems *)
(** printing changes nothing: parse_msg does what the parse of C44 does *)
Theorem C117_same : forall t o argv start prog, forget (parse_msg t o argv start prog) = parse o argv start (match prog with Some _ => true | None => false end).
Proof.
  intros t o argv start prog. unfold parse_msg, parse. destruct ((zlen argv <? 1) || (zlen argv <? start)); [reflexivity|]. destruct prog as [p|]; cbn [bind]; [apply forget_loop|].
  destruct (rd argv (start - 1)); try reflexivity. apply forget_loop.
Qed.
Lemma start_loop t o argv start prog : wfo o -> 1 <= start <= zlen argv ->
  parse_msg t o argv start prog = msg_loop t (getBaseName (match prog with Some p => p | None => nth (Z.to_nat (start - 1)) argv [] end)) (S (length argv)) (assigned o []) argv start.
Proof.
  intros W B. unfold parse_msg. destruct (zlen argv <? 1) eqn:E1; [lia|]. destruct (zlen argv <? start) eqn:E2; [lia|]. cbn [orb]. rewrite assigned_nil by auto.
  destruct prog; [reflexivity|]. rewrite (rd_nth argv (start - 1) []) by lia. reflexivity.
Qed.
(** the end of every run: the reading decides the result and the output *)
Lemma run_end t o argv start prog ps e : wfo o -> 1 <= start <= zlen argv -> reads o 0 (skipn (Z.to_nat start) argv) ps e ->
  let pn := getBaseName (match prog with Some p => p | None => nth (Z.to_nat (start - 1)) argv [] end) in
  (finished o e -> parse_msg t o argv start prog = Ok (verdict (assigned o ps) argv e)) /\
  (help_at o e -> parse_msg t o argv start prog = Ok (PExit, help_text o t pn)) /\
  (zlen argv < 2 ^ 31 -> forall m, reason o ps e m -> parse_msg t o argv start prog = Ok (PFalse, str "OptionError:" ++ m ++ [10])).
Proof.
  intros W B R pn. rewrite (start_loop t o argv start prog W B). fold pn. set (args := skipn (Z.to_nat start) argv) in *.
  assert (F : (length args < S (length argv))%nat) by (unfold args; rewrite skipn_length; lia).
  assert (LA : zlen argv <= start + zlen args) by (unfold args, zlen; rewrite skipn_length; lia).
  destruct (mrun t pn o argv ps W [] (S (length argv)) start args e 0%nat) as (f' & pos' & P' & S' & F' & L' & E'); auto; try lia. rewrite E'. cbn [app]. split; [|split].
  - intros FI. now apply (end_finished t pn o).
  - intros HA. now apply (end_help t pn o ps argv pos' e f').
  - intros ZA m RM. now apply (end_reason t pn o ps argv pos' e f' m).
Qed.
(** when parse is false it has printed one line, and that line is the reason: the option or parameter concerned, the rejected value and
    which of several values it is, the value that is too much, or the first mandatory item that is missing *)
Theorem C117_message : forall t o argv start prog, declared o -> 1 <= start <= zlen argv -> zlen argv < 2 ^ 31 -> forall out,
  parse_msg t o argv start prog = Ok (PFalse, out) <->
    exists ps e m, reads o 0 (skipn (Z.to_nat start) argv) ps e /\ reason o ps e m /\ out = str "OptionError:" ++ m ++ [10].
Proof.
  intros t o argv start prog D B ZA out. apply declared_wf in D. split.
  - intros H. destruct (all_cases o D (length (skipn (Z.to_nat start) argv)) (skipn (Z.to_nat start) argv) []) as (ps & e & R & C); auto. { unfold zlen in *. rewrite skipn_length. lia. }
    cbn [positionals flat_map length app] in R, C. pose proof (run_end t o argv start prog ps e D B R) as (H1 & H2 & H3).
    assert (Z : (exists m, reason o ps e m) -> exists ps e m, reads o 0 (skipn (Z.to_nat start) argv) ps e /\ reason o ps e m /\ out = str "OptionError:" ++ m ++ [10]).
    { intros (m & RM). exists ps, e, m. split; auto. split; auto. rewrite (H3 ZA m RM) in H. congruence. }
    destruct C as [FI|[HA|RM]]; auto.
    + destruct (complete_or_missing o ps e FI) as [CO|RM]; auto. exfalso. rewrite (H1 FI) in H. unfold verdict in H. pose proof (check_is (assigned o ps)) as CK. rewrite (proj2 (all_must_iff o ps D) CO) in CK. destruct (check_msg (assigned o ps)); [discriminate|]. destruct e; discriminate.
    + exfalso. rewrite (H2 HA) in H. discriminate.
  - intros (ps & e & m & R & RM & ->). pose proof (run_end t o argv start prog ps e D B R) as (_ & _ & H3). now apply H3.
Qed.
(** when it is true nothing is printed; when the help option is reached the text of usage is; nothing is printed either if startPos is
    behind the arguments *)
Theorem C117_quiet : forall t o argv start prog, declared o -> 1 <= start ->
  (forall o' next after out, parse_msg t o argv start prog = Ok (PTrue o' next after, out) -> out = []) /\
  (zlen argv < start -> parse_msg t o argv start prog = Ok (PFalse, [])) /\
  (start <= zlen argv < 2 ^ 31 -> forall out, parse_msg t o argv start prog = Ok (PExit, out) ->
     exists dir name, match prog with Some p => p | None => nth (Z.to_nat (start - 1)) argv [] end = dir ++ name /\ ~ In 47 name /\ ~ In 92 name /\
       (dir = [] \/ exists d c, dir = d ++ [c] /\ (c = 47 \/ c = 92)) /\ out = help_text o t name).
Proof.
  intros t o argv start prog D B. split; [|split].
  - intros o' next after out. unfold parse_msg. destruct ((zlen argv <? 1) || (zlen argv <? start)); [discriminate|]. destruct (match prog with Some p => Ok p | None => rd argv (start - 1) end) as [p| | |]; try discriminate. cbn [bind].
    generalize (S (length argv)) as f. intros f. generalize (getBaseName p) as pn. intros pn. revert o D start B. intros o _ start _. revert o start. induction f as [|f IH]; intros o pos; [discriminate|]. cbn [msg_loop]. destruct (pos <? zlen argv).
    + destruct (rd argv pos) as [a| | |]; try discriminate. cbn [bind]. destruct (inDelimiters o a); [destruct (check_msg o); [discriminate|congruence]|].
      destruct (isOpt a).
      * destruct (str_eq (o_help o) (skipn 1 a)); [discriminate|]. destruct (find_opt (o_infos o) (skipn 1 a)) as [n|]; [|discriminate]. destruct (rd (o_infos o) (Z.of_nat n)) as [i| | |]; try discriminate. cbn [bind].
        destruct (i_mode i).
        -- destruct (var_set i [49]) as [i' [|]]; [apply IH|discriminate].
        -- destruct (pos + 1 =? zlen argv); [discriminate|]. destruct (rd argv (pos + 1)) as [v| | |]; try discriminate. cbn [bind]. destruct (var_set i v) as [i' [|]]; [apply IH|discriminate].
        -- destruct (any_msg (S (length argv)) argv (pos + 1) i 0) as [[[[i' pos'] j]|[v j]]| | |]; try discriminate. cbn [bind]. destruct (0 <? j); [apply IH|discriminate].
      * destruct (param_msg (o_params o) a) as [[ps used] [n|]]; [discriminate|]. destruct used; [apply IH|]. destruct (o_pmode o); try discriminate. apply IH.
    + destruct (check_msg o); [discriminate|congruence].
  - intros L. unfold parse_msg. destruct (zlen argv <? start) eqn:Q; [|lia]. rewrite orb_true_r. reflexivity.
  - intros L out H. apply declared_wf in D. assert (BB : 1 <= start <= zlen argv) by lia.
    destruct (all_cases o D (length (skipn (Z.to_nat start) argv)) (skipn (Z.to_nat start) argv) []) as (ps & e & R & C); auto. { unfold zlen in *. rewrite skipn_length. lia. }
    cbn [positionals flat_map length app] in R, C. pose proof (run_end t o argv start prog ps e D BB R) as (H1 & H2 & H3).
    set (name := match prog with Some p => p | None => nth (Z.to_nat (start - 1)) argv [] end) in *.
    destruct C as [FI|[HA|(m & RM)]].
    + exfalso. rewrite (H1 FI) in H. unfold verdict in H. destruct (check_msg (assigned o ps)); [discriminate|]. destruct e; discriminate.
    + rewrite (H2 HA) in H. injection H as <-. destruct (OptIoProps.C106_base_name name) as (dir & E & N1 & N2 & DD). exists dir, (getBaseName name). auto.
    + exfalso. rewrite (H3 (proj2 L) m RM) in H. discriminate.
Qed.
(** ** Finding: the message for an unknown option does not say which one
    Every other message names the option, the parameter or the value; "OptionError:bad opt" is printed for every unknown option, however many
    arguments there are. *)
Theorem C117_nameless_finding : forall t o s r prog, declared o -> optlike (dash s) -> ~ In (dash s) (o_delims o) -> s <> o_help o -> (forall i, In i (o_infos o) -> i_name i <> s) -> zlen r < 2 ^ 31 - 2 ->
  parse_msg t o (prog :: dash s :: r) 1 None = Ok (PFalse, str "OptionError:bad opt" ++ [10]).
Proof.
  intros t o s r prog D O N H U L. apply C117_message; auto; try (rewrite !zlen_cons; pose proof (zlen_nonneg r); lia). exists [], (dash s :: r), (str "bad opt"). split; [constructor|]. split; [now apply UnknownOpt|reflexivity].
Qed.
(** ** Finding: after setUsage(text) the help message lists no option
    showOptUsage is true in a new Option, but setUsage(usage) resets it unless it is given: -h then prints the description and that text only. *)
Theorem C117_hidden_finding : forall t o u name, u <> [] -> help_text o (setUsage t u false) name = unlines (given_text (t_desc t) ++ [u]).
Proof. intros t o u name H. unfold help_text, setUsage. cbn [t_desc t_usage t_show]. destruct u; [congruence|reflexivity]. Qed.

(** the hypotheses are met: the Option of C44's example *)
Definition demo_texts := mk_texts (str "demo") [] true [str ": verbose"; str ": count"; str ": list"] [str ": input"] [] (str ": show this message").
Definition nl := [10].
Example msg_demo : declared demo_opt /\
  parse_msg demo_texts demo_opt [str "a/prog"; str "-n"; str "1"; str "-z"] 1 None = Ok (PFalse, str "OptionError:bad opt" ++ nl) /\
  parse_msg demo_texts demo_opt [str "a/prog"; str "f"; str "-n"] 1 None = Ok (PFalse, str "OptionError:bad value:no value for -n" ++ nl) /\
  parse_msg demo_texts demo_opt [str "a/prog"; str "f"; str "-n"; str "x"] 1 None = Ok (PFalse, str "OptionError:bad value:x for -n" ++ nl) /\
  parse_msg demo_texts demo_opt [str "a/prog"; str "f"; str "-l"; str "1"; str "2"; str "x"] 1 None = Ok (PFalse, str "OptionError:bad value:x for -l:2" ++ nl) /\
  parse_msg demo_texts demo_opt [str "a/prog"; str "f"; str "-l"] 1 None = Ok (PFalse, str "OptionError:no value:for -l" ++ nl) /\
  parse_msg demo_texts demo_opt [str "a/prog"] 1 None = Ok (PFalse, str "OptionError:opt is necessary:n" ++ nl) /\
  parse_msg demo_texts demo_opt [str "a/prog"; str "-n"; str "1"] 1 None = Ok (PFalse, str "OptionError:param is necessary:in" ++ nl) /\
  parse_msg demo_texts demo_opt [str "a/prog"; str "-h"] 1 None = Ok (PExit, str "demo" ++ nl ++ str "usage:prog [opt] -n para in rest" ++ nl ++
    str "  in : input" ++ nl ++ str "  -h : show this message" ++ nl ++ str "  -v : verbose" ++ nl ++ str "  -n : count (must)" ++ nl ++ str "  -l : list" ++ nl).
Proof. split; [apply demo_declared|]. vm_compute. repeat split. Qed.
Example msg_redundant : exists o, declared o /\ parse_msg texts_new o [str "p"; str "a"; str "b"] 1 None = Ok (PFalse, str "OptionError:redundant argVal:b" ++ nl).
Proof.
  destruct (appendParam opt_new (str "in") (fun _ => true)) as [o| | |] eqn:E; try discriminate. exists o. split; [eapply DParam; [apply DNew|exact E]|]. injection E as <-. vm_compute. reflexivity.
Qed.
Example msg_bad_param : exists o, declared o /\ parse_msg texts_new o [str "p"; str "a"] 1 None = Ok (PFalse, str "OptionError:bad value:a for in" ++ nl).
Proof.
  destruct (appendParam opt_new (str "in") (fun _ => false)) as [o| | |] eqn:E; try discriminate. exists o. split; [eapply DParam; [apply DNew|exact E]|]. injection E as <-. vm_compute. reflexivity.
Qed.
Print Assumptions C117_same.
Print Assumptions C117_message.
Print Assumptions C117_quiet.
Print Assumptions C117_nameless_finding.
Print Assumptions C117_hidden_finding.
