(** C116: the two-step option parser gives each argument to the right parser. *)
Require Import Verif.Common Verif.Text Verif.AtoiModel Verif.ConfigModel Verif.ConfigProps Verif.OptionModel Verif.OptionProps Verif.Option2Model.

(** ** Specification *)
(** -n v1 -n v2 ... *)
Fixpoint given (n : list Z) (vs : list (list Z)) : list (list Z) := match vs with [] => [] | v :: vs => (45 :: n) :: v :: given n vs end.
(** the commands, the option of each and what it takes *)
Definition command (dbl chr : list Z -> bool) (cmd letter : list Z) (acc : list Z -> bool) : Prop :=
  (cmd = str "init" /\ letter = str "s" /\ acc = (fun _ => true)) \/ (cmd = str "run" /\ letter = str "d" /\ acc = dbl) \/ (cmd = str "status" /\ letter = str "c" /\ acc = chr).
(** the texts given to the only option of a parser, in order *)
Definition got (o : opt) : list (list Z) := match o_infos o with [i] => i_got i | _ => [] end.

(** an Option with one option that takes a value, and no parameters *)
Definition single (n : list Z) (acc : list Z -> bool) (ds : list (list Z)) : opt := mk_opt [mk_info n N_is1 false acc false []] [] P_exact no_info (str "h") ds false.
Lemma opt1_is : opt1 = single (str "x") int_accepts [str "init"; str "run"; str "status"].
Proof. reflexivity. Qed.
(** the first letter of an option is no digit *)
Ltac letter := first [exists 120, []; split; [reflexivity|lia] | exists 115, []; split; [reflexivity|lia] | exists 100, []; split; [reflexivity|lia] | exists 99, []; split; [reflexivity|lia]].
Section S.
Variables (dbl chr : list Z -> bool).
Lemma opt2_is cmd o2 : opt2 dbl chr cmd = Some o2 <-> exists n acc, command dbl chr cmd n acc /\ o2 = single n acc [].
Proof.
  unfold opt2, command. split.
  - destruct (str_eq cmd (str "init")) eqn:E1; [apply str_eq_iff in E1; intros H; injection H as <-; exists (str "s"), (fun _ => true); split; auto; reflexivity|].
    destruct (str_eq cmd (str "run")) eqn:E2; [apply str_eq_iff in E2; intros H; injection H as <-; exists (str "d"), dbl; split; auto; reflexivity|].
    destruct (str_eq cmd (str "status")) eqn:E3; [apply str_eq_iff in E3; intros H; injection H as <-; exists (str "c"), chr; split; [auto 6|reflexivity]|]. discriminate.
  - intros (n & acc & [(-> & -> & ->) | [(-> & -> & ->) | (-> & -> & ->)]] & ->); reflexivity.
Qed.
Lemma single_declared n acc ds : (exists c r, n = c :: r /\ ~ 48 <= c <= 57) -> declared (single n acc ds).
Proof.
  intros (c & r & -> & Hc). revert ds. induction ds as [|d ds IH] using rev_ind.
  - apply (DHelp (mk_opt [mk_info (c :: r) N_is1 false acc false []] [] P_exact no_info [] [] false) (str "h")). eapply (DSub opt_new N_is1 false (c :: r) acc); [constructor|].
    unfold appendSub. change (rd ((c :: r) ++ [0]) 0) with (Ok c). cbn [bind]. replace ((48 <=? c) && (c <=? 57))%bool with false by (destruct (Z.leb_spec 48 c), (Z.leb_spec c 57); auto; exfalso; lia). reflexivity.
  - apply (DDelim2 _ d) in IH. exact IH.
Qed.
Lemma reads_single n acc ds k args ps e : ~ In (dash n) ds -> n <> str "h" -> (reads (single n acc ds) k args ps e <-> exists vs, ps = map (Val n) vs /\ args = given n vs ++ e /\ Forall (fun v => acc v = true) vs).
Proof.
  intros ND NH. split.
  - intros R. induction R as [k e | k i r ps e (I & M & _) A R IH | k i v r ps e (I & M & _) A R IH | k i vs r ps e (I & M & _) NE F EN R IH | k v r ps e N O T R IH].
    + exists []. auto.
    + destruct I as [<- | []]. discriminate M.
    + destruct I as [<- | []]. destruct IH as (vs & -> & -> & F). exists (v :: vs). split; [reflexivity|]. split; [reflexivity|]. constructor; auto.
    + destruct I as [<- | []]. discriminate M.
    + exfalso. unfold taken in T. destruct k; cbn in T; discriminate T.
  - intros (vs & -> & -> & F). revert k. induction F as [|v vs A F IH]; intros k; cbn [map given app]; [constructor|].
    apply (RVal (single n acc ds) k (mk_info n N_is1 false acc false [])); auto. split; [left; reflexivity|]. auto.
Qed.
Lemma values_single n vs : values_for n (map (Val n) vs) = vs.
Proof. unfold values_for. induction vs as [|v vs IH]; cbn; auto. rewrite (proj2 (str_eq_iff n n) eq_refl). cbn. f_equal. exact IH. Qed.
Lemma got_single n acc ds vs : got (assigned (single n acc ds) (map (Val n) vs)) = vs.
Proof. unfold got, assigned, single. cbn [o_infos map give i_got i_name app]. apply values_single. Qed.
Lemma parse_single n acc ds argv start : (exists c r, n = c :: r /\ ~ 48 <= c <= 57) -> ~ In (dash n) ds -> n <> str "h" -> 1 <= start <= zlen argv ->
  forall o' next after, parse (single n acc ds) argv start false = Ok (PTrue o' next after) <->
  exists vs e, skipn (Z.to_nat start) argv = given n vs ++ e /\ Forall (fun v => acc v = true) vs /\ finished (single n acc ds) e /\ o' = assigned (single n acc ds) (map (Val n) vs) /\ next = zlen argv - zlen (tl e) /\ after = [].
Proof.
  intros HN ND NH HS o' next after. rewrite (C44_parse (single n acc ds) argv start false (single_declared n acc ds HN) HS). split.
  - intros (ps & e & R & FI & C & -> & X). apply reads_single in R; auto. destruct R as (vs & -> & E & F). exists vs, e. repeat split; auto; destruct e; destruct X as [-> ->]; cbn [tl]; auto. change (zlen (@nil (list Z))) with 0. lia.
  - intros (vs & e & E & F & FI & -> & -> & ->). exists (map (Val n) vs), e. split; [apply reads_single; eauto|]. split; auto. split.
    { split. - intros i [<- | []] M. discriminate M. - intros k p N. destruct k; discriminate N. }
    split; auto. destruct e; cbn [tl]; split; auto. change (zlen (@nil (list Z))) with 0. lia.
Qed.
Lemma zlen_given n vs : zlen (given n vs) = 2 * zlen vs.
Proof. induction vs as [|v vs IH]; cbn [given]; [reflexivity|]. rewrite !zlen_cons, IH. lia. Qed.
Lemma given_nil_iff n vs : given n vs = [] -> vs = [].
Proof. destruct vs; [auto|discriminate]. Qed.
Lemma given_last n vs v : given n (vs ++ [v]) = given n vs ++ [45 :: n; v].
Proof. induction vs as [|w vs IH]; cbn [app given]; [reflexivity|]. rewrite IH. reflexivity. Qed.
Lemma rd_last {A} (l : list A) (x : A) r : rd (l ++ x :: r) (zlen l) = Ok x.
Proof. unfold rd, zlen. destruct (Z.ltb_spec (Z.of_nat (length l)) 0); [lia|]. rewrite Nat2Z.id, nth_error_app2, Nat.sub_diag by lia. reflexivity. Qed.
Lemma command_facts cmd n acc : command dbl chr cmd n acc -> (exists c r, n = c :: r /\ ~ 48 <= c <= 57) /\ n <> str "h" /\ In cmd [str "init"; str "run"; str "status"] /\ int_accepts cmd = false.
Proof.
  intros [(-> & -> & ->) | [(-> & -> & ->) | (-> & -> & ->)]]; (split; [letter|]); (split; [discriminate|]); (split; [cbn; auto | reflexivity]).
Qed.
Lemma delim_command cmd : In cmd [str "init"; str "run"; str "status"] -> exists n acc, command dbl chr cmd n acc.
Proof. intros [<- | [<- | [<- | []]]]; unfold command; [exists (str "s"), (fun _ => true) | exists (str "d"), dbl | exists (str "c"), chr]; auto 6. Qed.
Lemma skipn_zlen {A} (l r : list A) k : k = zlen l -> skipn (Z.to_nat k) (l ++ r) = r.
Proof. intros ->. unfold zlen. rewrite Nat2Z.id, skipn_app, skipn_all, Nat.sub_diag. reflexivity. Qed.

(** * C116 *)
(** the settings are put exactly if the arguments are -x options with integers, a command, and options of that command with values it takes;
    then -x has got the former values and the command's option the latter, each in order (a variable holds the last one, or its default).
    There is one other way in: no arguments at all and a program name that is a command *)
Theorem C116_two_step : forall prog args cmd o1 o2, option2_smpl dbl chr (prog :: args) = Ok (Put cmd o1 o2) ->
  exists n acc xs ys, command dbl chr cmd n acc /\ Forall (fun v => int_accepts v = true) xs /\ Forall (fun v => acc v = true) ys /\ got o1 = xs /\ got o2 = ys /\
  ((args = given (str "x") xs ++ cmd :: given n ys) \/ (args = [] /\ prog = cmd /\ xs = [] /\ ys = [])).
Proof.
  intros prog args cmd o1 o2 H. unfold option2_smpl in H. rewrite opt1_is in H. set (o := single (str "x") int_accepts [str "init"; str "run"; str "status"]) in *. pose proof (zlen_nonneg args) as L0.
  destruct (parse o (prog :: args) 1 false) as [[o1' pos after| |]| | |] eqn:P; try discriminate. cbn [bind] in H.
  apply parse_single in P; [|letter | intros [X | [X | [X | []]]]; discriminate X | discriminate | rewrite zlen_cons; lia].
  destruct P as (xs & e & E & Fx & FI & -> & -> & ->). change (skipn (Z.to_nat 1) (prog :: args)) with args in E.
  destruct (Z.eqb_spec (zlen (prog :: args) - zlen (tl e)) 0); [discriminate|].
  destruct e as [|d rest]; cbn [tl] in *.
  - rewrite app_nil_r in E. change (zlen (@nil (list Z))) with 0 in *. rewrite Z.sub_0_r in *. destruct args as [|a args].
    + assert (xs = []) by (destruct xs; [auto|discriminate]). subst xs. change (rd [prog] (zlen [prog] - 1)) with (Ok prog) in H. cbn [bind] in H. destruct (opt2 dbl chr prog) as [o2'|] eqn:O2; [|discriminate]. apply opt2_is in O2. destruct O2 as (n' & acc & C & ->). destruct (command_facts _ _ _ C) as (K1 & K2 & K3 & K4).
      destruct (parse (single n' acc []) [prog] (zlen [prog]) false) as [[o2'' pos after| |]| | |] eqn:P2; try discriminate. cbn [bind] in H. injection H as <- <- <-. apply parse_single in P2; [|auto|auto|auto|change (zlen [prog]) with 1; lia]. destruct P2 as (ys & e & E2 & Fy & _ & -> & _). change (skipn _ [prog]) with (@nil (list Z)) in E2. symmetry in E2. apply app_eq_nil in E2. destruct E2 as [E2 ->]. apply given_nil_iff in E2. subst ys.
      exists n', acc, [], []. repeat split; auto; try apply got_single.
    + exfalso. destruct xs as [|x0 xs0] using rev_ind; [discriminate E|]. clear IHxs0. rewrite given_last in E. rewrite E in H. change [45 :: str "x"; x0] with ([45 :: str "x"] ++ [x0]) in H. rewrite app_assoc, app_comm_cons in H. set (l := prog :: given (str "x") xs0 ++ [45 :: str "x"]) in H.
      replace (zlen (l ++ [x0]) - 1) with (zlen l) in H by (rewrite zlen_app; change (zlen [x0]) with 1; lia). rewrite rd_last in H. cbn [bind] in H. destruct (opt2 dbl chr x0) as [o2'|] eqn:O2; [|discriminate]. apply opt2_is in O2. destruct O2 as (n' & acc & C & _). destruct (command_facts _ _ _ C) as (_ & _ & _ & K). apply Forall_app in Fx. destruct Fx as [_ Fx]. inversion Fx; subst. congruence.
  - set (l := prog :: given (str "x") xs) in *. assert (prog :: args = l ++ d :: rest) as EA by (unfold l; rewrite E; reflexivity). rewrite EA in H. assert (zlen (l ++ d :: rest) - zlen rest = zlen l + 1) as Q by (rewrite zlen_app, zlen_cons; lia). rewrite Q in H. replace (zlen l + 1 - 1) with (zlen l) in H by lia. rewrite rd_last in H. cbn [bind] in H.
    destruct (opt2 dbl chr d) as [o2'|] eqn:O2; [|discriminate]. apply opt2_is in O2. destruct O2 as (n' & acc & C & ->). destruct (command_facts _ _ _ C) as (K1 & K2 & K3 & K4).
    destruct (parse (single n' acc []) (l ++ d :: rest) (zlen l + 1) false) as [[o2'' pos after| |]| | |] eqn:P2; try discriminate. cbn [bind] in H. injection H as <- <- <-. apply parse_single in P2; auto; [|rewrite zlen_app, zlen_cons; pose proof (zlen_nonneg l); pose proof (zlen_nonneg rest); lia]. destruct P2 as (ys & e & E2 & Fy & FI2 & -> & _).
    replace (l ++ d :: rest) with ((l ++ [d]) ++ rest) in E2 by (rewrite <- app_assoc; reflexivity). rewrite skipn_zlen in E2 by (rewrite zlen_app; reflexivity). destruct e as [|x e]; [|destruct FI2]. rewrite app_nil_r in E2. subst rest.
    exists n', acc, xs, ys. repeat split; auto; try apply got_single.
Qed.
(** and such arguments are accepted *)
Theorem C116_accepted : forall prog cmd n acc xs ys, command dbl chr cmd n acc -> Forall (fun v => int_accepts v = true) xs -> Forall (fun v => acc v = true) ys ->
  exists o1 o2, option2_smpl dbl chr (prog :: given (str "x") xs ++ cmd :: given n ys) = Ok (Put cmd o1 o2) /\ got o1 = xs /\ got o2 = ys.
Proof.
  intros prog cmd n acc xs ys C Fx Fy. destruct (command_facts _ _ _ C) as (K1 & K2 & K3 & K4). unfold option2_smpl. rewrite opt1_is. set (l := prog :: given (str "x") xs). change (prog :: given (str "x") xs ++ cmd :: given n ys) with (l ++ cmd :: given n ys). pose proof (zlen_nonneg (given n ys)). pose proof (zlen_nonneg (given (str "x") xs)).
  assert (zlen l = 1 + zlen (given (str "x") xs)) as Ll by (unfold l; apply zlen_cons).
  rewrite (proj2 (parse_single (str "x") int_accepts [str "init"; str "run"; str "status"] (l ++ cmd :: given n ys) 1 ltac:(letter) ltac:(intros [X | [X | [X | []]]]; discriminate X) ltac:(discriminate) ltac:(rewrite zlen_app, zlen_cons; lia) (assigned (single (str "x") int_accepts [str "init"; str "run"; str "status"]) (map (Val (str "x")) xs)) (zlen l + 1) [])).
  2:{ exists xs, (cmd :: given n ys). split; [reflexivity|]. split; auto. split; [exact K3|]. split; [reflexivity|]. split; auto. cbn [tl]. rewrite zlen_app, zlen_cons. lia. }
  cbn [bind]. destruct (Z.eqb_spec (zlen l + 1) 0); [lia|]. replace (zlen l + 1 - 1) with (zlen l) by lia. rewrite rd_last. cbn [bind]. assert (opt2 dbl chr cmd = Some (single n acc [])) as -> by (apply opt2_is; eauto).
  rewrite (proj2 (parse_single n acc [] (l ++ cmd :: given n ys) (zlen l + 1) K1 (fun x => x) K2 ltac:(rewrite zlen_app, zlen_cons; lia) (assigned (single n acc []) (map (Val n) ys)) (zlen (l ++ cmd :: given n ys)) [])).
  2:{ exists ys, []. replace (l ++ cmd :: given n ys) with ((l ++ [cmd]) ++ given n ys) by (rewrite <- app_assoc; reflexivity). rewrite skipn_zlen by (rewrite zlen_app; reflexivity). rewrite app_nil_r. split; [reflexivity|]. split; [exact Fy|]. split; [exact I|]. split; [reflexivity|]. split; [|reflexivity]. cbn [tl]. change (zlen (@nil (list Z))) with 0. lia. }
  cbn [bind]. eexists. eexists. split; [reflexivity|]. split; apply got_single.
Qed.
(** the help message (and status 0) is what -h gives in the place of an option, and nothing else; all that is left is a usage message (and
    status 1) *)
Lemma help_single n acc ds argv start : (exists c r, n = c :: r /\ ~ 48 <= c <= 57) -> ~ In (dash n) ds -> n <> str "h" -> ~ In (str "-h") ds -> 1 <= start <= zlen argv ->
  (parse (single n acc ds) argv start false = Ok PExit <-> exists vs r, skipn (Z.to_nat start) argv = given n vs ++ str "-h" :: r /\ Forall (fun v => acc v = true) vs).
Proof.
  intros HN ND NH NHD HS. rewrite (proj1 (C44_outcomes (single n acc ds) argv start false (single_declared n acc ds HN) HS)). change (dash (o_help (single n acc ds))) with (str "-h"). split.
  - intros (ps & r & R & _). apply reads_single in R; auto. destruct R as (vs & _ & E & F). eauto.
  - intros (vs & r & E & F). exists (map (Val n) vs), r. split; [apply reads_single; eauto|]. split; auto. exists (str "h"). split; [reflexivity|]. intros d r' X. injection X as <- _. vm_compute. intros [A B]. now apply B.
Qed.
Theorem C116_help : forall prog args, option2_smpl dbl chr (prog :: args) = Ok Help <->
  (exists xs r, args = given (str "x") xs ++ str "-h" :: r /\ Forall (fun v => int_accepts v = true) xs) \/
  (exists cmd n acc xs ys r, command dbl chr cmd n acc /\ args = given (str "x") xs ++ cmd :: given n ys ++ str "-h" :: r /\ Forall (fun v => int_accepts v = true) xs /\ Forall (fun v => acc v = true) ys).
Proof.
  intros prog args. set (ds := [str "init"; str "run"; str "status"]). pose proof (zlen_nonneg args) as L0.
  assert (exists c r, str "x" = c :: r /\ ~ 48 <= c <= 57) as X1 by letter. assert (~ In (dash (str "x")) ds) as X2 by (intros [X | [X | [X | []]]]; discriminate X). assert (~ In (str "-h") ds) as X3 by (intros [X | [X | [X | []]]]; discriminate X).
  assert (1 <= 1 <= zlen (prog :: args)) as B by (rewrite zlen_cons; lia).
  pose proof (help_single (str "x") int_accepts ds (prog :: args) 1 X1 X2 ltac:(discriminate) X3 B) as H1. change (skipn (Z.to_nat 1) (prog :: args)) with args in H1.
  unfold option2_smpl. rewrite opt1_is. fold ds. split.
  - intros H. destruct (parse (single (str "x") int_accepts ds) (prog :: args) 1 false) as [[o1 pos after| |]| | |] eqn:P; try discriminate; cbn [bind] in H; [|left; apply H1; auto].
    apply parse_single in P; auto; [|discriminate]. destruct P as (xs & e & E & Fx & FI & -> & -> & ->). change (skipn (Z.to_nat 1) (prog :: args)) with args in E.
    destruct (Z.eqb_spec (zlen (prog :: args) - zlen (tl e)) 0); [discriminate|]. destruct e as [|d rest]; cbn [tl] in *.
    + rewrite app_nil_r in E. change (zlen (@nil (list Z))) with 0 in *. rewrite Z.sub_0_r in *. rewrite (rd_nth (prog :: args) _ []) in H by (rewrite zlen_cons; lia). cbn [bind] in H. destruct (opt2 dbl chr _) as [o2|] eqn:O2; [|discriminate]. apply opt2_is in O2. destruct O2 as (n' & acc & C & ->). destruct (command_facts _ _ _ C) as (K1 & K2 & _).
      destruct (parse (single n' acc []) _ _ false) as [[o2 pos after| |]| | |] eqn:P2; try discriminate. apply help_single in P2; auto; [|rewrite zlen_cons; lia]. destruct P2 as (vs & r & E2 & _). exfalso. unfold zlen in E2. rewrite Nat2Z.id, skipn_all in E2. destruct vs; discriminate E2.
    + right. set (l := prog :: given (str "x") xs) in *. assert (prog :: args = l ++ d :: rest) as EA by (unfold l; rewrite E; reflexivity). rewrite EA in H. assert (zlen (l ++ d :: rest) - zlen rest = zlen l + 1) as Q by (rewrite zlen_app, zlen_cons; lia). rewrite Q in H. replace (zlen l + 1 - 1) with (zlen l) in H by lia. rewrite rd_last in H. cbn [bind] in H.
      destruct (opt2 dbl chr d) as [o2'|] eqn:O2; [|discriminate]. apply opt2_is in O2. destruct O2 as (n' & acc & C & ->). destruct (command_facts _ _ _ C) as (K1 & K2 & K3 & K4).
      destruct (parse (single n' acc []) (l ++ d :: rest) (zlen l + 1) false) as [[o2'' pos after| |]| | |] eqn:P2; try discriminate. apply help_single in P2; auto; [|rewrite zlen_app, zlen_cons; pose proof (zlen_nonneg l); pose proof (zlen_nonneg rest); lia]. destruct P2 as (ys & r & E2 & Fy).
      replace (l ++ d :: rest) with ((l ++ [d]) ++ rest) in E2 by (rewrite <- app_assoc; reflexivity). rewrite skipn_zlen in E2 by (rewrite zlen_app; reflexivity). subst rest. exists d, n', acc, xs, ys, r. auto.
  - intros [H | (cmd & n & acc & xs & ys & r & C & E & Fx & Fy)]; [rewrite (proj2 H1 H); reflexivity|]. destruct (command_facts _ _ _ C) as (K1 & K2 & K3 & K4).
    set (l := prog :: given (str "x") xs). assert (prog :: args = l ++ cmd :: given n ys ++ str "-h" :: r) as EA by (unfold l; rewrite E; reflexivity). rewrite EA in *. pose proof (zlen_nonneg (given n ys ++ str "-h" :: r)). pose proof (zlen_nonneg l).
    rewrite (proj2 (parse_single (str "x") int_accepts ds (l ++ cmd :: given n ys ++ str "-h" :: r) 1 X1 X2 ltac:(discriminate) B (assigned (single (str "x") int_accepts ds) (map (Val (str "x")) xs)) (zlen l + 1) [])).
    2:{ exists xs, (cmd :: given n ys ++ str "-h" :: r). split; [reflexivity|]. split; auto. split; [exact K3|]. split; [reflexivity|]. split; auto. cbn [tl]. rewrite zlen_app, zlen_cons. lia. }
    cbn [bind]. destruct (Z.eqb_spec (zlen l + 1) 0); [lia|]. replace (zlen l + 1 - 1) with (zlen l) by lia. rewrite rd_last. cbn [bind]. assert (opt2 dbl chr cmd = Some (single n acc [])) as -> by (apply opt2_is; eauto).
    rewrite (proj2 (help_single n acc [] (l ++ cmd :: given n ys ++ str "-h" :: r) (zlen l + 1) K1 (fun x => x) K2 (fun x => x) ltac:(rewrite zlen_app, zlen_cons; lia))); [reflexivity|].
    exists ys, r. split; auto. replace (l ++ cmd :: given n ys ++ str "-h" :: r) with ((l ++ [cmd]) ++ given n ys ++ str "-h" :: r) by (rewrite <- app_assoc; reflexivity). apply skipn_zlen. rewrite zlen_app. reflexivity.
Qed.
(** nothing else can happen: a usage message with status 1, a help message, or the settings *)
Theorem C116_outcomes : forall prog args, exists r, option2_smpl dbl chr (prog :: args) = Ok r.
Proof.
  intros prog args. unfold option2_smpl. rewrite opt1_is. pose proof (zlen_nonneg args). set (o := single (str "x") int_accepts [str "init"; str "run"; str "status"]).
  assert (declared o) as D by (apply single_declared; letter). assert (1 <= 1 <= zlen (prog :: args)) as B by (rewrite zlen_cons; lia).
  destruct (proj2 (C44_outcomes o (prog :: args) 1 false D B)) as [(o1 & pos & after & E) | [E | E]]; rewrite E; cbn [bind]; eauto.
  apply parse_single in E; [|letter | intros [X | [X | [X | []]]]; discriminate X | discriminate | auto]. destruct E as (xs & e & E & _ & _ & _ & -> & _). change (skipn (Z.to_nat 1) (prog :: args)) with args in E.
  assert (1 <= zlen (prog :: args) - zlen (tl e) <= zlen (prog :: args)) as R. { rewrite zlen_cons, E, zlen_app. pose proof (zlen_nonneg (given (str "x") xs)). destruct e as [|d e]; cbn [tl]; [change (zlen (@nil (list Z))) with 0; lia|]. rewrite zlen_cons. pose proof (zlen_nonneg e). lia. }
  set (pos := zlen (prog :: args) - zlen (tl e)) in *. destruct (Z.eqb_spec pos 0); [lia|]. rewrite (rd_nth (prog :: args) (pos - 1) []) by lia. cbn [bind].
  destruct (opt2 dbl chr _) as [o2|] eqn:O2; [|eauto]. apply opt2_is in O2. destruct O2 as (n' & acc & C & ->). destruct (command_facts _ _ _ C) as (K1 & _).
  destruct (proj2 (C44_outcomes (single n' acc []) (prog :: args) pos false (single_declared n' acc [] K1) R)) as [(o2' & pos' & after' & E2) | [E2 | E2]]; rewrite E2; cbn [bind]; eauto.
Qed.
(** ** Finding: option2_smpl takes its own name for the command if there are no arguments
    Without a delimiter the position is argc, and argv[argc - 1] is looked at; with no arguments that is the name of the program.  A program
    installed as "run" and started without a command puts the settings of run in place of the usage message. *)
Theorem C116_name_finding : forall cmd n acc, command dbl chr cmd n acc -> exists o1 o2, option2_smpl dbl chr [cmd] = Ok (Put cmd o1 o2) /\ got o1 = [] /\ got o2 = [].
Proof. intros cmd n acc [(-> & -> & ->) | [(-> & -> & ->) | (-> & -> & ->)]]; eexists; eexists; (split; [reflexivity|]); split; reflexivity. Qed.
End S.
(** ** the hypotheses are met *)
Notation yes := (fun _ : list Z => true).
Example two_step_run : exists o1 o2, option2_smpl yes yes [str "a.out"; str "-x"; str "7"; str "-x"; str "2k"; str "init"; str "-s"; str "-x"] = Ok (Put (str "init") o1 o2) /\ got o1 = [str "7"; str "2k"] /\ got o2 = [str "-x"].
Proof. apply (C116_accepted yes yes (str "a.out") (str "init") (str "s") yes [str "7"; str "2k"] [str "-x"]); [left; auto | repeat constructor | repeat constructor]. Qed.
Example two_step_bad : option2_smpl yes yes [str "a.out"; str "-x"; str "init"] = Ok Usage1 /\ option2_smpl yes yes [str "a.out"; str "init"; str "-x"; str "7"] = Ok Usage2 /\ option2_smpl yes yes [str "a.out"; str "-x"; str "7"] = Ok Usage1 /\ option2_smpl yes yes [str "a.out"; str "run"; str "-h"] = Ok Help.
Proof. repeat split; reflexivity. Qed.

Print Assumptions C116_two_step.
Print Assumptions C116_accepted.
Print Assumptions C116_help.
Print Assumptions C116_outcomes.
Print Assumptions C116_name_finding.
