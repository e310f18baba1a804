(** C124: sample/socket_smpl.cpp *)
Require Import Verif.Common Verif.Text Verif.AtoiModel Verif.NumProps Verif.AtoiSpec Verif.ConfigModel Verif.ConfigProps Verif.OptionModel Verif.OptionProps Verif.ExceptionModel Verif.SocketSmplModel.
Require Verif.TransferModel Verif.SocketModel Verif.SocketProps Verif.FileNameModel.

(** ** Specification *)
(** a command line argument: a C string *)
Definition argument (a : list Z) : Prop := bytes a /\ ~ In 0 a /\ zlen a < 2 ^ 63.
(** the value of an integer option of range lo..hi: the number denoted by the last text given, or the default *)
Definition option_value (lo hi dflt : Z) (texts : list (list Z)) (v : Z) : Prop :=
  match rev texts with [] => v = dflt | t :: _ => denotes lo hi t v end.
Definition text_value (texts : list (list Z)) (v : list Z) : Prop := match rev texts with [] => v = [] | t :: _ => v = t end.
(** what the server prints for the bytes it got from a client *)
Definition shown (b : list Z) (line : list Z) : Prop := exists t r, b = t ++ r /\ ~ In 0 t /\ (r = [] \/ exists r', r = 0 :: r') /\
  line = str "rec=" ++ t ++ str "(" ++ printf_d (zlen b) ++ str ")" ++ [10].
(** the first thing that happens on a connection, interruptions aside *)
Fixpoint event (l : list TransferModel.kres) : option TransferModel.kres :=
  match l with [] => None | TransferModel.KEintr :: l => event l | e :: _ => Some e end.
(** a client whose data, or end of data, comes *)
Definition speaks (v : visit) : Prop := v_ok v = true /\ exists n, event (v_sched v) = Some (TransferModel.KN n).
(** a client that cannot be accepted, resets the connection, or is silent until the timeout *)
Definition fails (v : visit) : Prop := v_ok v = false \/ event (v_sched v) = Some TransferModel.KErr.
(** the bytes heard from a client: a first part, at most 128 of them, not empty if there are any *)
Definition heard (v : visit) (b : list Z) : Prop := (exists r, v_data v = b ++ r) /\ zlen b <= 128 /\ (v_data v <> [] -> b <> []).

(** ** Options *)
Lemma smpl_declared : declared smpl_opt.
Proof.
  pose proof (DSub opt_new N_is1 false (str "ip") any_text _ DNew eq_refl) as D1.
  pose proof (DSub _ N_is0 false (str "v") any_text _ D1 eq_refl) as D2.
  pose proof (DSub _ N_is1 false (str "m") (accepts ty_i32) _ D2 eq_refl) as D3.
  pose proof (DSub _ N_is1 false (str "p") (accepts ty_u16) _ D3 eq_refl) as D4.
  pose proof (DSub _ N_is1 false (str "t") (accepts ty_i32) _ D4 eq_refl) as D5.
  exact (DParamOpt _ (str "cmd") any_text _ D5 eq_refl).
Qed.
(** the values of an option are arguments, and it takes them *)
Lemma reads_values o k args ps e n : reads o k args ps e -> wfo o -> Forall argument args ->
  forall i, In i (o_infos o) -> i_name i = n -> i_mode i = N_is1 -> Forall (fun v => argument v /\ i_acc i v = true) (values_for n ps).
Proof.
  intros R W. induction R as [k e | k j r ps e N A R IH | k j v r ps e N A R IH | k j vs r ps e N NE F EN R IH | k v r ps e ND O T R IH];
    intros FA i Hi Hn Hm; [|change (values_for n (Flag (i_name j) :: ps)) with ((if str_eq n (i_name j) then [[49]] else []) ++ values_for n ps)|change (values_for n (Val (i_name j) v :: ps)) with ((if str_eq n (i_name j) then [v] else []) ++ values_for n ps)|change (values_for n (Many (i_name j) vs :: ps)) with ((if str_eq n (i_name j) then vs else []) ++ values_for n ps)|change (values_for n (Pos v :: ps)) with (values_for n ps)].
  - constructor.
  - apply Forall_cons_iff in FA as [_ FA]. destruct (str_eq n (i_name j)) eqn:E; [|apply IH; auto].
    exfalso. apply str_eq_iff in E. destruct N as (Hj & Mj & _). assert (i = j) as ->; [|congruence].
    destruct W as (ND & _). destruct (find_opt_in _ i ND Hi) as (a & Fa & Na). destruct (find_opt_in _ j ND Hj) as (b & Fb & Nb). rewrite Hn in Fa. rewrite <- E in Fb. congruence.
  - apply Forall_cons_iff in FA as [_ FA]. apply Forall_cons_iff in FA as [Av FA]. apply Forall_app. split; [|apply IH; auto].
    destruct (str_eq n (i_name j)) eqn:E; [|constructor]. apply str_eq_iff in E. destruct N as (Hj & Mj & _). assert (i = j) as ->; [|repeat constructor; auto; apply Av].
    destruct W as (ND & _). destruct (find_opt_in _ i ND Hi) as (a & Fa & Na). destruct (find_opt_in _ j ND Hj) as (b & Fb & Nb). rewrite Hn in Fa. rewrite <- E in Fb. congruence.
  - apply Forall_cons_iff in FA as [_ FA]. apply Forall_app in FA as [_ FA]. apply Forall_app. split; [|apply IH; auto].
    destruct (str_eq n (i_name j)) eqn:E; [|constructor].
    exfalso. apply str_eq_iff in E. destruct N as (Hj & Mj & _). assert (i = j) as ->; [|congruence].
    destruct W as (ND & _). destruct (find_opt_in _ i ND Hi) as (a & Fa & Na). destruct (find_opt_in _ j ND Hj) as (b & Fb & Nb). rewrite Hn in Fa. rewrite <- E in Fb. congruence.
  - apply Forall_cons_iff in FA as [_ FA]. apply IH; auto.
Qed.
Lemma last_rev {A} (l : list A) : last (map Some l) None = match rev l with [] => None | x :: _ => Some x end.
Proof. induction l as [|x l IH] using rev_ind; [reflexivity|]. rewrite map_app, rev_app_distr. cbn. rewrite last_last. reflexivity. Qed.
Lemma infos_is : exists iip iv, o_infos smpl_opt = [iip; iv; mk_info (str "m") N_is1 false (accepts ty_i32) false []; mk_info (str "p") N_is1 false (accepts ty_u16) false []; mk_info (str "t") N_is1 false (accepts ty_i32) false []] /\
  iip = mk_info (str "ip") N_is1 false any_text false [] /\ iv = mk_info (str "v") N_is0 false any_text false [].
Proof. eexists. eexists. split; [reflexivity|]. auto. Qed.
Lemma last_text_assigned ps n : In n [str "ip"; str "m"; str "p"; str "t"] -> last_text (o_infos (assigned smpl_opt ps)) n = match rev (values_for n ps) with [] => None | x :: _ => Some x end.
Proof.
  intros H. unfold last_text. rewrite <- last_rev. unfold assigned. cbn [o_infos].
  destruct H as [<- | [<- | [<- | [<- | []]]]]; reflexivity.
Qed.
Lemma int_value t lo hi d ps n i : In (t, (lo, hi)) type_ranges -> In n [str "ip"; str "m"; str "p"; str "t"] -> i_acc i = accepts t ->
  Forall (fun v => argument v /\ i_acc i v = true) (values_for n ps) ->
  forall v, option_value lo hi d (values_for n ps) v <-> v = int_var t (o_infos (assigned smpl_opt ps)) n d.
Proof.
  intros T N A F v. unfold int_var, option_value. rewrite last_text_assigned by auto. apply Forall_rev in F. destruct (rev (values_for n ps)) as [|x r]; [reflexivity|].
  apply Forall_cons_iff in F as [((B & Z0 & L) & Ac) _]. rewrite A in Ac. unfold accepts in Ac.
  destruct (C43_convertInt t lo hi x T B Z0 L) as [(w & D & U & E)|(_ & w & E)]; rewrite E in *; [|discriminate].
  split; [apply U|]. intros ->. exact D.
Qed.

(** ** C124 *)
(** the program starts exactly when the arguments are options with values they take and at most one command; each setting is then the
    last value given for it or its default, the mode being 3 (both families) without -m *)
Theorem C124_settings : forall prog args s, Forall argument args ->
  (startup (prog :: args) = Ok (Run s) <->
   exists ps sec, reads smpl_opt 0 args ps [] /\
     text_value (values_for (str "ip") ps) (st_ip s) /\
     option_value 0 65535 50000 (values_for (str "p") ps) (st_port s) /\
     option_value (- 2 ^ 31) (2 ^ 31 - 1) 3 (values_for (str "m") ps) (st_mode s) /\
     option_value (- 2 ^ 31) (2 ^ 31 - 1) 5 (values_for (str "t") ps) sec /\ st_msec s = 1000 * sec /\ - 2 ^ 31 <= 1000 * sec < 2 ^ 31 /\
     positionals ps = match positionals ps with [] => [] | _ => [st_cmd s] end /\ (positionals ps = [] -> st_cmd s = [])).
Proof.
  intros prog args s FA. unfold startup. change (mode_switch 0) with (Some 3). cbv iota.
  assert (PL: 1 <= 1 <= zlen (prog :: args)) by (rewrite zlen_cons; pose proof (zlen_nonneg args); lia).
  pose proof (C44_parse smpl_opt (prog :: args) 1 false smpl_declared PL) as CP. change (skipn (Z.to_nat 1) (prog :: args)) with args in CP.
  assert (W: wfo smpl_opt) by (apply declared_wf, smpl_declared).
  assert (VAL: forall ps, reads smpl_opt 0 args ps [] ->
    (forall v, option_value 0 65535 50000 (values_for (str "p") ps) v <-> v = int_var ty_u16 (o_infos (assigned smpl_opt ps)) (str "p") 50000) /\
    (forall v, option_value (- 2 ^ 31) (2 ^ 31 - 1) 3 (values_for (str "m") ps) v <-> v = int_var ty_i32 (o_infos (assigned smpl_opt ps)) (str "m") 3) /\
    (forall v, option_value (- 2 ^ 31) (2 ^ 31 - 1) 5 (values_for (str "t") ps) v <-> v = int_var ty_i32 (o_infos (assigned smpl_opt ps)) (str "t") 5) /\
    (forall v, text_value (values_for (str "ip") ps) v <-> v = text_var (o_infos (assigned smpl_opt ps)) (str "ip") [])).
  { intros ps R. destruct infos_is as (iip & iv & EI & _ & _).
    split; [|split; [|split]].
    - apply (int_value ty_u16 0 65535 50000 ps (str "p") (mk_info (str "p") N_is1 false (accepts ty_u16) false [])); [cbn; auto 9|cbn; auto|reflexivity|].
      apply (reads_values _ _ _ _ _ _ R W FA); [rewrite EI; cbn; auto 9|reflexivity|reflexivity].
    - apply (int_value ty_i32 (- 2 ^ 31) (2 ^ 31 - 1) 3 ps (str "m") (mk_info (str "m") N_is1 false (accepts ty_i32) false [])); [cbn; auto 9|cbn; auto|reflexivity|].
      apply (reads_values _ _ _ _ _ _ R W FA); [rewrite EI; cbn; auto 9|reflexivity|reflexivity].
    - apply (int_value ty_i32 (- 2 ^ 31) (2 ^ 31 - 1) 5 ps (str "t") (mk_info (str "t") N_is1 false (accepts ty_i32) false [])); [cbn; auto 9|cbn; auto|reflexivity|].
      apply (reads_values _ _ _ _ _ _ R W FA); [rewrite EI; cbn; auto 9|reflexivity|reflexivity].
    - intros v. unfold text_value, text_var. rewrite last_text_assigned by (cbn; auto). destruct (rev (values_for (str "ip") ps)); reflexivity. }
  assert (POS: forall k args ps e, reads smpl_opt k args ps e -> (k + length (positionals ps) <= 1 \/ positionals ps = [])%nat).
  { clear. intros k args ps e R. induction R as [k e | k j r ps e N A R IH | k j v r ps e N A R IH | k j vs r ps e N NE F EN R IH | k v r ps e ND O T R IH]; [right; reflexivity|exact IH|exact IH|exact IH|].
    left. change (positionals (Pos v :: ps)) with (v :: positionals ps). unfold taken in T. change (o_params smpl_opt) with [mk_info (str "cmd") N_is1 false any_text false []] in T. destruct k as [|k]; [|destruct k; discriminate T].
    cbn [length]. destruct IH as [IH| ->]; cbn [length]; lia. }
  assert (CMD: forall ps, reads smpl_opt 0 args ps [] -> forall c, (positionals ps = match positionals ps with [] => [] | _ => [c] end /\ (positionals ps = [] -> c = [])) <-> c = text_var (o_params (assigned smpl_opt ps)) (str "cmd") []).
  { intros ps R c. unfold assigned. cbn [o_params]. change (o_params smpl_opt) with [mk_info (str "cmd") N_is1 false any_text false []].
    destruct (positionals ps) as [|x [|y r]] eqn:E.
    - cbn. split; [intros [_ H]; auto|]. intros ->. auto.
    - cbn. split; [intros [H _]; injection H as <-; auto|]. intros ->. split; [reflexivity|discriminate].
    - exfalso. destruct (POS 0%nat args ps [] R) as [H|H]; rewrite E in H; [cbn in H; lia|discriminate]. }
  assert (DONE: forall ps, complete smpl_opt ps).
  { intros ps. split.
    - intros i Hi M. exfalso. destruct infos_is as (iip & iv & EI & -> & ->). rewrite EI in Hi. cbn [In] in Hi. repeat (destruct Hi as [<- | Hi]; [discriminate M|]). exact Hi.
    - intros k p Hk M. exfalso. change (o_params smpl_opt) with [mk_info (str "cmd") N_is1 false any_text false []] in Hk. destruct k as [|[|k]]; try discriminate Hk. injection Hk as <-. discriminate M. }
  split.
  - destruct (parse smpl_opt (prog :: args) 1 false) as [[o next after| |]| | |] eqn:P; try discriminate. cbn [bind]. cbv zeta.
    destruct (proj1 (CP o next after) eq_refl) as (ps & e & R & FI & _ & -> & _).
    assert (e = []) as -> by (destruct e as [|d e]; [reflexivity|destruct FI]).
    destruct (VAL ps R) as (V1 & V2 & V3 & V4).
    set (sec := int_var ty_i32 (o_infos (assigned smpl_opt ps)) (str "t") 5) in *.
    destruct (Z.ltb_spec (sec * 1000) (- 2 ^ 31)); [discriminate|]. destruct (Z.leb_spec (2 ^ 31) (sec * 1000)); [discriminate|]. cbn [orb].
    intros H1. injection H1 as <-. exists ps, sec. cbn [st_ip st_port st_mode st_msec st_cmd].
    split; auto. split; [apply V4; auto|]. split; [apply V1; auto|]. split; [apply V2; auto|]. split; [apply V3; auto|]. split; [lia|]. split; [lia|].
    apply (CMD ps R). reflexivity.
  - intros (ps & sec & R & Hip & Hp & Hm & Ht & Ems & Bms & HC1 & HC2). destruct (VAL ps R) as (V1 & V2 & V3 & V4).
    rewrite (proj2 (CP (assigned smpl_opt ps) (zlen (prog :: args)) [])); [|exists ps, []; split; [exact R|]; split; [exact I|]; split; [apply DONE|]; auto].
    cbn [bind]. cbv zeta. apply V1 in Hp. apply V2 in Hm. apply V3 in Ht. apply V4 in Hip. assert (HC := proj1 (CMD ps R _) (conj HC1 HC2)).
    rewrite <- Ht, <- Hp, <- Hm, <- Hip, <- HC.
    destruct (Z.ltb_spec (sec * 1000) (- 2 ^ 31)); [lia|]. destruct (Z.leb_spec (2 ^ 31) (sec * 1000)); [lia|]. cbn [orb].
    do 2 f_equal. destruct s as [a b c d f]. cbn [st_ip st_port st_mode st_msec st_cmd] in Ems |- *. f_equal. lia.
Qed.

(** the families the server then listens on: both without -m, as documented with -m 4 and -m 6 *)
Theorem C124_families : forall hz o k port mode e, 0 <= port < 65536 -> let '(r, o', k') := SocketModel.bind hz o k port mode e in
  r = Ok tt -> exists s, SocketModel.fget k' o' = Some s /\
    (mode = 3 -> SocketProps.reaches s FileNameModel.AF_INET /\ SocketProps.reaches s FileNameModel.AF_INET6) /\
    (mode = 4 -> SocketProps.reaches s FileNameModel.AF_INET /\ ~ SocketProps.reaches s FileNameModel.AF_INET6) /\
    (mode = 6 -> ~ SocketProps.reaches s FileNameModel.AF_INET /\ SocketProps.reaches s FileNameModel.AF_INET6) /\
    (* what -m 0 does *)
    (mode = 0 -> SocketProps.reaches s FileNameModel.AF_INET /\ ~ SocketProps.reaches s FileNameModel.AF_INET6).
Proof.
  intros hz o k port mode e HP. pose proof (SocketProps.C98_bind hz o k port mode e HP) as B. destruct (SocketModel.bind hz o k port mode e) as [[r o'] k'].
  intros Hr. destruct B as (_ & _ & B & _). destruct (B Hr) as (s & l & A & _ & _ & _ & _ & R6 & R4). exists s. split; [apply (SocketProps.adds_get _ _ _ _ A)|].
  repeat split; intros; subst mode; cbn in R4, R6; intuition congruence.
Qed.
(** ** Finding: sample/socket_smpl.cpp looks at the mode before it parses the arguments.  The help says that -m 0 means both families, but the
    server then listens on IPv4 only; -m 4 and -m 6 work because their bits happen to be right; any other number is taken, too. *)
Theorem C124_mode_finding : forall t m, argument t -> denotes (- 2 ^ 31) (2 ^ 31 - 1) t m ->
  exists s, startup [str "socket_smpl"; str "-m"; t] = Ok (Run s) /\ st_mode s = m.
Proof.
  intros t m A D. assert (FA: Forall argument [str "-m"; t]).
  { constructor; [|constructor; [exact A|constructor]]. change (str "-m") with [45; 109]. split; [|split].
    - constructor; [|constructor; [|constructor]]; unfold is_byte; lia.
    - intros [X | [X | []]]; discriminate.
    - unfold zlen. cbn [length]. lia. }
  exists (mk_settings [] 50000 m 5000 []). split; [|reflexivity].
  apply (C124_settings (str "socket_smpl") [str "-m"; t] _ FA). exists [Val (str "m") t], 5.
  split. { apply (RVal smpl_opt 0 (mk_info (str "m") N_is1 false (accepts ty_i32) false [])); [|cbn [i_acc]|constructor].
    - split; [cbn; auto|]. split; [reflexivity|]. split; [intros []|discriminate].
    - unfold accepts. destruct A as (B & N & L). destruct (C43_convertInt ty_i32 (- 2 ^ 31) (2 ^ 31 - 1) t ltac:(cbn; auto 9) B N L) as [(w & _ & _ & ->)|(C & _)]; [reflexivity|]. exfalso. exact (C m D). }
  repeat split; cbn; auto; lia.
Qed.
(** ** Finding: socket_smpl -t n multiplies n by 1000 in an int: from 2147484 seconds on the behaviour is undefined. *)
Theorem C124_timeout_finding : startup [str "socket_smpl"; str "-t"; str "2147484"] = UB.
Proof. reflexivity. Qed.
Example C124_settings_nonvacuous : startup [str "s"; str "-ip"; str "::1"; str "-p"; str "0x50"; str "-t"; str "1k"; str "hello"] = Ok (Run (mk_settings (str "::1") 80 3 1000000 (str "hello"))) /\
  startup [str "s"; str "-p"; str "70000"] = Ok Usage /\ startup [str "s"; str "a"; str "b"] = Ok Usage.
Proof. repeat split; reflexivity. Qed.

(** ** The server *)
Lemma c_text_shown b : shown b (rec_line b).
Proof.
  assert (E: exists r, b = c_text b ++ r /\ ~ In 0 (c_text b) /\ (r = [] \/ exists r', r = 0 :: r')).
  { induction b as [|c b (r & E & N & R)]; [exists []; auto|]. cbn [c_text]. destruct (Z.eqb_spec c 0) as [->|NZ].
    - exists (0 :: b). cbn. split; auto. split; [tauto|]. right. eauto.
    - exists r. cbn [app In]. split; [congruence|]. split; [intros [X|X]; [congruence|tauto]|auto]. }
  destruct E as (r & E & N & R). exists (c_text b), r. auto.
Qed.
Lemma read_visit v buf : length buf = 128%nat ->
  match event (v_sched v) with
  | Some (TransferModel.KN n) => exists st b, TransferModel.readSome (v_sched v) buf (v_data v) 0 128 = (Ok (zlen b), st) /\ firstn (length b) (TransferModel.rs_buf st) = b /\ heard v b /\
      (zlen (v_data v) <= n -> zlen (v_data v) <= 128 -> b = v_data v)
  | Some TransferModel.KErr => fst (TransferModel.readSome (v_sched v) buf (v_data v) 0 128) = Exn
  | _ => fst (TransferModel.readSome (v_sched v) buf (v_data v) 0 128) = Fuel
  end.
Proof.
  intros L. unfold heard. generalize (v_data v) as src. intros src. induction (v_sched v) as [|[| |n] l IH]; cbn [event TransferModel.readSome]; auto.
  assert (zlen buf = 128) as Zb by (unfold zlen; lia). unfold TransferModel.maxIO. rewrite Z.min_r by lia. rewrite Zb. change ((0 <? 0) || (128 <? 0 + 128)) with false. cbv iota.
  unfold TransferModel.k_read. set (k := Z.min (Z.min 128 (zlen src)) (Z.max 1 n)). pose proof (zlen_nonneg src).
  assert (Hk: 0 <= k <= 128 /\ k <= zlen src /\ (0 < zlen src -> 0 < k)) by (unfold k; lia).
  eexists. exists (firstn (Z.to_nat k) src).
  assert (Lb: length (firstn (Z.to_nat k) src) = Z.to_nat k) by (rewrite firstn_length; unfold zlen in *; lia).
  split; [f_equal; unfold zlen; rewrite Lb; f_equal; lia|]. split.
  - unfold TransferModel.blit. cbn [TransferModel.rs_buf]. change (Z.to_nat 0) with O. cbn [firstn app Nat.add]. rewrite firstn_app, Nat.sub_diag, firstn_O, app_nil_r. apply firstn_all.
  - split; [split; [exists (skipn (Z.to_nat k) src); symmetry; apply firstn_skipn|]; split; [unfold zlen; lia|]|].
    + intros NE E. apply (f_equal (@length Z)) in E. rewrite Lb in E. cbn in E. destruct src; [congruence|]. rewrite zlen_cons in *. pose proof (zlen_nonneg src). lia.
    + intros H1 H2. apply firstn_all2. unfold k, zlen in *. lia.
Qed.
(** clients that speak are served one after the other: for each a line shows a first part of what it sent, of at most 128 bytes, up to a
    NUL, and how many bytes there were; then the server waits for the next one *)
Theorem C124_serves : forall vs garbage, (forall i, length (garbage i) = 128%nat) -> Forall speaks vs ->
  exists bs ls, serve garbage vs = (ls, Waiting) /\ Forall2 heard vs bs /\ Forall2 shown bs ls.
Proof.
  induction vs as [|v vs IH]; intros garbage G F.
  - exists [], []. repeat split; constructor.
  - apply Forall_cons_iff in F as [(Hok & n & E) F]. destruct (IH (fun i => garbage (S i)) (fun i => G (S i)) F) as (bs & ls & Es & H1 & H2).
    pose proof (read_visit v (garbage O) (G O)) as R. rewrite E in R. destruct R as (st & b & R & Fb & Hh & _).
    exists (b :: bs), (rec_line b :: ls). cbn [serve]. rewrite Hok. cbn [negb]. rewrite R, Es. unfold zlen. rewrite Nat2Z.id, Fb.
    split; [reflexivity|]. split; constructor; auto. apply c_text_shown.
Qed.
(** a text of at most 128 bytes without NUL that arrives at once is shown as it is *)
Theorem C124_delivered : forall t n sched garbage, length garbage = 128%nat -> ~ In 0 t -> zlen t <= 128 -> zlen t <= n -> event sched = Some (TransferModel.KN n) ->
  serve (fun _ => garbage) [mk_visit true sched t] = ([str "rec=" ++ t ++ str "(" ++ printf_d (zlen t) ++ str ")" ++ [10]], Waiting).
Proof.
  intros t n sched garbage G N L1 L2 E. pose proof (read_visit (mk_visit true sched t) garbage G) as R. cbn [v_sched v_data] in R. rewrite E in R. destruct R as (st & b & R & Fb & _ & Hb).
  specialize (Hb L2 L1). subst b. cbn [serve v_ok negb v_sched v_data]. rewrite R. unfold zlen at 1. rewrite Nat2Z.id, Fb. unfold rec_line.
  assert (c_text t = t) as ->; [|reflexivity]. clear - N. induction t as [|c t IH]; [reflexivity|]. cbn [c_text]. destruct (Z.eqb_spec c 0) as [->|]; [exfalso; apply N; left; auto|]. f_equal. apply IH. intros H. apply N. right. auto.
Qed.
(** ** Finding: one client ends the server of socket_smpl.  If a client resets its connection, or sends nothing within the time given with -t
    (5 seconds), readSome throws, nothing catches it in the loop, and the clients that come later are not served. *)
Theorem C124_one_client_finding : forall vs v later garbage, (forall i, length (garbage i) = 128%nat) -> Forall speaks vs -> fails v ->
  exists ls, serve garbage (vs ++ v :: later) = (ls, Dead) /\ length ls = length vs.
Proof.
  induction vs as [|w vs IH]; intros v later garbage G F B.
  - exists []. split; [|reflexivity]. cbn [app serve]. destruct (v_ok v) eqn:OK; [|reflexivity]. cbn [negb]. destruct B as [B|B]; [congruence|].
    pose proof (read_visit v (garbage O) (G O)) as R. rewrite B in R. destruct (TransferModel.readSome (v_sched v) (garbage O) (v_data v) 0 128) as [r st]. cbn [fst] in R. subst r. reflexivity.
  - apply Forall_cons_iff in F as [(Hok & n & E) F]. destruct (IH v later (fun i => garbage (S i)) (fun i => G (S i)) F B) as (ls & Es & Ll).
    pose proof (read_visit w (garbage O) (G O)) as R. rewrite E in R. destruct R as (st & b & R & Fb & Hh & _).
    eexists. cbn [app serve]. rewrite Hok. cbn [negb]. rewrite R, Es. split; [reflexivity|]. cbn [length]. lia.
Qed.
Example C124_server_nonvacuous : serve (fun _ => repeat 7 128) [mk_visit true [TransferModel.KEintr; TransferModel.KN 3] (str "hello"); mk_visit true [TransferModel.KN 9] [65; 0; 66]; mk_visit true [TransferModel.KErr] (str "x"); mk_visit true [TransferModel.KN 9] (str "y")] =
  ([str "rec=hel(3)" ++ [10]; str "rec=A(3)" ++ [10]], Dead).
Proof. reflexivity. Qed.

Print Assumptions C124_settings.
Print Assumptions C124_families.
Print Assumptions C124_mode_finding.
Print Assumptions C124_timeout_finding.
Print Assumptions C124_serves.
Print Assumptions C124_delivered.
Print Assumptions C124_one_client_finding.
