(** Property C86: reading environment variables. *)
Require Import Verif.Common Verif.Text Verif.ExceptionModel Verif.ExceptionProps Verif.EnvModel.

(** ** Specification: the environment as variables with names and values *)
Definition a_name (n : list Z) : Prop := n <> [] /\ no_nul n /\ no_ch 61 n.
Definition environ_of (vars : list (list Z * list Z)) : list (list Z) := map (fun nv => fst nv ++ str "=" ++ snd nv) vars.
(** the variable has this value: the first of that name counts *)
Definition has_value (vars : list (list Z * list Z)) (key v : list Z) : Prop :=
  exists pre post, vars = pre ++ (key, v) :: post /\ forall v', ~ In (key, v') pre.
Definition unset (vars : list (list Z * list Z)) (key : list Z) : Prop := forall v, ~ In (key, v) vars.

Lemma after_name_same n v : after_name n (n ++ 61 :: v) = Some v.
Proof. induction n as [|c n IH]; cbn [app after_name]; [reflexivity|]. now rewrite Z.eqb_refl. Qed.
Lemma after_name_other n : forall m v, no_ch 61 n -> no_ch 61 m -> n <> m -> after_name n (m ++ 61 :: v) = None.
Proof.
  induction n as [|c n IH]; intros [|d m] v F1 F2 N; cbn [app after_name].
  - congruence.
  - apply Forall_cons_iff in F2 as [F2 _]. destruct (Z.eqb_spec d 61); congruence.
  - apply Forall_cons_iff in F1 as [F1 _]. destruct (Z.eqb_spec c 61); congruence.
  - destruct (Z.eqb_spec c d) as [->|]; [|reflexivity]. apply Forall_cons_iff in F1 as [_ F1]. apply Forall_cons_iff in F2 as [_ F2]. apply IH; auto; congruence.
Qed.
Lemma getenv_spec vars key : Forall (fun nv => a_name (fst nv) /\ no_nul (snd nv)) vars -> a_name key ->
  (forall v, has_value vars key v -> getenv (environ_of vars) key = Some v) /\ (unset vars key -> getenv (environ_of vars) key = None).
Proof.
  intros F (Ne & Nk & Ek).
  assert (Cons: forall e r, getenv (e :: r) key = match after_name key e with Some v => Some v | None => getenv r key end) by (destruct key; [congruence|reflexivity]).
  assert (Skip: forall pre post, Forall (fun nv => a_name (fst nv) /\ no_nul (snd nv)) pre -> (forall v, ~ In (key, v) pre) -> getenv (environ_of (pre ++ post)) key = getenv (environ_of post) key).
  { induction pre as [|[n v] pre IH]; intros post G H; [reflexivity|]. cbn [app environ_of map fst snd]. rewrite Cons. apply Forall_cons_iff in G as [[(_ & _ & G1) _] G].
    change (str "=") with [61]. cbn [app]. rewrite after_name_other; auto.
    - apply IH; auto. intros v' Hin. apply (H v'). now right.
    - intros ->. apply (H v). now left. }
  split.
  - intros v (pre & post & -> & H). apply Forall_app in F as [F _]. rewrite Skip by auto. cbn [environ_of map fst snd]. rewrite Cons.
    change (str "=") with [61]. cbn [app]. now rewrite after_name_same.
  - intros H. rewrite <- (app_nil_r vars), Skip by auto. destruct key; reflexivity.
Qed.

(** ** C86: if the variable is set, its value is returned, an empty one too; if it is not set, GetEnv throws an exception naming it, the
    form with a default returns the default, and QueryEnv leaves the caller's string alone.  On Windows the value must be shorter than
    4096 bytes. *)
Theorem C86_getenv : forall win vars key,
  Forall (fun nv => a_name (fst nv) /\ no_nul (snd nv)) vars -> a_name key ->
  (forall v old d, has_value vars key v -> (win = true -> zlen v < 4096) ->
     QueryEnv win (environ_of vars) old key = (true, v) /\ GetEnv win (environ_of vars) key = inl v /\ GetEnvDef win (environ_of vars) key d = v) /\
  (forall old d, unset vars key ->
     QueryEnv win (environ_of vars) old key = (false, old) /\
     (exists e, GetEnv win (environ_of vars) key = inr e /\ snd (what (mk_config false false) [] e) = str "env:GetEnv:" ++ key) /\
     GetEnvDef win (environ_of vars) key d = d).
Proof.
  intros win vars key F K. destruct (getenv_spec vars key F K) as [P Q]. destruct K as (_ & Nk & _).
  unfold GetEnv, GetEnvDef, QueryEnv, getenv_s. rewrite !cstr_id by auto. split.
  - intros v old d H L. rewrite (P v H).
    assert (Nv: no_nul v).
    { destruct H as (pre & post & -> & _). apply Forall_app in F as [_ F]. apply Forall_cons_iff in F as [[_ F] _]. exact F. }
    destruct win.
    + specialize (L eq_refl). destruct (zlen v + 1 <=? 4096) eqn:E; [|lia].
      pose proof (zlen_nonneg v). destruct (0 <? zlen v + 1) eqn:E2; [|lia].
      replace (Z.to_nat (zlen v + 1 - 1)) with (length v) by (unfold zlen; lia). rewrite firstn_all. auto.
    + rewrite cstr_id by auto. auto.
  - intros old d H. rewrite (Q H). destruct win; cbn [Z.ltb Z.compare]; (split; [reflexivity|]; split; [|reflexivity]); eexists; (split; [reflexivity|]);
      unfold append_str, append_c, what, exn_toString, Exception_new; cbn [e_str e_trace snd]; rewrite (cstr_id key) by auto;
      rewrite cstr_id; try reflexivity; (apply Forall_app; split; [repeat constructor; discriminate|]; constructor; [lia|auto]).
Qed.
Example C86_nonvacuous :
  GetEnv false (environ_of [(str "HOME", str "/root"); (str "EMPTY", []); (str "HOME", str "/x")]) (str "HOME") = inl (str "/root") /\
  GetEnvDef true (environ_of [(str "HOME", str "/root"); (str "EMPTY", [])]) (str "EMPTY") (str "dflt") = [] /\
  GetEnvDef false (environ_of [(str "HOME", str "/root"); (str "EMPTY", [])]) (str "HOM") (str "dflt") = str "dflt" /\
  a_name (str "HOME").
Proof. split; [reflexivity|]. split; [reflexivity|]. split; [reflexivity|]. split; [discriminate|]. split; repeat constructor; discriminate. Qed.

(** ** Finding: on Windows a variable whose value needs 4096 bytes or more is treated as if it were not set (env.hpp:17-25): the default is
    returned, or an exception says that there is none. *)
Theorem C86_long_value_finding : forall v d, no_nul v -> 4096 <= zlen v -> GetEnvDef true (environ_of [(str "PATH", v)]) (str "PATH") d = d.
Proof.
  intros v d N L. unfold GetEnvDef, QueryEnv, getenv_s. change (cstr (str "PATH")) with (str "PATH").
  assert (E: getenv (environ_of [(str "PATH", v)]) (str "PATH") = Some v) by reflexivity. rewrite E.
  destruct (zlen v + 1 <=? 4096) eqn:E2; [lia|]. reflexivity.
Qed.
(** ** Finding: a key with a NUL in it reads the variable named by the part before the NUL (env.hpp:27). *)
Theorem C86_nul_key_finding : GetEnv false (environ_of [(str "PATH", str "/bin")]) (str "PATH" ++ [0] ++ str "x") = inl (str "/bin").
Proof. reflexivity. Qed.

Print Assumptions C86_getenv.
