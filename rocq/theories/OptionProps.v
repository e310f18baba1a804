(** C43, C44: option.hpp *)
Require Import Verif.Common Verif.AtoiSpec Verif.AtoiModel Verif.NumProps Verif.ConfigModel Verif.ConfigProps Verif.OptionModel Verif.Text.
From Coq Require String.
Local Open Scope Z_scope.

(* ------------------------------------------------------------------ *)
(** * C43: integers with suffixes *)
(** the documented suffixes *)
Definition suffix (c f : Z) : Prop :=
  (c = 107 /\ f = 10 ^ 3) \/ (c = 109 /\ f = 10 ^ 6) \/ (c = 103 /\ f = 10 ^ 9) \/      (* k m g *)
  (c = 75 /\ f = 2 ^ 10) \/ (c = 77 /\ f = 2 ^ 20) \/ (c = 71 /\ f = 2 ^ 30).           (* K M G *)
(** a decimal numeral, with optional '-' for signed types *)
Definition number (lo : Z) (d : list Z) (w : Z) : Prop := if lo <? 0 then signed_text d w else unsigned_text d w.
Definition has_0x (s : list Z) : Prop := exists d, s = 48 :: 120 :: d.
(** s denotes v for a variable of range lo..hi. Without prefix and suffix: what atoi accepts (C02). *)
Inductive denotes (lo hi : Z) (s : list Z) (v : Z) : Prop :=
| DHex d : s = 48 :: 120 :: d -> hex_text d v -> v <= hi -> denotes lo hi s v
| DSuffix d c f w : ~ has_0x s -> s = d ++ [c] -> suffix c f -> number lo d w -> v = w * f -> lo <= v <= hi -> denotes lo hi s v
| DPlain : ~ has_0x s -> (forall d c f, s = d ++ [c] -> ~ suffix c f) -> language lo hi s v -> denotes lo hi s v.

Lemma factor_suffix c : (factor_of c = 1 /\ forall f, ~ suffix c f) \/ (suffix c (factor_of c) /\ 1000 <= factor_of c <= 2 ^ 30 /\ forall f, suffix c f -> f = factor_of c).
Proof.
  unfold factor_of, suffix.
  repeat match goal with |- context [c =? ?k] => destruct (c =? k) eqn:? end;
    try (right; split; [lia|]; split; [lia|]; intros f; lia). left. split; auto. intros f. lia.
Qed.
Lemma visible_app s r : ~ In 0 s -> visible (s ++ r) (zlen s) = s.
Proof.
  induction s as [|c s IH]; intros N; [destruct r; reflexivity|]. rewrite zlen_cons. cbn [visible app].
  destruct (1 + zlen s <=? 0) eqn:E; [pose proof (zlen_nonneg s); lia|]. destruct (c =? 0) eqn:E2; [exfalso; apply N; left; lia|].
  replace (1 + zlen s - 1) with (zlen s) by lia. rewrite IH; auto. intros H. apply N. now right.
Qed.
Lemma visible_nul s : ~ In 0 s -> forall n, zlen s < n -> visible (s ++ [0]) n = s.
Proof.
  induction s as [|c s IH]; intros N n L; cbn [visible app].
  - destruct (n <=? 0) eqn:E; [rewrite zlen_nil in L; lia|]. reflexivity.
  - rewrite zlen_cons in L. pose proof (zlen_nonneg s). destruct (n <=? 0) eqn:E; [lia|]. destruct (c =? 0) eqn:E2; [exfalso; apply N; left; lia|].
    rewrite IH; auto; [|lia]. intros H'. apply N. now right.
Qed.
Lemma type_bounds t lo hi : In (t, (lo, hi)) type_ranges -> lo <= 0 < hi /\ (lo < 0 -> lo = - hi - 1).
Proof. intros H. simpl in H. repeat (destruct H as [H|H]; [injection H as <- <- <-; lia|]). contradiction. Qed.
Lemma mul_cast_ok t lo hi y f : In (t, (lo, hi)) type_ranges -> lo <= y * f <= hi -> mul_cast t y f = Ok (y * f).
Proof.
  unfold mul_cast. generalize (y * f). intros m. intros H B. simpl in H.
  repeat (destruct H as [H|H]; [injection H as <- <- <-; cbn -[Z.mul Z.add Z.sub Z.modulo Z.leb Z.ltb] in *;
    repeat match goal with |- context [if ?b then _ else _] => destruct b eqn:? end; try lia; f_equal; lia|]). contradiction.
Qed.
Lemma quot_range lo hi y f : lo <= 0 <= hi -> 0 < f -> (Z.quot lo f <=? y) && (y <=? Z.quot hi f) = true <-> lo <= y * f <= hi.
Proof.
  intros B F. rewrite andb_true_iff, !Z.leb_le.
  assert (Q1 : Z.quot hi f = hi / f) by (apply Z.quot_div_nonneg; lia).
  assert (Q2 : Z.quot lo f = - (- lo / f)).
  { rewrite <- (Z.opp_involutive lo) at 1. rewrite Z.quot_opp_l by lia. rewrite Z.quot_div_nonneg by lia. reflexivity. }
  rewrite Q1, Q2. pose proof (Z.div_mod hi f ltac:(lia)). pose proof (Z.mod_pos_bound hi f F).
  pose proof (Z.div_mod (- lo) f ltac:(lia)). pose proof (Z.mod_pos_bound (- lo) f F).
  generalize dependent (hi / f). generalize dependent (hi mod f). generalize dependent (- lo / f). generalize dependent (- lo mod f). intros. split; nia.
Qed.
Lemma has_0x_dec s : has_0x s \/ ~ has_0x s.
Proof.
  destruct s as [|a [|b s]]; try (right; intros (d & E); discriminate).
  destruct (Z.eq_dec a 48), (Z.eq_dec b 120); subst; try (right; intros (d & E); injection E; congruence). left. exists s. reflexivity.
Qed.

Theorem C43_convertInt t lo hi s : In (t, (lo, hi)) type_ranges -> bytes s -> ~ In 0 s -> zlen s < 2 ^ 63 ->
  (exists v, denotes lo hi s v /\ (forall v', denotes lo hi s v' -> v' = v) /\ convertInt t s = Ok (true, Some v)) \/
  ((forall v, ~ denotes lo hi s v) /\ exists w, convertInt t s = Ok (false, w)).
Proof.
  intros Hin Hb N0 LEN. destruct (type_bounds _ _ _ Hin) as (B1 & B2). destruct (types_facts _ _ _ Hin) as (E1 & E2 & E3 & _).
  destruct (has_0x_dec s) as [[d E]|N].
  - subst s. unfold convertInt. change (rd ((48 :: 120 :: d) ++ [0]) 0) with (@Ok Z 48). cbn [bind]. change (48 =? 48) with true. cbv iota.
    change (rd ((48 :: 120 :: d) ++ [0]) 1) with (@Ok Z 120). cbn [bind]. change (120 =? 120) with true. cbv iota.
    change (skipn 2 ((48 :: 120 :: d) ++ [0])) with (d ++ [0]).
    assert (Nd : ~ In 0 d) by (intros H; apply N0; right; now right).
    assert (V : visible (d ++ [0]) size_max = d).
    { apply visible_nul; auto. rewrite !zlen_cons in LEN. unfold size_max. lia. }
    assert (Bd : bytes d) by (inversion Hb; subst; now inversion H2).
    assert (Bd0 : bytes (d ++ [0])) by (apply bytes_app; split; auto; repeat constructor; lia).
    destruct (C03_hextoi_exact t lo hi (d ++ [0]) size_max Hin Bd0) as [Y NO].
    { unfold size_max; lia. } { right. apply in_or_app. right. now left. }
    cbv zeta in *. rewrite V in *.
    assert (U : forall v, denotes lo hi (48 :: 120 :: d) v -> hex_text d v /\ v <= hi).
    { intros v [d' E H1 H2|d' c f w NX|NX]; [injection E as <-; auto| |]; exfalso; apply NX; eexists; reflexivity. }
    assert (D : (d <> [] /\ Forall is_xdigit d /\ hex_value d <= hi) \/ ~ (d <> [] /\ Forall is_xdigit d /\ hex_value d <= hi)).
    { assert (Q : Forall is_xdigit d \/ ~ Forall is_xdigit d).
      { destruct (Forall_dec is_xdigit) with (l := d) as [Q|Q]; auto. intros x. unfold is_xdigit.
        destruct (Z_le_dec 48 x), (Z_le_dec x 57), (Z_le_dec 65 x), (Z_le_dec x 70), (Z_le_dec 97 x), (Z_le_dec x 102); (left; lia) || (right; lia). }
      destruct Q; [|right; tauto]. destruct (Z_le_dec (hex_value d) hi); [|right; tauto]. destruct d; [right; intros (A & _); congruence|left; repeat split; auto; congruence]. }
    destruct D as [D|D].
    + left. destruct (Y D) as (Y1 & _). destruct D as (D1 & D2 & D3). exists (hex_value d). split; [|split].
      * apply DHex with (d := d); auto. split; auto.
      * intros v' H. apply U in H. destruct H as ((_ & _ & ->) & _). reflexivity.
      * rewrite Y1. reflexivity.
    + right. destruct (NO D) as (Y1 & _). split.
      * intros v H. apply U in H. destruct H as ((A & B & ->) & C). tauto.
      * rewrite Y1. eexists. reflexivity.
  - assert (R0 : (let! c0 := rd (s ++ [0]) 0 in (if c0 =? 48 then let! c1 := rd (s ++ [0]) 1 in Ok (c1 =? 120) else Ok false)) = Ok false).
    { destruct s as [|a s]; [reflexivity|]. change (rd ((a :: s) ++ [0]) 0) with (@Ok Z a). cbn [bind]. destruct (a =? 48) eqn:A; [|reflexivity].
      destruct s as [|b s]; [reflexivity|]. change (rd ((a :: b :: s) ++ [0]) 1) with (@Ok Z b). cbn [bind]. destruct (b =? 120) eqn:B; [|reflexivity].
      exfalso. apply N. exists s. f_equal; [|f_equal]; lia. }
    assert (R1 : convertInt t s = (let! (factor, len) := (if 1 <? zlen s then let! c := rd (s ++ [0]) (zlen s - 1) in
       let f := factor_of c in Ok (f, if f =? 1 then zlen s else zlen s - 1) else Ok (1, zlen s)) in
      let! (b, y) := atoi t true (s ++ [0]) len in
      if negb b then Ok (false, None) else
      if 1 <? factor then
        if (Z.quot (t_min t) factor <=? y) && (y <=? Z.quot (t_max t) factor) then
          let! v := mul_cast t y factor in Ok (true, Some v)
        else Ok (false, None)
      else Ok (true, Some y))).
    { unfold convertInt. destruct (rd (s ++ [0]) 0) as [c0| | |]; cbn [bind] in *; try discriminate. rewrite R0. reflexivity. }
    rewrite R1. clear R0 R1.
    assert (AT : forall p r, p ++ r = s ++ [0] -> ~ In 0 p ->
      (exists v, language lo hi p v /\ (forall v', language lo hi p v' -> v' = v) /\ atoi t true (s ++ [0]) (zlen p) = Ok (true, v)) \/
      ((forall v, ~ language lo hi p v) /\ atoi t true (s ++ [0]) (zlen p) = Ok (false, 0))).
    { intros p r EP NP. rewrite <- EP.
      destruct (C02_atoi_exact t lo hi (p ++ r) (zlen p) Hin) as [(v & A1 & A2 & A3 & _)|(A1 & A2 & _)].
      - rewrite EP. apply bytes_app. split; auto. repeat constructor; lia.
      - apply zlen_nonneg.
      - left. rewrite zlen_app. pose proof (zlen_nonneg r). lia.
      - intros _. right. left. rewrite zlen_app. pose proof (zlen_nonneg r). lia.
      - left. rewrite visible_app in A1, A2 by auto. exists v. auto.
      - right. rewrite visible_app in A1 by auto. auto. }
    destruct (list_snoc s) as [->|(d & c & E)].
    + right. split.
      * intros v [d E _ _|d c f w _ E _ _ _ _|_ _ L]; [discriminate|destruct d; discriminate|].
        unfold language, signed_language, unsigned_language, signed_text, unsigned_text in L. destruct (lo <? 0).
        -- destruct L as [([(A & _)|(d & w & A & _)] & _)|(k & d & j & A & _)]; [congruence|discriminate|discriminate].
        -- destruct L as ((A & _) & _). congruence.
      * change (zlen (@nil Z)) with 0. change (1 <? 0) with false. cbv iota. cbn [bind].
        exists None. unfold atoi, convertToInt, convertToUint. destruct (t_signed t); reflexivity.
    + assert (LC : rd (s ++ [0]) (zlen s - 1) = Ok c).
      { rewrite E, <- app_assoc. cbn [app]. apply rd_app_exact'. rewrite zlen_app, zlen_cons, zlen_nil. lia. }
      assert (SUF : forall d' c', s = d' ++ [c'] -> d' = d /\ c' = c). { intros d' c' E'. rewrite E in E'. apply app_inj_tail in E'. destruct E'; auto. }
      destruct (factor_suffix c) as [(F1 & NS)|(FS & FB & FU)].
      * (* no suffix *)
        assert (K : (if 1 <? zlen s then let! c := rd (s ++ [0]) (zlen s - 1) in let f := factor_of c in Ok (f, if f =? 1 then zlen s else zlen s - 1) else Ok (1, zlen s)) = Ok (1, zlen s)).
        { destruct (1 <? zlen s); auto. rewrite LC. cbn [bind]. rewrite F1. reflexivity. }
        rewrite K. cbn [bind].
        assert (NS' : forall d0 c0 f, s = d0 ++ [c0] -> ~ suffix c0 f). { intros d0 c0 f E0. destruct (SUF _ _ E0) as [-> ->]. apply NS. }
        assert (U : forall v, denotes lo hi s v -> language lo hi s v).
        { intros v [d' E' _ _|d' c' f w _ E' SX _ _ _|_ _ L]; auto. - exfalso. apply N. exists d'. auto. - exfalso. eapply NS'; eauto. }
        destruct (AT s [0] eq_refl N0) as [(v & A1 & A2 & A3)|(A1 & A3)]; rewrite A3; cbn [bind negb].
        -- left. exists v. split; [now apply DPlain|]. split; [|reflexivity]. intros v' H. auto.
        -- right. split; [intros v H; eapply A1; eauto|]. eexists; reflexivity.
      * destruct d as [|d0 d].
        -- (* the suffix alone *)
           right. cbn [app] in E. split.
           ++ intros v [d' E' _ _|d' c' f w _ E' SX NU _ _|_ NSX L].
              ** rewrite E in E'. discriminate.
              ** destruct (SUF _ _ E') as [-> _]. unfold number, signed_text, unsigned_text in NU. destruct (lo <? 0).
                 --- destruct NU as [(A & _)|(x & y & A & _)]; [congruence|discriminate].
                 --- destruct NU as (A & _). congruence.
              ** eapply (NSX []); eauto.
           ++ assert (ZL : zlen s = 1) by (rewrite E; reflexivity). rewrite ZL. change (1 <? 1) with false. cbv iota. cbn [bind].
              destruct (AT s [0] eq_refl N0) as [(v & A1 & A2 & A3)|(A1 & A3)]; rewrite ZL in A3; rewrite A3; cbn [bind negb]; [|eexists; reflexivity].
              exfalso. rewrite E in A1. clear - A1 FS B1 B2. unfold language, signed_language, unsigned_language, signed_text, unsigned_text in A1.
              assert (ND : ~ Forall is_digit [c]) by (intros H; inversion H; subst; unfold is_digit, suffix in *; lia).
              destruct (lo <? 0).
              ** destruct A1 as [([(_ & A & _)|(d & w & A & _)] & _)|(k & d & j & A & _)]; [tauto| |]; injection A as -> _; unfold suffix in FS; lia.
              ** destruct A1 as ((_ & A & _) & _). tauto.
        -- assert (ZL : zlen s = zlen (d0 :: d) + 1) by (rewrite E, zlen_app; reflexivity).
           assert (ZP : 1 <= zlen (d0 :: d)) by (rewrite zlen_cons; pose proof (zlen_nonneg d); lia).
           destruct (1 <? zlen s) eqn:L1; [|lia]. rewrite LC. cbn [bind].
           destruct (factor_of c =? 1) eqn:F1; [lia|]. replace (zlen s - 1) with (zlen (d0 :: d)) by lia.
           assert (ND : ~ In 0 (d0 :: d)) by (intros H; apply N0; rewrite E; apply in_or_app; auto).
           assert (EQ : (d0 :: d) ++ [c; 0] = s ++ [0]) by (rewrite E, <- app_assoc; reflexivity).
           set (f := factor_of c) in *. assert (FP : 0 < f) by lia.
           assert (LNG : forall v, language lo hi (d0 :: d) v -> lo <= v * f <= hi -> number lo (d0 :: d) v).
           { intros v L R. unfold language, signed_language, unsigned_language, number in *. destruct (lo <? 0) eqn:LO.
             - destruct L as [(A & _)|(k & x & j & _ & _ & ->)]; auto. nia.
             - destruct L; auto. }
           assert (NUM : forall v, number lo (d0 :: d) v -> lo <= v * f <= hi -> language lo hi (d0 :: d) v).
           { intros v L R. assert (lo <= v <= hi) by nia. unfold language, signed_language, unsigned_language, number in *. destruct (lo <? 0) eqn:LO.
             - left. auto. - split; auto. lia. }
           assert (U : forall v, denotes lo hi s v -> exists w, number lo (d0 :: d) w /\ v = w * f /\ lo <= v <= hi).
           { intros v [d' E' _ _|d' c' f' w _ E' SX NU EV R|_ NSX L].
             - exfalso. apply N. exists d'. auto.
             - destruct (SUF _ _ E') as [-> ->]. apply FU in SX. subst f'. exists w. auto.
             - exfalso. eapply NSX; eauto. }
           assert (QR := quot_range (t_min t) (t_max t)). rewrite E1, E2 in *.
           destruct (AT (d0 :: d) [c; 0] EQ ND) as [(y & A1 & A2 & A3)|(A1 & A3)]; rewrite A3; cbn [bind negb].
           ++ destruct (1 <? f) eqn:F2; [|lia]. destruct (_ && _) eqn:RNG.
              ** apply QR in RNG; try lia. left. exists (y * f). split; [|split].
                 --- eapply DSuffix; eauto.
                 --- intros v' H. apply U in H. destruct H as (w & W1 & -> & W3). f_equal. apply A2. apply NUM; auto.
                 --- rewrite (mul_cast_ok t lo hi) by auto. reflexivity.
              ** right. split; [|eexists; reflexivity]. intros v H. apply U in H. destruct H as (w & W1 & -> & W3).
                 assert (w = y) by (apply A2; apply NUM; auto). subst w. apply QR in W3; lia.
           ++ right. split; [|eexists; reflexivity]. intros v H. apply U in H. destruct H as (w & W1 & -> & W3). eapply A1. apply NUM; eauto.
Qed.

Example C43_nonvacuous :
  convertInt ty_i32 (str "-2M") = Ok (true, Some (-2 * 2 ^ 20)) /\ convertInt ty_i32 (str "2147484k") = Ok (false, None) /\
  convertInt ty_i32 (str "2147483k") = Ok (true, Some 2147483000) /\ convertInt ty_i32 (str "-2147483k") = Ok (true, Some (-2147483000)) /\
  convertInt ty_u64 (str "18014398509481983K") = Ok (true, Some (2 ^ 64 - 1024)) /\ convertInt ty_u64 (str "18014398509481984K") = Ok (false, None) /\
  convertInt ty_u8 (str "0xff") = Ok (true, Some 255) /\ convertInt ty_i8 (str "k") = Ok (false, None) /\
  denotes (- 2 ^ 31) (2 ^ 31 - 1) (str "-2M") (-2 * 2 ^ 20).
Proof.
  repeat match goal with |- _ /\ _ => split; [vm_compute; reflexivity|] end.
  apply DSuffix with (d := str "-2") (c := 77) (f := 2 ^ 20) (w := -2); try reflexivity; try lia.
  - intros (d & E). discriminate.
  - unfold suffix. lia.
  - unfold number. cbn. right. exists [50], 2. split; [reflexivity|]. split; [|reflexivity]. split; [congruence|]. split; [|reflexivity]. repeat constructor; unfold is_digit; lia.
Qed.
(** a rejected hexadecimal value still overwrites the variable with 0 *)
Theorem C43_hex_clobber_finding : convertInt ty_i32 (str "0xzz") = Ok (false, Some 0) /\ convertInt ty_i32 (str "zz") = Ok (false, None).
Proof. split; reflexivity. Qed.

(* ------------------------------------------------------------------ *)
(** * C44: the command line *)
(** ** Specification *)
(** '-' not followed by a digit: what is taken for an option *)
Definition optlike (a : list Z) : Prop := exists r, a = 45 :: r /\ forall d r', r = d :: r' -> ~ 48 <= d <= 57.
Definition dash (n : list Z) : list Z := 45 :: n.
(** what the arguments are taken for *)
Inductive piece := Flag (n : list Z) | Val (n v : list Z) | Many (n : list Z) (vs : list (list Z)) | Pos (v : list Z).
(** the k-th positional argument has somewhere to go *)
Definition taken (o : opt) (k : nat) (v : list Z) : Prop :=
  match nth_error (o_params o) k with Some p => i_acc p v = true | None => o_pmode o = P_variable end.
(** the name part common to all options *)
Definition named (o : opt) (i : info) (m : mode) : Prop :=
  In i (o_infos o) /\ i_mode i = m /\ ~ In (dash (i_name i)) (o_delims o) /\ i_name i <> o_help o.
(** [reads o k args ps e]: after k positionals, the arguments [args] are read as the pieces [ps], leaving [e] *)
Inductive reads (o : opt) : nat -> list (list Z) -> list piece -> list (list Z) -> Prop :=
| RDone k e : reads o k e [] e
| RFlag k i r ps e : named o i N_is0 -> i_acc i [49] = true -> reads o k r ps e ->
    reads o k (dash (i_name i) :: r) (Flag (i_name i) :: ps) e
| RVal k i v r ps e : named o i N_is1 -> i_acc i v = true -> reads o k r ps e ->
    reads o k (dash (i_name i) :: v :: r) (Val (i_name i) v :: ps) e
| RMany k i vs r ps e : named o i N_any -> vs <> [] -> Forall (fun v => ~ optlike v /\ i_acc i v = true) vs ->
    (forall a r', r = a :: r' -> optlike a) -> reads o k r ps e ->
    reads o k (dash (i_name i) :: vs ++ r) (Many (i_name i) vs :: ps) e
| RPos k v r ps e : ~ In v (o_delims o) -> ~ optlike v -> taken o k v -> reads o (S k) r ps e ->
    reads o k (v :: r) (Pos v :: ps) e.
(** reading stops at the end or at a delimiter *)
Definition finished (o : opt) (e : list (list Z)) : Prop := match e with [] => True | d :: _ => In d (o_delims o) end.
(** values given to option n, and the positional arguments, in order *)
Definition values_for (n : list Z) (ps : list piece) : list (list Z) :=
  flat_map (fun p => match p with
                     | Flag m => if str_eq n m then [[49]] else []
                     | Val m v => if str_eq n m then [v] else []
                     | Many m vs => if str_eq n m then vs else []
                     | Pos _ => [] end) ps.
Definition positionals (ps : list piece) : list (list Z) := flat_map (fun p => match p with Pos v => [v] | _ => [] end) ps.
(** every mandatory option and parameter is given *)
Definition complete (o : opt) (ps : list piece) : Prop :=
  (forall i, In i (o_infos o) -> i_must i = true -> values_for (i_name i) ps <> []) /\
  (forall k p, nth_error (o_params o) k = Some p -> i_must p = true -> (k < length (positionals ps))%nat).
(** the Option afterwards *)
Definition nonempty {A} (l : list A) : bool := match l with [] => false | _ => true end.
Definition give (i : info) (vs : list (list Z)) : info :=
  mk_info (i_name i) (i_mode i) (i_must i) (i_acc i) (i_set i || nonempty vs) (i_got i ++ vs).
Fixpoint give_params (l : list info) (vs : list (list Z)) : list info :=
  match l, vs with
  | p :: l', v :: vs' => give p [v] :: give_params l' vs'
  | _, _ => l
  end.
(** the variable-length parameter keeps the values its type accepts; others are dropped without notice *)
Definition give_rest (i : info) (vs : list (list Z)) : info :=
  mk_info (i_name i) (i_mode i) (i_must i) (i_acc i) (i_set i || nonempty vs) (i_got i ++ filter (i_acc i) vs).
Definition assigned (o : opt) (ps : list piece) : opt :=
  mk_opt (map (fun i => give i (values_for (i_name i) ps)) (o_infos o)) (give_params (o_params o) (positionals ps)) (o_pmode o)
         (give_rest (o_remains o) (skipn (length (o_params o)) (positionals ps))) (o_help o) (o_delims o) (o_keep o).

(** options as a program declares them *)
Inductive declared : opt -> Prop :=
| DNew : declared opt_new
| DSub o m must n acc o' : declared o -> appendSub o m must n acc = Ok o' -> declared o'
| DParam o n acc o' : declared o -> appendParam o n acc = Ok o' -> declared o'
| DParamOpt o n acc o' : declared o -> appendParamOpt o n acc = Ok o' -> declared o'
| DParamVec o n acc o' : declared o -> appendParamVec o n acc = Ok o' -> declared o'
| DHelp o n : declared o -> declared (appendHelp o n)
| DDelim o d b : declared o -> declared (setDelimiter o d b)
| DDelim2 o d : declared o -> declared (appendDelimiter o d)
| DClear o : declared o -> declared (clearDelimiterList o).

(** ** Proof *)
Definition unset (i : info) : Prop := i_set i = false /\ i_got i = [].
Definition wfo (o : opt) : Prop :=
  NoDup (map i_name (o_infos o)) /\ Forall (fun i => optlike (dash (i_name i))) (o_infos o) /\
  Forall unset (o_infos o) /\ Forall unset (o_params o) /\ unset (o_remains o) /\ i_must (o_remains o) = false.

Lemma find_opt_some l n j : find_opt l n = Some j -> exists i, nth_error l j = Some i /\ i_name i = n.
Proof.
  revert j. induction l as [|i l IH]; intros j H; cbn [find_opt] in H; [discriminate|]. destruct (str_eq n (i_name i)) eqn:E.
  - injection H as <-. exists i. split; auto. symmetry. now apply str_eq_iff.
  - destruct (find_opt l n) as [j'|]; [|discriminate]. injection H as <-. apply (IH j'). reflexivity.
Qed.
Lemma find_opt_none l n : find_opt l n = None -> forall i, In i l -> i_name i <> n.
Proof.
  induction l as [|i l IH]; intros H j I; [destruct I|]. cbn [find_opt] in H. destruct (str_eq n (i_name i)) eqn:E; [discriminate|].
  destruct (find_opt l n) eqn:F; [discriminate|]. destruct I as [<-|I]; [|auto]. intros <-. rewrite str_eq_refl in E. discriminate.
Qed.
Lemma find_opt_in l i : NoDup (map i_name l) -> In i l -> exists j, find_opt l (i_name i) = Some j /\ nth_error l j = Some i.
Proof.
  induction l as [|x l IH]; intros N I; [destruct I|]. inversion N; subst. cbn [find_opt]. destruct (str_eq (i_name i) (i_name x)) eqn:E.
  - apply str_eq_iff in E. destruct I as [->|I]; [exists O; auto|]. exfalso. apply H1. rewrite <- E. now apply in_map.
  - destruct I as [->|I]; [rewrite str_eq_refl in E; discriminate|]. destruct (IH H2 I) as (j & A & B). exists (S j). rewrite A. auto.
Qed.
Lemma declared_wf o : declared o -> wfo o.
Proof.
  induction 1 as [|o m must n acc o' _ IH E|o n acc o' _ IH E|o n acc o' _ IH E|o n acc o' _ IH E|o n _ IH|o d b _ IH|o d _ IH|o _ IH].
  - repeat split; constructor.
  - destruct IH as (A1 & A2 & A3 & A4 & A5 & A6). unfold appendSub in E. destruct (rd (n ++ [0]) 0) as [c| | |] eqn:R; cbn [bind] in E; try discriminate.
    destruct ((48 <=? c) && (c <=? 57)) eqn:D; [discriminate|]. destruct (find_opt (o_infos o) n) eqn:F; [discriminate|]. injection E as <-.
    unfold wfo. cbn [o_infos o_params o_remains]. split; [|split; [|split]]; auto.
    + rewrite map_app. cbn [map]. apply NoDup_remove_1 with (l' := []) (a := n) || idtac.
      assert (Q : ~ In n (map i_name (o_infos o))). { intros I. apply in_map_iff in I. destruct I as (i & E & I). eapply find_opt_none; eauto. }
      clear - A1 Q. induction (map i_name (o_infos o)) as [|x l IH]; cbn; [repeat constructor; auto|]. inversion A1; subst. constructor.
      * intros I. apply in_app_iff in I. cbn in I. destruct I as [I|[I|[]]]; auto. apply Q. left. auto.
      * apply IH; auto. intros I. apply Q. now right.
    + apply Forall_app. split; auto. constructor; auto. cbn [i_name]. exists n. split; auto. intros d r' ->. injection R as ->. lia.
    + apply Forall_app. split; auto. repeat constructor.
  - destruct IH as (A1 & A2 & A3 & A4 & A5). unfold appendParam in E. destruct verifyParamMode; [|discriminate]. injection E as <-.
    split; [|split; [|split; [|split]]]; auto. cbn [o_params]. apply Forall_app. split; auto. repeat constructor.
  - destruct IH as (A1 & A2 & A3 & A4 & A5). unfold appendParamOpt in E. destruct verifyParamMode; [|discriminate]. injection E as <-.
    split; [|split; [|split; [|split]]]; auto. cbn [o_params]. apply Forall_app. split; auto. repeat constructor.
  - destruct IH as (A1 & A2 & A3 & A4 & A5). unfold appendParamVec in E. destruct verifyParamMode; [|discriminate]. injection E as <-.
    split; [|split; [|split; [|split]]]; auto. repeat constructor.
  - exact IH.
  - exact IH.
  - exact IH.
  - exact IH.
Qed.

Lemma isOpt_iff a : isOpt a = true <-> optlike a.
Proof.
  unfold optlike. destruct a as [|c r]; cbn [isOpt].
  - split; [discriminate|]. intros (r & E & _). discriminate.
  - destruct (c =? 45) eqn:E.
    + apply Z.eqb_eq in E. subst c. destruct r as [|d r].
      * split; auto. intros _. exists []. split; auto. discriminate.
      * split.
        -- intros H. exists (d :: r). split; auto. intros d' r' [= <- <-]. lia.
        -- intros (r0 & E & H). injection E as <-. specialize (H d r eq_refl). lia.
    + split; [discriminate|]. intros (r' & E' & _). injection E' as -> _. lia.
Qed.
Lemma isOpt_false a : isOpt a = false <-> ~ optlike a.
Proof. rewrite <- isOpt_iff. destruct (isOpt a); split; congruence. Qed.
Lemma inDelimiters_iff o a : inDelimiters o a = true <-> In a (o_delims o).
Proof.
  unfold inDelimiters. rewrite existsb_exists. split.
  - intros (x & I & E). apply str_eq_iff in E. now subst.
  - intros I. exists a. split; auto. apply str_eq_refl.
Qed.
Lemma inDelimiters_false o a : inDelimiters o a = false <-> ~ In a (o_delims o).
Proof. rewrite <- inDelimiters_iff. destruct (inDelimiters o a); split; congruence. Qed.

Lemma give_nil i : unset i -> give i [] = i.
Proof. intros [A B]. destruct i as [n m mu acc s g]. cbn in *. subst. reflexivity. Qed.
Lemma give_give i a b : give (give i a) b = give i (a ++ b).
Proof. unfold give. cbn [i_name i_mode i_must i_acc i_set i_got]. rewrite app_assoc. f_equal. destruct a, b, (i_set i); reflexivity. Qed.
Lemma var_set_give i v : i_acc i v = true -> var_set i v = (give i [v], true).
Proof. intros H. unfold var_set, give. rewrite H. cbn [nonempty]. now rewrite orb_true_r. Qed.
Lemma var_set_bad i v : i_acc i v = false -> snd (var_set i v) = false.
Proof. intros H. unfold var_set. now rewrite H. Qed.
Lemma values_app n a b : values_for n (a ++ b) = values_for n a ++ values_for n b.
Proof. apply flat_map_app. Qed.
Lemma positionals_app a b : positionals (a ++ b) = positionals a ++ positionals b.
Proof. apply flat_map_app. Qed.

Lemma find_opt_map (f : info -> info) l n : (forall i, i_name (f i) = i_name i) -> find_opt (map f l) n = find_opt l n.
Proof. intros H. induction l as [|i l IH]; cbn; auto. now rewrite H, IH. Qed.
Lemma upd_map_name (f g : info -> info) l j i : NoDup (map i_name l) -> nth_error l j = Some i ->
  (forall x, i_name x <> i_name i -> g x = f x) -> upd (map f l) j (g i) = map g l.
Proof.
  revert j. induction l as [|x l IH]; intros [|j] N E H; cbn in *; try discriminate.
  - injection E as ->. f_equal. inversion N; subst. apply map_ext_in. intros y I. symmetry. apply H. intros Q. apply H2. rewrite <- Q. now apply in_map.
  - inversion N; subst. f_equal; [|now apply IH]. symmetry. apply H. intros Q. apply H2. rewrite Q. apply in_map. eapply nth_error_In; eauto.
Qed.
Lemma nth_error_rd {A} (l : list A) j x : nth_error l j = Some x -> rd l (Z.of_nat j) = Ok x.
Proof. intros H. unfold rd. destruct (_ <? 0) eqn:E; [lia|]. rewrite Nat2Z.id, H. reflexivity. Qed.

(** giving values vs to option i, in terms of [assigned] *)
Lemma assign_opt o done p n vs j i : wfo o -> nth_error (o_infos o) j = Some i -> i_name i = n ->
  (forall m, values_for m [p] = if str_eq m n then vs else []) -> positionals [p] = [] ->
  set_infos (assigned o done) (upd (o_infos (assigned o done)) j (give (give i (values_for n done)) vs)) = assigned o (done ++ [p]).
Proof.
  intros W E N V P. subst n. unfold assigned, set_infos. cbn [o_infos o_params o_pmode o_remains o_help o_delims o_keep].
  rewrite positionals_app, P, app_nil_r. f_equal. rewrite give_give.
  set (g := fun x => give x (values_for (i_name x) (done ++ [p]))).
  replace (give i (values_for (i_name i) done ++ vs)) with (g i).
  - apply upd_map_name; [apply W|exact E|]. intros x NE. unfold g. rewrite values_app, V, str_eq_ne, app_nil_r by exact NE. reflexivity.
  - unfold g. rewrite values_app, V, str_eq_refl. reflexivity.
Qed.
Lemma set_param_spec l : Forall unset l -> forall vs a,
  set_param (give_params l vs) a =
    match nth_error l (length vs) with
    | Some p => if i_acc p a then (give_params l (vs ++ [a]), true, false) else (fst (fst (set_param (give_params l vs) a)), true, true)
    | None => (give_params l vs, false, false)
    end.
Proof.
  induction 1 as [|p l [U1 U2] F IH]; intros [|v vs] a; cbn [give_params set_param nth_error length app]; auto.
  - rewrite U1. destruct (i_acc p a) eqn:A.
    + rewrite var_set_give by auto. cbn [negb]. destruct l; reflexivity.
    + unfold var_set. rewrite A. reflexivity.
  - cbn [give i_set nonempty]. rewrite orb_true_r. specialize (IH vs a). destruct (nth_error l (length vs)) as [q|].
    + destruct (i_acc q a).
      * rewrite IH. reflexivity.
      * rewrite IH. cbn [fst]. reflexivity.
    + rewrite IH. reflexivity.
Qed.
Lemma give_params_long l vs a : (length l <= length vs)%nat -> give_params l (vs ++ [a]) = give_params l vs.
Proof. revert vs. induction l as [|p l IH]; intros [|v vs] L; cbn in *; auto; try lia. f_equal. apply IH. lia. Qed.
Lemma give_rest_snoc i vs a : give_rest i (vs ++ [a]) = fst (var_set (give_rest i vs) a).
Proof.
  unfold give_rest, var_set. cbn [i_name i_mode i_must i_acc i_set i_got fst]. rewrite filter_app. f_equal.
  - destruct vs; cbn; now rewrite orb_true_r.
  - cbn [filter]. destruct (i_acc i a); [now rewrite app_assoc|now rewrite app_nil_r].
Qed.
Lemma give_rest_nil i : unset i -> give_rest i [] = i.
Proof. intros [A B]. destruct i as [n m mu acc s g]. cbn in *. subst. reflexivity. Qed.

Lemma rd_skipn {A} (l : list A) pos a r : 0 <= pos -> skipn (Z.to_nat pos) l = a :: r ->
  rd l pos = Ok a /\ pos < zlen l /\ skipn (Z.to_nat (pos + 1)) l = r /\ zlen l = pos + 1 + zlen r.
Proof.
  intros P H. assert (L : (Z.to_nat pos < length l)%nat).
  { destruct (Nat.lt_ge_cases (Z.to_nat pos) (length l)); auto. rewrite skipn_all2 in H by lia. discriminate. }
  assert (E : l = firstn (Z.to_nat pos) l ++ a :: r) by (rewrite <- H; symmetry; apply firstn_skipn).
  assert (F : length (firstn (Z.to_nat pos) l) = Z.to_nat pos) by (rewrite firstn_length; lia).
  split; [|split; [unfold zlen; lia|split]].
  - rewrite E at 1. apply rd_app_exact'. unfold zlen. lia.
  - replace (Z.to_nat (pos + 1)) with (1 + Z.to_nat pos)%nat by lia. rewrite <- skipn_skipn, H. reflexivity.
  - apply (f_equal zlen) in E. rewrite zlen_app, zlen_cons in E. unfold zlen at 2 in E. lia.
Qed.
Lemma skipn_nil_len {A} (l : list A) pos : 0 <= pos -> skipn (Z.to_nat pos) l = [] -> zlen l <= pos.
Proof. intros P H. apply (f_equal (@length A)) in H. rewrite skipn_length in H. cbn in H. unfold zlen. lia. Qed.

Lemma any_loop_run vs r argv : forall f pos i j, 0 <= pos -> skipn (Z.to_nat pos) argv = vs ++ r -> (length vs < f)%nat ->
  Forall (fun v => ~ optlike v /\ i_acc i v = true) vs -> (forall a r', r = a :: r' -> optlike a) ->
  any_loop f argv pos i j = Ok (Some (fst (fold_left (fun s v => var_set (fst s) v) vs (i, true)), pos + zlen vs, j + zlen vs)).
Proof.
  induction vs as [|v vs IH]; intros f pos i j P S F A E; (destruct f as [|f]; [cbn in F; lia|]); cbn [any_loop fold_left fst app] in *.
  - rewrite zlen_nil, !Z.add_0_r. destruct r as [|a r].
    + apply skipn_nil_len in S; auto. destruct (pos <? zlen argv) eqn:L; [lia|]. reflexivity.
    + destruct (rd_skipn _ _ _ _ P S) as (R & L & _). destruct (pos <? zlen argv) eqn:Q; [|lia]. rewrite R. cbn [bind].
      rewrite (proj2 (isOpt_iff a)); [reflexivity|eauto].
  - destruct (rd_skipn _ _ _ _ P S) as (R & L & S' & _). destruct (pos <? zlen argv) eqn:Q; [|lia]. rewrite R. cbn [bind].
    inversion A as [|? ? [A1 A2] A3]; subst. rewrite (proj2 (isOpt_false v)) by auto. rewrite (var_set_give i v) by auto. cbn [fst].
    rewrite IH with (f := f); auto; try lia.
    + rewrite zlen_cons. f_equal. f_equal. f_equal; [f_equal|]; lia.
    + cbn in F. lia.
Qed.
Lemma fold_give vs i : Forall (fun v => i_acc i v = true) vs -> i_set i = true -> fst (fold_left (fun s v => var_set (fst s) v) vs (i, true)) = give i vs.
Proof.
  intros F. revert i F. induction vs as [|v vs IH]; intros i F S; cbn [fold_left fst].
  - unfold give. cbn [nonempty]. rewrite app_nil_r, S. destruct i. cbn in *. subst. reflexivity.
  - inversion F; subst. rewrite var_set_give by auto. rewrite IH.
    + rewrite give_give. reflexivity.
    + exact H2.
    + cbn. now rewrite orb_true_r.
Qed.
Lemma fold_give1 vs i : vs <> [] -> Forall (fun v => i_acc i v = true) vs -> fst (fold_left (fun s v => var_set (fst s) v) vs (i, true)) = give i vs.
Proof.
  intros N F. destruct vs as [|v vs]; [congruence|]. cbn [fold_left fst]. inversion F; subst. rewrite var_set_give by auto. rewrite fold_give.
  - rewrite give_give. reflexivity.
  - exact H2.
  - cbn. now rewrite orb_true_r.
Qed.
(** the general shape of the loop: the longest run of non-option values, or a rejection *)
Lemma any_loop_split argv : forall f pos i j args, 0 <= pos -> skipn (Z.to_nat pos) argv = args -> (length args < f)%nat ->
  any_loop f argv pos i j = Ok None \/
  exists vs r, args = vs ++ r /\ Forall (fun v => ~ optlike v /\ i_acc i v = true) vs /\ (forall a r', r = a :: r' -> optlike a).
Proof.
  induction f as [|f IH]; intros pos i j args P S F; [lia|]. cbn [any_loop]. destruct args as [|a args].
  - right. exists [], []. repeat split; auto. discriminate.
  - destruct (rd_skipn _ _ _ _ P S) as (R & L & S' & _). destruct (pos <? zlen argv) eqn:Q; [|lia]. rewrite R. cbn [bind].
    destruct (isOpt a) eqn:O.
    + right. exists [], (a :: args). repeat split; auto. intros b r' [= <- <-]. now apply isOpt_iff.
    + destruct (i_acc i a) eqn:A.
      * rewrite var_set_give by auto. destruct (IH (pos + 1) (give i [a]) (j + 1) args) as [H|(vs & r & E & FA & EN)]; auto; try lia.
        -- cbn in F. lia.
        -- right. exists (a :: vs), r. split; [cbn; congruence|]. split; auto. constructor; auto. split; auto. now apply isOpt_false.
      * left. unfold var_set. rewrite A. reflexivity.
Qed.

Definition final (o : opt) (argv : list (list Z)) (e : list (list Z)) : pres :=
  if all_must o then match e with [] => PTrue o (zlen argv) [] | _ :: rest => PTrue o (zlen argv - zlen rest) (if o_keep o then rest else []) end else PFalse.

(** one piece is consumed *)
Lemma step o done f argv pos args p r k : wfo o -> 0 <= pos -> skipn (Z.to_nat pos) argv = args -> (length args < S f)%nat ->
  zlen argv <= pos + zlen args -> k = length (positionals done) -> reads o k args [p] r ->
  exists pos', 0 <= pos' /\ skipn (Z.to_nat pos') argv = r /\ (length r < f)%nat /\ zlen argv <= pos' + zlen r /\
    parse_loop (S f) (assigned o done) argv pos = parse_loop f (assigned o (done ++ [p])) argv pos'.
Proof.
  intros W P S F LA K R. cbn [parse_loop].
  inversion R as [|? i r0 ? ? NM AC RR|? i v r0 ? ? NM AC RR|? i vs r0 ? ? NM NE FA EN RR|? v r0 ? ? ND NO TK RR]; clear R;
    match goal with H : _ = args |- _ => rewrite <- H in S, F, LA; clear H end; subst.
  - (* flag *)
    inversion RR; subst. destruct NM as (I & M & D & H).
    destruct (rd_skipn _ _ _ _ P S) as (RD & L & S' & ZL). destruct (pos <? zlen argv) eqn:Q; [|lia]. rewrite RD. cbn [bind].
    change (inDelimiters (assigned o done) (dash (i_name i))) with (inDelimiters o (dash (i_name i))). rewrite (proj2 (inDelimiters_false _ _) D).
    rewrite (proj2 (isOpt_iff _)); [|destruct W as (_ & W & _); rewrite Forall_forall in W; now apply W].
    change (skipn 1 (dash (i_name i))) with (i_name i). change (o_help (assigned o done)) with (o_help o). rewrite str_eq_ne by congruence.
    change (o_infos (assigned o done)) with (map (fun i => give i (values_for (i_name i) done)) (o_infos o)).
    rewrite find_opt_map by reflexivity. destruct (find_opt_in (o_infos o) i) as (j & FJ & NJ); [apply W|auto|]. rewrite FJ.
    rewrite (nth_error_rd _ _ (give i (values_for (i_name i) done))) by (rewrite nth_error_map, NJ; reflexivity). cbn [bind].
    cbn [give i_mode]. rewrite M. change (mk_info (i_name i) (i_mode i) (i_must i) (i_acc i) (i_set i || nonempty (values_for (i_name i) done)) (i_got i ++ values_for (i_name i) done)) with (give i (values_for (i_name i) done)).
    rewrite var_set_give by exact AC. exists (pos + 1). split; [lia|]. split; auto. split; [cbn in F; lia|]. split; [lia|].
    f_equal. change (map (fun i => give i (values_for (i_name i) done)) (o_infos o)) with (o_infos (assigned o done)).
    apply (assign_opt o done (Flag (i_name i)) (i_name i) [[49]]); auto. intros m. cbn. destruct (str_eq m (i_name i)); reflexivity.
  - (* value *)
    inversion RR; subst. destruct NM as (I & M & D & H).
    destruct (rd_skipn _ _ _ _ P S) as (RD & L & S' & ZL). destruct (pos <? zlen argv) eqn:Q; [|lia]. rewrite RD. cbn [bind].
    destruct (rd_skipn _ _ _ _ (ltac:(lia) : 0 <= pos + 1) S') as (RD2 & L2 & S2 & ZL2).
    change (inDelimiters (assigned o done) (dash (i_name i))) with (inDelimiters o (dash (i_name i))). rewrite (proj2 (inDelimiters_false _ _) D).
    rewrite (proj2 (isOpt_iff _)); [|destruct W as (_ & W & _); rewrite Forall_forall in W; now apply W].
    change (skipn 1 (dash (i_name i))) with (i_name i). change (o_help (assigned o done)) with (o_help o). rewrite str_eq_ne by congruence.
    change (o_infos (assigned o done)) with (map (fun i => give i (values_for (i_name i) done)) (o_infos o)).
    rewrite find_opt_map by reflexivity. destruct (find_opt_in (o_infos o) i) as (j & FJ & NJ); [apply W|auto|]. rewrite FJ.
    rewrite (nth_error_rd _ _ (give i (values_for (i_name i) done))) by (rewrite nth_error_map, NJ; reflexivity). cbn [bind].
    cbn [give i_mode]. rewrite M. change (mk_info (i_name i) (i_mode i) (i_must i) (i_acc i) (i_set i || nonempty (values_for (i_name i) done)) (i_got i ++ values_for (i_name i) done)) with (give i (values_for (i_name i) done)).
    destruct (pos + 1 =? zlen argv) eqn:Q2; [lia|]. rewrite RD2. cbn [bind].
    rewrite var_set_give by exact AC. exists (pos + 1 + 1). split; [lia|]. split; auto. split; [cbn in F; lia|]. split; [lia|].
    f_equal. change (map (fun i => give i (values_for (i_name i) done)) (o_infos o)) with (o_infos (assigned o done)).
    apply (assign_opt o done (Val (i_name i) v) (i_name i) [v]); auto. intros m. cbn. destruct (str_eq m (i_name i)); reflexivity.
  - (* many *)
    inversion RR; subst. destruct NM as (I & M & D & H).
    destruct (rd_skipn _ _ _ _ P S) as (RD & L & S' & ZL). destruct (pos <? zlen argv) eqn:Q; [|lia]. rewrite RD. cbn [bind].
    change (inDelimiters (assigned o done) (dash (i_name i))) with (inDelimiters o (dash (i_name i))). rewrite (proj2 (inDelimiters_false _ _) D).
    rewrite (proj2 (isOpt_iff _)); [|destruct W as (_ & W & _); rewrite Forall_forall in W; now apply W].
    change (skipn 1 (dash (i_name i))) with (i_name i). change (o_help (assigned o done)) with (o_help o). rewrite str_eq_ne by congruence.
    change (o_infos (assigned o done)) with (map (fun i => give i (values_for (i_name i) done)) (o_infos o)).
    rewrite find_opt_map by reflexivity. destruct (find_opt_in (o_infos o) i) as (j & FJ & NJ); [apply W|auto|]. rewrite FJ.
    rewrite (nth_error_rd _ _ (give i (values_for (i_name i) done))) by (rewrite nth_error_map, NJ; reflexivity). cbn [bind].
    cbn [give i_mode]. rewrite M. change (mk_info (i_name i) (i_mode i) (i_must i) (i_acc i) (i_set i || nonempty (values_for (i_name i) done)) (i_got i ++ values_for (i_name i) done)) with (give i (values_for (i_name i) done)).
    assert (LV : (length vs < Datatypes.S (length argv))%nat). { apply (f_equal zlen) in S'. rewrite zlen_app in S'. pose proof (zlen_nonneg r). unfold zlen in *. rewrite skipn_length in S'. lia. }
    rewrite (any_loop_run vs r argv _ (pos + 1) (give i (values_for (i_name i) done)) 0) by (auto; lia). cbn [bind].
    rewrite fold_give1; [|exact NE|eapply Forall_impl; [|exact FA]; cbn; tauto].
    assert (ZV : 1 <= zlen vs) by (destruct vs; [congruence|rewrite zlen_cons; pose proof (zlen_nonneg vs); lia]).
    destruct (0 <? 0 + zlen vs) eqn:Q3; [|lia].
    exists (pos + 1 + zlen vs). split; [lia|]. split; [|split; [cbn in F; rewrite app_length in F; lia|split; [rewrite zlen_app in ZL; lia|]]].
    + replace (Z.to_nat (pos + 1 + zlen vs)) with (length vs + Z.to_nat (pos + 1))%nat by (unfold zlen; lia). rewrite <- skipn_skipn, S'. apply skipn_app_exact.
    + f_equal; [|lia]. change (map (fun i => give i (values_for (i_name i) done)) (o_infos o)) with (o_infos (assigned o done)).
      apply (assign_opt o done (Many (i_name i) vs) (i_name i) vs); auto. intros m. cbn. rewrite app_nil_r. reflexivity.
  - (* positional *)
    inversion RR; subst.
    destruct (rd_skipn _ _ _ _ P S) as (RD & L & S' & ZL). destruct (pos <? zlen argv) eqn:Q; [|lia]. rewrite RD. cbn [bind].
    change (inDelimiters (assigned o done) v) with (inDelimiters o v). rewrite (proj2 (inDelimiters_false _ _) ND), (proj2 (isOpt_false _) NO).
    change (o_params (assigned o done)) with (give_params (o_params o) (positionals done)).
    rewrite set_param_spec by apply W. unfold taken in TK.
    exists (pos + 1). split; [lia|]. split; auto. split; [cbn in F; lia|]. split; [lia|].
    destruct (nth_error (o_params o) (length (positionals done))) as [p|] eqn:NP.
    + rewrite TK. f_equal. unfold set_params, assigned. cbn [o_infos o_params o_pmode o_remains o_help o_delims o_keep].
      assert (NL : (length (positionals done) < length (o_params o))%nat) by (apply nth_error_Some; congruence).
      rewrite positionals_app. f_equal.
      * apply map_ext. intros i. rewrite values_app. cbn [values_for flat_map]. now rewrite app_nil_r.
      * cbn [positionals flat_map app]. rewrite !skipn_all2; auto; try rewrite app_length; cbn; lia.
    + apply nth_error_None in NP. change (o_pmode (assigned o done)) with (o_pmode o). rewrite TK. f_equal.
      unfold set_remains, assigned. cbn [o_infos o_params o_pmode o_remains o_help o_delims o_keep].
      rewrite positionals_app. cbn [positionals flat_map app]. f_equal.
      * apply map_ext. intros i. rewrite values_app. cbn [values_for flat_map]. now rewrite app_nil_r.
      * symmetry. now apply give_params_long.
      * rewrite skipn_app. replace (length (o_params o) - length (positionals done))%nat with O by lia. cbn [skipn]. now rewrite give_rest_snoc.
Qed.
Lemma reads_cons o k args p ps e : reads o k args (p :: ps) e ->
  exists r, reads o k args [p] r /\ reads o (k + length (positionals [p])) r ps e.
Proof.
  intros R. inversion R; subst.
  - exists r. split; [repeat (constructor; auto)|]. cbn. now rewrite Nat.add_0_r.
  - exists r. split; [repeat (constructor; auto)|]. cbn. now rewrite Nat.add_0_r.
  - exists r. split; [repeat (constructor; auto)|]. cbn. now rewrite Nat.add_0_r.
  - exists r. split; [repeat (constructor; auto)|]. cbn. now rewrite Nat.add_1_r.
Qed.
Lemma reads_app1 o k args p r ps e : reads o k args [p] r -> reads o (k + length (positionals [p])) r ps e -> reads o k args (p :: ps) e.
Proof.
  intros R R2. inversion R; subst; match goal with H : reads _ _ _ [] _ |- _ => inversion H; subst end; cbn in R2; rewrite ?Nat.add_0_r, ?Nat.add_1_r in R2; constructor; auto.
Qed.
Lemma run o argv ps : wfo o -> forall done f pos args e k, 0 <= pos -> skipn (Z.to_nat pos) argv = args -> (length args < f)%nat ->
  zlen argv <= pos + zlen args -> k = length (positionals done) -> reads o k args ps e ->
  exists f' pos', 0 <= pos' /\ skipn (Z.to_nat pos') argv = e /\ (length e < f')%nat /\ zlen argv <= pos' + zlen e /\
    parse_loop f (assigned o done) argv pos = parse_loop f' (assigned o (done ++ ps)) argv pos'.
Proof.
  intros W. induction ps as [|p ps IH]; intros done f pos args e k P S F LA K R.
  - inversion R; subst. exists f, pos. rewrite app_nil_r. auto 10.
  - destruct (reads_cons _ _ _ _ _ _ R) as (r & R1 & R2). destruct f as [|f]; [lia|].
    destruct (step o done f argv pos args p r k) as (pos1 & P1 & S1 & F1 & LA1 & E1); auto.

    destruct (IH (done ++ [p]) f pos1 r e (k + length (positionals [p]))%nat) as (f' & pos' & P' & S' & F' & L' & E'); auto.
    { rewrite positionals_app, app_length. lia. }
    exists f', pos'. rewrite E1, E', <- app_assoc. auto 10.
Qed.

Definition help_at (o : opt) (e : list (list Z)) : Prop :=
  match e with a :: _ => a = dash (o_help o) /\ optlike a /\ ~ In a (o_delims o) | [] => False end.
Lemma loop_finished o st argv pos e f : o_delims st = o_delims o -> 0 <= pos -> skipn (Z.to_nat pos) argv = e -> (length e < f)%nat -> zlen argv <= pos + zlen e ->
  finished o e -> parse_loop f st argv pos = Ok (final st argv e).
Proof.
  intros D P S F L FI. destruct f as [|f]; [lia|]. cbn [parse_loop]. unfold final. destruct e as [|d rest].
  - apply skipn_nil_len in S; auto. destruct (pos <? zlen argv) eqn:Q; [lia|]. reflexivity.
  - destruct (rd_skipn _ _ _ _ P S) as (RD & L1 & S' & ZL). destruct (pos <? zlen argv) eqn:Q; [|lia]. rewrite RD. cbn [bind].
    assert (DD : inDelimiters st d = true) by (apply inDelimiters_iff; rewrite D; exact FI). rewrite DD.
    rewrite S'. replace (zlen argv - zlen rest) with (pos + 1) by lia. reflexivity.
Qed.
Lemma loop_help o st argv pos e f : o_delims st = o_delims o -> o_help st = o_help o -> 0 <= pos -> skipn (Z.to_nat pos) argv = e -> (length e < f)%nat ->
  help_at o e -> parse_loop f st argv pos = Ok PExit.
Proof.
  intros D H P S F HA. destruct f as [|f]; [lia|]. cbn [parse_loop]. destruct e as [|a rest]; [destruct HA|]. destruct HA as (E & O & N).
  destruct (rd_skipn _ _ _ _ P S) as (RD & L1 & S' & ZL). destruct (pos <? zlen argv) eqn:Q; [|lia]. rewrite RD. cbn [bind].
  assert (DD : inDelimiters st a = false) by (apply inDelimiters_false; rewrite D; exact N). rewrite DD, (proj2 (isOpt_iff a) O), H, E.
  change (skipn 1 (dash (o_help o))) with (o_help o). now rewrite str_eq_refl.
Qed.

(** what the loop does on any arguments *)
Lemma loop_cases o argv : wfo o -> forall n done f pos args k, (length args <= n)%nat -> 0 <= pos -> skipn (Z.to_nat pos) argv = args -> (length args < f)%nat ->
  zlen argv <= pos + zlen args -> k = length (positionals done) ->
  parse_loop f (assigned o done) argv pos = Ok PFalse \/
  exists ps e, reads o k args ps e /\ (finished o e \/ help_at o e).
Proof.
  intros W. induction n as [|n IH]; intros done f pos args k LN P S F LA K.
  - destruct args; [|cbn in LN; lia]. right. exists [], []. split; [constructor|left; exact I].
  - destruct args as [|a args]; [right; exists [], []; split; [constructor|left; exact I]|].
    destruct (inDelimiters o a) eqn:DL. { right. exists [], (a :: args). split; [constructor|]. left. now apply inDelimiters_iff. }
    assert (NXT : forall p r, reads o k (a :: args) [p] r -> (length r <= n)%nat ->
       parse_loop f (assigned o done) argv pos = Ok PFalse \/ exists ps e, reads o k (a :: args) ps e /\ (finished o e \/ help_at o e)).
    { intros p r R LR. destruct f as [|f]; [lia|]. destruct (step o done f argv pos (a :: args) p r k) as (pos' & P' & S' & F' & LA' & E); auto.

      destruct (IH (done ++ [p]) f pos' r (k + length (positionals [p]))%nat) as [H|(ps & e & H1 & H2)]; auto.
      - rewrite positionals_app, app_length. lia.
      - left. now rewrite E.
      - right. exists (p :: ps), e. split; auto. eapply reads_app1; eauto. }
    assert (DL' := proj1 (inDelimiters_false _ _) DL).
    destruct f as [|f]; [lia|]. cbn [parse_loop] in *.
    destruct (rd_skipn _ _ _ _ P S) as (RD & L & S' & ZL). destruct (pos <? zlen argv) eqn:Q; [|lia]. rewrite RD in *. cbn [bind] in *.
    change (inDelimiters (assigned o done) a) with (inDelimiters o a) in *. rewrite DL in *.
    destruct (isOpt a) eqn:OP.
    + apply isOpt_iff in OP. destruct OP as (s & EA & OD). subst a. change (skipn 1 (45 :: s)) with s in *. change (o_help (assigned o done)) with (o_help o) in *.
      destruct (str_eq (o_help o) s) eqn:HP.
      { right. exists [], ((45 :: s) :: args). split; [constructor|]. right. apply str_eq_iff in HP. subst s. split; [reflexivity|]. split; auto. exists (o_help o). auto. }
      change (o_infos (assigned o done)) with (map (fun i => give i (values_for (i_name i) done)) (o_infos o)) in *.
      rewrite find_opt_map in * by reflexivity. destruct (find_opt (o_infos o) s) as [j|] eqn:FJ; [|left; reflexivity].
      destruct (find_opt_some _ _ _ FJ) as (i & NJ & NM).
      assert (ND : forall m, i_mode i = m -> named o i m).
      { intros m M. split; [eapply nth_error_In; eauto|]. split; auto. split; [rewrite NM; exact DL'|]. rewrite NM. intros ->. rewrite str_eq_refl in HP. discriminate. }
      rewrite (nth_error_rd _ _ (give i (values_for (i_name i) done))) in * by (rewrite nth_error_map, NJ; reflexivity). cbn [bind] in *.
      change (i_mode (give i (values_for (i_name i) done))) with (i_mode i) in *.
      destruct (i_mode i) eqn:M.
      * destruct (i_acc i [49]) eqn:A; [|left; unfold var_set; cbn [i_acc give]; rewrite A; reflexivity].
        apply (NXT (Flag s) args); [|cbn in LN; lia]. rewrite <- NM. apply RFlag; auto. constructor.
      * destruct (pos + 1 =? zlen argv) eqn:E1; [left; reflexivity|]. destruct args as [|v args]; [rewrite zlen_nil in ZL; lia|].
        destruct (rd_skipn _ _ _ _ (ltac:(lia) : 0 <= pos + 1) S') as (RD2 & L2 & S2 & ZL2). rewrite RD2 in *. cbn [bind] in *.
        destruct (i_acc i v) eqn:A; [|left; unfold var_set; cbn [i_acc give]; rewrite A; reflexivity].
        apply (NXT (Val s v) args); [|cbn in LN; lia]. rewrite <- NM. apply RVal; auto. constructor.
      * destruct (any_loop_split argv (Datatypes.S (length argv)) (pos + 1) (give i (values_for (i_name i) done)) 0 args) as [H|(vs & r & E & FA & EN)]; auto; try lia.
        { apply (f_equal (@length (list Z))) in S'. rewrite skipn_length in S'. lia. }
        { left. rewrite H. reflexivity. }
        destruct vs as [|v vs].
        -- left. rewrite (any_loop_run [] r argv); [|lia|congruence|cbn; lia|constructor|exact EN]. cbn [bind fold_left fst]. rewrite zlen_nil. reflexivity.
        -- apply (NXT (Many s (v :: vs)) r); [|rewrite E in LN; cbn [length] in LN; rewrite app_length in LN; cbn [length] in LN; lia].
           rewrite <- NM, E. apply RMany; auto; try discriminate. constructor.
    + change (o_params (assigned o done)) with (give_params (o_params o) (positionals done)) in *.
      rewrite set_param_spec in * by apply W. subst k.
      assert (TK : taken o (length (positionals done)) a -> reads o (length (positionals done)) (a :: args) [Pos a] args).
      { intros T. apply RPos; auto; [now apply isOpt_false|constructor]. }
      unfold taken in TK. destruct (nth_error (o_params o) (length (positionals done))) as [p|].
      * destruct (i_acc p a) eqn:A; [|left; reflexivity]. apply (NXT (Pos a) args); auto. cbn in LN. lia.
      * change (o_pmode (assigned o done)) with (o_pmode o) in *. destruct (o_pmode o); try (left; reflexivity). apply (NXT (Pos a) args); auto. cbn in LN. lia.
Qed.

Lemma assigned_nil o : wfo o -> assigned o [] = o.
Proof.
  intros (_ & _ & W1 & W2 & W3 & _). unfold assigned. cbn [values_for positionals flat_map]. rewrite skipn_nil, give_rest_nil by auto.
  replace (give_params (o_params o) []) with (o_params o) by (destruct (o_params o); reflexivity).
  replace (map _ (o_infos o)) with (o_infos o); [destruct o; reflexivity|].
  rewrite <- (map_id (o_infos o)) at 1. apply map_ext_in. intros i I. rewrite Forall_forall in W1. now rewrite give_nil by auto.
Qed.
Lemma all_must_iff o ps : wfo o -> all_must (assigned o ps) = true <-> complete o ps.
Proof.
  intros (_ & _ & W1 & W2 & W3 & W4). unfold all_must, complete, assigned. cbn [o_infos o_params o_pmode o_remains].
  assert (M3 : match o_pmode o with P_variable => negb (i_must (give_rest (o_remains o) (skipn (length (o_params o)) (positionals ps))) && negb (i_set (give_rest (o_remains o) (skipn (length (o_params o)) (positionals ps))))) | _ => true end = true).
  { destruct (o_pmode o); auto. cbn [give_rest i_must]. rewrite W4. reflexivity. }
  rewrite M3, andb_true_r, andb_true_iff, !forallb_forall.
  assert (Q1 : (forall x, In x (map (fun i => give i (values_for (i_name i) ps)) (o_infos o)) -> negb (i_must x && negb (i_set x)) = true) <->
               (forall i, In i (o_infos o) -> i_must i = true -> values_for (i_name i) ps <> [])).
  { rewrite Forall_forall in W1. split.
    - intros H i I M. specialize (H _ (in_map _ _ _ I)). cbn [give i_must i_set] in H. rewrite M, (proj1 (W1 i I)) in H. cbn in H.
      destruct (values_for (i_name i) ps); [discriminate|congruence].
    - intros H x I. apply in_map_iff in I. destruct I as (i & <- & I). cbn [give i_must i_set]. rewrite (proj1 (W1 i I)). cbn.
      destruct (i_must i) eqn:M; auto. specialize (H i I M). destruct (values_for (i_name i) ps); [congruence|reflexivity]. }
  assert (Q2 : forall vs, (forall x, In x (give_params (o_params o) vs) -> negb (i_must x && negb (i_set x)) = true) <->
               (forall k p, nth_error (o_params o) k = Some p -> i_must p = true -> (k < length vs)%nat)).
  { clear - W2. induction W2 as [|p l [U1 U2] F IH]; intros vs.
    - split; [intros _ [|k] ? E; discriminate|intros _ x []].
    - destruct vs as [|v vs]; cbn [give_params].
      + split.
        * intros H k q E M. exfalso. assert (I : In q (p :: l)) by (eapply nth_error_In; eauto). specialize (H q I). rewrite M in H.
          assert (U : i_set q = false) by (destruct I as [<-|I]; auto; rewrite Forall_forall in F; now apply F). rewrite U in H. discriminate.
        * intros H x I. apply In_nth_error in I. destruct I as (k & E). destruct (i_must x) eqn:M; auto. specialize (H k x E M). cbn in H. lia.
      + split.
        * intros H [|k] q E M; cbn in *; [lia|]. assert (k < length vs)%nat; [|lia]. eapply (proj1 (IH vs)); eauto.
        * intros H x [<-|I].
          -- cbn [give i_must i_set nonempty]. rewrite orb_true_r. destruct (i_must p); reflexivity.
          -- apply (proj2 (IH vs)); auto. intros k q E M. specialize (H (S k) q E M). cbn in H. lia. }
  rewrite Q1, Q2. reflexivity.
Qed.

(** ** Theorems *)
(** parse succeeds exactly when the arguments read as pieces up to the end or a delimiter, every mandatory item being given;
    then every option variable has received exactly its values in order, the k-th positional argument went to the k-th parameter, the
    others to the variable-length parameter, and the arguments behind the delimiter are left to the caller. *)
Theorem C44_parse o argv start prog : declared o -> 1 <= start <= zlen argv ->
  forall o' next after, parse o argv start prog = Ok (PTrue o' next after) <->
    exists ps e, reads o 0 (skipn (Z.to_nat start) argv) ps e /\ finished o e /\ complete o ps /\ o' = assigned o ps /\
      match e with
      | [] => next = zlen argv /\ after = []
      | _ :: rest => next = zlen argv - zlen rest /\ after = if o_keep o then rest else []
      end.
Proof.
  intros D B o' next after. apply declared_wf in D.
  assert (E0 : parse o argv start prog = parse_loop (S (length argv)) (assigned o []) argv start).
  { unfold parse. destruct (zlen argv <? 1) eqn:E1; [lia|]. destruct (zlen argv <? start) eqn:E2; [lia|]. cbn [orb]. rewrite assigned_nil by auto.
    destruct prog; [reflexivity|]. rewrite (rd_nth argv (start - 1) []) by lia. reflexivity. }
  rewrite E0. clear E0. set (args := skipn (Z.to_nat start) argv).
  assert (F : (length args < S (length argv))%nat) by (unfold args; rewrite skipn_length; lia).
  assert (LA : zlen argv <= start + zlen args) by (unfold args, zlen; rewrite skipn_length; lia).
  assert (FIN : forall ps e, reads o 0 args ps e -> finished o e -> parse_loop (S (length argv)) (assigned o []) argv start = Ok (final (assigned o ps) argv e)).
  { intros ps e R FI. destruct (run o argv ps D [] (S (length argv)) start args e 0%nat) as (f' & pos' & P' & S' & F' & L' & E'); auto; try lia.
    rewrite E'. cbn [app]. apply (loop_finished o); auto. }
  split.
  - intros H. destruct (loop_cases o argv D (length args) [] (S (length argv)) start args 0%nat) as [H'|(ps & e & R & [FI|HA])]; auto; try lia.
    + congruence.
    + exists ps, e. rewrite (FIN ps e R FI) in H. unfold final in H. destruct (all_must (assigned o ps)) eqn:M; [|discriminate].
      split; auto. split; auto. split; [now apply all_must_iff|]. destruct e as [|d rest].
      * injection H as <- <- <-. auto.
      * injection H as <- <- <-. auto.
    + exfalso. destruct (run o argv ps D [] (S (length argv)) start args e 0%nat) as (f' & pos' & P' & S' & F' & L' & E'); auto; try lia.
      rewrite E' in H. rewrite (loop_help o _ argv pos' e f') in H; auto. discriminate.
  - intros (ps & e & R & FI & C & -> & X). rewrite (FIN ps e R FI). unfold final. rewrite (proj2 (all_must_iff o ps D) C).
    destruct e as [|d rest]; destruct X as [-> ->]; reflexivity.
Qed.
(** it exits (after the usage message) exactly when the help option is reached, and otherwise reports failure; nothing else can happen *)
Theorem C44_outcomes o argv start prog : declared o -> 1 <= start <= zlen argv ->
  (parse o argv start prog = Ok PExit <->
     exists ps r, reads o 0 (skipn (Z.to_nat start) argv) ps (dash (o_help o) :: r) /\ optlike (dash (o_help o)) /\ ~ In (dash (o_help o)) (o_delims o)) /\
  ((exists o' next after, parse o argv start prog = Ok (PTrue o' next after)) \/ parse o argv start prog = Ok PExit \/ parse o argv start prog = Ok PFalse).
Proof.
  intros D B. assert (DD := D). apply declared_wf in D.
  assert (E0 : parse o argv start prog = parse_loop (S (length argv)) (assigned o []) argv start).
  { unfold parse. destruct (zlen argv <? 1) eqn:E1; [lia|]. destruct (zlen argv <? start) eqn:E2; [lia|]. cbn [orb]. rewrite assigned_nil by auto.
    destruct prog; [reflexivity|]. rewrite (rd_nth argv (start - 1) []) by lia. reflexivity. }
  set (args := skipn (Z.to_nat start) argv).
  assert (F : (length args < S (length argv))%nat) by (unfold args; rewrite skipn_length; lia).
  assert (LA : zlen argv <= start + zlen args) by (unfold args, zlen; rewrite skipn_length; lia).
  assert (FIN : forall ps e, reads o 0 args ps e -> finished o e -> parse o argv start prog = Ok (final (assigned o ps) argv e)).
  { intros ps e R FI. rewrite E0. destruct (run o argv ps D [] (S (length argv)) start args e 0%nat) as (f' & pos' & P' & S' & F' & L' & E'); auto; try lia.
    rewrite E'. cbn [app]. apply (loop_finished o); auto. }
  assert (HLP : forall ps e, reads o 0 args ps e -> help_at o e -> parse o argv start prog = Ok PExit).
  { intros ps e R HA. rewrite E0. destruct (run o argv ps D [] (S (length argv)) start args e 0%nat) as (f' & pos' & P' & S' & F' & L' & E'); auto; try lia.
    rewrite E'. apply (loop_help o) with (e := e); auto. }
  assert (NF : forall st e, Ok (final st argv e) <> Ok PExit). { intros st e. unfold final. destruct all_must, e; discriminate. }
  split; [split|].
  - intros H. destruct (loop_cases o argv D (length args) [] (S (length argv)) start args 0%nat) as [H'|(ps & e & R & [FI|HA])]; auto; try lia.
    + rewrite E0 in H. congruence.
    + rewrite (FIN ps e R FI) in H. exfalso. eapply NF; eauto.
    + destruct e as [|a r]; [destruct HA|]. destruct HA as (-> & HA). exists ps, r. auto.
  - intros (ps & r & R & O & N). eapply HLP; eauto. split; auto.
  - destruct (loop_cases o argv D (length args) [] (S (length argv)) start args 0%nat) as [H'|(ps & e & R & [FI|HA])]; auto; try lia.
    + right. right. now rewrite E0.
    + rewrite (FIN ps e R FI). unfold final. destruct all_must; [|auto]. left. destruct e; eauto.
    + right. left. eauto.
Qed.

(** the reading is unique *)
Lemma app_munch (vs vs' r r' : list (list Z)) : Forall (fun v => ~ optlike v) vs -> Forall (fun v => ~ optlike v) vs' ->
  (forall a x, r = a :: x -> optlike a) -> (forall a x, r' = a :: x -> optlike a) -> vs ++ r = vs' ++ r' -> vs = vs' /\ r = r'.
Proof.
  intros F. revert vs'. induction F as [|v vs N F IH]; intros vs' F' E E' H.
  - destruct vs' as [|v' vs']; cbn in H; auto. exfalso. subst r. inversion F'; subst. apply H1. eapply E; eauto.
  - destruct vs' as [|v' vs']; cbn in H.
    + exfalso. subst r'. apply N. eapply E'; eauto.
    + injection H as -> H. inversion F'; subst. destruct (IH vs') as [-> ->]; auto.
Qed.
Lemma named_inj o i j m m' : wfo o -> named o i m -> named o j m' -> i_name i = i_name j -> i = j.
Proof.
  intros W (I & _) (J & _) E. destruct (find_opt_in (o_infos o) i) as (a & A1 & A2); [apply W|auto|].
  destruct (find_opt_in (o_infos o) j) as (b & B1 & B2); [apply W|auto|]. rewrite E in A1. congruence.
Qed.
Lemma reads1_unique o k args p r p' r' : wfo o -> reads o k args [p] r -> reads o k args [p'] r' -> p = p' /\ r = r'.
Proof.
  intros W R1 R2.
  assert (OP : forall i m, named o i m -> optlike (dash (i_name i))).
  { intros i m (I & _). destruct W as (_ & W & _). rewrite Forall_forall in W. now apply W. }
  inversion R1 as [|? i r0 ? ? NM AC RR|? i v r0 ? ? NM AC RR|? i vs r0 ? ? NM NE FA EN RR|? v r0 ? ? ND NO TK RR]; subst; inversion RR; subst;
  inversion R2 as [|? i' r0' ? ? NM' AC' RR'|? i' v' r0' ? ? NM' AC' RR'|? i' vs' r0' ? ? NM' NE' FA' EN' RR'|? v' r0' ? ? ND' NO' TK' RR']; subst; inversion RR'; subst;
  try (exfalso; eapply NO'; eauto; fail); try (exfalso; eapply NO; eauto; fail); auto;
  try (match goal with NA : named o ?i ?m, NB : named o ?j ?m', H : i_name ?j = i_name ?i |- _ =>
    assert (EQ : j = i) by (eapply named_inj; eauto); subst j;
    assert (MM : m = m') by (destruct NA as (_ & X & _); destruct NB as (_ & Y & _); congruence); first [discriminate MM|idtac] end; auto).
  destruct (app_munch vs' vs r' r) as [-> ->]; auto; eapply Forall_impl; try eassumption; cbn; tauto.
Qed.
Theorem C44_reading_unique o k args ps e ps' e' : declared o -> reads o k args ps e -> reads o k args ps' e' ->
  finished o e -> finished o e' -> ps = ps' /\ e = e'.
Proof.
  intros D. apply declared_wf in D. revert k args ps'.
  assert (ND : forall k args p r, reads o k args [p] r -> ~ finished o args).
  { intros k args p r R. inversion R; subst; cbn [finished]; auto; match goal with H : named _ _ _ |- _ => now destruct H as (_ & _ & H & _) end. }
  induction ps as [|p ps IH]; intros k args ps' R R' F F'.
  - inversion R; subst. destruct ps' as [|p' ps']; [inversion R'; auto|]. destruct (reads_cons _ _ _ _ _ _ R') as (r & R1 & _). exfalso. eapply ND; eauto.
  - destruct (reads_cons _ _ _ _ _ _ R) as (r & R1 & R2). destruct ps' as [|p' ps'].
    + inversion R'; subst. exfalso. eapply ND; eauto.
    + destruct (reads_cons _ _ _ _ _ _ R') as (r' & R1' & R2'). destruct (reads1_unique _ _ _ _ _ _ _ D R1 R1') as [-> ->].
      destruct (IH _ _ _ R2 R2' F F') as [-> ->]. auto.
Qed.

(** ** A program *)
Definition int_ok (s : list Z) : bool := match convertInt ty_i32 s with Ok (true, _) => true | _ => false end.
Definition any_ok (s : list Z) : bool := true.
Definition demo_opt : opt :=
  match appendBoolOpt opt_new (str "v") (fun s => str_eq s [49]) with Ok o1 =>
  match appendMust o1 (str "n") int_ok with Ok o2 =>
  match appendVec o2 (str "l") int_ok with Ok o3 =>
  match appendParam o3 (str "in") any_ok with Ok o4 =>
  match appendParamVec o4 (str "rest") int_ok with Ok o5 => setDelimiter (appendHelp o5 (str "h")) (str "@") true
  | _ => opt_new end | _ => opt_new end | _ => opt_new end | _ => opt_new end | _ => opt_new end.
Lemma demo_declared : declared demo_opt.
Proof.
  unfold demo_opt.
  destruct (appendBoolOpt opt_new (str "v") (fun s => str_eq s [49])) as [o1| | |] eqn:E1; try constructor.
  destruct (appendMust o1 (str "n") int_ok) as [o2| | |] eqn:E2; try constructor.
  destruct (appendVec o2 (str "l") int_ok) as [o3| | |] eqn:E3; try constructor.
  destruct (appendParam o3 (str "in") any_ok) as [o4| | |] eqn:E4; try constructor.
  destruct (appendParamVec o4 (str "rest") int_ok) as [o5| | |] eqn:E5; try constructor.
  apply DHelp. eapply DParamVec; [|exact E5]. eapply DParam; [|exact E4]. eapply DSub; [|exact E3]. eapply DSub; [|exact E2]. unfold appendBoolOpt in E1. eapply DSub; [|exact E1]. apply DNew.
Qed.
Definition got_of (r : res pres) : option (list (bool * list (list Z)) * list (list (list Z)) * list (list Z) * Z * list (list Z)) :=
  match r with
  | Ok (PTrue o n a) => Some (map (fun i => (i_set i, i_got i)) (o_infos o), map i_got (o_params o), i_got (o_remains o), n, a)
  | _ => None
  end.
Example C44_nonvacuous :
  declared demo_opt /\
  got_of (parse demo_opt ([str "prog"; str "-n"; str "-5"; str "file"; str "-l"; str "1"; str "-2"; str "3k"; str "-v"; str "7"; str "@"; str "x"; str "-n"]) 1 false) =
    Some ([(true, [str "1"]); (true, [str "-5"]); (true, [str "1"; str "-2"; str "3k"])], [[str "file"]], [str "7"], 11, [str "x"; str "-n"]) /\
  parse demo_opt ([str "prog"; str "file"]) 1 false = Ok PFalse /\
  parse demo_opt ([str "prog"; str "-n"; str "1"; str "-z"]) 1 false = Ok PFalse /\
  parse demo_opt ([str "prog"; str "f"; str "-n"]) 1 false = Ok PFalse /\
  parse demo_opt ([str "prog"; str "-n"; str "1"; str "-h"]) 1 false = Ok PExit.
Proof. split; [apply demo_declared|]. vm_compute. repeat split. Qed.

(** values the variable-length parameter cannot convert are dropped and parse still succeeds *)
Theorem C44_bad_rest_finding :
  got_of (parse demo_opt ([str "prog"; str "-n"; str "1"; str "f"; str "12"; str "oops"; str "13"]) 1 false) =
    Some ([(false, []); (true, [str "1"]); (false, [])], [[str "f"]], [str "12"; str "13"], 7, []).
Proof. vm_compute. reflexivity. Qed.
(** a delimiter that does not look like an option is swallowed by a preceding vector option *)
Theorem C44_swallowed_delimiter_finding : exists o, declared o /\ In (str "@") (o_delims o) /\
  got_of (parse o ([str "prog"; str "-s"; str "a"; str "@"; str "b"]) 1 false) = Some ([(true, [str "a"; str "@"; str "b"])], [], [], 5, []).
Proof.
  destruct (appendVec opt_new (str "s") any_ok) as [o| | |] eqn:E; try discriminate. exists (setDelimiter o (str "@") true). injection E as <-. split; [|split].
  - apply DDelim. apply DSub with (o := opt_new) (m := N_any) (must := false) (n := str "s") (acc := any_ok); [apply DNew|reflexivity].
  - cbn. auto.
  - vm_compute. reflexivity.
Qed.
(** without appendHelp, the argument "-" prints the usage and ends the process *)
Theorem C44_dash_exits_finding : declared opt_new /\ parse opt_new ([str "prog"; str "-"]) 1 false = Ok PExit.
Proof. split; [constructor|reflexivity]. Qed.
(** startPos 0 without a program name reads argv[-1] *)
Theorem C44_start0_finding : parse opt_new ([str "a"]) 0 false = UB.
Proof. reflexivity. Qed.

Print Assumptions C43_convertInt.
Print Assumptions C44_parse.
Print Assumptions C44_outcomes.
Print Assumptions C44_reading_unique.
