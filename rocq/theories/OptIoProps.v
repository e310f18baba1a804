(** C106: isSet, operator<< and copies of cybozu::Option (include/cybozu/option.hpp) *)
Require Import Verif.Common Verif.Text Verif.AtoiSpec Verif.AtoiModel Verif.NumProps Verif.ItoaProof Verif.ConfigModel Verif.ConfigProps
  Verif.OptionModel Verif.OptionProps Verif.OptIoModel.
From Coq Require String.
Import ListNotations.
Local Open Scope Z_scope.

(** ** Specification *)
(** the addresses in use *)
Definition addresses (b : bopt) : list Z := b_params b ++ b_rest b :: b_infos b.
(** an Option as a program declares it: every item is bound to a variable of its own *)
Inductive built : bopt -> Prop :=
| BNew : built b_new
| BOpt b p m must n acc b' : built b -> p <> 0 -> ~ In p (addresses b) -> b_append b p m must n acc = Ok b' -> built b'
| BParam b p must n acc b' : built b -> p <> 0 -> ~ In p (addresses b) -> b_param b p must n acc = Ok b' -> built b'
| BVec b p n acc b' : built b -> p <> 0 -> ~ In p (addresses b) -> b_paramVec b p n acc = Ok b' -> built b'
| BHelp b n : built b -> built (b_help b n)
| BDelim b d keep : built b -> built (b_delim b d keep)
| BClear b : built b -> built (b_clear b).

(** ** Proof *)
Lemma copy_unset i : unset i -> copy_info i = i.
Proof. intros [A B]. destruct i as [n m u a s g]. cbn in *. subst. reflexivity. Qed.
Lemma map_copy_unset l : Forall unset l -> map copy_info l = l.
Proof. induction 1 as [|i l H F IH]; [reflexivity|]. cbn [map]. rewrite IH, copy_unset by exact H. reflexivity. Qed.
Lemma moved_unset n c l : Forall unset l -> moved n c l = l.
Proof. intros F. unfold moved. destruct (n <? c); [reflexivity|]. apply map_copy_unset, F. Qed.
Lemma skipn_exact {A} (l r : list A) : skipn (length l) (l ++ r) = r.
Proof. induction l; [reflexivity|assumption]. Qed.

Definition good (b : bopt) : Prop :=
  declared (b_core b) /\ length (b_infos b) = length (o_infos (b_core b)) /\ length (b_params b) = length (o_params (b_core b)) /\
  NoDup (addresses b) /\ Forall (fun p => p <> 0) (b_params b ++ b_infos b) /\
  (b_rest b = 0 <-> o_pmode (b_core b) <> P_variable).
Lemma NoDup_snoc {A} (l : list A) x : NoDup l -> ~ In x l -> NoDup (l ++ [x]).
Proof.
  intros N I. apply NoDup_Add with (a := x) (l := l); [|split; assumption].
  rewrite <- (app_nil_r l) at 1. apply Add_app.
Qed.
Lemma built_good b : built b -> good b.
Proof.
  induction 1 as [|b p m must n acc b' _ IH P N E|b p must n acc b' _ IH P N E|b p n acc b' _ IH P N E|b n _ IH|b d keep _ IH|b _ IH].
  - split; [constructor|]. split; [reflexivity|]. split; [reflexivity|]. split; [repeat constructor; intros []|]. split; [constructor|].
    split; [discriminate|reflexivity].
  - destruct IH as (D & L1 & L2 & ND & NZ & RP). destruct (declared_wf _ D) as (_ & _ & U & _).
    unfold b_append in E. destruct (appendSub (b_core b) m must n acc) as [o| | |] eqn:S; try discriminate. cbn [bind] in E. injection E as <-.
    pose proof (DSub _ _ _ _ _ _ D S) as D'. rewrite moved_unset by exact U.
    assert (X : exists i, o_infos o = o_infos (b_core b) ++ [i] /\ o_params o = o_params (b_core b) /\ o_pmode o = o_pmode (b_core b)).
    { unfold appendSub in S. destruct (rd (n ++ [0]) 0); try discriminate. cbn [bind] in S. destruct ((48 <=? a) && (a <=? 57)); [discriminate|].
      destruct (find_opt (o_infos (b_core b)) n); [discriminate|]. injection S as <-. eexists. split; [reflexivity|]. split; reflexivity. }
    destruct X as (i & Xi & Xp & Xm). rewrite Xi, skipn_exact, <- Xi.
    assert (Y : set_infos o (o_infos o) = o) by (destruct o; reflexivity).
    unfold good, addresses in *. cbn [b_core b_infos b_params b_rest]. rewrite Y.
    split; [exact D'|]. split; [rewrite Xi, !app_length, L1; reflexivity|]. split; [rewrite Xp; exact L2|].
    split; [|split].
    + change (b_params b ++ b_rest b :: b_infos b ++ [p]) with (b_params b ++ (b_rest b :: b_infos b) ++ [p]). rewrite app_assoc. apply NoDup_snoc; assumption.
    + rewrite app_assoc. apply Forall_app. split; [exact NZ|]. constructor; [exact P|constructor].
    + rewrite Xm. exact RP.
  - destruct IH as (D & L1 & L2 & ND & NZ & RP). destruct (declared_wf _ D) as (_ & _ & _ & U & _).
    unfold b_param in E.
    assert (X : forall o, (if must then appendParam (b_core b) n acc else appendParamOpt (b_core b) n acc) = Ok o ->
      declared o /\ (exists i, o_params o = o_params (b_core b) ++ [i]) /\ o_infos o = o_infos (b_core b) /\ o_pmode o <> P_variable /\ o_pmode (b_core b) = P_exact).
    { intros o S. destruct must.
      - split; [exact (DParam _ _ _ _ D S)|]. unfold appendParam, verifyParamMode in S. destruct (o_pmode (b_core b)); try discriminate. injection S as <-.
        split; [eexists; reflexivity|]. split; [reflexivity|]. split; [cbn; discriminate|reflexivity].
      - split; [exact (DParamOpt _ _ _ _ D S)|]. unfold appendParamOpt, verifyParamMode in S. destruct (o_pmode (b_core b)); try discriminate. injection S as <-.
        split; [eexists; reflexivity|]. split; [reflexivity|]. split; [cbn; discriminate|reflexivity]. }
    destruct (if must then appendParam (b_core b) n acc else appendParamOpt (b_core b) n acc) as [o| | |]; try discriminate.
    destruct (X o eq_refl) as (D' & (i & Xi) & Xp & Xm & Xe). cbn [bind] in E. injection E as <-.
    rewrite moved_unset by exact U. rewrite Xi, skipn_exact, <- Xi.
    assert (Y : set_params o (o_params o) = o) by (destruct o; reflexivity).
    unfold good, addresses in *. cbn [b_core b_infos b_params b_rest]. rewrite Y.
    split; [exact D'|]. split; [rewrite Xp; exact L1|]. split; [rewrite Xi, !app_length, L2; reflexivity|].
    split; [|split].
    + rewrite <- app_assoc. cbn [app]. apply NoDup_Add with (a := p) (l := b_params b ++ b_rest b :: b_infos b); [apply Add_app|split; assumption].
    + rewrite <- app_assoc. cbn [app]. apply Forall_app in NZ. destruct NZ as [NZ1 NZ2]. apply Forall_app. split; [exact NZ1|]. constructor; assumption.
    + split; [intros _; exact Xm|]. intros _. apply RP. rewrite Xe. discriminate.
  - destruct IH as (D & L1 & L2 & ND & NZ & RP). unfold b_paramVec in E.
    destruct (appendParamVec (b_core b) n acc) as [o| | |] eqn:S; try discriminate. cbn [bind] in E. injection E as <-.
    pose proof (DParamVec _ _ _ _ D S) as D'. unfold appendParamVec in S. destruct (verifyParamMode (b_core b)); [|discriminate]. injection S as <-.
    unfold good, addresses in *. cbn [b_core b_infos b_params b_rest o_infos o_params o_pmode].
    split; [exact D'|]. split; [exact L1|]. split; [exact L2|]. split; [|split; [exact NZ|]].
    + apply NoDup_remove in ND. destruct ND as [ND _]. apply NoDup_Add with (a := p) (l := b_params b ++ b_infos b); [apply Add_app|].
      split; [exact ND|]. intros I. apply N. apply in_app_iff in I. apply in_app_iff. destruct I as [I|I]; [left; exact I|right; right; exact I].
    + split; [intros; contradiction|intros K; exfalso; apply K; reflexivity].
  - destruct IH as (D & R). split; [exact (DHelp _ n D)|exact R].
  - destruct IH as (D & R). split; [exact (DDelim _ d keep D)|exact R].
  - destruct IH as (D & R). split; [exact (DClear _ D)|exact R].
Qed.

Lemma look_none ps : forall l p, ~ In p ps -> look ps l p = None.
Proof.
  induction ps as [|a ps IH]; intros l p N; [reflexivity|]. destruct l as [|i l]; [reflexivity|]. cbn [look].
  destruct (Z.eqb_spec a p) as [->|_]; [exfalso; apply N; left; reflexivity|]. apply IH. intros I. apply N. right. exact I.
Qed.
Lemma look_nth ps : forall l k p i, NoDup ps -> nth_error ps k = Some p -> nth_error l k = Some i -> look ps l p = Some (i_set i).
Proof.
  induction ps as [|a ps IH]; intros l k p i N E F; [destruct k; discriminate|]. inversion N as [|? ? NI N']; subst.
  destruct k as [|k].
  - injection E as ->. destruct l as [|j l]; [discriminate|]. injection F as ->. cbn [look]. rewrite Z.eqb_refl. reflexivity.
  - destruct l as [|j l]; [discriminate|]. cbn [nth_error] in E, F. cbn [look].
    destruct (Z.eqb_spec a p) as [->|_]; [exfalso; apply NI; eapply nth_error_In; exact E|]. eapply IH; eassumption.
Qed.
Lemma b_parse_inv b argv b' : b_parse b argv = Ok (Some b') -> exists o next after,
  parse (b_core b) argv 1 false = Ok (PTrue o next after) /\ b' = mk_b o (b_infos b) (b_params b) (b_rest b) (b_cap b) (b_pcap b).
Proof.
  unfold b_parse. destruct (parse (b_core b) argv 1 false) as [[o next after| |]| | |]; try discriminate. cbn [bind]. intros E. injection E as <-.
  exists o, next, after. split; reflexivity.
Qed.
Lemma parse_argc o argv r n a : parse o argv 1 false = Ok (PTrue r n a) -> 1 <= 1 <= zlen argv.
Proof.
  unfold parse. destruct (zlen argv <? 1) eqn:E; [discriminate|]. intros _. rewrite Z.ltb_ge in E. lia.
Qed.
Lemma give_params_nth l : forall vs k i, nth_error l k = Some i -> Forall unset l ->
  exists j, nth_error (give_params l vs) k = Some j /\ i_set j = Nat.ltb k (length vs) /\ i_name j = i_name i.
Proof.
  induction l as [|x l IH]; intros vs k i E U; [destruct k; discriminate|]. inversion U as [|? ? [A B] U']; subst.
  destruct vs as [|v vs].
  - exists i. split; [exact E|]. split; [|reflexivity]. cbn [length]. destruct k as [|k].
    + injection E as ->. rewrite A. reflexivity.
    + cbn [nth_error] in E. apply nth_error_In in E. rewrite Forall_forall in U'. destruct (U' _ E) as [C _]. rewrite C. reflexivity.
  - destruct k as [|k].
    + injection E as ->. exists (give i [v]). split; [reflexivity|]. split; [cbn [give i_set nonempty]; rewrite orb_true_r; reflexivity|reflexivity].
    + cbn [nth_error] in E. destruct (IH vs k i E U') as (j & J1 & J2 & J3). exists j. split; [exact J1|]. split; [exact J2|exact J3].
Qed.
Lemma nonempty_ltb {A} (l : list A) n : nonempty (skipn n l) = Nat.ltb n (length l).
Proof.
  revert l. induction n as [|n IH]; intros [|x l]; try reflexivity. cbn [skipn length]. rewrite IH. reflexivity.
Qed.

(** ** isSet *)
(** after a successful parse, isSet(&v) tells for every variable whether the command line gave it a value: for an option, whether it
    was named there; for the k-th parameter, whether there were more than k positional arguments; for the vector of the rest, whether
    there were more positional arguments than parameters.  For any other address it throws. *)
Theorem C106_isSet : forall b argv b', built b -> b_parse b argv = Ok (Some b') ->
  exists ps e, reads (b_core b) 0 (skipn 1 argv) ps e /\ finished (b_core b) e /\
    (forall k p i, nth_error (b_infos b) k = Some p -> nth_error (o_infos (b_core b)) k = Some i ->
       isSet b' p = Ok (nonempty (values_for (i_name i) ps))) /\
    (forall k p, nth_error (b_params b) k = Some p -> isSet b' p = Ok (Nat.ltb k (length (positionals ps)))) /\
    isSet b' (b_rest b) = Ok (Nat.ltb (length (b_params b)) (length (positionals ps))) /\
    (forall p, ~ In p (addresses b) -> isSet b' p = Exn).
Proof.
  intros b argv b' B E. destruct (built_good _ B) as (D & L1 & L2 & ND & NZ & RP).
  destruct (b_parse_inv _ _ _ E) as (o & next & after & P & ->). pose proof (parse_argc _ _ _ _ _ P) as AC.
  apply (C44_parse _ _ _ _ D AC) in P. destruct P as (ps & e & R & FI & _ & -> & _).
  exists ps, e. split; [exact R|]. split; [exact FI|].
  destruct (declared_wf _ D) as (_ & _ & U1 & U2 & U3 & _). unfold addresses in ND.
  pose proof (NoDup_remove_1 _ _ _ ND) as ND1. pose proof (NoDup_remove_2 _ _ _ ND) as ND2.
  assert (NDp : NoDup (b_params b)) by (clear -ND1; induction (b_params b) as [|x l IH]; [constructor|]; inversion ND1; subst; constructor;
    [intros I; apply H1, in_app_iff; left; exact I|apply IH; assumption]).
  assert (NDi : NoDup (b_infos b)) by (clear -ND1; induction (b_params b) as [|x l IH]; [exact ND1|]; inversion ND1; subst; apply IH; assumption).
  assert (DISJ : forall p, In p (b_infos b) -> ~ In p (b_params b)).
  { intros p I J. clear -ND1 I J. induction (b_params b) as [|x l IH]; [destruct J|]. inversion ND1; subst. destruct J as [->|J].
    - apply H1, in_app_iff. right. exact I.
    - apply IH; assumption. }
  unfold isSet. cbn [b_core b_infos b_params b_rest assigned o_infos o_params o_remains].
  split; [|split; [|split]].
  - intros k p i Hk Hi.
    assert (Ip : In p (b_infos b)) by (eapply nth_error_In; exact Hk).
    rewrite look_none by (apply DISJ; exact Ip).
    destruct (Z.eqb_spec (b_rest b) p) as [<-|_]; [exfalso; apply ND2, in_app_iff; right; exact Ip|].
    erewrite look_nth; [|exact NDi|exact Hk|apply map_nth_error; exact Hi].
    cbn [give i_set]. rewrite Forall_forall in U1. destruct (U1 i (nth_error_In _ _ Hi)) as [-> _]. reflexivity.
  - intros k p Hk.
    assert (K : (k < length (o_params (b_core b)))%nat) by (rewrite <- L2; apply nth_error_Some; congruence).
    destruct (nth_error (o_params (b_core b)) k) as [i|] eqn:Hi; [|apply nth_error_None in Hi; lia].
    destruct (give_params_nth _ (positionals ps) _ _ Hi U2) as (j & J1 & J2 & _).
    erewrite look_nth; [|exact NDp|exact Hk|exact J1]. rewrite J2. reflexivity.
  - rewrite look_none by (intros I; apply ND2, in_app_iff; left; exact I). rewrite Z.eqb_refl.
    cbn [give_rest i_set]. destruct U3 as [-> _]. cbn [orb]. rewrite nonempty_ltb, L2. reflexivity.
  - intros p N. unfold addresses in N.
    rewrite look_none by (intros I; apply N, in_app_iff; left; exact I).
    destruct (Z.eqb_spec (b_rest b) p) as [<-|_]; [exfalso; apply N, in_app_iff; right; left; reflexivity|].
    rewrite look_none by (intros I; apply N, in_app_iff; right; right; exact I). reflexivity.
Qed.

(** ** operator<< *)
(** one line for each parameter, for the rest, and for each option in the order of their declaration *)
Definition param_line (show : Z -> list Z) (pi : Z * info) : list Z := i_name (snd pi) ++ str "=" ++ show (fst pi).
Definition rest_lines (show : Z -> list Z) (b : bopt) : list (list Z) :=
  match o_pmode (b_core b) with P_variable => [str "remains=" ++ show (b_rest b)] | _ => [] end.
Definition opt_line (show : Z -> list Z) (ps : list piece) (pi : Z * info) : list Z :=
  i_name (snd pi) ++ str "=" ++ show (fst pi) ++ (if nonempty (values_for (i_name (snd pi)) ps) then str " (set)" else str " (default)").
Definition lines (l : list (list Z)) : list Z := concat (map (fun x => x ++ [10]) l).
Lemma put_params_lines show ps : forall l vs, put_params show ps (give_params l vs) = lines (map (param_line show) (combine ps l)).
Proof.
  induction ps as [|p ps IH]; intros l vs; [reflexivity|]. destruct l as [|i l]; [reflexivity|].
  destruct vs as [|v vs]; cbn [give_params put_params combine map lines concat]; fold (lines (map (param_line show) (combine ps l))).
  - specialize (IH l []). destruct l; rewrite <- IH; unfold param_line, endl; cbn [fst snd]; rewrite <- !app_assoc; reflexivity.
  - specialize (IH l vs). rewrite <- IH. unfold param_line, endl; cbn [fst snd give i_name]; rewrite <- !app_assoc; reflexivity.
Qed.
Lemma put_infos_lines show ps pcs : forall l, Forall unset l ->
  put_infos show ps (map (fun i => give i (values_for (i_name i) pcs)) l) = lines (map (opt_line show pcs) (combine ps l)).
Proof.
  induction ps as [|p ps IH]; intros l U; [reflexivity|]. destruct l as [|i l]; [reflexivity|]. inversion U as [|? ? [A B] U']; subst.
  cbn [map put_infos combine lines concat]. fold (lines (map (opt_line show pcs) (combine ps l))). rewrite IH by exact U'.
  unfold put_info, opt_line, endl. cbn [fst snd give i_name i_set]. rewrite A. cbn [orb]. rewrite <- !app_assoc. reflexivity.
Qed.
Theorem C106_print : forall b argv b' show, built b -> b_parse b argv = Ok (Some b') ->
  exists ps e, reads (b_core b) 0 (skipn 1 argv) ps e /\ finished (b_core b) e /\
    put show b' = lines (map (param_line show) (combine (b_params b) (o_params (b_core b))) ++ rest_lines show b ++
                         map (opt_line show ps) (combine (b_infos b) (o_infos (b_core b)))).
Proof.
  intros b argv b' show B E. destruct (built_good _ B) as (D & L1 & L2 & ND & NZ & RP).
  destruct (b_parse_inv _ _ _ E) as (o & next & after & P & ->). pose proof (parse_argc _ _ _ _ _ P) as AC.
  apply (C44_parse _ _ _ _ D AC) in P. destruct P as (ps & e & R & FI & _ & -> & _).
  exists ps, e. split; [exact R|]. split; [exact FI|]. destruct (declared_wf _ D) as (_ & _ & U1 & _).
  unfold put. cbn [b_core b_infos b_params b_rest assigned o_infos o_params o_pmode]. rewrite put_params_lines, put_infos_lines by exact U1.
  unfold lines. rewrite !map_app, !concat_app. f_equal. f_equal. unfold rest_lines.
  destruct (o_pmode (b_core b)) eqn:M; try reflexivity.
  destruct (Z.eqb_spec (b_rest b) 0) as [Z0|_]; [exfalso; apply (proj1 RP Z0); reflexivity|].
  cbn [map concat]. rewrite app_nil_r, <- !app_assoc. reflexivity.
Qed.

(** ** What an integer option prints, it reads *)
Lemma digit_not_suffix c f : is_digit c -> ~ suffix c f.
Proof. unfold is_digit, suffix. intros D H. repeat (destruct H as [[H _]|H]; [lia|]). destruct H as [H _]. lia. Qed.
Lemma canonical_last d x : canonical_dec d x -> exists r c, d = r ++ [c] /\ is_digit c.
Proof.
  intros (N & F & _). destruct (exists_last N) as (r & c & ->). exists r, c. split; [reflexivity|].
  apply Forall_app in F. destruct F as [_ F]. inversion F; assumption.
Qed.
(** dec: the decimal text operator<< of the stream makes *)
Theorem C106_int_round_trip : forall dec t lo hi x, (forall y, canonical_int (dec y) y) -> In (t, (lo, hi)) type_ranges -> lo <= x <= hi ->
  convertInt t (int_toStr dec x) = Ok (true, Some x).
Proof.
  intros dec t lo hi x CD T R. unfold int_toStr. specialize (CD x) as C. generalize dependent (dec x). intros s C.
  assert (B : - 2 ^ 63 <= x < 2 ^ 64).
  { simpl in T. repeat (destruct T as [T|T]; [injection T as <- <- <-; lia|]). contradiction. }
  pose proof (canonical_int_len s x C B) as LEN.
  assert (X : bytes s /\ ~ In 0 s /\ ~ has_0x s /\ (forall d c f, s = d ++ [c] -> ~ suffix c f) /\ signed_text s x /\ (0 <= x -> unsigned_text s x)).
  { destruct C as [[P C]|(Q & d & -> & C)].
    - destruct (canonical_last _ _ C) as (r & c & Er & Dc). destruct C as (N & F & V & _).
      split; [eapply Forall_impl; [|exact F]; intros c0 G; unfold is_digit in G; unfold is_byte; lia|].
      split; [intros I; rewrite Forall_forall in F; specialize (F 0 I); unfold is_digit in F; lia|].
      split; [intros (d & ->); inversion F as [|? ? _ F']; subst; inversion F' as [|? ? G _]; subst; unfold is_digit in G; lia|].
      split; [intros d' c' f E; rewrite Er in E; apply app_inj_tail in E; destruct E as [_ <-]; apply digit_not_suffix, Dc|].
      assert (UT : unsigned_text s x) by (split; [exact N|]; split; [exact F|]; symmetry; exact V).
      split; [left; exact UT|]. intros _. exact UT.
    - destruct (canonical_last _ _ C) as (r & c & Er & Dc). destruct C as (N & F & V & _).
      split; [constructor; [unfold is_byte; lia|eapply Forall_impl; [|exact F]; intros c0 G; unfold is_digit in G; unfold is_byte; lia]|].
      split; [intros [I|I]; [discriminate|]; rewrite Forall_forall in F; specialize (F 0 I); unfold is_digit in F; lia|].
      split; [intros (e & E); discriminate|].
      split; [intros d' c' f E; rewrite Er in E; change (45 :: r ++ [c]) with ((45 :: r) ++ [c]) in E; apply app_inj_tail in E; destruct E as [_ <-]; apply digit_not_suffix, Dc|].
      split; [right; exists d, (- x); split; [reflexivity|]; split; [split; [exact N|]; split; [exact F|]; symmetry; exact V|lia]|]. intros; lia. }
  destruct X as (X1 & X2 & X3 & X4 & X5 & X6).
  assert (Dn : denotes lo hi s x).
  { apply DPlain; [exact X3|exact X4|]. unfold language. destruct (lo <? 0) eqn:LO.
    - left. split; [exact X5|exact R].
    - rewrite Z.ltb_ge in LO. split; [apply X6; lia|lia]. }
  destruct (C43_convertInt t lo hi s T X1 X2 ltac:(lia)) as [(v & V1 & V2 & V3)|[N _]]; [|exfalso; apply (N x Dn)].
  rewrite V3, (V2 x Dn). reflexivity.
Qed.
(** ** Finding: a vector of int8_t or uint8_t is printed as characters (option.hpp:243 does not use convertToStr): 10 is a line feed,
    and what is printed is not what -v reads *)
Theorem C106_vec8_finding : forall dec, vec_toStr dec 8 [49; 10] = [49; 32; 10] /\ convertInt ty_i8 [49] = Ok (true, Some 1).
Proof. intros dec. split; reflexivity. Qed.

(** ** getBaseName *)
Lemma last_sep_spec l : forall i, match last_sep l i with
  | None => ~ In 47 l /\ ~ In 92 l
  | Some p => exists a c r, l = a ++ c :: r /\ (c = 47 \/ c = 92) /\ p = (i + length a)%nat /\ ~ In 47 r /\ ~ In 92 r
  end.
Proof.
  induction l as [|x l IH]; intros i; cbn [last_sep]; [split; intros []|].
  specialize (IH (S i)). destruct (last_sep l (S i)) as [p|].
  - destruct IH as (a & c & r & -> & C & -> & R). exists (x :: a), c, r. split; [reflexivity|]. split; [exact C|]. split; [cbn [length]; lia|exact R].
  - destruct IH as [A B]. destruct (Z.eqb_spec x 47) as [->|N1]; cbn [orb].
    + exists [], 47, l. split; [reflexivity|]. split; [left; reflexivity|]. split; [cbn [length]; lia|split; assumption].
    + destruct (Z.eqb_spec x 92) as [->|N2].
      * exists [], 92, l. split; [reflexivity|]. split; [right; reflexivity|]. split; [cbn [length]; lia|split; assumption].
      * split; intros [H|H]; auto.
Qed.
(** the program name shown is the part of the path behind the last slash or backslash *)
Theorem C106_base_name : forall name, exists dir, name = dir ++ getBaseName name /\ ~ In 47 (getBaseName name) /\ ~ In 92 (getBaseName name) /\
  (dir = [] \/ exists d c, dir = d ++ [c] /\ (c = 47 \/ c = 92)).
Proof.
  intros name. unfold getBaseName. pose proof (last_sep_spec name 0) as H. destruct (last_sep name 0) as [p|].
  - destruct H as (a & c & r & E & C & P & R1 & R2). subst p. cbn [plus].
    assert (S : skipn (length a + 1) name = r).
    { rewrite E. replace (length a + 1)%nat with (length (a ++ [c])) by (rewrite app_length; reflexivity).
      replace (a ++ c :: r) with ((a ++ [c]) ++ r) by (rewrite <- app_assoc; reflexivity). apply skipn_exact. }
    rewrite S. exists (a ++ [c]). split; [rewrite <- app_assoc; exact E|]. split; [exact R1|]. split; [exact R2|]. right. exists a, c. split; [reflexivity|exact C].
  - destruct H as [A B]. exists []. split; [reflexivity|]. split; [exact A|]. split; [exact B|]. left. reflexivity.
Qed.

(** ** Findings *)
(** ** Finding: Option can be copied, but copying one without appendParamVec dereferences a null pointer (option.hpp:257) *)
Theorem C106_copy_finding : forall b, built b -> o_pmode (b_core b) <> P_variable -> copy b = UB.
Proof.
  intros b B M. destruct (built_good _ B) as (_ & _ & _ & _ & _ & RP). unfold copy. rewrite (proj2 RP M). reflexivity.
Qed.
(** ** Finding: a copy forgets which variables were set: isSet answers false for all of them *)
Theorem C106_copy_forgets_finding : forall b b', copy b = Ok b' -> forall p x, isSet b' p = Ok x -> x = false.
Proof.
  intros b b' C p x H. unfold copy in C. destruct (b_rest b =? 0); [discriminate|]. injection C as <-.
  assert (L : forall ps l q y, look ps (map copy_info l) q = Some y -> y = false).
  { induction ps as [|a ps IH]; intros l q y E; [discriminate|]. destruct l as [|i l]; [discriminate|]. cbn [map look] in E.
    destruct (a =? q); [injection E as <-; reflexivity|eapply IH; exact E]. }
  unfold isSet in H. cbn [b_core b_infos b_params b_rest o_infos o_params o_remains] in H.
  destruct (look (b_params b) (map copy_info (o_params (b_core b))) p) eqn:Q; [injection H as <-; eapply L; exact Q|].
  destruct (b_rest b =? p); [injection H as <-; reflexivity|].
  destruct (look (b_infos b) (map copy_info (o_infos (b_core b))) p) eqn:Q2; [injection H as <-; eapply L; exact Q2|discriminate].
Qed.
Definition any (_ : list Z) : bool := true.
Definition get (r : res bopt) : bopt := match r with Ok b => b | _ => b_new end.
Definition demo : bopt := get (b_paramVec (get (b_param (get (b_append (get (b_append b_new 100 N_is1 false (str "n") any)) 108 N_is0 false (str "v") any)) 116 true (str "in") any)) 124 (str "rest") any).
Definition demo_argv : list (list Z) := [str "dir/prog"; str "-n"; str "7"; str "a"].
(** ** Finding: a declaration after parse may forget which options were set: the vector grows and the copies are not set (option.hpp:257, 362) *)
Theorem C106_grow_finding : exists b b' b'', built b /\ b_parse b [str "p"; str "-n"; str "7"] = Ok (Some b') /\ isSet b' 100 = Ok true /\
  b_append b' 108 N_is1 false (str "m") any = Ok b'' /\ isSet b'' 100 = Ok false.
Proof.
  exists (get (b_append b_new 100 N_is1 false (str "n") any)). do 2 eexists.
  split; [apply (BOpt b_new 100 N_is1 false (str "n") any); [exact BNew|discriminate|intros [I|[]]; discriminate|reflexivity]|].
  split; [reflexivity|]. split; [reflexivity|]. split; reflexivity.
Qed.
(** ** Finding: a second parse with the same object refuses the parameters: they count as set from the first *)
Theorem C106_twice_finding : exists b b' argv, built b /\ b_parse b argv = Ok (Some b') /\ b_parse b' argv = Ok None.
Proof.
  exists (get (b_param b_new 100 true (str "in") any)). eexists. exists [str "p"; str "a"].
  split; [apply (BParam b_new 100 true (str "in") any); [exact BNew|discriminate|intros [I|[]]; discriminate|reflexivity]|].
  split; [reflexivity|reflexivity].
Qed.
Example C106_ex : built demo /\ exists b', b_parse demo demo_argv = Ok (Some b') /\
  isSet b' 100 = Ok true /\ isSet b' 108 = Ok false /\ isSet b' 116 = Ok true /\ isSet b' 124 = Ok false /\ isSet b' 132 = Exn /\
  put (fun p => if p =? 100 then str "7" else if p =? 108 then str "0" else if p =? 116 then str "a" else []) b' =
    str "in=a" ++ [10] ++ str "remains=" ++ [10] ++ str "n=7 (set)" ++ [10] ++ str "v=0 (default)" ++ [10] /\
  getBaseName (str "dir/prog") = str "prog".
Proof.
  split.
  - unfold demo. apply (BVec (get (b_param (get (b_append (get (b_append b_new 100 N_is1 false (str "n") any)) 108 N_is0 false (str "v") any)) 116 true (str "in") any)) 124 (str "rest") any); [|discriminate| |reflexivity].
    apply (BParam (get (b_append (get (b_append b_new 100 N_is1 false (str "n") any)) 108 N_is0 false (str "v") any)) 116 true (str "in") any); [|discriminate| |reflexivity].
    apply (BOpt (get (b_append b_new 100 N_is1 false (str "n") any)) 108 N_is0 false (str "v") any); [|discriminate| |reflexivity].
    apply (BOpt b_new 100 N_is1 false (str "n") any); [exact BNew|discriminate| |reflexivity].
    all:
      intros I; cbn in I; repeat (destruct I as [I|I]; [discriminate|]); exact I.
  - eexists. split; [reflexivity|]. repeat (split; [reflexivity|]). reflexivity.
Qed.
Example C106_ex_round : canonical_int (str "-128") (-128) /\ convertInt ty_i8 (str "-128") = Ok (true, Some (-128)).
Proof.
  split; [|reflexivity]. right. split; [lia|]. exists [49; 50; 56]. split; [reflexivity|]. split; [discriminate|].
  split; [unfold is_digit; constructor; [lia|]; constructor; [lia|]; constructor; [lia|constructor]|]. split; [reflexivity|]. intros t E. discriminate.
Qed.

Print Assumptions C106_isSet.
Print Assumptions C106_print.
Print Assumptions C106_int_round_trip.
Print Assumptions C106_vec8_finding.
Print Assumptions C106_base_name.
Print Assumptions C106_copy_finding.
Print Assumptions C106_copy_forgets_finding.
Print Assumptions C106_grow_finding.
Print Assumptions C106_twice_finding.
