(** C70: where log messages go, and the files of the logger. *)
Require Import Verif.Common Verif.LogModel.

(** ** specification *)
(** where messages go at the moment, and the least priority shown *)
Record dest := mk_dest { d_pri : Z; d_file : option file; d_syslog : bool }.
Definition dest0 : dest := mk_dest LogInfo (Some FStderr) true.
(** is the current file one that the logger opened? *)
Definition own (d : dest) : bool := match d_file d with Some (FOwn _) => true | _ => false end.
(** the effect of a call: a new destination replaces file and syslog; if the file opened before cannot be closed there is no file *)
Definition dest_step (d : dest) (o : lop) : dest :=
  match o with
  | OpOpen (Some n) closed => if own d && negb closed then mk_dest (d_pri d) None (d_syslog d) else mk_dest (d_pri d) (Some (FOwn n)) false
  | OpSet f closed => if own d && negb closed then mk_dest (d_pri d) None (d_syslog d) else mk_dest (d_pri d) f false
  | OpClose _ => if own d then mk_dest (d_pri d) None (d_syslog d) else d
  | OpSyslog b => mk_dest (d_pri d) (d_file d) b
  | OpPri p => mk_dest p (d_file d) (d_syslog d)
  | _ => d
  end.
(** the levels of syslog for Debug, Info, Warning, Error: LOG_DEBUG, LOG_INFO, LOG_WARNING, LOG_CRIT *)
Definition level (pri : Z) : Z := match pri with 0 => 7 | 1 => 6 | 2 => 4 | _ => 2 end.
(** a message with this text is shown *)
Definition shown (d : dest) (pri : Z) (time str : list Z) (printed : bool) : list lev :=
  (match d_file d with Some f => [LWrite f (if printed then time ++ [32] ++ cstr str ++ [10] else [])] | None => [] end)
  ++ (if d_syslog d then [LSyslog (level pri) (cstr str ++ [10])] else []).
Definition said (d : dest) (o : lop) : list lev :=
  match o with
  | OpPut p t s a _ => if p <? d_pri d then [] else shown d p t s a
  | OpPutLog p t (Some s) a _ => if p <? d_pri d then [] else shown d p t s a
  | _ => []
  end.
Fixpoint expected (d : dest) (os : list lop) : list lev :=
  match os with [] => [] | o :: r => said d o ++ expected (dest_step d o) r end.
Definition is_message (e : lev) : bool := match e with LWrite _ _ | LSyslog _ _ => true | _ => false end.
Definition messages (tr : list lev) : list lev := filter is_message tr.

(** the FILEs that fopen returned are numbered apart, and the user passes only their own *)
Definition fopens (os : list lop) : list Z := flat_map (fun o => match o with OpOpen (Some n) _ => [n] | _ => [] end) os.
Definition sane (os : list lop) : Prop := NoDup (fopens os) /\ forall f c, In (OpSet (Some f) c) os -> forall n, f <> FOwn n.
Definition no_close_fails (os : list lop) : Prop := forall o, In o os ->
  match o with OpOpen _ c | OpSet _ c | OpClose c => c = true | _ => True end.
Definition opened (tr : list lev) : list Z := flat_map (fun e => match e with LOpened n => [n] | _ => [] end) tr.
Definition closed (tr : list lev) : list Z := flat_map (fun e => match e with LClosed (FOwn n) => [n] | _ => [] end) tr.

(** ** invariant *)
Record inv (g : logger) (tr : list lev) (d : dest) : Prop := {
  i_pri : l_pri g = d_pri d;
  i_file : l_fp g = d_file d;
  i_sys : l_syslog g = d_syslog d;
  i_own : own d = true <-> l_doClose g = true /\ l_fp g <> None;
  i_open : forall n, In n (l_open g) <-> In n (opened tr) /\ ~ In n (closed tr);
  i_fp : forall n, l_fp g = Some (FOwn n) -> In n (l_open g);
  i_user : forall f, In (LClosed f) tr -> exists n, f = FOwn n;
  i_closed : forall n, In n (closed tr) -> In n (opened tr);
  i_once : NoDup (closed tr)
}.
Lemma opened_app a b : opened (a ++ b) = opened a ++ opened b.
Proof. apply flat_map_app. Qed.
Lemma closed_app a b : closed (a ++ b) = closed a ++ closed b.
Proof. apply flat_map_app. Qed.
Lemma existsb_Z n l : existsb (Z.eqb n) l = true <-> In n l.
Proof. rewrite existsb_exists. split; [intros (x & H & E); apply Z.eqb_eq in E; congruence|intros H; exists n; split; auto; apply Z.eqb_refl]. Qed.

Lemma inv_quiet g tr d l : inv g tr d -> opened l = [] -> closed l = [] -> (forall f, ~ In (LClosed f) l) -> inv g (tr ++ l) d.
Proof.
  intros [H1 H2 H3 H4 H5 H6 H7 H8 H9] Ho Hc Hn. constructor; rewrite ?opened_app, ?closed_app, ?Ho, ?Hc, ?app_nil_r; auto.
  intros f Hin. apply in_app_or in Hin. destruct Hin as [|Hin]; auto. contradiction (Hn f Hin).
Qed.

(** closeFile: nothing if the logger does not own its file *)
Lemma closeFile_ok g tr d c : inv g tr d ->
  closeFile g c = (if own d
                   then Ok (c, mk_logger (l_pri g) None (l_doClose g) (l_syslog g)
                                 (filter (fun x => negb match l_fp g with Some (FOwn n) => x =? n | _ => false end) (l_open g)),
                            match l_fp g with Some f => [LClosed f] | None => [] end)
                   else Ok (true, g, [])).
Proof.
  intros I. destruct I as [_ I2 _ I4 _ I6 _ _ _]. unfold closeFile. unfold own in *. rewrite <- I2 in *.
  destruct (l_fp g) as [[| |u|n]|] eqn:Ef.
  - destruct (l_doClose g) eqn:Ed; cbn [negb]; auto. destruct I4 as [_ I4]. discriminate I4. split; congruence.
  - destruct (l_doClose g) eqn:Ed; cbn [negb]; auto. destruct I4 as [_ I4]. discriminate I4. split; congruence.
  - destruct (l_doClose g) eqn:Ed; cbn [negb]; auto. destruct I4 as [_ I4]. discriminate I4. split; congruence.
  - destruct I4 as [I4 _]. destruct (I4 eq_refl) as [-> _]. cbn [negb is_open].
    assert (E : existsb (Z.eqb n) (l_open g) = true) by (apply existsb_Z, I6; auto). rewrite E. reflexivity.
  - reflexivity.
Qed.
Lemma closeFile_total g tr d c : inv g tr d -> exists ok g' l, closeFile g c = Ok (ok, g', l).
Proof. intros I. rewrite (closeFile_ok _ _ _ c I). destruct (own d); eauto. Qed.
(** afterwards there is no own file *)
Lemma closeFile_inv g tr d c ok g' l : inv g tr d -> closeFile g c = Ok (ok, g', l) ->
  inv g' (tr ++ l) (dest_step d (OpClose c)) /\ opened l = [] /\ ok = negb (own d && negb c) /\ messages l = [] /\
  (forall m, In m (l_open g') <-> In m (l_open g) /\ l_fp g <> Some (FOwn m)).
Proof.
  intros I E. rewrite (closeFile_ok _ _ _ _ I) in E. pose proof I as [I1 I2 I3 I4 I5 I6 I7 I8 I9].
  cbn [dest_step]. destruct (own d) eqn:Eo; cbn [andb negb].
  - unfold own in Eo. rewrite <- I2 in *. destruct (l_fp g) as [[| |u|n]|] eqn:Ef; try discriminate. injection E as <- <- <-.
    rewrite negb_involutive. split; [|split; [reflexivity|split; [reflexivity|split; [reflexivity|]]]].
    2:{ cbn [l_open]. intros m. rewrite filter_In. destruct (Z.eqb_spec m n) as [->|]; cbn [negb]; intuition congruence. }
    specialize (I6 n eq_refl). apply I5 in I6. destruct I6 as [Io Ic].
    constructor; cbn [l_pri l_fp l_doClose l_syslog l_open d_pri d_file d_syslog own]; rewrite ?opened_app, ?closed_app; auto.
    + split; [discriminate|intros [_ Hx]; congruence].
    + intros m. rewrite filter_In, I5, !in_app_iff. cbn [opened closed flat_map app In].
      destruct (Z.eqb_spec m n) as [->|Hmn]; cbn [negb]; intuition congruence.
    + congruence.
    + intros f Hin. apply in_app_or in Hin. destruct Hin as [|[Hin|[]]]; auto. injection Hin as <-. eauto.
    + intros m. rewrite !in_app_iff. cbn [closed flat_map app In]. intros [Hm|[<-|[]]]; auto.
    + cbn [closed flat_map app]. apply NoDup_Add with (a := n) (l := closed tr); [|split; auto].
      rewrite <- (app_nil_r (closed tr)) at 1. apply Add_app.
  - injection E as <- <- <-. rewrite app_nil_r. split; [exact I|]. split; [reflexivity|]. split; [reflexivity|]. split; [reflexivity|].
    intros n. split; [|tauto]. intros Hn. split; auto. intros Hx. unfold own in Eo. rewrite <- I2, Hx in Eo. discriminate.
Qed.

Definition fine (o : lop) (tr : list lev) : Prop :=
  match o with OpOpen (Some n) _ => ~ In n (opened tr) | OpSet (Some f) _ => forall n, f <> FOwn n | _ => True end.
Lemma filter_true {A} (f : A -> bool) l : (forall x, In x l -> f x = true) -> filter f l = l.
Proof.
  induction l as [|a l IH]; intros H; cbn; auto. rewrite (H a) by (left; auto). f_equal. apply IH. intros x Hx. apply H. now right.
Qed.
Lemma level_ok p : syslog_pri p = level p.
Proof.
  unfold syslog_pri. destruct (Z.eqb_spec p LogDebug) as [->|A]; [reflexivity|]. destruct (Z.eqb_spec p LogInfo) as [->|B]; [reflexivity|].
  destruct (Z.eqb_spec p LogWarning) as [->|C]; [reflexivity|]. unfold LogDebug, LogInfo, LogWarning in *. unfold level.
  destruct p as [|[q|[q|q|]|]|q]; try reflexivity; contradiction.
Qed.
Lemma put_ok g tr d p t s a b : inv g tr d -> exists l, put g p t s a b = Ok l /\
  messages l = (if p <? d_pri d then [] else shown d p t s a) /\ opened l = [] /\ closed l = [] /\ (forall f, ~ In (LClosed f) l).
Proof.
  intros [I1 I2 I3 I4 I5 I6 I7 I8 I9]. unfold put, shown. rewrite <- level_ok. rewrite I1, I2, I3. destruct (p <? d_pri d); [exists []; cbn; repeat split; auto|].
  assert (Ho : forall f, d_file d = Some f -> is_open g f = true).
  { intros f Hf. destruct f as [| | |n]; cbn; auto. apply existsb_Z, I6. congruence. }
  destruct (d_file d) as [f|]; cbv beta iota; [rewrite (Ho f eq_refl)|]; cbn [bind]; eexists; (split; [reflexivity|]);
    destruct a, b, (d_syslog d); cbn; repeat split; auto; intros x; intuition congruence.
Qed.
Lemma step_inv g tr d o : inv g tr d -> fine o tr -> exists g' l, lstep g o = Ok (g', l) /\ inv g' (tr ++ l) (dest_step d o) /\
  messages l = said d o /\ opened l = (match o with OpOpen (Some n) _ => [n] | _ => [] end) /\
  ((match o with OpOpen _ c | OpSet _ c | OpClose c => c = true | _ => True end) ->
   (forall n, In n (l_open g) -> l_fp g = Some (FOwn n)) -> (forall n, In n (l_open g') -> l_fp g' = Some (FOwn n))).
Proof.
  intros I Hf. destruct o as [p t s a b|p t s a b|f c|f c|b|p|c]; cbn [lstep dest_step said].
  - destruct (put_ok _ _ _ p t s a b I) as (l & -> & Hm & Ho & Hc & Hn). cbn [bind]. exists g, l. split; auto.
    split; [now apply inv_quiet|]. auto.
  - unfold PutLog. rewrite (i_pri _ _ _ I). destruct s as [s|].
    + destruct (p <? d_pri d) eqn:Ep.
      * cbn [bind]. exists g, []. rewrite app_nil_r. auto.
      * destruct (put_ok _ _ _ p t s a b I) as (l & -> & Hm & Ho & Hc & Hn). cbn [bind]. exists g, l. rewrite Ep in Hm. split; auto.
        split; [now apply inv_quiet|]. auto.
    + destruct (p <? d_pri d); cbn [bind]; eexists; eexists; (split; [reflexivity|]); (split; [apply inv_quiet; auto; cbn; intuition congruence|]); auto.
  - unfold openFile. destruct f as [n|].
    2:{ cbn [bind]. exists g, []. rewrite app_nil_r. split; [reflexivity|]. split; [exact I|]. auto. }
    cbn in Hf. set (g1 := mk_logger _ _ _ _ (n :: l_open g)).
    assert (I1 : inv g1 (tr ++ [LOpened n]) d).
    { destruct I as [I1 I2 I3 I4 I5 I6 I7 I8 I9]. constructor; cbn [g1 l_pri l_fp l_doClose l_syslog l_open]; rewrite ?opened_app, ?closed_app; cbn [opened closed flat_map app]; rewrite ?app_nil_r; auto.
      - intros m. cbn [In]. rewrite I5, in_app_iff. cbn [In].
        assert (~ In n (closed tr)) by (intros Hx; apply Hf; auto). intuition congruence.
      - intros m Hm. right. auto.
      - intros f Hin. apply in_app_or in Hin. destruct Hin as [|[Hin|[]]]; auto. discriminate.
      - intros m Hm. apply in_or_app. left. auto. }
    destruct (closeFile_total _ _ _ c I1) as (ok & g2 & l & Ec). rewrite Ec. cbn [bind].
    apply (closeFile_inv _ _ _ _ _ _ _ I1) in Ec. destruct Ec as (I2 & Ho & Hok & Hm & Hin).
    change (LOpened n :: l) with ([LOpened n] ++ l). rewrite <- app_assoc in I2. cbn [dest_step] in I2.
    assert (Hno : l_fp g <> Some (FOwn n)).
    { intros Hx. apply Hf. apply (i_fp _ _ _ I) in Hx. apply (i_open _ _ _ I) in Hx. tauto. }
    assert (Hn2 : In n (l_open g2)) by (apply Hin; split; [left; reflexivity|exact Hno]).
    destruct ok; cbn [negb bind].
    + assert (Hc : own d && negb c = false) by (destruct (own d && negb c); auto; discriminate). rewrite Hc.
      eexists; eexists. split; [reflexivity|]. split; [|split; [|split]].
      * destruct I2 as [J1 J2 J3 J4 J5 J6 J7 J8 J9]. constructor; cbn [l_pri l_fp l_doClose l_syslog l_open d_pri d_file d_syslog own]; auto.
        -- rewrite J1. destruct (own d); reflexivity.
        -- split; intros; [split; congruence|reflexivity].
        -- intros m Hm'. injection Hm' as <-. exact Hn2.
      * cbn. exact Hm.
      * rewrite opened_app, Ho. reflexivity.
      * cbn [l_open l_fp]. intros _ Hall m Hmm. apply Hin in Hmm. destruct Hmm as [Hmm Hne]. destruct Hmm as [->|Hmm]; auto.
        cbn [g1 l_fp] in Hne. contradiction Hne. auto.
    + assert (Hc : own d && negb c = true) by (destruct (own d && negb c); auto; discriminate). rewrite Hc.
      apply andb_prop in Hc. destruct Hc as [Hown Hc]. rewrite Hown in I2.
      eexists; eexists. split; [reflexivity|]. split; [exact I2|]. split; [cbn; exact Hm|]. split; [rewrite opened_app, Ho; reflexivity|].
      intros ->. discriminate.
  - unfold set. destruct (closeFile_total _ _ _ c I) as (ok & g2 & l & Ec). rewrite Ec. cbn [bind].
    apply (closeFile_inv _ _ _ _ _ _ _ I) in Ec. destruct Ec as (I2 & Ho & Hok & Hm & Hin). cbn [dest_step] in I2.
    destruct ok; cbn [negb bind].
    + assert (Hc : own d && negb c = false) by (destruct (own d && negb c); auto; discriminate). rewrite Hc.
      eexists; eexists. split; [reflexivity|]. split; [|split; [|split]]; auto.
      * destruct I2 as [J1 J2 J3 J4 J5 J6 J7 J8 J9]. constructor; cbn [l_pri l_fp l_doClose l_syslog l_open d_pri d_file d_syslog own]; auto.
        -- rewrite J1. destruct (own d); reflexivity.
        -- cbn in Hf. split; [|intros [? _]; discriminate]. destruct f as [[| |u|m]|]; try discriminate. contradiction (Hf m eq_refl).
        -- intros m Hm'. subst f. cbn in Hf. contradiction (Hf m eq_refl).
      * cbn [l_open l_fp]. intros _ Hall m Hmm. apply Hin in Hmm. destruct Hmm as [Hmm Hne]. contradiction Hne. auto.
    + assert (Hc : own d && negb c = true) by (destruct (own d && negb c); auto; discriminate). rewrite Hc.
      apply andb_prop in Hc. destruct Hc as [Hown Hc]. rewrite Hown in I2.
      eexists; eexists. split; [reflexivity|]. split; [exact I2|]. split; [exact Hm|]. split; [exact Ho|].
      intros ->. discriminate.
  - exists (mk_logger (l_pri g) (l_fp g) (l_doClose g) b (l_open g)), []. split; [reflexivity|]. rewrite app_nil_r.
    split; [|auto]. destruct I; constructor; auto.
  - exists (mk_logger p (l_fp g) (l_doClose g) (l_syslog g) (l_open g)), []. split; [reflexivity|]. rewrite app_nil_r.
    split; [|auto]. destruct I; constructor; auto.
  - destruct (closeFile_total _ _ _ c I) as (ok & g2 & l & Ec). rewrite Ec. cbn [bind].
    apply (closeFile_inv _ _ _ _ _ _ _ I) in Ec. destruct Ec as (I2 & Ho & Hok & Hm & Hin).
    exists g2, l. split; [reflexivity|]. split; [exact I2|]. split; [exact Hm|]. split; [exact Ho|].
    intros _ Hall m Hmm. apply Hin in Hmm. destruct Hmm as [Hmm Hne]. contradiction Hne. auto.
Qed.

Lemma inv0 : inv Logger0 [] dest0.
Proof. constructor; cbn; auto; try tauto; try congruence; try (intros; contradiction); try constructor; intuition discriminate. Qed.
Lemma steps_inv os : forall g tr d, inv g tr d -> (forall n, In n (fopens os) -> ~ In n (opened tr)) -> sane os ->
  exists g' l, lsteps g os = Ok (g', l) /\ inv g' (tr ++ l) (fold_left dest_step os d) /\ messages l = expected d os /\ opened l = fopens os /\
  (no_close_fails os -> (forall n, In n (l_open g) -> l_fp g = Some (FOwn n)) -> (forall n, In n (l_open g') -> l_fp g' = Some (FOwn n))).
Proof.
  induction os as [|o os IH]; intros g tr d I Hnew [Hnd Hset].
  - exists g, []. cbn. rewrite app_nil_r. auto.
  - assert (Hf : fine o tr).
    { unfold fine. destruct o as [| |[n|] c|[f|] c| | |]; auto.
      - apply Hnew. left. reflexivity.
      - intros n. apply (Hset f c). left. reflexivity. }
    destruct (step_inv _ _ _ _ I Hf) as (g1 & l1 & E1 & I1 & M1 & O1 & N1).
    assert (Hfo : fopens (o :: os) = opened l1 ++ fopens os) by (rewrite O1; reflexivity). rewrite Hfo in Hnd, Hnew.
    destruct (IH g1 (tr ++ l1) (dest_step d o) I1) as (g2 & l2 & E2 & I2 & M2 & O2 & N2).
    + intros n Hn Hin. rewrite opened_app in Hin. apply in_app_or in Hin. destruct Hin as [Hin|Hin].
      * apply (Hnew n); auto. apply in_or_app. auto.
      * clear - Hnd Hn Hin. induction (opened l1) as [|x l IHl]; [contradiction|]. cbn in Hnd. inversion Hnd; subst.
        destruct Hin as [->|Hin]; auto. apply H1. apply in_or_app. auto.
    + split; [clear - Hnd; induction (opened l1); auto; inversion Hnd; auto|]. intros f c Hin. apply (Hset f c). now right.
    + exists g2, (l1 ++ l2). cbn [lsteps]. rewrite E1. cbn [bind]. rewrite E2. cbn [bind]. split; auto. rewrite app_assoc. split; [exact I2|].
      split; [unfold messages in *; rewrite filter_app, M1, M2; reflexivity|]. split; [rewrite opened_app, O2; auto|].
      intros Hc Hall. apply N2; [intros o' Ho'; apply Hc; now right|]. apply N1; auto. apply (Hc o). now left.
Qed.

(** ** C70 *)
(** C70: every call returns normally, and what is written is exactly: each message whose priority is at least the current threshold,
    once, in order, to the current file (as one line after the time) and to syslog if it is on *)
Theorem C70_messages : forall os c, sane os -> exists g tr, program os c = Ok (g, tr) /\ messages tr = expected dest0 os.
Proof.
  intros os c H. destruct (steps_inv os _ _ _ inv0) as (g & l & E & I & M & _); auto.
  unfold program. rewrite E. cbn [bind]. cbn [app] in I. destruct (closeFile_total _ _ _ c I) as (ok & g2 & l2 & Ec). rewrite Ec. cbn [bind].
  apply (closeFile_inv _ _ _ _ _ _ _ I) in Ec. destruct Ec as (_ & _ & _ & Hm & _).
  exists g2, (l ++ l2). split; auto. unfold messages in *. rewrite filter_app, M, Hm. apply app_nil_r.
Qed.
(** C70: the logger closes no file but its own, none twice, and each only after opening it *)
Theorem C70_files : forall os c g tr, sane os -> program os c = Ok (g, tr) ->
  (forall f, In (LClosed f) tr -> exists n, f = FOwn n /\ In (LOpened n) tr) /\ NoDup (closed tr).
Proof.
  intros os c g tr H E. destruct (steps_inv os _ _ _ inv0) as (g1 & l & E1 & I & _); auto. cbn [app] in I.
  unfold program in E. rewrite E1 in E. cbn [bind] in E. destruct (closeFile_total _ _ _ c I) as (ok & g2 & l2 & Ec). rewrite Ec in E. cbn [bind] in E.
  injection E as <- <-. apply (closeFile_inv _ _ _ _ _ _ _ I) in Ec. destruct Ec as (I2 & _).
  split; [|apply (i_once _ _ _ I2)]. intros f Hf. destruct (i_user _ _ _ I2 f Hf) as (n & ->). exists n. split; auto.
  assert (Hc : In n (closed (l ++ l2))) by (apply in_flat_map; eexists; split; [exact Hf|left; reflexivity]).
  apply (i_closed _ _ _ I2) in Hc. apply in_flat_map in Hc. destruct Hc as (e & He & Hn). destruct e; cbn in Hn; try contradiction.
  destruct Hn as [->|[]]. exact He.
Qed.
(** C70: the logger never writes to a file of its own before opening it or after closing it *)
Theorem C70_write_open : forall os c g tr pre n line post, sane os -> program os c = Ok (g, tr) ->
  tr = pre ++ LWrite (FOwn n) line :: post -> In (LOpened n) pre /\ ~ In (LClosed (FOwn n)) pre.
Proof.
  assert (Hput : forall g p t s a b l, put g p t s a b = Ok l -> forall pre n line post, l = pre ++ LWrite (FOwn n) line :: post ->
                 In n (l_open g) /\ forall e, In e pre -> is_message e = true \/ e = LComplain).
  { intros g p t s a b l E pre n line post El. subst l. unfold put in E. destruct (p <? l_pri g).
    { injection E as E. destruct pre; discriminate. }
    destruct (l_fp g) as [f|].
    - destruct (is_open g f) eqn:Eo; [|discriminate]. cbn [bind] in E. injection E as E. destruct pre as [|e pre].
      + cbn in E. injection E as Ef _ _. subst f. cbn in Eo. apply existsb_Z in Eo. split; [exact Eo|intros e []].
      + exfalso. cbn in E. injection E as _ E. clear - E. destruct a, b, (l_syslog g); cbn in E;
          repeat (destruct pre as [|? pre]; cbn in E; try discriminate; try (injection E as ? E; try discriminate)).
    - exfalso. cbn in E. injection E as E. destruct (l_syslog g); destruct pre as [|? [|? ?]]; discriminate. }
  assert (Hstep : forall g o g' l, lstep g o = Ok (g', l) -> forall pre n line post, l = pre ++ LWrite (FOwn n) line :: post ->
                 In n (l_open g) /\ forall e, In e pre -> is_message e = true \/ e = LComplain).
  { intros g o g' l E pre n line post El. destruct o as [p t s a b|p t s a b|f c|f c|b|p|c]; cbn in E.
    - destruct (put g p t s a b) eqn:Ep; try discriminate. cbn in E. injection E as <- <-. eapply Hput; eauto.
    - unfold PutLog in E. destruct (p <? l_pri g); [cbn in E; injection E as <- <-; destruct pre; discriminate|].
      destruct s as [s|]; [|cbn in E; injection E as <- <-; destruct pre as [|? [|? ?]]; discriminate].
      destruct (put g p t s a b) eqn:Ep; try discriminate. cbn in E. injection E as <- <-. eapply Hput; eauto.
    - exfalso. unfold openFile in E. destruct f as [m|]; [|cbn in E; injection E as <- <-; destruct pre; discriminate].
      unfold closeFile in E. cbn [l_fp l_doClose l_pri l_syslog l_open] in E.
      destruct (l_fp g) as [ff|]; [destruct (l_doClose g); cbn [negb] in E; [destruct ff; try (destruct (is_open _ _))|]|]; cbn in E; try discriminate;
        try (destruct c; cbn in E); injection E as <- <-; repeat (destruct pre as [|? pre]; cbn in El; try discriminate; try (injection El as ? El; try discriminate)).
    - exfalso. unfold set, closeFile in E.
      destruct (l_fp g) as [ff|]; [destruct (l_doClose g); cbn [negb] in E; [destruct ff; try (destruct (is_open _ _))|]|]; cbn in E; try discriminate;
        try (destruct c; cbn in E); injection E as <- <-; repeat (destruct pre as [|? pre]; cbn in El; try discriminate; try (injection El as ? El; try discriminate)).
    - injection E as <- <-. destruct pre; discriminate.
    - injection E as <- <-. destruct pre; discriminate.
    - exfalso. unfold closeFile in E.
      destruct (l_fp g) as [ff|]; [destruct (l_doClose g); cbn [negb] in E; [destruct ff; try (destruct (is_open _ _))|]|]; cbn in E; try discriminate;
        injection E as <- <-; repeat (destruct pre as [|? pre]; cbn in El; try discriminate; try (injection El as ? El; try discriminate)). }
  assert (Hmain : forall os g tr d, inv g tr d -> (forall n, In n (fopens os) -> ~ In n (opened tr)) -> sane os ->
     forall g' l, lsteps g os = Ok (g', l) -> forall pre n line post, l = pre ++ LWrite (FOwn n) line :: post ->
     In n (opened (tr ++ pre)) /\ ~ In n (closed (tr ++ pre))).
  { induction os as [|o os IH]; intros g tr d I Hnew [Hnd Hset] g' l E pre n line post El.
    { cbn in E. injection E as <- <-. destruct pre; discriminate. }
    assert (Hf : fine o tr).
    { unfold fine. destruct o as [| |[m|] c|[f|] c| | |]; auto.
      - apply Hnew. left. reflexivity.
      - intros m. apply (Hset f c). left. reflexivity. }
    destruct (step_inv _ _ _ _ I Hf) as (g1 & l1 & E1 & I1 & M1 & O1 & _). cbn in E. rewrite E1 in E. cbn [bind] in E.
    destruct (lsteps g1 os) as [[g2 l2]| | |] eqn:E2; try discriminate. cbn [bind] in E. injection E as <- <-.
    assert (Hc : (exists post', l1 = pre ++ LWrite (FOwn n) line :: post') \/ (exists a', pre = l1 ++ a' /\ l2 = a' ++ LWrite (FOwn n) line :: post)).
    { clear - El. revert pre El. induction l1 as [|x l1 IHl]; intros a El; cbn in El.
      - right. exists a. auto.
      - destruct a as [|y a]; cbn in El; injection El as -> El; [left; eexists; reflexivity|].
        destruct (IHl a El) as [(p & ->)|(a' & -> & ->)]; [left; eexists; reflexivity|right; exists a'; auto]. }
    destruct Hc as [(post' & El1)|(a' & -> & El2)].
    - destruct (Hstep _ _ _ _ E1 _ _ _ _ El1) as [Hopen Hquiet]. apply (i_open _ _ _ I) in Hopen.
      rewrite opened_app, closed_app. split; [apply in_or_app; tauto|]. intros Hx. apply in_app_or in Hx. destruct Hx as [Hx|Hx]; [tauto|].
      apply in_flat_map in Hx. destruct Hx as (e & He & Hn). destruct (Hquiet e He) as [Hq| ->]; [|contradiction].
      destruct e; try discriminate; contradiction.
    - rewrite app_assoc. assert (Hfo : fopens (o :: os) = opened l1 ++ fopens os) by (rewrite O1; reflexivity). rewrite Hfo in Hnd, Hnew.
      eapply (IH g1 (tr ++ l1) (dest_step d o) I1); eauto.
      + intros m Hm Hin. rewrite opened_app in Hin. apply in_app_or in Hin. destruct Hin as [Hin|Hin].
        * apply (Hnew m); auto. apply in_or_app. auto.
        * clear - Hnd Hm Hin. induction (opened l1) as [|x l IHl]; [contradiction|]. cbn in Hnd. inversion Hnd; subst.
          destruct Hin as [->|Hin]; auto. apply H1. apply in_or_app. auto.
      + split; [clear - Hnd; induction (opened l1); auto; inversion Hnd; auto|]. intros f c Hin. apply (Hset f c). now right. }
  intros os c g tr pre n line post Hs E El.
  destruct (steps_inv os _ _ _ inv0) as (g1 & l & E1 & I & _); auto. cbn [app] in I.
  unfold program in E. rewrite E1 in E. cbn [bind] in E. destruct (closeFile_total _ _ _ c I) as (ok & g2 & l2 & Ec). rewrite Ec in E. cbn [bind] in E.
  injection E as <- <-. apply (closeFile_inv _ _ _ _ _ _ _ I) in Ec. destruct Ec as (_ & _ & _ & Hm & _).
  assert (Hc : exists post', l = pre ++ LWrite (FOwn n) line :: post').
  { clear - El Hm. revert pre El. induction l as [|x l IHl]; intros a El; cbn in El.
    - exfalso. assert (Hin : In (LWrite (FOwn n) line) (messages l2)).
      { unfold messages. apply filter_In. split; auto. rewrite El. apply in_or_app. right. left. reflexivity. }
      rewrite Hm in Hin. contradiction.
    - destruct a as [|y a]; cbn in El; injection El as -> El; [eexists; reflexivity|].
      destruct (IHl a El) as (p & ->). eexists. reflexivity. }
  destruct Hc as (post' & El'). destruct (Hmain os _ _ _ inv0 ltac:(intros m _ []) Hs _ _ E1 _ _ _ _ El') as [H1 H2]. cbn [app] in *.
  split.
  - apply in_flat_map in H1. destruct H1 as (e & He & Hn). destruct e; cbn in Hn; try contradiction. destruct Hn as [->|[]]. exact He.
  - intros Hx. apply H2. apply in_flat_map. eexists. split; [exact Hx|left; reflexivity].
Qed.
(** C70: if no fclose fails, every file the logger opened has been closed when the program ends *)
Theorem C70_no_leak : forall os g tr n, sane os -> no_close_fails os -> program os true = Ok (g, tr) ->
  In (LOpened n) tr -> In (LClosed (FOwn n)) tr.
Proof.
  intros os g tr n Hs Hn E Hin. destruct (steps_inv os _ _ _ inv0) as (g1 & l & E1 & I & _ & _ & N); auto. cbn [app] in I.
  unfold program in E. rewrite E1 in E. cbn [bind] in E. destruct (closeFile_total _ _ _ true I) as (ok & g2 & l2 & Ec). rewrite Ec in E. cbn [bind] in E.
  injection E as <- <-. apply (closeFile_inv _ _ _ _ _ _ _ I) in Ec. destruct Ec as (I2 & _ & _ & _ & Hop).
  assert (Hnone : ~ In n (l_open g2)).
  { intros Hx. apply Hop in Hx. destruct Hx as [Hx Hne]. apply Hne. apply N; auto. intros m []. }
  rewrite (i_open _ _ _ I2) in Hnone.
  assert (Ho : In n (opened (l ++ l2))) by (apply in_flat_map; eexists; split; [exact Hin|left; reflexivity]).
  destruct (in_dec Z.eq_dec n (closed (l ++ l2))) as [Hc|Hc]; [|contradiction Hnone; auto].
  apply in_flat_map in Hc. destruct Hc as (e & He & Hx). destruct e as [|f| | |]; cbn in Hx; try contradiction. destruct f; cbn in Hx; try contradiction.
  destruct Hx as [->|[]]. exact He.
Qed.
(** two files one after the other, a message below the threshold, syslog switched on again, a file of the user's *)
Definition demo : list lop :=
  [OpPut LogInfo [84] [97] true true; OpOpen (Some 1) true; OpPut LogDebug [84] [98] true true; OpPutLog LogWarning [84] (Some [99;0;100]) true true;
   OpSyslog true; OpOpen (Some 2) true; OpPri LogError; OpPut LogWarning [84] [101] true true; OpPut LogError [84] [102] true true;
   OpSyslog true; OpSet (Some (FUser 9)) true; OpPut LogError [84] [103] true true].
Example C70_ex : sane demo /\ no_close_fails demo /\ exists g, program demo true = Ok (g,
  [LWrite FStderr [84;32;97;10]; LSyslog 6 [97;10]; LOpened 1; LWrite (FOwn 1) [84;32;99;10]; LOpened 2; LClosed (FOwn 1);
   LWrite (FOwn 2) [84;32;102;10]; LClosed (FOwn 2); LWrite (FUser 9) [84;32;103;10]]).
Proof.
  split; [|split].
  - split; [cbn; repeat constructor; cbn; lia|]. cbn. intros f c H n. repeat (destruct H as [H|H]; try discriminate); try contradiction.
    injection H as <- _. discriminate.
  - intros o H. cbn in H. repeat (destruct H as [<-|H]; auto). contradiction.
  - eexists. reflexivity.
Qed.

(** ** Finding: if the file in use cannot be closed, openFile throws after opening the new one, which is then never closed; the
    logger is left without any destination, so that the next message is lost *)
Theorem C70_leak_finding : exists g,
  program [OpOpen (Some 1) true; OpOpen (Some 2) false; OpPut LogError [84] [97] true true] true = Ok (g, [LOpened 1; LOpened 2; LClosed (FOwn 1)]) /\
  l_open g = [2].
Proof. eexists. split; reflexivity. Qed.
(** after any calls: opening a file throws exactly if fopen fails or a file of the logger had to be closed and fclose failed;
    set and closeFile say so exactly in the latter case; a failed fopen changes nothing *)
Theorem C70_throws : forall os, sane os -> exists g tr, lsteps Logger0 os = Ok (g, tr) /\
  forall closed,
    (forall n, exists ok g' l, openFile g n closed = Ok (ok, g', l) /\ (ok = false <-> n = None \/ closed = false /\ exists f, In (LClosed f) l)) /\
    (exists l, openFile g None closed = Ok (false, g, l) /\ l = []) /\
    (forall f, exists ok g' l, set g f closed = Ok (ok, g', l) /\ (ok = false <-> closed = false /\ exists f, In (LClosed f) l)) /\
    (exists ok g' l, closeFile g closed = Ok (ok, g', l) /\ (ok = false <-> closed = false /\ exists f, In (LClosed f) l)).
Proof.
  intros os H. destruct (steps_inv os _ _ _ inv0) as (g & tr & E & I & _); auto. exists g, tr. split; [exact E|]. intros closed.
  assert (CF : forall gg, l_fp gg = l_fp g -> l_doClose gg = l_doClose g -> (forall x, In x (l_open g) -> In x (l_open gg)) ->
            exists ok g' l, closeFile gg closed = Ok (ok, g', l) /\ (ok = false <-> closed = false /\ exists f, In (LClosed f) l)).
  { intros gg E1 E2 E3. pose proof (i_fp _ _ _ I) as FP. unfold closeFile. rewrite E1, E2.
    assert (NO : forall x : logger, Ok (true, x, @nil lev) = Ok (true, x, []) /\ (true = false <-> closed = false /\ exists f, In (LClosed f) (@nil lev))).
    { intros x. split; [reflexivity|]. split; [discriminate|intros [_ [f []]]]. }
    destruct (l_fp g) as [f|] eqn:EF; [|exists true, gg, []; apply NO]. destruct (l_doClose g) eqn:ED; cbn [negb]; [|exists true, gg, []; apply NO].
    destruct f as [| |u|n]; [eexists true, _, []; apply NO..| |].
    - eexists closed, _, [LClosed (FUser u)]. cbn [is_open]. split; [reflexivity|]. split; [intros ->; split; [reflexivity|]; exists (FUser u); left; reflexivity|tauto].
    - assert (O : is_open gg (FOwn n) = true) by (cbn [is_open]; apply existsb_Z, E3, FP; reflexivity). rewrite O.
      eexists closed, _, [LClosed (FOwn n)]. split; [reflexivity|]. split; [intros ->; split; [reflexivity|]; exists (FOwn n); left; reflexivity|tauto]. }
  split; [|split; [|split]].
  - intros [n|]; [|exists false, g, []; split; [reflexivity|]; split; auto]. unfold openFile.
    destruct (CF (mk_logger (l_pri g) (l_fp g) (l_doClose g) (l_syslog g) (n :: l_open g))) as (ok & g' & l & EC & K); [reflexivity|reflexivity|intros x X; right; exact X|].
    rewrite EC. cbn [bind]. destruct ok; cbn [negb]; eexists _, _, (LOpened n :: l); (split; [reflexivity|]).
    + split; [discriminate|]. intros [D|[D [f [F|F]]]]; [discriminate..|]. apply K. eauto.
    + split; [|auto]. intros _. right. destruct K as [K _]. destruct (K eq_refl) as [D [f F]]. split; [exact D|]. exists f. right. exact F.
  - exists []. split; reflexivity.
  - intros f. unfold set. destruct (CF g eq_refl eq_refl ltac:(auto)) as (ok & g' & l & EC & K). rewrite EC. cbn [bind].
    destruct ok; cbn [negb]; eexists _, _, l; (split; [reflexivity|exact K]).
  - exact (CF g eq_refl eq_refl ltac:(auto)).
Qed.
(** ** Finding: a message whose priority equals the one set is shown, although the comment on SetLogPriority says that it is not *)
Theorem C70_equal_finding : forall g p time str, l_pri g = p -> l_fp g = Some FStderr ->
  exists l, put g p time str true true = Ok (LWrite FStderr (time ++ [32] ++ cstr str ++ [10]) :: l).
Proof. intros g p time str Hp Hf. unfold put. rewrite Hp, Hf, Z.ltb_irrefl. cbn. eauto. Qed.
(** ** Finding: a message is cut at a NUL character *)
Theorem C70_nul_finding : exists l, put Logger0 LogInfo [84] [97;0;98] true true = Ok (LWrite FStderr [84;32;97;10] :: l).
Proof. eexists. reflexivity. Qed.

Print Assumptions C70_messages.
Print Assumptions C70_files.
Print Assumptions C70_throws.
Print Assumptions C70_write_open.
Print Assumptions C70_no_leak.
Print Assumptions C70_leak_finding.
Print Assumptions C70_equal_finding.
Print Assumptions C70_nul_finding.
