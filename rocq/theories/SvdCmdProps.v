(** C119: the svd_smpl command *)
Require Import Verif.Common Verif.Text Verif.AtoiSpec Verif.AtoiModel Verif.NumProps Verif.PlsiModel Verif.SvdModel Verif.SvdFileModel Verif.SvdFileProps Verif.SvdCmdModel Verif.ExceptionModel.
Require Import Verif.ConfigModel Verif.ConfigProps.
Ltac Zify.zify_post_hook ::= idtac.
Local Open Scope Z_scope.

(** ** Specification *)
Notation text := (list Z).
(** the arguments are names, and "-r" each time followed by a rank; a "-r" that is the last argument is a name *)
Inductive reads : list text -> list text -> list text -> Prop :=
| reads_end : reads [] [] []
| reads_rank x rest names ranks : reads rest names ranks -> reads (str "-r" :: x :: rest) names (x :: ranks)
| reads_name a rest names ranks : a <> str "-r" \/ rest = [] -> reads rest names ranks -> reads (a :: rest) (a :: names) ranks.
(** the input and the output among the names: empty names before them do not count *)
Definition blanks (l : list text) : Prop := Forall (fun s => s = []) l.
Definition names_ok (names : list text) (i o : text) : Prop :=
  i <> [] /\ exists e1 e2, blanks e1 /\ blanks e2 /\ ((names = e1 ++ i :: e2 /\ o = i) \/ (names = e1 ++ i :: e2 ++ [o] /\ o <> [])).
(** the rank a text stands for *)
Definition rank_text (x : text) (v : Z) : Prop := signed_language (- 2 ^ 31) (2 ^ 31 - 1) x v.
Definition argument (x : text) : Prop := ~ In 0 x /\ bytes x /\ zlen x < 2 ^ 63.

(** ** the arguments *)
Lemma visible_end s r : ~ In 0 s -> forall n, zlen s < n -> visible (s ++ 0 :: r) n = s.
Proof.
  induction s as [|c s IH]; intros N n L; cbn [visible app].
  - destruct (n <=? 0) eqn:E; reflexivity.
  - rewrite zlen_cons in L. pose proof (zlen_nonneg s). destruct (n <=? 0) eqn:E; [lia|]. destruct (c =? 0) eqn:E2; [exfalso; apply N; left; lia|].
    rewrite IH; auto; [|lia]. intros H'. apply N. now right.
Qed.
Lemma arg_int_spec after x : argument x -> bytes after -> 18 <= zlen after ->
  (exists v, rank_text x v /\ arg_int after x = Ok v /\ forall v', rank_text x v' -> v' = v) \/ ((forall v, ~ rank_text x v) /\ arg_int after x = Exn).
Proof.
  intros (N & B & L) Ba La. pose proof (zlen_nonneg x).
  destruct (C02_atoi_exact ty_i32 (- 2 ^ 31) (2 ^ 31 - 1) (x ++ 0 :: after) size_max) as [(v & A & U & _ & E)|(A & _ & E)].
  - cbn. tauto.
  - apply Forall_app. split; [exact B|]. constructor; [unfold is_byte; lia|exact Ba].
  - unfold size_max. lia.
  - right. apply in_or_app. right. now left.
  - intros _. right. right. exists x, after. auto.
  - rewrite visible_end in A, U by (unfold size_max; auto; lia). left. exists v. unfold arg_int. rewrite E. cbn [bind]. repeat split; auto.
  - rewrite visible_end in A by (unfold size_max; auto; lia). right. split; [exact A|]. unfold arg_int. rewrite E; [reflexivity|]. unfold throw_slack. rewrite zlen_app, zlen_cons. lia.
Qed.
Fixpoint place_all (names : list text) (i o : text) : option (text * text) :=
  match names with [] => Some (i, o) | a :: r => match place_name a i o with None => None | Some (i, o) => place_all r i o end end.
Lemma loop_name after a rest i o r : a <> str "-r" \/ rest = [] ->
  args_loop after (a :: rest) i o r = match place_name a i o with None => Ok None | Some (i, o) => args_loop after rest i o r end.
Proof. intros H. cbn [args_loop]. destruct rest as [|x rest]; [reflexivity|]. destruct H as [H|H]; [|discriminate]. now rewrite str_eq_ne. Qed.
Lemma loop_rank after x rest i o r : args_loop after (str "-r" :: x :: rest) i o r = let! v := arg_int after x in args_loop after rest i o v.
Proof. cbn [args_loop]. now rewrite str_eq_refl. Qed.
Lemma last_cons_default {A} (v : A) vs r : last (v :: vs) r = last vs v.
Proof. revert v r. induction vs as [|w vs IH]; intros; [reflexivity|]. change (last (v :: w :: vs) r) with (last (w :: vs) r). rewrite IH. symmetry. apply IH. Qed.
Lemma loop_good after : bytes after -> 18 <= zlen after -> forall args names ranks, reads args names ranks -> Forall argument args -> forall vs, Forall2 rank_text ranks vs -> forall i o r,
  args_loop after args i o r = Ok (match place_all names i o with None => None | Some (i, o) => Some (i, o, last vs r) end).
Proof.
  intros Ba La args names ranks R. induction R as [|x rest names ranks R IH|a rest names ranks H R IH]; intros FA vs V i o r.
  - inversion V. reflexivity.
  - inversion V as [|x' v ranks' vs' Hv V' E1 E2]. subst. inversion FA as [|? ? _ FA']. subst. inversion FA' as [|? ? Ax FA'']. subst. rewrite loop_rank.
    destruct (arg_int_spec after x Ax Ba La) as [(v' & _ & E & U)|(N & _)]; [|exfalso; now apply (N v)]. rewrite E. cbn [bind]. rewrite (U v Hv) in *. rewrite last_cons_default. now apply IH.
  - inversion FA as [|? ? _ FA']. subst. rewrite loop_name by auto. cbn [place_all]. destruct (place_name a i o) as [(i' & o')|]; [|reflexivity]. now apply IH.
Qed.
Lemma loop_bad after : bytes after -> 18 <= zlen after -> forall args names ranks, reads args names ranks -> Forall argument args -> (exists x, In x ranks /\ forall v, ~ rank_text x v) -> forall i o r,
  args_loop after args i o r = Exn \/ (args_loop after args i o r = Ok None /\ place_all names i o = None).
Proof.
  intros Ba La args names ranks R. induction R as [|x rest names ranks R IH|a rest names ranks H R IH]; intros FA (y & Hy & NV) i o r.
  - destruct Hy.
  - inversion FA as [|? ? _ FA']. subst. inversion FA' as [|? ? Ax FA'']. subst. rewrite loop_rank. destruct (arg_int_spec after x Ax Ba La) as [(v' & V & E & U)|(N & E)]; rewrite E; cbn [bind]; [|now left].
    apply IH; auto. exists y. destruct Hy as [<-|Hy]; [exfalso; now apply (NV v')|auto].
  - inversion FA as [|? ? _ FA']. subst. rewrite loop_name by auto. cbn [place_all]. destruct (place_name a i o) as [(i' & o')|]; [|now right]. apply IH; eauto.
Qed.
Lemma place_both names i o : i <> [] -> o <> [] -> place_all names i o = match names with [] => Some (i, o) | _ => None end.
Proof. intros Hi Ho. destruct names as [|a r]; [reflexivity|]. cbn [place_all]. unfold place_name. destruct i; [congruence|]. destruct o; [congruence|]. reflexivity. Qed.
Lemma place_in names i : i <> [] -> forall r, place_all names i [] = r -> match r with
  | Some (i', o') => i' = i /\ exists e2, blanks e2 /\ ((names = e2 /\ o' = []) \/ (names = e2 ++ [o'] /\ o' <> []))
  | None => forall e2, blanks e2 -> names <> e2 /\ forall o', o' <> [] -> names <> e2 ++ [o'] end.
Proof.
  intros Hi. induction names as [|a r IH]; intros q <-; cbn [place_all].
  - split; [reflexivity|]. exists []. split; [constructor|]. now left.
  - unfold place_name. destruct i as [|c i0]; [congruence|]. cbn [is_empty]. destruct a as [|b a].
    + specialize (IH _ eq_refl). destruct (place_all r (c :: i0) []) as [(i' & o')|].
      * destruct IH as (E & e2 & B & H). split; [exact E|]. exists ([] :: e2). split; [constructor; auto|]. destruct H as [(-> & ->)|(-> & Ho)]; [left; auto|right; auto].
      * intros e2 B. split; [intros <-; inversion B; subst; now apply (IH r)|]. intros o' Ho E. destruct e2 as [|e e2]; cbn in E; [injection E; congruence|]. injection E as <- E. inversion B; subst. now apply (proj2 (IH e2 ltac:(auto)) o' Ho).
    + rewrite place_both by discriminate. destruct r as [|b2 r].
      * split; [reflexivity|]. exists []. split; [constructor|]. right. split; [reflexivity|discriminate].
      * intros e2 B. split; [intros <-; inversion B; discriminate|]. intros o' Ho E. destruct e2 as [|e e2]; cbn in E; [discriminate|]. injection E as <- E. inversion B; discriminate.
Qed.
Lemma names_split e1 i rest e1' i' rest' : blanks e1 -> blanks e1' -> i <> [] -> i' <> [] -> e1 ++ i :: rest = e1' ++ i' :: rest' -> i = i' /\ rest = rest'.
Proof.
  intros B. revert e1'. induction B as [|e e1 He B IH]; intros e1' B' Hi Hi' E; destruct B' as [|e' e1' He' B']; cbn in E; injection E as E1 E2; subst; auto; try congruence. eapply IH; eauto.
Qed.
Lemma place_spec names : match place_all names [] [] with
  | Some (i, o) => (i = [] /\ blanks names) \/ names_ok names i (if is_empty o then i else o)
  | None => forall i o, ~ names_ok names i o end.
Proof.
  induction names as [|a r IH].
  - left. split; [reflexivity|constructor].
  - cbn [place_all]. unfold place_name. cbn [is_empty]. destruct a as [|c a].
    + destruct (place_all r [] []) as [(i & o)|].
      * destruct IH as [(-> & B)|(Hi & e1 & e2 & B1 & B2 & H)]; [left; split; [reflexivity|constructor; auto]|]. right. split; [exact Hi|]. exists ([] :: e1), e2. split; [constructor; auto|]. split; [exact B2|].
        destruct H as [(-> & E)|(-> & E)]; [left; auto|right; auto].
      * intros i o (Hi & e1 & e2 & B1 & B2 & H). apply (IH i o). split; [exact Hi|]. destruct e1 as [|e e1].
        { cbn in H. destruct H as [(H & _)|(H & _)]; injection H; congruence. }
        inversion B1; subst. exists e1, e2. repeat split; auto. cbn in H. destruct H as [(H & E)|(H & E)]; injection H as ->; auto.
    + pose proof (place_in r (c :: a) ltac:(discriminate) _ eq_refl) as P. destruct (place_all r (c :: a) []) as [(i & o)|].
      * destruct P as (-> & e2 & B & H). right. split; [discriminate|]. exists [], e2. split; [constructor|]. split; [exact B|].
        destruct H as [(-> & ->)|(-> & Ho)]; [left; auto|]. destruct o; [congruence|]. right. auto.
      * intros i o (Hi & e1 & e2 & B1 & B2 & H). destruct H as [(H & _)|(H & Ho)]; symmetry in H; apply (names_split e1 i _ [] (c :: a)) in H; auto; try discriminate; try constructor; destruct H as (_ & H); symmetry in H; [now apply (P e2)|now apply (proj2 (P e2 B2) o Ho)].
Qed.
Lemma ok_unique names i o i' o' : names_ok names i o -> names_ok names i' o' -> i = i' /\ o = o'.
Proof.
  assert (T : forall e2 e2' (x y : text), blanks e2 -> blanks e2' -> y <> [] -> e2 = e2' ++ [y] -> False).
  { intros e2 e2' x y B B' Hy ->. unfold blanks in B. rewrite Forall_app in B. destruct B as (_ & B). inversion B; subst; congruence. }
  intros (Hi & e1 & e2 & B1 & B2 & H) (Hi' & e1' & e2' & B1' & B2' & H').
  destruct H as [(-> & ->)|(-> & Ho)], H' as [(E & ->)|(E & Ho')]; apply names_split in E; auto; destruct E as (-> & E); split; auto.
  - exfalso. eapply (T e2 e2' [] o'); eauto.
  - exfalso. symmetry in E. eapply (T e2' e2 [] o); eauto.
  - apply app_inj_tail in E. apply E.
Qed.
Lemma blanks_not names i o : blanks names -> ~ names_ok names i o.
Proof.
  intros B (Hi & e1 & e2 & _ & _ & H). assert (In i names) as I by (destruct H as [(-> & _)|(-> & _)]; apply in_or_app; right; now left).
  unfold blanks in B. rewrite Forall_forall in B. now apply Hi, B.
Qed.
Lemma reads_exists n : forall args, (length args <= n)%nat -> exists names ranks, reads args names ranks.
Proof.
  induction n as [|n IH]; intros args L; [destruct args; [|cbn in L; lia]; exists [], []; constructor|].
  destruct args as [|a rest]; [exists [], []; constructor|]. cbn [length] in L.
  destruct (list_eq_dec Z.eq_dec a (str "-r")) as [->|N].
  - destruct rest as [|x rest]; [exists [str "-r"], []; constructor; [now right|constructor]|]. cbn [length] in L. destruct (IH rest ltac:(lia)) as (names & ranks & R). exists names, (x :: ranks). now constructor.
  - destruct (IH rest ltac:(lia)) as (names & ranks & R). exists (a :: names), ranks. constructor; auto.
Qed.
(** every command line is read in exactly one way *)
Theorem C119_reading : forall args, exists names ranks, reads args names ranks /\ forall names' ranks', reads args names' ranks' -> names' = names /\ ranks' = ranks.
Proof.
  intros args. destruct (reads_exists (length args) args (le_n _)) as (names & ranks & R). exists names, ranks. split; [exact R|].
  induction R as [|x rest names ranks R IH|a rest names ranks H R IH]; intros names' ranks' R'; inversion R'; subst; auto.
  - destruct (IH _ _ ltac:(eassumption)) as (-> & ->). auto.
  - destruct H1; [congruence|discriminate].
  - destruct H; [congruence|discriminate].
  - destruct (IH _ _ ltac:(eassumption)) as (-> & ->). auto.
Qed.
(** if every rank is a number, the names decide: the command runs with them and the last rank (10 if there is none), or shows its usage *)
Theorem C119_args : forall after args names ranks vs, bytes after -> 18 <= zlen after -> Forall argument args -> reads args names ranks -> Forall2 rank_text ranks vs ->
  (forall i o, names_ok names i o -> svd_args after args = Ok (Some (i, o, last vs 10))) /\
  ((forall i o, ~ names_ok names i o) -> svd_args after args = Ok None).
Proof.
  intros after args names ranks vs Ba La FA R V. unfold svd_args. rewrite (loop_good after Ba La args names ranks R FA vs V). cbn [bind].
  pose proof (place_spec names) as P. destruct (place_all names [] []) as [(i & o)|].
  - destruct P as [(-> & B)|P].
    + split; [intros i' o' H; exfalso; eapply blanks_not; eauto|reflexivity].
    + destruct i as [|c i]; [destruct P; congruence|]. cbn [is_empty]. split; [|intros N; exfalso; eapply N; eauto].
      intros i' o' H. destruct (ok_unique _ _ _ _ _ P H) as (-> & E). now rewrite E.
  - split; [intros i o H; exfalso; now apply (P i o)|reflexivity].
Qed.
(** a rank that is not a number: the process is aborted by the exception, unless it had shown its usage before *)
Theorem C119_bad_rank : forall after args names ranks, bytes after -> 18 <= zlen after -> Forall argument args -> reads args names ranks -> (exists x, In x ranks /\ forall v, ~ rank_text x v) ->
  svd_args after args = Exn \/ (svd_args after args = Ok None /\ forall i o, ~ names_ok names i o).
Proof.
  intros after args names ranks Ba La FA R X. unfold svd_args. destruct (loop_bad after Ba La args names ranks R FA X [] [] 10) as [E|(E & P)]; rewrite E; cbn [bind]; [now left|right].
  split; [reflexivity|]. pose proof (place_spec names) as Q. now rewrite P in Q.
Qed.
Example args_demo : let after := repeat 65 18 in
  svd_args after [str "a.txt"] = Ok (Some (str "a.txt", str "a.txt", 10)) /\
  svd_args after [str "-r"; str "3"; str "a.txt"; str "-r"; str "5"; str "b"] = Ok (Some (str "a.txt", str "b", 5)) /\
  svd_args after [] = Ok None /\ svd_args after [str "a"; str "b"; str "c"] = Ok None /\ svd_args after [str "a"; str "-r"; str "x"] = Exn.
Proof. vm_compute. repeat split. Qed.
(** ** Finding: "-r" at the end of the command line is taken for a file name
    The test for a rank needs an argument behind "-r".  `svd_smpl a.txt -r` does not show the usage: it writes "-r.U", "-r.S" and "-r.V",
    and `svd_smpl -r` tries to read a matrix from a file named "-r". *)
Theorem C119_last_finding : forall after a, argument a -> a <> [] -> a <> str "-r" -> svd_args after [a; str "-r"] = Ok (Some (a, str "-r", 10)) /\ svd_args after [str "-r"] = Ok (Some (str "-r", str "-r", 10)).
Proof.
  intros after a A N NR. split; [|reflexivity]. unfold svd_args. rewrite loop_name by now left. unfold place_name. cbn [is_empty]. rewrite loop_name by now right. unfold place_name. destruct a as [|c a]; [congruence|]. reflexivity.
Qed.

(** ** the files *)
Section Run.
Context {F : Type}.
Variables (fz : Z -> F) (cast : F -> F) (num : list Z -> F * bool * list Z) (show : F -> list Z) (old : Z -> Z -> F).
Variable decompose : smat (F := F) + mat F -> Z -> mat F * list F * mat F.
Notation run := (svd_run fz cast num show old decompose).
Notation svd_main := (svd_main fz cast num show old decompose).
(** the matrix in the file: read as a sparse one if it is one, else as a dense one *)
Inductive holds (file : option (list Z)) : smat (F := F) + mat F -> Prop :=
| holds_sparse B : LoadSparseMatrix cast num file = Ok (Some B) -> holds file (inl B)
| holds_dense M : LoadSparseMatrix cast num file = Ok None -> LoadMatrix fz cast num old file = Ok (Some M) -> holds file (inr M).
Definition unreadable (file : option (list Z)) : Prop := LoadSparseMatrix cast num file = Ok None /\ LoadMatrix fz cast num old file = Ok None.
Lemma app_ne (o a b : text) : a <> b -> o ++ a <> o ++ b.
Proof. intros N E. now apply app_inv_head in E. Qed.
(** the rank that is computed is at least 1 and at most the smaller side: the three files hold the result, all others are as before *)
Theorem C119_run : forall can_write fs i o rank A, holds (fs i) A -> (forall t, In t [str ".U"; str ".S"; str ".V"] -> can_write (o ++ t) = true) ->
  let r := Z.min (Z.min (fst (dims A)) (snd (dims A))) rank in 1 <= r ->
  exists fs', run can_write fs i o rank = Ok (true, fs') /\
    (forall n, ~ In n [o ++ str ".U"; o ++ str ".S"; o ++ str ".V"] -> fs' n = fs n) /\
    let '(U, s, V) := decompose A r in
    fs' (o ++ str ".U") = Some (SaveMatrix show U) /\ fs' (o ++ str ".S") = Some (SaveVector show s) /\ fs' (o ++ str ".V") = Some (SaveMatrix show V).
Proof.
  intros cw fs i o rank A H W r Hr. subst r. rewrite (Z.min_comm (fst (dims A))) in *. set (r := Z.min (Z.min (snd (dims A)) (fst (dims A))) rank) in *.
  assert (E : run cw fs i o rank = let '(U, s, V) := decompose A r in Ok (true, write_file cw (write_file cw (write_file cw fs (o ++ str ".U") (SaveMatrix show U)) (o ++ str ".S") (SaveVector show s)) (o ++ str ".V") (SaveMatrix show V))).
  { unfold svd_run. destruct H as [B H|M H H']; rewrite H; cbn [bind]; [|rewrite H'; cbn [bind]]; unfold ComputeSVD; cbv zeta; fold r; destruct (Z.leb_spec r 0); try lia; destruct (decompose _ r) as ((U & s) & V); reflexivity. }
  rewrite E. destruct (decompose A r) as ((U & s) & V). eexists. split; [reflexivity|]. unfold write_file. rewrite !W by (cbn; auto).
  split.
  - intros n N. cbn in N. rewrite !str_eq_ne by (intros ->; tauto). reflexivity.
  - rewrite !str_eq_refl, !str_eq_ne by (apply app_ne; discriminate). auto.
Qed.
(** so the three files are read back as the factors, each number rounded to its text *)
Theorem C119_factors : forall (val : F -> F) (ok : F -> Prop) can_write fs i o rank A, number_format num show val ok -> holds (fs i) A ->
  (forall t, In t [str ".U"; str ".S"; str ".V"] -> can_write (o ++ t) = true) -> let r := Z.min (Z.min (fst (dims A)) (snd (dims A))) rank in 1 <= r ->
  let '(U, s, V) := decompose A r in
  rows U = fst (dims A) -> rows U < 2 ^ 31 -> cols U = r -> rows V = snd (dims A) -> rows V < 2 ^ 31 -> cols V = r -> zlen s = r ->
  (forall a b, 0 <= a < rows U -> 0 <= b < r -> ok (at_ U a b)) -> (forall a b, 0 <= a < rows V -> 0 <= b < r -> ok (at_ V a b)) -> Forall ok s ->
  exists fs' U' V', run can_write fs i o rank = Ok (true, fs') /\
    LoadMatrix fz cast num old (fs' (o ++ str ".U")) = Ok (Some U') /\ rows U' = rows U /\ cols U' = r /\ (forall a b, 0 <= a < rows U -> 0 <= b < r -> at_ U' a b = cast (val (at_ U a b))) /\
    LoadVector cast num (fs' (o ++ str ".S")) = Ok (Some (map (fun x => cast (val x)) s)) /\
    LoadMatrix fz cast num old (fs' (o ++ str ".V")) = Ok (Some V') /\ rows V' = rows V /\ cols V' = r /\ (forall a b, 0 <= a < rows V -> 0 <= b < r -> at_ V' a b = cast (val (at_ V a b))).
Proof.
  intros val ok cw fs i o rank A NF H W r Hr. destruct (C119_run cw fs i o rank A H W Hr) as (fs' & E & _ & T). fold r in T. destruct (decompose A r) as ((U & s) & V). destruct T as (TU & TS & TV).
  intros RU RU2 CU RV RV2 CV LS OU OV OS. assert (r <= fst (dims A) /\ r <= snd (dims A)) by (unfold r; lia).
  destruct (C92_dense fz cast num show val ok NF old U) as (U' & LU & A1 & A2 & A3); [lia|lia|intros; apply OU; lia|].
  destruct (C92_dense fz cast num show val ok NF old V) as (V' & LV & B1 & B2 & B3); [lia|lia|intros; apply OV; lia|].
  exists fs', U', V'. rewrite TU, TS, TV. split; [exact E|]. split; [exact LU|]. split; [lia|]. split; [lia|]. split; [intros; apply A3; lia|]. split; [apply (C92_vector fz cast num show val ok NF); [lia|exact OS]|].
  split; [exact LV|]. split; [lia|]. split; [lia|]. intros; apply B3; lia.
Qed.
(** nothing is written when the arguments or the input are wrong *)
Theorem C119_untouched : forall after can_write fs args, (svd_args after args = Ok None -> svd_main after can_write fs args = Ok (1, fs)) /\
  (forall i o r, svd_args after args = Ok (Some (i, o, r)) -> unreadable (fs i) -> svd_main after can_write fs args = Ok (0, fs)).
Proof.
  intros after cw fs args. split.
  - intros E. unfold SvdCmdModel.svd_main. now rewrite E.
  - intros i o r E (H1 & H2). unfold SvdCmdModel.svd_main, svd_run. rewrite E. cbn [bind]. rewrite H1. cbn [bind]. rewrite H2. reflexivity.
Qed.
(** ** Finding: svd_smpl ends with status 0 whatever happens after the arguments were read
    main ignores the result of Run, and Run ignores those of ComputeSVD, SaveMatrix and SaveVector.  A missing or malformed input, a rank
    that is not positive and outputs that cannot be written all end with status 0. *)
Theorem C119_status_finding : forall after can_write fs args i o r st fs', svd_args after args = Ok (Some (i, o, r)) -> svd_main after can_write fs args = Ok (st, fs') -> st = 0.
Proof. intros after cw fs args i o r st fs' E H. unfold SvdCmdModel.svd_main in H. rewrite E in H. cbn [bind] in H. destruct (svd_run _ _ _ _ _ _ _ _ _ _ _) as [(b & f)| | |]; cbn [bind] in H; congruence. Qed.
(** ** Finding: with a rank that is not positive svd_smpl writes files no loader accepts
    ComputeSVD returns false and leaves the factors empty; they are saved as matrices of 0 rows, which LoadMatrix and LoadVector reject.  Old
    results are lost. *)
Theorem C119_rank_finding : forall can_write fs i o rank A, holds (fs i) A -> (forall t, In t [str ".U"; str ".S"; str ".V"] -> can_write (o ++ t) = true) -> rank <= 0 ->
  exists fs', run can_write fs i o rank = Ok (true, fs') /\ LoadMatrix fz cast num old (fs' (o ++ str ".U")) = Ok None /\ LoadVector cast num (fs' (o ++ str ".S")) = Ok None /\ LoadMatrix fz cast num old (fs' (o ++ str ".V")) = Ok None.
Proof.
  intros cw fs i o rank A H W Hr.
  assert (E : run cw fs i o rank = Ok (true, write_file cw (write_file cw (write_file cw fs (o ++ str ".U") (SaveMatrix show (no_mat old))) (o ++ str ".S") (SaveVector show [])) (o ++ str ".V") (SaveMatrix show (no_mat old)))).
  { unfold svd_run. destruct H as [B H|M H H']; rewrite H; cbn [bind]; [|rewrite H'; cbn [bind]]; unfold ComputeSVD; cbv zeta; match goal with |- context [Z.leb ?x 0] => destruct (Z.leb_spec x 0) end; try lia; reflexivity. }
  rewrite E. eexists. split; [reflexivity|]. unfold write_file. rewrite !W by (cbn; auto). rewrite !str_eq_refl, !str_eq_ne by (apply app_ne; discriminate). repeat split.
Qed.
End Run.
Definition idz (z : Z) := z.
Definition demo_fs : files := fun n => if str_eq n (str "in") then Some (str "# M S 2 3" ++ [10] ++ str "0:1 2:3" ++ [10] ++ str "1:4" ++ [10]) else None.
Definition demo_dec (_ : smat (F := Z) + mat Z) (r : Z) : mat Z * list Z * mat Z := (mk_mat 2 r (fun a b => a + b), repeat 7 (Z.to_nat r), mk_mat 3 r (fun a b => a * b)).
(** a number format as C92 asks for: integers *)
Example run_demo : holds idz idz numZ (fun _ _ => 9) (demo_fs (str "in")) (inl (mk_smat 2 3 [[(0, 1); (2, 3)]; [(1, 4)]])) /\
  exists fs', svd_main idz idz numZ printf_d (fun _ _ => 9) demo_dec (repeat 65 18) (fun _ => true) demo_fs [str "in"; str "out"; str "-r"; str "2"] = Ok (0, fs') /\
    fs' (str "out.S") = Some (str "# V D 2" ++ [10] ++ str "7" ++ [10] ++ str "7" ++ [10]) /\ fs' (str "out.U") = Some (str "# M D 2 2" ++ [10] ++ str "0 1" ++ [10] ++ str "1 2" ++ [10]) /\ fs' (str "in") = demo_fs (str "in").
Proof. split; [apply holds_sparse; vm_compute; reflexivity|]. eexists. split; [vm_compute; reflexivity|]. vm_compute. repeat split. Qed.
Print Assumptions C119_reading.
Print Assumptions C119_args.
Print Assumptions C119_bad_rank.
Print Assumptions C119_last_finding.
Print Assumptions C119_run.
Print Assumptions C119_factors.
Print Assumptions C119_untouched.
Print Assumptions C119_status_finding.
Print Assumptions C119_rank_finding.
