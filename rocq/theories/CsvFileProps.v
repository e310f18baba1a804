(** C110: CSV files by name (CsvReader, CsvWriter) *)
Require Import Verif.Common Verif.Text Verif.StreamModel Verif.StreamProps Verif.CsvModel Verif.CsvProps Verif.CsvFileModel.

(** ** Specification *)
(** the text of a file of these rows: every field quoted, CR LF behind every row *)
Definition rows_file (sep : Z) (rows : list (list (list Z))) : list Z := concat (map (fun r => row_text sep (map Quoted r) ++ [13; 10]) rows).
(** a decision of the library or the system that is not a failure *)
Definition works (h : how) : Prop := match h with Fail _ => False | _ => True end.
(** make a writer, write the rows, destroy it: the outcomes of the calls (if the constructor returns) and the files afterwards *)
Definition save (fs : files) (name : list Z) (sep : Z) (can : bool) (rows : list (list (list Z))) (hs : list how) (h : how) : res (list (res unit)) * files :=
  match CsvWriter fs name sep can with
  | (Ok w, fs) => let '(rs, fs, w, _) := cw_rows fs w rows hs in (Ok rs, cw_delete fs w h)
  | (_, fs) => (Exn, fs)
  end.

(** ** Proofs *)
Lemma store_eq fs n d : store fs n d n = Some d.
Proof. unfold store. destruct (list_eq_dec Z.eq_dec n n); congruence. Qed.
Lemma store_ne fs n d m : m <> n -> store fs n d m = fs m.
Proof. intros N. unfold store. destruct (list_eq_dec Z.eq_dec m n); congruence. Qed.
Definition same_but (name : list Z) (a b : files) : Prop := forall n, n <> name -> a n = b n.
Lemma send_but fs name d h : same_but name (snd (fst (send fs name d h))) fs.
Proof. intros n N. destruct h; cbn; auto; apply store_ne; auto. Qed.
Lemma put_but : forall l fs w hs, let '(_, fs', w', _) := put_pieces fs w l hs in same_but (w_name w) fs' fs /\ w_name w' = w_name w /\ w_sep w' = w_sep w.
Proof.
  induction l as [|d l IH]; intros fs w hs; cbn [put_pieces]; [repeat split; auto; intros n N; auto|].
  destruct (match hs with [] => (Keep, []) | h :: hs0 => (h, hs0) end) as [h hs1].
  unfold ofs_write. destruct (o_good (w_ofs w)) eqn:G.
  - pose proof (send_but fs (w_name w) (o_buf (w_ofs w) ++ d) h) as B. destruct (send fs (w_name w) (o_buf (w_ofs w) ++ d) h) as [[b fs1] buf]. cbn [fst snd] in B. cbn [o_good].
    destruct b; [|cbn; auto]. specialize (IH fs1 (mk_cw (w_name w) (mk_ofs true buf) (w_sep w)) hs1). destruct put_pieces as [[[r fs2] w2] hs2]. cbn [w_name w_sep] in IH.
    destruct IH as (A & A1 & A2). split; [intros n N; rewrite A; auto|auto].
  - rewrite G. cbn. repeat split; auto; intros n N; auto.
Qed.
Lemma rows_but : forall rows fs w hs, let '(_, fs', w', _) := cw_rows fs w rows hs in same_but (w_name w) fs' fs /\ w_name w' = w_name w /\ w_sep w' = w_sep w.
Proof.
  induction rows as [|row rows IH]; intros fs w hs; cbn [cw_rows]; [repeat split; auto; intros n N; auto|].
  unfold cw_write. pose proof (put_but (pieces (w_sep w) true row) fs w hs) as P. destruct put_pieces as [[[r fs1] w1] hs1]. destruct P as (P & P1 & P2).
  specialize (IH fs1 w1 hs1). destruct cw_rows as [[[rs fs2] w2] hs2]. destruct IH as (Q & Q1 & Q2). rewrite P1 in *. split; [intros n N; rewrite Q; auto|]. split; congruence.
Qed.
(** what is in the file and in the buffer *)
Definition holds (fs : files) (w : cwriter) (t : list Z) : Prop := o_good (w_ofs w) = true /\ exists c, fs (w_name w) = Some c /\ c ++ o_buf (w_ofs w) = t.
Lemma put_ok : forall l fs w hs t, holds fs w t -> Forall works hs ->
  let '(r, fs', w', hs') := put_pieces fs w l hs in r = Ok tt /\ holds fs' w' (t ++ concat l) /\ Forall works hs'.
Proof.
  induction l as [|d l IH]; intros fs w hs t H F; cbn [put_pieces]; [cbn; rewrite app_nil_r; auto|].
  assert (X: exists h hs1, match hs with [] => (Keep, []) | h :: hs0 => (h, hs0) end = (h, hs1) /\ works h /\ Forall works hs1).
  { destruct hs as [|h hs]; [exists Keep, []; cbn; auto|inversion F; subst; exists h, hs; auto]. }
  destruct X as (h & hs1 & -> & W & F1). destruct H as (G & c & C & E).
  unfold ofs_write. rewrite G. 
  destruct h as [| |k]; [| |destruct W]; cbn [send o_good].
  - specialize (IH fs (mk_cw (w_name w) (mk_ofs true (o_buf (w_ofs w) ++ d)) (w_sep w)) hs1 (t ++ d)). destruct put_pieces as [[[r fs2] w2] hs2].
    cbn [concat]. rewrite app_assoc. apply IH; auto. split; [auto|]. exists c. cbn. split; [auto|]. rewrite app_assoc. congruence.
  - specialize (IH (store fs (w_name w) (content fs (w_name w) ++ o_buf (w_ofs w) ++ d)) (mk_cw (w_name w) (mk_ofs true []) (w_sep w)) hs1 (t ++ d)). destruct put_pieces as [[[r fs2] w2] hs2].
    cbn [concat]. rewrite app_assoc. apply IH; auto. split; [auto|]. eexists. cbn. split; [apply store_eq|]. rewrite app_nil_r. unfold content. rewrite C, app_assoc. congruence.
Qed.
Lemma quote_doubled s : csv_quote s = doubled s.
Proof. induction s as [|c s IH]; cbn; [auto|]. rewrite IH. destruct (c =? 34) eqn:E; cbn; [apply Z.eqb_eq in E; subst; auto|auto]. Qed.
Lemma pieces_false sep : forall row, concat (pieces sep false row) = match row with [] => [] | _ => [sep] ++ row_text sep (map Quoted row) end ++ [13; 10].
Proof.
  induction row as [|f row IH]; [reflexivity|]. cbn [pieces]. rewrite concat_app. cbn [concat map]. rewrite app_nil_r, IH. unfold csv_field. rewrite quote_doubled.
  destruct row as [|g row]; cbn; rewrite <- ?app_assoc; reflexivity.
Qed.
Lemma pieces_text sep row : concat (pieces sep true row) = row_text sep (map Quoted row) ++ [13; 10].
Proof.
  destruct row as [|f row]; [reflexivity|]. cbn [pieces concat app map]. rewrite pieces_false. unfold csv_field. rewrite quote_doubled.
  destruct row as [|g row]; cbn; rewrite <- ?app_assoc; reflexivity.
Qed.
Lemma rows_ok : forall rows fs w hs t, holds fs w t -> Forall works hs ->
  let '(rs, fs', w', _) := cw_rows fs w rows hs in rs = repeat (Ok tt) (length rows) /\ holds fs' w' (t ++ rows_file (w_sep w) rows).
Proof.
  induction rows as [|row rows IH]; intros fs w hs t H F; cbn [cw_rows]; [cbn; rewrite app_nil_r; auto|].
  unfold cw_write. pose proof (put_ok (pieces (w_sep w) true row) fs w hs t H F) as P. pose proof (put_but (pieces (w_sep w) true row) fs w hs) as Q.
  destruct put_pieces as [[[r fs1] w1] hs1]. destruct P as (-> & H1 & F1). destruct Q as (_ & _ & S1).
  specialize (IH fs1 w1 hs1 _ H1 F1). destruct cw_rows as [[[rs fs2] w2] hs2]. destruct IH as (-> & H2). split; [reflexivity|].
  rewrite S1 in H2. unfold rows_file in *. cbn [map concat]. rewrite pieces_text in H2. rewrite <- app_assoc in H2. exact H2.
Qed.
Lemma valid_sep sep : In sep [44; 9; 59; 32] -> isValidSeparator sep = true.
Proof. cbn. intros [<-|[<-|[<-|[<-|[]]]]]; reflexivity. Qed.
Lemma invalid_sep sep : ~ In sep [44; 9; 59; 32] -> isValidSeparator sep = false.
Proof. intros H. unfold isValidSeparator. cbn in H. repeat match goal with |- context [?a =? ?b] => destruct (Z.eqb_spec a b); [exfalso; intuition congruence|] end. reflexivity. Qed.

(** ** C110: as long as nothing fails, the file holds exactly the rows, whatever was in it and however the stream buffers; every call
    returns, and no other file is touched *)
Theorem C110_written fs name sep rows hs h : In sep [44; 9; 59; 32] -> Forall works hs -> works h ->
  exists fs', save fs name sep true rows hs h = (Ok (repeat (Ok tt) (length rows)), fs') /\
    fs' name = Some (rows_file sep rows) /\ (forall n, n <> name -> fs' n = fs n).
Proof.
  intros V F W. unfold save, CsvWriter. cbn [ofs_open]. rewrite (valid_sep _ V).
  pose proof (rows_ok rows (store fs name []) (mk_cw name (mk_ofs true []) sep) hs []) as R. pose proof (rows_but rows (store fs name []) (mk_cw name (mk_ofs true []) sep) hs) as B.
  destruct cw_rows as [[[rs fs2] w2] hs2]. destruct R as (-> & G & c & C & E); [|auto|].
  { split; [auto|]. exists []. split; [apply store_eq|reflexivity]. }
  cbn [w_name w_sep app] in *. destruct B as (B & N & _). eexists. split; [reflexivity|]. unfold cw_delete, ofs_close. rewrite G.
  destruct (o_buf (w_ofs w2)) as [|x b].
  - rewrite app_nil_r in E. rewrite N in C. subst. split; [auto|]. intros n H. rewrite B by auto. apply store_ne; auto.
  - assert (X: snd (fst (send fs2 (w_name w2) (x :: b) match h with Keep => Send | h => h end)) = store fs2 (w_name w2) (c ++ x :: b)).
    { destruct h; [| |destruct W]; cbn [send fst snd]; unfold content; rewrite C; reflexivity. }
    rewrite X, N, E. split; [apply store_eq|]. intros n H. rewrite store_ne by auto. rewrite B by auto. apply store_ne; auto.
Qed.
(** ** C110: and read by name it gives the same rows, then the end *)
Theorem C110_round_trip fs name sep rows hs h sched n : In sep [44; 9; 59; 32] -> Forall works hs -> works h ->
  Forall (Forall (Forall chr)) rows -> rows_size (map (map Quoted) rows) < 10485760 ->
  exists fs' r, save fs name sep true rows hs h = (Ok (repeat (Ok tt) (length rows)), fs') /\ CsvReader fs' name sep true sched = Ok r /\
    csv_reads (length rows + n) r = map (fun row => Ok (true, row)) rows ++ repeat (Ok (false, [])) n.
Proof.
  intros V F W C L. destruct (C110_written fs name sep rows hs h V F W) as (fs' & E & D & _).
  unfold CsvReader. destruct (C14_separator sep MAX_LINE_SIZE (mk_is (rows_file sep rows) sched)) as [O _]. destruct (O V) as (r & R & _).
  exists fs', r. split; [auto|]. rewrite D. split; [auto|].
  apply (C13_round_trip sep MAX_LINE_SIZE rows sched n r); [|auto|unfold MAX_LINE_SIZE; lia].
  rewrite <- R. f_equal. f_equal.
  assert (G: forall os, fold_left (csv_write sep) rows os = os ++ rows_file sep rows).
  { clear. induction rows as [|row rows IH]; intros os; cbn [fold_left]; [unfold rows_file; cbn; rewrite app_nil_r; auto|].
    rewrite IH. unfold csv_write, rows_file. cbn [map concat]. rewrite <- pieces_text.
    assert (P: forall b, csv_fields sep b row ++ [13; 10] = concat (pieces sep b row)).
    { induction row as [|f row IHr]; intros b; [reflexivity|]. cbn [csv_fields pieces]. rewrite concat_app. cbn [concat]. rewrite <- IHr. destruct b; cbn; rewrite <- ?app_assoc; reflexivity. }
    rewrite P, <- app_assoc. reflexivity. }
  apply G.
Qed.
(** ** C110: a call throws exactly when the stream has failed by then: the first failure ends the series of calls that return *)
Lemma put_bad : forall l fs w hs, o_good (w_ofs w) = false -> l <> [] -> exists hs', put_pieces fs w l hs = (Exn, fs, w, hs').
Proof.
  intros [|d l] fs w hs G N; [congruence|]. cbn [put_pieces]. destruct (match hs with [] => (Keep, []) | h :: hs0 => (h, hs0) end) as [h hs1]. unfold ofs_write. rewrite G. rewrite G. destruct w. eexists. reflexivity.
Qed.
Lemma pieces_ne sep b row : pieces sep b row <> [].
Proof. destruct row; cbn; [discriminate|]. destruct b; discriminate. Qed.
Lemma rows_bad : forall rows fs w hs, o_good (w_ofs w) = false -> exists hs', cw_rows fs w rows hs = (repeat Exn (length rows), fs, w, hs').
Proof.
  induction rows as [|row rows IH]; intros fs w hs G; cbn [cw_rows]; [eauto|]. unfold cw_write. destruct (put_bad (pieces (w_sep w) true row) fs w hs G (pieces_ne _ _ _)) as (hs1 & ->).
  destruct (IH fs w hs1 G) as (hs2 & ->). eauto.
Qed.
(** does none of these fail? *)
Definition all_work (hs : list how) : bool := forallb (fun h => match h with Fail _ => false | _ => true end) hs.
(** how many times the stream is written to for a row of n fields (n fields, n - 1 separators, the end of the line), and for rows *)
Definition calls (row : list (list Z)) : nat := (length row + (length row - 1) + 1)%nat.
Definition all_calls (rows : list (list (list Z))) : nat := fold_right (fun r n => (calls r + n)%nat) 0%nat rows.
Lemma pieces_len sep row : length (pieces sep true row) = calls row.
Proof.
  assert (F: forall row, length (pieces sep false row) = (2 * length row + 1)%nat) by (clear; induction row as [|f row IH]; cbn [pieces length app]; lia).
  unfold calls. destruct row as [|f row]; [reflexivity|]. cbn [pieces length app]. rewrite F. lia.
Qed.
Lemma put_any : forall l fs w hs, o_good (w_ofs w) = true -> let '(r, _, w', hs') := put_pieces fs w l hs in
  if all_work (firstn (length l) hs) then r = Ok tt /\ o_good (w_ofs w') = true /\ hs' = skipn (length l) hs else r = Exn /\ o_good (w_ofs w') = false.
Proof.
  induction l as [|d l IH]; intros fs w hs G; cbn [put_pieces]; [cbn; auto|].
  destruct hs as [|h hs]; unfold ofs_write; rewrite G.
  - cbn [send o_good]. specialize (IH fs (mk_cw (w_name w) (mk_ofs true (o_buf (w_ofs w) ++ d)) (w_sep w)) [] eq_refl). destruct put_pieces as [[[r fs2] w2] hs2]. rewrite firstn_nil, skipn_nil in *. exact IH.
  - cbn [length firstn skipn]. destruct h as [| |k]; cbn [send o_good]; unfold all_work; cbn [forallb andb]; fold all_work.
    + specialize (IH fs (mk_cw (w_name w) (mk_ofs true (o_buf (w_ofs w) ++ d)) (w_sep w)) hs eq_refl). destruct put_pieces as [[[r fs2] w2] hs2]. exact IH.
    + match goal with |- context [put_pieces ?a ?b _ _] => specialize (IH a b hs eq_refl) end. destruct put_pieces as [[[r fs2] w2] hs2]. exact IH.
    + auto.
Qed.
Lemma list_ext {A} : forall a b : list A, (forall i, nth_error a i = nth_error b i) -> a = b.
Proof.
  induction a as [|x a IH]; intros [|y b] H; auto; try (specialize (H 0%nat); discriminate).
  f_equal; [specialize (H 0%nat); cbn in H; congruence|]. apply IH. intros i. apply (H (S i)).
Qed.
Lemma all_work_app a b : all_work (a ++ b) = all_work a && all_work b.
Proof. apply forallb_app. Qed.
Lemma firstn_plus {A} (a b : nat) (l : list A) : firstn (a + b) l = firstn a l ++ firstn b (skipn a l).
Proof. revert l. induction a as [|a IH]; intros [|x l]; cbn; rewrite ?firstn_nil; auto. f_equal. apply IH. Qed.
Lemma rows_any : forall rows fs w hs, o_good (w_ofs w) = true -> let '(rs, _, _, _) := cw_rows fs w rows hs in
  length rs = length rows /\ forall i, (i < length rows)%nat -> nth_error rs i = Some (if all_work (firstn (all_calls (firstn (S i) rows)) hs) then Ok tt else Exn).
Proof.
  induction rows as [|row rows IH]; intros fs w hs G; cbn [cw_rows]; [split; [auto|cbn; lia]|].
  unfold cw_write. pose proof (put_any (pieces (w_sep w) true row) fs w hs G) as X. destruct put_pieces as [[[r fs1] w1] hs1]. rewrite pieces_len in X.
  assert (Y: forall i, all_work (firstn (all_calls (firstn (S i) (row :: rows))) hs) = all_work (firstn (calls row) hs) && all_work (firstn (all_calls (firstn i rows)) (skipn (calls row) hs))).
  { intros i. cbn [firstn]. unfold all_calls. cbn [fold_right]. fold (all_calls (firstn i rows)). rewrite firstn_plus, all_work_app. reflexivity. }
  destruct (all_work (firstn (calls row) hs)) eqn:W.
  - destruct X as (-> & G1 & ->). specialize (IH fs1 w1 (skipn (calls row) hs) G1). destruct cw_rows as [[[rs fs2] w2] hs2]. destruct IH as (L & IH). split; [cbn; auto|].
    intros i I. rewrite Y. cbn [andb]. destruct i as [|i]; [reflexivity|]. cbn [nth_error]. apply IH. cbn in I. lia.
  - destruct X as (-> & G1). destruct (rows_bad rows fs1 w1 hs1 G1) as (hs2 & ->). split; [cbn; rewrite repeat_length; auto|].
    intros i I. rewrite Y. cbn [andb]. destruct i as [|i]; [reflexivity|]. cbn [nth_error]. apply nth_error_repeat. cbn in I. lia.
Qed.
Theorem C110_errors fs name sep can rows hs h :
  (~ In sep [44; 9; 59; 32] -> fst (save fs name sep can rows hs h) = Exn) /\
  (In sep [44; 9; 59; 32] -> exists outs, fst (save fs name sep can rows hs h) = Ok outs /\ length outs = length rows /\
     forall i, (i < length rows)%nat -> nth_error outs i = Some (if can && all_work (firstn (all_calls (firstn (S i) rows)) hs) then Ok tt else Exn)) /\
  (forall n, n <> name -> snd (save fs name sep can rows hs h) n = fs n).
Proof.
  assert (OB: same_but name (fst (ofs_open fs name can)) fs) by (destruct can; cbn; intros n N; [apply store_ne|]; auto).
  unfold save, CsvWriter. destruct (ofs_open fs name can) as [fs1 o] eqn:EO. cbn [fst] in OB.
  assert (CB: forall fs nm o h, same_but nm (ofs_close fs nm o h) fs).
  { intros f nm q hh n N. unfold ofs_close. destruct (o_good q); [|auto]. destruct (o_buf q); [auto|]. apply send_but; auto. }
  split; [|split].
  - intros V. rewrite (invalid_sep _ V). reflexivity.
  - intros V. rewrite (valid_sep _ V). destruct can; cbn in EO; injection EO as <- <-.
    + pose proof (rows_any rows (store fs name []) (mk_cw name (mk_ofs true []) sep) hs eq_refl) as X. destruct cw_rows as [[[rs fs2] w2] hs2]. exists rs. cbn [fst andb]. tauto.
    + destruct (rows_bad rows fs (mk_cw name (mk_ofs false []) sep) hs eq_refl) as (hs2 & ->). eexists. split; [reflexivity|]. rewrite repeat_length. split; [auto|]. intros i I. apply nth_error_repeat; auto.
  - intros n N. destruct (isValidSeparator sep); [|cbn [snd]; rewrite CB; auto].
    pose proof (rows_but rows fs1 (mk_cw name o sep) hs) as B. destruct cw_rows as [[[rs fs2] w2] hs2]. destruct B as (B & Nm & _). cbn [w_name snd] in *. unfold cw_delete. rewrite Nm, CB by auto. rewrite B; auto.
Qed.
(** ** Finding: a file that does not exist, or may not be read, is read as an empty file: CsvReader throws nothing and reports the end *)
Theorem C110_missing_finding fs name sep can sched n : In sep [44; 9; 59; 32] -> fs name = None \/ can = false ->
  exists r, CsvReader fs name sep can sched = Ok r /\ csv_reads n r = repeat (Ok (false, [])) n.
Proof.
  intros V H. unfold CsvReader.
  assert (E: match fs name with Some d => if can then d else [] | None => [] end = []) by (destruct H as [-> | ->]; [auto|destruct (fs name); auto]). rewrite E.
  destruct (C14_separator sep MAX_LINE_SIZE (mk_is [] sched)) as [O _]. destruct (O V) as (r & R & _). exists r. split; [auto|].
  apply (C13_round_trip sep MAX_LINE_SIZE [] sched n r); [exact R|constructor|unfold MAX_LINE_SIZE; cbn; lia].
Qed.
(** ** Finding: CsvWriter empties the file before it looks at the separator: a refused separator costs the old contents *)
Theorem C110_separator_finding fs name sep rows hs h : ~ In sep [44; 9; 59; 32] ->
  fst (save fs name sep true rows hs h) = Exn /\ snd (save fs name sep true rows hs h) name = Some [].
Proof. intros V. unfold save, CsvWriter. cbn [ofs_open]. rewrite (invalid_sep _ V). cbn. split; [auto|apply store_eq]. Qed.
(** ** Finding: a failure when the destructor empties the buffer is not reported: every call returned, the file lacks its data; and a
    writer that could not open its file says so only when a row is written *)
Theorem C110_lost_finding fs name sep rows : In sep [44; 9; 59; 32] ->
  save fs name sep true rows [] (Fail 0) = (Ok (repeat (Ok tt) (length rows)), snd (save fs name sep true rows [] (Fail 0))) /\
  snd (save fs name sep true rows [] (Fail 0)) name = Some [] /\ save fs name sep false [] [] Send = (Ok [], fs).
Proof.
  intros V. split; [|split].
  - destruct (C110_errors fs name sep true rows [] (Fail 0)) as (_ & X & _). destruct (X V) as (outs & E & L & A).
    assert (outs = repeat (Ok tt) (length rows)).
    { apply list_ext. intros i. destruct (Nat.lt_ge_cases i (length rows)).
      - rewrite (A i), firstn_nil by auto. symmetry. apply nth_error_repeat; auto.
      - rewrite !(proj2 (nth_error_None _ _)); auto; rewrite ?repeat_length; lia. }
    subst outs. rewrite <- E. destruct save; reflexivity.
  - unfold save, CsvWriter. cbn [ofs_open]. rewrite (valid_sep _ V).
    assert (P: forall l f w, o_good (w_ofs w) = true -> exists w', put_pieces f w l [] = (Ok tt, f, w', []) /\ o_good (w_ofs w') = true /\ w_name w' = w_name w).
    { induction l as [|d l IH]; intros f w G; cbn [put_pieces]; [eauto|]. unfold ofs_write. rewrite G. cbn [send o_good]. destruct (IH f (mk_cw (w_name w) (mk_ofs true (o_buf (w_ofs w) ++ d)) (w_sep w)) eq_refl) as (w' & E & Y). eauto. }
    assert (R: forall rows f w, o_good (w_ofs w) = true -> exists rs w', cw_rows f w rows [] = (rs, f, w', []) /\ o_good (w_ofs w') = true /\ w_name w' = w_name w).
    { clear - P. induction rows as [|row rows IH]; intros f w G; cbn [cw_rows]; [eauto|]. unfold cw_write. destruct (P (pieces (w_sep w) true row) f w G) as (w1 & -> & G1 & N1).
      destruct (IH f w1 G1) as (rs & w2 & -> & G2 & N2). exists (Ok tt :: rs), w2. repeat split; auto. congruence. }
    destruct (R rows (store fs name []) (mk_cw name (mk_ofs true []) sep) eq_refl) as (rs & w' & -> & G & N). cbn [snd w_name] in *. unfold cw_delete, ofs_close. rewrite G, N.
    destruct (o_buf (w_ofs w')); [apply store_eq|]. cbn. rewrite store_eq. unfold content. rewrite store_eq. reflexivity.
  - unfold save, CsvWriter. cbn [ofs_open]. rewrite (valid_sep _ V). reflexivity.
Qed.

(** ** Non-vacuity *)
Definition disk : files := fun n => if list_eq_dec Z.eq_dec n (str "old.csv") then Some (str "x") else None.
Definition table := [[str "a,b"; str "say ""hi"""]; []; [str "c"]].
Example C110_ex_rows : Forall works [Keep; Send; Keep] /\ Forall (Forall (Forall chr)) table /\ rows_size (map (map Quoted) table) < 10485760.
Proof. split; [repeat constructor|]. split; [|vm_compute; reflexivity]. repeat constructor; unfold chr; cbn; lia. Qed.
Example C110_ex_file : let '(r, fs) := save disk (str "old.csv") 44 true table [Keep; Send; Keep] Send in
  r = Ok [Ok tt; Ok tt; Ok tt] /\ fs (str "old.csv") = Some (str """a,b"",""say """"hi""""""" ++ [13; 10; 13; 10] ++ str """c""" ++ [13; 10]) /\
  match CsvReader fs (str "old.csv") 44 true [3; 1; 7] with Ok r => csv_reads 4 r = map (fun row => Ok (true, row)) table ++ [Ok (false, [])] | _ => False end.
Proof. vm_compute. repeat split. Qed.
Example C110_ex_fail : fst (save disk (str "old.csv") 44 true table [Keep; Send; Keep; Keep; Fail 1] Send) = Ok [Ok tt; Exn; Exn].
Proof. vm_compute. reflexivity. Qed.

Print Assumptions C110_written.
Print Assumptions C110_round_trip.
Print Assumptions C110_errors.
Print Assumptions C110_missing_finding.
Print Assumptions C110_separator_finding.
Print Assumptions C110_lost_finding.
