(** Properties C11, C12 (stream.hpp). *)
Require Import Verif.Common Verif.StreamModel.

Lemma readSome_spec size is : 0 < size ->
  exists n, readSome size is = (firstn n (is_data is), mk_is (skipn n (is_data is)) (tl (is_sched is))) /\
  (n <= length (is_data is))%nat /\ Z.of_nat n <= size /\ (is_data is <> [] -> (1 <= n)%nat).
Proof.
  intros Hs. unfold readSome. eexists. split; [reflexivity|].
  pose proof (zlen_nonneg (is_data is)). unfold zlen in *.
  assert (is_data is <> [] -> (1 <= length (is_data is))%nat).
  { destruct (is_data is); simpl; [congruence|lia]. }
  destruct (is_sched is) as [|c l]; [|destruct (_ <=? 0) eqn:E];
    repeat split; try (intros Hne; specialize (H0 Hne)); lia.
Qed.

Lemma read_loop_spec : forall fuel size is, 0 <= size -> size <= Z.of_nat fuel ->
  exists sch, read_loop fuel size is =
    if size <=? zlen (is_data is)
    then Ok (true, firstn (Z.to_nat size) (is_data is), mk_is (skipn (Z.to_nat size) (is_data is)) sch)
    else Ok (false, is_data is, mk_is [] sch).
Proof.
  induction fuel; intros size [d sch] Hs Hf; cbn [read_loop is_data].
  - assert (size = 0) by lia. subst. simpl. exists sch.
    destruct (0 <=? zlen d) eqn:E; [reflexivity|]. pose proof (zlen_nonneg d); lia.
  - destruct (size <=? 0) eqn:E0.
    { assert (size = 0) by lia. subst. exists sch. simpl.
      destruct (0 <=? zlen d) eqn:E; [reflexivity|]. pose proof (zlen_nonneg d); lia. }
    destruct (readSome_spec size (mk_is d sch) ltac:(lia)) as (n & R & N1 & N2 & N3). cbn [is_data is_sched] in *.
    rewrite R. assert (L: zlen (firstn n d) = Z.of_nat n) by (unfold zlen; rewrite firstn_length; lia).
    destruct (zlen (firstn n d) =? 0) eqn:Ez.
    + assert (d = []). { destruct d; auto. exfalso. assert (1 <= n)%nat by (apply N3; congruence). lia. }
      subst d. exists (tl sch). rewrite skipn_nil. rewrite zlen_nil.
      destruct (size <=? 0) eqn:E1; [lia|]. reflexivity.
    + destruct (IHfuel (size - zlen (firstn n d)) (mk_is (skipn n d) (tl sch))) as (sch' & IH); try lia.
      rewrite IH. cbn [is_data]. rewrite L. exists sch'.
      assert (L2: zlen (skipn n d) = zlen d - Z.of_nat n) by (unfold zlen; rewrite skipn_length; lia).
      rewrite L2. destruct (size <=? zlen d) eqn:E1.
      * destruct (size - Z.of_nat n <=? zlen d - Z.of_nat n) eqn:E2; [|lia]. cbn [bind].
        rewrite skipn_skipn. replace (Z.to_nat (size - Z.of_nat n) + n)%nat with (Z.to_nat size) by lia.
        do 3 f_equal. rewrite <- (firstn_skipn n (firstn (Z.to_nat size) d)).
        rewrite firstn_firstn, skipn_firstn_comm. f_equal; f_equal; lia.
      * destruct (size - Z.of_nat n <=? zlen d - Z.of_nat n) eqn:E2; [lia|]. cbn [bind].
        rewrite firstn_skipn. reflexivity.
Qed.

(** C11: for every size, content and read schedule: exactly the next [size] bytes, or an exception iff
    the stream ends before; what follows stays unread. *)
Theorem C11_read_exact : forall size data sched, 0 <= size ->
  (forall a b, data = a ++ b -> zlen a = size -> exists sched', read size (mk_is data sched) = Ok (a, mk_is b sched')) /\
  (zlen data < size -> read size (mk_is data sched) = Exn).
Proof.
  intros size data sched Hs. unfold read, read_b.
  destruct (read_loop_spec (Z.to_nat size) size (mk_is data sched) Hs ltac:(lia)) as (sch & E).
  rewrite E. cbn [is_data]. split.
  - intros a b Hd Ha. subst data. rewrite zlen_app. pose proof (zlen_nonneg b).
    destruct (size <=? zlen a + zlen b) eqn:E1; [|lia]. cbn [bind].
    replace (Z.to_nat size) with (length a) by (unfold zlen in *; lia).
    rewrite firstn_app, skipn_app, Nat.sub_diag, firstn_all, skipn_all. cbn [firstn skipn app].
    rewrite app_nil_r. eauto.
  - intros Hl. destruct (size <=? zlen data) eqn:E1; [lia|]. reflexivity.
Qed.

(** the bool variant reports the same, and in the failing case has stored all remaining bytes *)
Theorem C11_read_bool_exact : forall size data sched, 0 <= size -> exists sched',
  read_b size (mk_is data sched) =
    if size <=? zlen data
    then Ok (true, firstn (Z.to_nat size) data, mk_is (skipn (Z.to_nat size) data) sched')
    else Ok (false, data, mk_is [] sched').
Proof. intros size data sched Hs. apply (read_loop_spec (Z.to_nat size) size (mk_is data sched) Hs). lia. Qed.

Theorem C11_readChar : forall data sched,
  readChar (mk_is data sched) = match data with [] => (None, mk_is [] (tl sched)) | c :: r => (Some c, mk_is r (tl sched)) end.
Proof.
  intros data sched. unfold readChar.
  destruct (readSome_spec 1 (mk_is data sched) ltac:(lia)) as (n & R & N1 & N2 & N3). cbn [is_data is_sched] in *.
  rewrite R. destruct data as [|c r].
  - destruct n; reflexivity.
  - assert (n = 1%nat) by (assert (1 <= n)%nat by (apply N3; congruence); lia). subst n. reflexivity.
Qed.

Example C11_nonvacuous : read 5 (mk_is [1;2;3;4;5;6;7] [2;1;9]) = Ok ([1;2;3;4;5], mk_is [6;7] [])
  /\ read 8 (mk_is [1;2;3;4;5;6;7] [2;1;9]) = Exn.
Proof. split; reflexivity. Qed.

(** ** C12 *)
Fixpoint mi_run (s : mem_in) (sizes : list Z) : res (list (list Z) * mem_in) :=
  match sizes with
  | [] => Ok ([], s)
  | n :: r =>
    let! (got, s') := mi_readSome s n in
    let! (more, s2) := mi_run s' r in
    Ok (got :: more, s2)
  end.
Fixpoint si_run (s : str_in) (sizes : list Z) : res (list (list Z) * str_in) :=
  match sizes with
  | [] => Ok ([], s)
  | n :: r =>
    let! (got, s') := si_readSome s n in
    let! (more, s2) := si_run s' r in
    Ok (got :: more, s2)
  end.

(** what a reader expects: each call returns the next min(n, remaining) bytes *)
Fixpoint reads_of (content : list Z) (sizes : list Z) : list (list Z) * list Z :=
  match sizes with
  | [] => ([], content)
  | n :: r =>
    let '(more, rest) := reads_of (skipn (Z.to_nat n) content) r in
    (firstn (Z.to_nat n) content :: more, rest)
  end.

Lemma reads_of_concat sizes : forall content,
  concat (fst (reads_of content sizes)) ++ snd (reads_of content sizes) = content.
Proof.
  induction sizes as [|n r IH]; intros content; simpl; auto.
  specialize (IH (skipn (Z.to_nat n) content)). destruct (reads_of _ r) as [more rest]. simpl in *.
  rewrite <- app_assoc, IH. apply firstn_skipn.
Qed.

Lemma step_common (p : list Z) pos n : 0 <= pos <= zlen p -> zlen p < 2 ^ 64 -> 0 <= n ->
  let size := if sub64 (zlen p) pos <? n then sub64 (zlen p) pos else n in
  pos + size <= zlen p /\ 0 <= size /\
  firstn (Z.to_nat size) (skipn (Z.to_nat pos) p) = firstn (Z.to_nat n) (skipn (Z.to_nat pos) p) /\
  skipn (Z.to_nat (pos + size)) p = skipn (Z.to_nat n) (skipn (Z.to_nat pos) p).
Proof.
  intros Hp Hl Hn. unfold sub64. rewrite Z.mod_small by lia. cbv zeta.
  destruct (zlen p - pos <? n) eqn:E.
  - assert (L: zlen (skipn (Z.to_nat pos) p) = zlen p - pos) by (unfold zlen in *; rewrite skipn_length; lia).
    repeat split; try lia.
    + rewrite !firstn_all2 by (unfold zlen in *; lia). reflexivity.
    + rewrite (skipn_all2 (n := Z.to_nat n)) by (unfold zlen in *; lia).
      apply skipn_all2. unfold zlen in *; lia.
  - repeat split; try lia. rewrite skipn_skipn. f_equal. lia.
Qed.

(** C12 (reading): every history of reads returns the content in order, no UB *)
Theorem C12_memory_input : forall content extra sizes,
  zlen content < 2 ^ 64 -> Forall (fun n => 0 <= n) sizes ->
  exists s, mi_run (mk_mi (content ++ extra) (zlen content) 0) sizes = Ok (fst (reads_of content sizes), s) /\
    mi_pos s = zlen (concat (fst (reads_of content sizes))).
Proof.
  intros content extra sizes Hl Hn.
  enough (G: forall pos, 0 <= pos <= zlen content ->
    exists s, mi_run (mk_mi (content ++ extra) (zlen content) pos) sizes =
      Ok (fst (reads_of (skipn (Z.to_nat pos) content) sizes), s) /\
      mi_pos s = pos + zlen (concat (fst (reads_of (skipn (Z.to_nat pos) content) sizes)))).
  { apply (G 0). pose proof (zlen_nonneg content); lia. }
  induction Hn as [|n r Hn Hr IH]; intros pos Hp.
  - simpl. eexists. split; [reflexivity|]. simpl. rewrite zlen_nil. lia.
  - cbn [mi_run reads_of]. unfold mi_readSome. cbn [mi_p mi_size mi_pos].
    destruct (step_common content pos n Hp Hl Hn) as (A & B & C & D).
    set (sz := if sub64 (zlen content) pos <? n then _ else _) in *.
    rewrite zlen_app. destruct (_ <? pos + sz) eqn:E; [pose proof (zlen_nonneg extra); lia|]. cbn [bind].
    destruct (IH (pos + sz) ltac:(lia)) as (s & I1 & I2).
    rewrite I1. cbn [bind]. rewrite D in *. destruct (reads_of _ r) as [more rest]. cbn [fst] in *.
    exists s.
    assert (F: firstn (Z.to_nat sz) (skipn (Z.to_nat pos) (content ++ extra)) = firstn (Z.to_nat n) (skipn (Z.to_nat pos) content)).
    { rewrite skipn_app, firstn_app. rewrite C.
      replace (Z.to_nat sz - length (skipn (Z.to_nat pos) content))%nat with O; [simpl; apply app_nil_r|].
      rewrite skipn_length. unfold zlen in *. lia. }
    rewrite F. split; [reflexivity|]. rewrite I2. simpl. rewrite zlen_app, <- C.
    assert (zlen (firstn (Z.to_nat sz) (skipn (Z.to_nat pos) content)) = sz).
    { unfold zlen in *. rewrite firstn_length, skipn_length. lia. }
    lia.
Qed.

Theorem C12_string_input : forall content sizes,
  zlen content < 2 ^ 64 -> Forall (fun n => 0 <= n) sizes ->
  exists s, si_run (mk_si content 0) sizes = Ok (fst (reads_of content sizes), s).
Proof.
  intros content sizes Hl Hn.
  enough (G: forall pos, 0 <= pos <= zlen content ->
    exists s, si_run (mk_si content pos) sizes =
      Ok (fst (reads_of (skipn (Z.to_nat pos) content) sizes), s)).
  { apply (G 0). pose proof (zlen_nonneg content); lia. }
  induction Hn as [|n r Hn Hr IH]; intros pos Hp.
  - simpl. eauto.
  - cbn [si_run reads_of]. unfold si_readSome. cbn [si_str si_pos].
    destruct (step_common content pos n Hp Hl Hn) as (A & B & C & D).
    set (sz := if sub64 (zlen content) pos <? n then _ else _) in *.
    destruct (_ <? pos + sz) eqn:E; [lia|]. cbn [bind].
    destruct (IH (pos + sz) ltac:(lia)) as (s & I1).
    rewrite I1. cbn [bind]. rewrite D in *. rewrite C. destruct (reads_of _ r) as [more rest]. cbn [fst]. eexists. reflexivity.
Qed.

(** no byte is lost, duplicated or reordered *)
Theorem C12_reads_partition : forall content sizes,
  concat (fst (reads_of content sizes)) ++ snd (reads_of content sizes) = content.
Proof. intros; apply reads_of_concat. Qed.

(** writing: a history of writes; [true] marks the calls that succeeded *)
Fixpoint mo_run (s : mem_out) (bufs : list (list Z)) : res (list bool * mem_out) :=
  match bufs with
  | [] => Ok ([], s)
  | b :: r =>
    let! (ok, s') := mo_write_b s b in
    let! (oks, s2) := mo_run s' r in
    Ok (ok :: oks, s2)
  end.
(** expected: a write succeeds iff it still fits; successful ones are concatenated *)
Fixpoint writes_of (room : Z) (bufs : list (list Z)) : list bool * list Z :=
  match bufs with
  | [] => ([], [])
  | b :: r =>
    if zlen b <=? room
    then let '(oks, out) := writes_of (room - zlen b) r in (true :: oks, b ++ out)
    else let '(oks, out) := writes_of room r in (false :: oks, out)
  end.

Theorem C12_memory_output : forall mem bufs, zlen mem < 2 ^ 64 ->
  let '(oks, out) := writes_of (zlen mem) bufs in
  zlen out <= zlen mem /\
  mo_run (mk_mo mem (zlen mem) 0) bufs =
    Ok (oks, mk_mo (out ++ skipn (length out) mem) (zlen mem) (zlen out)).
Proof.
  intros mem bufs Hl.
  enough (G: forall done rest, zlen done + zlen rest = zlen mem ->
    let '(oks, out) := writes_of (zlen rest) bufs in
    zlen out <= zlen rest /\
    mo_run (mk_mo (done ++ rest) (zlen mem) (zlen done)) bufs =
      Ok (oks, mk_mo (done ++ out ++ skipn (length out) rest) (zlen mem) (zlen done + zlen out))).
  { specialize (G [] mem eq_refl). destruct (writes_of _ _) as [oks out]. exact G. }
  induction bufs as [|b r IH]; intros done rest Hd.
  - cbn [writes_of mo_run]. rewrite zlen_nil, Z.add_0_r. pose proof (zlen_nonneg rest). split; [lia|reflexivity].
  - cbn [writes_of mo_run]. unfold mo_write_b. cbn [mo_p mo_size mo_pos].
    pose proof (zlen_nonneg done). pose proof (zlen_nonneg rest). pose proof (zlen_nonneg b).
    unfold sub64. rewrite Z.mod_small by lia. replace (zlen mem - zlen done) with (zlen rest) by lia.
    destruct (zlen b <=? zlen rest) eqn:E.
    + destruct (zlen rest <? zlen b) eqn:E2; [lia|].
      destruct (zlen (done ++ rest) <? zlen done + zlen b) eqn:E3; [rewrite zlen_app in E3; lia|]. cbn [bind].
      replace (Z.to_nat (zlen done)) with (length done) by (unfold zlen; lia).
      rewrite firstn_app, Nat.sub_diag, firstn_all. cbn [firstn]. rewrite app_nil_r.
      rewrite skipn_app, skipn_all2 by (unfold zlen in *; lia). cbn [app].
      replace (Z.to_nat (zlen done + zlen b) - length done)%nat with (length b) by (unfold zlen in *; lia).
      specialize (IH (done ++ b) (skipn (length b) rest)).
      assert (L: zlen (skipn (length b) rest) = zlen rest - zlen b) by (unfold zlen in *; rewrite skipn_length; lia).
      rewrite L, zlen_app in IH. specialize (IH ltac:(lia)).
      destruct (writes_of (zlen rest - zlen b) r) as [oks out]. destruct IH as [I1 I2].
      rewrite <- app_assoc in I2. rewrite I2. cbn [bind]. split; [rewrite zlen_app; lia|].
      rewrite zlen_app, app_length. rewrite <- !app_assoc, skipn_skipn.
      replace (length out + length b)%nat with (length b + length out)%nat by lia.
      do 3 f_equal. lia.
    + destruct (zlen rest <? zlen b) eqn:E2; [|lia]. cbn [bind].
      specialize (IH done rest Hd). destruct (writes_of (zlen rest) r) as [oks out]. destruct IH as [I1 I2].
      rewrite I2. cbn [bind]. auto.
Qed.

(** the throwing write: throws exactly when the bool variant reports false, and never UB *)
Theorem C12_memory_output_throw : forall mem pos buf, zlen mem < 2 ^ 64 -> 0 <= pos <= zlen mem ->
  (zlen buf <= zlen mem - pos -> exists s', mo_write (mk_mo mem (zlen mem) pos) buf = Ok s' /\ mo_pos s' = pos + zlen buf
     /\ mo_p s' = firstn (Z.to_nat pos) mem ++ buf ++ skipn (Z.to_nat (pos + zlen buf)) mem) /\
  (zlen mem - pos < zlen buf -> mo_write (mk_mo mem (zlen mem) pos) buf = Exn).
Proof.
  intros mem pos buf Hl Hp. unfold mo_write, mo_write_b, sub64. cbn [mo_p mo_size mo_pos].
  rewrite Z.mod_small by lia. split; intros H.
  - destruct (_ <? zlen buf) eqn:E; [lia|]. destruct (_ <? pos + _) eqn:E2; [lia|]. cbn [bind]. eauto.
  - destruct (_ <? zlen buf) eqn:E; [reflexivity|lia].
Qed.

Theorem C12_string_output : forall bufs s, fold_left so_write bufs s = s ++ concat bufs.
Proof.
  induction bufs as [|b r IH]; intros s; simpl; [rewrite app_nil_r; auto|].
  rewrite IH. unfold so_write. rewrite app_assoc. auto.
Qed.

Example C12_nonvacuous :
  writes_of 5 [[1;2];[3;4;5;6];[7;8;9]] = ([true;false;true],[1;2;7;8;9]) /\
  reads_of [1;2;3;4] [3;0;5;1] = ([[1;2;3];[];[4];[]],[]).
Proof. split; reflexivity. Qed.

Print Assumptions C11_read_exact.
Print Assumptions C12_memory_input.
Print Assumptions C12_memory_output.
